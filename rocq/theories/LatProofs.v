(** The code's permutations are the induced ones. *)
From Coq Require Import Permutation.
From Verif Require Import PyBase Spec ListFacts PermFacts CanonProofs Mat3 HNFModel HNFProofs LatSpec LatGroupModel LatFacts LatSites.
Local Open Scope Z_scope.

(** ** Lists *)
Lemma concat_blocks {A} (d : A) k n (rows : list (list A)) : length rows = k -> (forall r, In r rows -> length r = n) ->
  length (concat rows) = (k * n)%nat /\ forall i j, (i < k)%nat -> (j < n)%nat -> nth (i * n + j) (concat rows) d = nth j (nth i rows []) d.
Proof.
  revert k. induction rows as [|r rows IH]; intros k <- Hr; cbn [length concat].
  - split; auto. intros; lia.
  - destruct (IH (length rows) eq_refl (fun r' H => Hr r' (or_intror H))) as [H1 H2]. assert (length r = n) as Hrl by (apply Hr; cbn; auto). split.
    + rewrite app_length, H1. lia.
    + intros [|i] j Hi Hj.
      * cbn. rewrite app_nth1 by lia. auto.
      * rewrite app_nth2 by (rewrite Hrl; nia). replace (S i * n + j - length r)%nat with (i * n + j)%nat by (rewrite Hrl; lia). apply H2; lia.
Qed.
Lemma upd_length {A} (l : list A) i x : length (upd l i x) = length l.
Proof. revert i; induction l as [|y l IH]; intros [|i]; cbn; auto. Qed.
Lemma nth_upd_same {A} (d : A) l i x : (i < length l)%nat -> nth i (upd l i x) d = x.
Proof. revert i; induction l as [|y l IH]; intros [|i] Hi; cbn in *; try lia; auto. apply IH. lia. Qed.
Lemma nth_upd_other {A} (d : A) l i j x : i <> j -> nth j (upd l i x) d = nth j l d.
Proof. revert i j; induction l as [|y l IH]; intros [|i] [|j] Hi; cbn; auto; lia. Qed.
Lemma fold_upd {A} (d : A) k perm (rows : nat -> A) init : is_perm k perm -> length init = k ->
  let T := fold_left (fun t iD => upd t (nth iD perm 0%nat) (rows iD)) (seq 0 k) init in
  length T = k /\ forall iD, (iD < k)%nat -> nth (nth iD perm 0%nat) T d = rows iD.
Proof.
  intros [P1 [P2 P3]] Hl. cbn zeta.
  assert (forall m, (m <= k)%nat -> let T := fold_left (fun t iD => upd t (nth iD perm 0%nat) (rows iD)) (seq 0 m) init in
     length T = k /\ forall iD, (iD < m)%nat -> nth (nth iD perm 0%nat) T d = rows iD) as H.
  { induction m as [|m IH]; intros Hm; cbn zeta.
    - split; auto. intros; lia.
    - rewrite seq_S, fold_left_app. cbn [fold_left Nat.add]. destruct (IH ltac:(lia)) as [I1 I2]. cbn zeta in I1, I2.
      assert (nth m perm 0%nat < k)%nat as Hb by (apply P3, nth_In; lia). split; [rewrite upd_length; auto|].
      intros iD Hi. destruct (Nat.eq_dec iD m) as [->|Hne].
      + apply nth_upd_same. lia.
      + rewrite nth_upd_other; [apply I2; lia|]. intros E. apply (proj1 (NoDup_nth perm 0%nat) P2) in E; lia. }
  apply (H k). lia.
Qed.

(** ** Orthogonal integer matrices permute the six directions *)
Notation arrow_matrix := orthogonal.
Lemma unit_row a b c : a * a + b * b + c * c = 1 -> In (a, b, c) arrowg.
Proof.
  intros E. assert (-1 <= a <= 1 /\ -1 <= b <= 1 /\ -1 <= c <= 1) as [Ha [Hb Hc]] by nia.
  assert (a = -1 \/ a = 0 \/ a = 1) as Ha' by lia. assert (b = -1 \/ b = 0 \/ b = 1) as Hb' by lia. assert (c = -1 \/ c = 0 \/ c = 1) as Hc' by lia.
  destruct Ha' as [->|[->| ->]]; destruct Hb' as [->|[->| ->]]; destruct Hc' as [->|[->| ->]]; try discriminate E; cbn; tauto.
Qed.
Lemma arrowg_dot v : In v arrowg <-> vdot v v = 1.
Proof.
  split.
  - intros Hv. cbn in Hv. repeat (destruct Hv as [<-|Hv]; [reflexivity|]). destruct Hv.
  - destruct v as [[a b] c]. cbn. apply unit_row.
Qed.
Lemma orthogonal_dot R v : mmul (transpose R) R = mid -> vdot (mvec R v) (mvec R v) = vdot v v.
Proof.
  intros E. assert (vdot (mvec R v) (mvec R v) = vdot v (mvec (mmul (transpose R) R) v)) as ->.
  { clear. mat_destruct. mat_unfold. ring. }
  rewrite E, mvec_id. auto.
Qed.
Lemma arrowg_nodup : NoDup arrowg.
Proof. repeat constructor; cbn; intuition discriminate. Qed.
Lemma arrow_image R v : arrow_matrix R -> In v arrowg -> In (mvec R v) arrowg.
Proof. intros [_ E] Hv. apply arrowg_dot. rewrite orthogonal_dot; auto. apply arrowg_dot. auto. Qed.
Lemma arrow_matrix_transpose R : arrow_matrix R -> arrow_matrix (transpose R).
Proof. intros [H1 H2]. split; rewrite transpose_involutive; auto. Qed.
Lemma arrow_matrix_comp R S : arrow_matrix R -> arrow_matrix S -> arrow_matrix (mmul R S).
Proof.
  intros [R1 R2] [S1 S2]. assert (transpose (mmul R S) = mmul (transpose S) (transpose R)) as E by mat_ring. split; rewrite E.
  - rewrite mmul_assoc, <- (mmul_assoc S), S1, mmul_id_l. auto.
  - rewrite mmul_assoc, <- (mmul_assoc _ R), R2, mmul_id_l. auto.
Qed.
Lemma arrow_matrix_id : arrow_matrix mid.
Proof. split; reflexivity. Qed.
Lemma turns_unique R a b : turns R a -> turns R b -> a = b.
Proof.
  intros [[A1 [_ A3]] A4] [[B1 [_ B3]] B4]. apply nth_ext_len with (d := 0%nat); [congruence|]. rewrite A1. intros k Hk.
  apply (proj1 (NoDup_nth arrowg (0, 0, 0)) arrowg_nodup).
  - apply A3, nth_In. lia.
  - apply B3, nth_In. lia.
  - rewrite A4, B4; auto.
Qed.
Lemma arrow_perm_ok o : arrow_matrix (cart o) -> exists a, rotation_arrow_perm o = Ok a /\ turns (cart o) a.
Proof.
  intros HR. set (R := cart o) in *. set (ag := map (mvec (transpose R)) arrowg).
  assert (Permutation arrowg ag) as HP.
  { symmetry. apply NoDup_Permutation_bis.
    - unfold ag. apply NoDup_map_inj; [|apply arrowg_nodup]. intros x y _ _ E. apply (f_equal (mvec R)) in E.
      rewrite <- !mvec_mmul, (proj1 HR), !mvec_id in E. auto.
    - unfold ag. rewrite map_length. auto.
    - intros x Hx. apply in_map_iff in Hx. destruct Hx as [y [<- Hy]]. apply arrow_image; auto. apply arrow_matrix_transpose; auto. }
  destruct (same_lists_perm vec_eqb (0, 0, 0) arrowg ag vec_eqb_spec arrowg_nodup HP) as [p [Hp Hpc]].
  assert (match_table vec_eqb arrowg ag 0 = p) as E.
  { rewrite (match_table_ok vec_eqb (0, 0, 0) arrowg ag p); auto.
    - rewrite <- (map_id p) at 2. apply map_ext. intros; lia.
    - intros i j Hi Hj. rewrite vec_eqb_spec. auto. }
  exists p. split.
  - unfold rotation_arrow_perm. fold R. fold ag. rewrite E.
    assert (length (filter (Nat.eqb 0) p) <= 1)%nat as Hf.
    { destruct Hp as [_ [Hnd _]]. clear - Hnd. induction Hnd as [|x l Hx Hl IH]; cbn [filter]; auto. destruct (Nat.eqb_spec 0 x) as [<-|Hx0]; [|auto].
      assert (filter (Nat.eqb 0) l = []) as ->; auto. destruct (filter (Nat.eqb 0) l) as [|y m] eqn:Ef; auto. exfalso.
      assert (In y (filter (Nat.eqb 0) l)) as Hy by (rewrite Ef; cbn; auto). apply filter_In in Hy. destruct Hy as [Hy Hy0]. apply Nat.eqb_eq in Hy0. subst. auto. }
    destruct (Nat.ltb_spec 1 (length (filter (Nat.eqb 0) p))); auto. lia.
  - split; auto. change directions with arrowg. intros k Hk. assert (nth k p 0%nat < 6)%nat as Hb by (apply Hp, nth_In; destruct Hp as [-> _]; auto).
    pose proof (proj2 (Hpc k (nth k p 0%nat) Hk Hb) eq_refl) as E'. unfold ag in E'.
    rewrite (nth_indep _ _ (mvec (transpose R) (0, 0, 0))) in E' by (rewrite map_length; auto).
    rewrite (map_nth (mvec (transpose R))) in E'. rewrite <- E', <- mvec_mmul, (proj1 HR), mvec_id. auto.
Qed.

(** ** Sorting and removing duplicates *)
Lemma lex_insert_in x y l : In y (lex_insert x l) <-> y = x \/ In y l.
Proof.
  induction l as [|z l IH]; cbn; [intuition|]. destruct (lex_leb x z); cbn; [intuition|]. rewrite IH. intuition.
Qed.
Lemma lex_sort_in y l : In y (lex_sort l) <-> In y l.
Proof. induction l as [|x l IH]; cbn; [tauto|]. fold (lex_sort l). rewrite lex_insert_in, IH. intuition. Qed.
Lemma group_runs_in y l : In y (group_runs l) <-> In y l.
Proof.
  induction l as [|x l IH]; [tauto|]. cbn [group_runs]. destruct l as [|z l]; [tauto|]. destruct (nlist_eqb x z) eqn:E.
  - apply nlist_eqb_spec in E. subst z. rewrite IH. cbn. tauto.
  - cbn [In] in *. rewrite IH. tauto.
Qed.
Lemma group_runs_length l : (length (group_runs l) <= length l)%nat.
Proof.
  induction l as [|x l IH]; [auto|]. cbn [group_runs]. destruct l as [|z l]; [auto|]. destruct (nlist_eqb x z); cbn [length] in *; lia.
Qed.
Lemma lex_sort_length l : length (lex_sort l) = length l.
Proof.
  induction l as [|x l IH]; cbn; auto. fold (lex_sort l). rewrite <- IH. clear. induction (lex_sort l) as [|z m IH]; cbn; auto. destruct (lex_leb x z); cbn; auto.
Qed.
Lemma map_fst_combine {A B} (l : list A) (m : list B) : (length l <= length m)%nat -> map fst (combine l m) = l.
Proof. revert m; induction l as [|a l IH]; intros [|b m] Hl; cbn in *; try lia; auto. rewrite IH by lia. auto. Qed.
Lemma reduce_plain rps aps : length rps = length aps -> forall r, In r (map fst (reduce_rotations false rps aps)) <-> In r rps.
Proof.
  intros Hl r. unfold reduce_rotations. destruct (Nat.leb_spec (length rps) 1) as [H1|H1]; [rewrite map_fst_combine by lia; tauto|].
  rewrite map_fst_combine; [rewrite group_runs_in, lex_sort_in; tauto|].
  rewrite firstn_length. pose proof (group_runs_length (lex_sort rps)). rewrite lex_sort_length in *. lia.
Qed.
Lemma reduce_arrows rps aps nr : length rps = length aps -> (forall r, In r rps -> length r = nr) ->
  forall ra, In ra (reduce_rotations true rps aps) <-> In ra (combine rps aps).
Proof.
  intros Hl Hnr [r a]. unfold reduce_rotations. destruct (Nat.leb_spec (length rps) 1) as [H1|H1]; [tauto|].
  assert (length (nth 0 rps []) = nr) as -> by (apply Hnr, nth_In; lia). rewrite in_map_iff. split.
  - intros [p [E Hp]]. apply lex_sort_in, group_runs_in, in_map_iff in Hp. destruct Hp as [[r' a'] [<- Hin]].
    assert (length r' = nr) as Hr' by (apply Hnr; eapply in_combine_l; eauto). subst nr. rewrite firstn_app, skipn_app, firstn_all, skipn_all, Nat.sub_diag in E. cbn in E.
    rewrite app_nil_r in E. congruence.
  - intros Hin. exists (r ++ a). split.
    + assert (length r = nr) as Hr' by (apply Hnr; eapply in_combine_l; eauto). subst nr. rewrite firstn_app, skipn_app, firstn_all, skipn_all, Nat.sub_diag. cbn.
      rewrite app_nil_r. auto.
    + apply lex_sort_in, group_runs_in, in_map_iff. exists (r, a). auto.
Qed.
