(** With one atom, at the origin, [get_sym_group] lists every operation once (C48). *)
From Coq Require Import Permutation Sorted.
From Verif Require Import PyBase Spec ListFacts PermFacts CanonProofs Mat3 HNFModel HNFProofs LatSpec LatGroupModel LatFacts LatSites LatProofs LatMain LatTop LatGroupThm TransPerm.
Local Open Scope Z_scope.

(** ** Sorting *)
Lemma lex_total a b : lex_leb a b = true \/ lex_leb b a = true.
Proof.
  revert b. induction a as [|x a IH]; intros [|y b]; cbn [lex_leb]; auto. destruct (Nat.ltb_spec x y); auto. destruct (Nat.ltb_spec y x); auto.
  assert (x = y) as -> by lia. rewrite Nat.eqb_refl. apply IH.
Qed.
Lemma lex_antisym a b : lex_leb a b = true -> lex_leb b a = true -> a = b.
Proof.
  revert b. induction a as [|x a IH]; intros [|y b]; cbn [lex_leb]; auto; try discriminate.
  destruct (Nat.ltb_spec x y), (Nat.ltb_spec y x), (Nat.eqb_spec x y), (Nat.eqb_spec y x); try lia; try discriminate.
  intros. subst. f_equal. auto.
Qed.
Lemma lex_trans a b c : lex_leb a b = true -> lex_leb b c = true -> lex_leb a c = true.
Proof.
  revert b c. induction a as [|x a IH]; intros [|y b] [|z c]; cbn [lex_leb]; auto; try discriminate.
  destruct (Nat.ltb_spec x y), (Nat.ltb_spec y z), (Nat.ltb_spec x z), (Nat.eqb_spec x y), (Nat.eqb_spec y z), (Nat.eqb_spec x z); try lia; try discriminate; auto.
  eauto.
Qed.
Notation lex := (fun a b => lex_leb a b = true).
Lemma lex_insert_sorted x l : StronglySorted lex l -> StronglySorted lex (lex_insert x l).
Proof.
  induction 1 as [|y l Hl IH Hy]; cbn; [repeat constructor|]. destruct (lex_leb x y) eqn:E.
  - constructor; [constructor; auto|]. constructor; auto. eapply Forall_impl; [|exact Hy]. cbn. intros z Hz. eapply lex_trans; eauto.
  - constructor; auto. apply Forall_forall. intros z Hz. apply lex_insert_in in Hz. destruct Hz as [->|Hz].
    + destruct (lex_total x y); congruence.
    + rewrite Forall_forall in Hy. auto.
Qed.
Lemma lex_sort_sorted l : StronglySorted lex (lex_sort l).
Proof. induction l as [|x l IH]; cbn; [constructor|]. apply lex_insert_sorted. exact IH. Qed.
Lemma group_runs_nodup l : StronglySorted lex l -> NoDup (group_runs l).
Proof.
  induction 1 as [|x l Hl IH Hx]; [constructor|]. cbn [group_runs]. destruct l as [|y l]; [repeat constructor; auto|].
  destruct (nlist_eqb x y) eqn:E; auto. constructor; auto. rewrite group_runs_in. intros Hin.
  assert (x <> y) as Hne by (intros ->; rewrite (proj2 (nlist_eqb_spec y y) eq_refl) in E; discriminate).
  inversion Hl as [|? ? Hl' Hy]; subst. destruct Hin as [<-|Hin]; [congruence|]. apply Hne.
  apply lex_antisym; [rewrite Forall_forall in Hx; apply Hx; cbn; auto|]. rewrite Forall_forall in Hy. apply Hy; auto.
Qed.
Lemma group_runs_id l : NoDup l -> group_runs l = l.
Proof.
  induction 1 as [|x l Hx Hl IH]; auto. cbn [group_runs]. destruct l as [|y l]; auto. destruct (nlist_eqb x y) eqn:E.
  - apply nlist_eqb_spec in E. subst. cbn in Hx. tauto.
  - rewrite IH. auto.
Qed.
Lemma lex_insert_perm x l : Permutation (x :: l) (lex_insert x l).
Proof.
  induction l as [|y l IH]; cbn; auto. destruct (lex_leb x y); auto. rewrite perm_swap. auto.
Qed.
Lemma lex_sort_perm l : Permutation l (lex_sort l).
Proof. induction l as [|x l IH]; cbn; auto. rewrite <- lex_insert_perm. auto. Qed.
Lemma NoDup_map_fst {A B} (l : list (A * B)) : NoDup (map fst l) -> NoDup l.
Proof. apply NoDup_map_inv. Qed.
Lemma NoDup_map_snd {A B} (l : list (A * B)) : NoDup (map snd l) -> NoDup l.
Proof. apply NoDup_map_inv. Qed.

Lemma app_len_inj {A} (a b c d : list A) : a ++ b = c ++ d -> length a = length c -> a = c /\ b = d.
Proof.
  revert c. induction a as [|x a IH]; intros [|y c] E Hl; cbn in *; try lia; auto. inversion E; subst. destruct (IH c H1) as [-> ->]; auto.
Qed.
Lemma reduce_arrows_nodup pairs nr : NoDup pairs -> (forall r, In r (map fst pairs) -> length r = nr) ->
  NoDup (reduce_rotations true (map fst pairs) (map snd pairs)).
Proof.
  intros Hnd Hnr. unfold reduce_rotations. rewrite combine_fst_snd. destruct (Nat.leb _ 1) eqn:E1; auto. apply Nat.leb_gt in E1.
  assert (length (nth 0 (map fst pairs) []) = nr) as -> by (apply Hnr, nth_In; lia).
  assert (NoDup (map (fun '(r, a) => r ++ a) pairs)) as Hnd2.
  { apply NoDup_map_inj; auto. intros [r a] [r' a'] H1 H2 E. apply (in_map fst) in H1, H2. apply Hnr in H1, H2. cbn in H1, H2.
    assert (r = r' /\ a = a') as [-> ->]; auto. apply app_len_inj in E; [auto|congruence]. }
  rewrite group_runs_id by auto. apply NoDup_map_inj.
  - intros p q Hp Hq E. inversion E as [[E2 E3]]. rewrite <- (firstn_skipn nr p), <- (firstn_skipn nr q). congruence.
  - eapply Permutation_NoDup; [apply lex_sort_perm|auto].
Qed.
Lemma reduce_plain_nodup rps aps : length rps = length aps -> NoDup (map fst (reduce_rotations false rps aps)).
Proof.
  intros Hl. unfold reduce_rotations. destruct (Nat.leb_spec (length rps) 1) as [H1|H1].
  - rewrite map_fst_combine by lia. destruct rps as [|r [|]]; cbn in *; try lia; repeat constructor; auto.
  - rewrite map_fst_combine; [apply group_runs_nodup, lex_sort_sorted|].
    rewrite firstn_length. pose proof (group_runs_length (lex_sort rps)). rewrite lex_sort_length in *. lia.
Qed.

Lemma flat_map_single {A B} (f : A -> list B) (h : A -> B) l : (forall x, f x = [h x]) -> flat_map f l = map h l.
Proof. intros E. induction l as [|x l IH]; cbn; auto. rewrite E, IH. auto. Qed.
Lemma subseq_NoDup {A} (l m : list A) : subseq l m -> NoDup m -> NoDup l.
Proof.
  assert (forall l m : list A, subseq l m -> incl l m) as Hi.
  { intros l0 m0. induction 1 as [|? ? ? ? IH|? ? ? ? IH]; intros y Hy; cbn in *; try tauto; [right; auto|]. destruct Hy; auto. }
  induction 1 as [|x l m Hs IH|x l m Hs IH]; intros Hm; inversion Hm; subst; auto; constructor.
  - intros Hin. apply Hi in Hs. auto.
  - auto.
Qed.
Lemma NoDup_map_inj_in {A B} (f : A -> B) l x y : NoDup (map f l) -> In x l -> In y l -> f x = f y -> x = y.
Proof.
  induction l as [|z l IH]; intros Hn Hx Hy E; [destruct Hx|]. inversion Hn; subst. destruct Hx as [->|Hx], Hy as [->|Hy]; auto.
  - exfalso. apply H1. rewrite E. apply in_map; auto.
  - exfalso. apply H1. rewrite <- E. apply in_map; auto.
Qed.
(** The arrow permutation determines the matrix. *)
Lemma turns_matrix R S a : turns R a -> turns S a -> R = S.
Proof.
  intros [_ HR] [_ HS].
  pose proof (HR 0%nat ltac:(lia)) as R0. pose proof (HR 2%nat ltac:(lia)) as R2. pose proof (HR 4%nat ltac:(lia)) as R4.
  rewrite (HS 0%nat ltac:(lia)) in R0. rewrite (HS 2%nat ltac:(lia)) in R2. rewrite (HS 4%nat ltac:(lia)) in R4.
  clear - R0 R2 R4. cbn [nth directions] in *. destruct R as [[[[a b] c] [[d e] f]] [[g h] i]], S as [[[[a' b'] c'] [[d' e'] f']] [[g' h'] i']].
  cbn in R0, R2, R4. inversion R0. inversion R2. inversion R4. repeat f_equal; lia.
Qed.

Section Origin.
Variables (pg : list (mat * mat)) (D : Z) (H L B : mat) (diag : vec).
Hypothesis HD : 0 < D.
Hypothesis Huni : forall C R, In (C, R) pg -> unimodular C.
Hypothesis HL : unimodular L.
Hypothesis HB : unimodular B.
Hypothesis Hsnf : mmul (mmul L H) B = diagonal diag.
Hypothesis Hpos : positive diag.
Hypothesis Hsmall : forall i, (i < 3)%nat -> vget diag i <= 10 ^ 5.
Hypothesis Horth : forall C R, In (C, R) pg -> orthogonal R.
Hypothesis Hdiff : NoDup (map snd pg).
Notation bas := [(0, 0, 0)].
Notation n := (Z.to_nat (volume diag)).
Notation g := (make_member_list diag).
Notation induces := (induces D bas L diag).
Notation tperm := (translation_perm n 1 diag g).

Lemma origin_red d : In d bas -> reduced (D, D, D) d.
Proof. intros [<-|[]] i Hi. destruct i as [|[|[|]]]; cbn; lia. Qed.
Lemma origin_nd : NoDup bas.
Proof. repeat constructor; auto. Qed.
Lemma origin_ops : get_spaceGroup pg D bas = map (fun '(C, R) => {| rot := C; cart := R; shift := (0, 0, 0) |}) pg.
Proof.
  assert (forall d, In d bas -> reduced (D, D, D) d) as Hred by apply origin_red.
  assert (into_cell D (0, 0, 0) = (0, 0, 0)) as Hc by (apply into_cell_id; auto; apply Hred; cbn; auto).
  unfold get_spaceGroup. cbn [map]. rewrite Hc. apply flat_map_single. intros [C R]. cbn [nth flat_map forallb existsb].
  rewrite mvec_0. replace (vsub (0, 0, 0) (0, 0, 0)) with ((0, 0, 0) : vec) by reflexivity. rewrite Hc.
  replace (vadd (0, 0, 0) (0, 0, 0)) with ((0, 0, 0) : vec) by reflexivity. rewrite Hc. reflexivity.
Qed.
Lemma n_positive : (0 < n)%nat.
Proof. apply n_pos; auto. Qed.
Lemma origin_site : is_site D bas L diag (0, 0, 0) 0.
Proof.
  exists 0%nat, (0, 0, 0), (0, 0, 0). split; [cbn; lia|]. split; [cbn [nth]; vec_ring|]. split; [|split].
  - destruct diag as [[a b] c]. cbn in Hpos. intros i Hi. destruct i as [|[|[|]]]; cbn; lia.
  - rewrite mvec_0. apply congruent_refl.
  - destruct diag as [[a b] c]. reflexivity.
Qed.
Lemma fixes_origin C r : induces (affine C (0, 0, 0)) r -> nth 0 r 0%nat = 0%nat.
Proof.
  intros [_ Hr]. apply (Hr (0, 0, 0)); [apply origin_site|]. unfold affine. rewrite mvec_0. apply origin_site.
Qed.
Lemma comp_trans_inj r r' t t' : is_perm (1 * n) r -> is_perm (1 * n) r' -> nth 0 r 0%nat = 0%nat -> nth 0 r' 0%nat = 0%nat -> reduced diag t -> reduced diag t' ->
  comp r (tperm t) = comp r' (tperm t') -> r = r' /\ t = t'.
Proof.
  intros Hr Hr' E0 E0' Ht Ht' E. pose proof n_positive as Hn. assert (t = t') as <-.
  { apply (f_equal (fun l => nth 0 l 0%nat)) in E. unfold comp in E.
    rewrite !nth_map_lt with (d := 0%nat) in E by (rewrite (proj1 Hr) || rewrite (proj1 Hr'); lia). rewrite E0, E0' in E.
    apply (tperm_inj diag 1 Hpos Hsmall t t' 0 0); auto; lia. }
  split; auto. eapply (comp_cancel_r (1 * n)); [auto|auto|apply tperm_perm; auto|exact E].
Qed.
Lemma tperms_nodup n_d : (0 < n_d)%nat -> NoDup (translation_perms n n_d diag g).
Proof.
  intros Hd. unfold translation_perms. apply NoDup_map_inj; [|apply member_nodup; auto]. intros t u Ht Hu E. apply member_in in Ht, Hu; auto.
  apply (tperm_inj diag n_d Hpos Hsmall t u 0 0); auto; [apply n_positive|]. rewrite E. auto.
Qed.

Theorem origin_nodup arrows : exists G, get_sym_group pg D bas H L diag arrows = Ok G /\ NoDup G.
Proof.
  destruct (sym_group_shape pg D bas HD origin_red origin_nd ltac:(discriminate) Huni H L B diag HL HB Hsnf Hpos Hsmall (self_inverse_origin pg D H) arrows Horth) as [pairs [E [Hp HF]]].
  cbv zeta in *. eexists. split; [exact E|]. clear E. cbn [length].
  assert (forall r a, In (r, a) pairs -> is_perm (1 * n) r /\ nth 0 r 0%nat = 0%nat) as Hr.
  { intros r a Hra. apply Hp in Hra. destruct Hra as [o [Ho [Hf [Hi Ha]]]]. rewrite origin_ops in Ho. apply in_map_iff in Ho. destruct Ho as [[C R] [<- Hin]]. cbn [rot shift cart] in *.
    split; [|eapply fixes_origin; eauto].
    apply (induces_perm D bas H L B diag HD origin_red origin_nd HL HB Hsnf Hpos C (0, 0, 0)); auto; [eapply Huni; eauto|].
    intros x. unfold affine. assert (In {| rot := C; cart := R; shift := (0, 0, 0) |} (get_spaceGroup pg D bas)) as Ho by (rewrite origin_ops; apply in_map_iff; exists (C, R); auto).
    apply spaceGroup_in in Ho; auto using origin_red, origin_nd; [|discriminate]. destruct Ho as [_ [_ Ho]]. apply (Ho x). }
  assert (NoDup (map snd pairs)) as Hsnd.
  { apply (proj2 (NoDup_nth (map snd pairs) [])). rewrite map_length. intros i j Hi Hj Eij.
    set (fixing := fst (get_sLV_fixing_operations H (map rot (get_spaceGroup pg D bas)))) in *.
    assert (length fixing = length pairs) as Hlen by (clear - HF; induction HF; cbn; auto).
    assert (NoDup fixing) as Hndf.
    { apply subseq_NoDup with (seq 0 (length (map rot (get_spaceGroup pg D bas)))); [|apply seq_NoDup]. apply fixing_subseq.
      - intros r Hr'. apply in_map_iff in Hr'. destruct Hr' as [o [<- Ho]]. apply spaceGroup_in in Ho; auto using origin_red, origin_nd; [|discriminate]. destruct Ho as [Ho _]. eauto.
      - apply (det_H H L B diag); auto. }
    assert (forall k, (k < length pairs)%nat -> exists o, nth_error (get_spaceGroup pg D bas) (nth k fixing 0%nat) = Some o /\ turns (cart o) (nth k (map snd pairs) [])) as Hk.
    { intros k Hk. destruct (Forall2_nth_error _ _ _ k (nth k fixing 0%nat) HF) as [ra [Ek [o [Eo [_ Ho]]]]].
      - apply nth_error_nth'. lia.
      - exists o. split; auto. rewrite nth_map_lt with (d := ([], [])) by auto. rewrite (nth_error_nth _ _ _ Ek). auto. }
    destruct (Hk i Hi) as [o1 [E1 T1]]. destruct (Hk j Hj) as [o2 [E2 T2]]. rewrite Eij in T1.
    pose proof (turns_matrix _ _ _ T1 T2) as Ec. rewrite origin_ops in E1, E2.
    apply (proj1 (NoDup_nth fixing 0%nat) Hndf); try lia.
    apply (proj1 (NoDup_nth_error (map snd pg)) Hdiff).
    - apply nth_error_Some. rewrite nth_error_map in *. destruct (nth_error pg (nth i fixing 0%nat)); cbn in *; congruence.
    - rewrite !nth_error_map in *. destruct (nth_error pg (nth i fixing 0%nat)) as [[C1 R1]|], (nth_error pg (nth j fixing 0%nat)) as [[C2 R2]|]; cbn in *; try discriminate.
      inversion E1; subst o1. inversion E2; subst o2. cbn in Ec. congruence. }
  assert (NoDup pairs) as Hndp by (apply NoDup_map_snd; auto).
  destruct arrows.
  - apply NoDup_flat_map.
    + apply (reduce_arrows_nodup _ (1 * n)); auto. intros r Hin. apply in_map_iff in Hin. destruct Hin as [[r' a'] [<- Hin]]. apply Hr in Hin. apply Hin.
    + intros [r a] Hra. apply (reduce_arrows _ _ (1 * n)) in Hra; [|rewrite !map_length; auto|].
      2: { intros r' Hin. apply in_map_iff in Hin. destruct Hin as [[r2 a'] [<- Hin]]. apply Hr in Hin. apply Hin. }
      rewrite combine_fst_snd in Hra. destruct (Hr r a Hra) as [H1 H2]. unfold translation_perms. rewrite map_map.
      apply NoDup_map_inj; [|apply member_nodup; auto]. intros t u Ht Hu Eq. inversion Eq as [[E1]]. apply member_in in Ht, Hu; auto.
      apply (comp_trans_inj r r t u); auto.
    + intros [r a] [r' a'] [p b] Hra Hra' Hin Hin'.
      assert (forall r a, In (r, a) (reduce_rotations true (map fst pairs) (map snd pairs)) -> In (r, a) pairs) as Hred.
      { intros r0 a0 Hx. apply (reduce_arrows _ _ (1 * n)) in Hx; [rewrite combine_fst_snd in Hx; auto|rewrite !map_length; auto|].
        intros rr Hx'. apply in_map_iff in Hx'. destruct Hx' as [[r2 a2] [<- Hx']]. apply Hr in Hx'. apply Hx'. }
      apply Hred, Hr in Hra. apply Hred, Hr in Hra'. apply in_map_iff in Hin. destruct Hin as [tp [E1 Htp]]. apply in_map_iff in Hin'. destruct Hin' as [tp' [E2 Htp']].
      apply in_map_iff in Htp, Htp'. destruct Htp as [t [<- Ht]], Htp' as [t' [<- Ht']]. apply member_in in Ht, Ht'; auto.
      inversion E1; subst p b. inversion E2 as [[E3 E4]]. f_equal.
      destruct (comp_trans_inj r r' t t') as [-> _]; auto; try apply Hra; try apply Hra'.
  - set (rd := reduce_rotations false (map fst pairs) (map snd pairs)).
    assert (forall r a, In (r, a) rd -> is_perm (1 * n) r /\ nth 0 r 0%nat = 0%nat) as Hred.
    { intros r0 a0 Hx. apply (in_map fst) in Hx. apply reduce_plain in Hx; [|rewrite !map_length; auto]. apply in_map_iff in Hx. destruct Hx as [[r' a'] [E Hx]]. cbn in E. subst r'. eapply Hr; eauto. }
    assert (NoDup (map fst rd)) as Hnd1 by (apply reduce_plain_nodup; rewrite !map_length; auto).
    apply NoDup_flat_map.
    + apply NoDup_map_fst. auto.
    + intros [r a] Hra. destruct (Hred r a Hra) as [H1 H2]. unfold translation_perms. rewrite map_map.
      apply NoDup_map_inj; [|apply member_nodup; auto]. intros t u Ht Hu Eq. inversion Eq as [[E1]]. apply member_in in Ht, Hu; auto.
      apply (comp_trans_inj r r t u); auto.
    + intros [r a] [r' a'] [p b] Hra Hra' Hin Hin'. pose proof (Hred _ _ Hra) as [A1 A2]. pose proof (Hred _ _ Hra') as [B1 B2].
      apply in_map_iff in Hin. destruct Hin as [tp [E1 Htp]]. apply in_map_iff in Hin'. destruct Hin' as [tp' [E2 Htp']].
      apply in_map_iff in Htp, Htp'. destruct Htp as [t [<- Ht]], Htp' as [t' [<- Ht']]. apply member_in in Ht, Ht'; auto.
      inversion E1; subst p b. inversion E2 as [[E3]].
      destruct (comp_trans_inj r' r t' t) as [E5 _]; auto. subst r'.
      apply (NoDup_map_inj_in fst rd _ _ Hnd1); auto.
Qed.
End Origin.
