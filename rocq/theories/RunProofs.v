(** Counting and enumerating one system (C60). *)
From Coq Require Import Permutation.
From Verif Require Import PyBase Spec ListFacts PermFacts TransFacts NumericsModel PhononsModel TreeModel ColorProofs DecoFacts DecoBij BranchRun BranchTheorems SuperProofs MultiProofs Mat3 HNFModel HNFProofs.
From Verif Require Import PolyaModel PolyaSpec PolyaUse EnumSysModel DecoProofs EnumSysProofs.
From Verif Require Import LatSpec LatGroupModel LatFacts LatSites LatProofs LatMain LatTop LatGroupThm LatNoDup LatFirst SNFModel SuperModel StructSpec StructProofs StructThm StructMain PropertiesGroup RunSpec.
Local Open Scope Z_scope.

(** ** Bounds *)
Lemma subseq_length {A} (l m : list A) : subseq l m -> (length l <= length m)%nat.
Proof. induction 1; cbn; lia. Qed.
Lemma filter_short {A} (f : A -> bool) l : (length (filter f l) <= length l)%nat.
Proof. induction l as [|x l IH]; cbn; [auto|]. destruct (f x); cbn; lia. Qed.
Lemma labelings_bound c : Z.of_nat (length (labelings c)) <= Z.of_nat (length c) ^ Z.of_nat (sum_nat c).
Proof.
  rewrite <- Nat2Z.inj_pow. apply inj_le. unfold labelings. etransitivity; [apply filter_short|]. rewrite length_words, seq_length. auto.
Qed.
(** The labelings as decorations. *)
Definition as_sites (x : list nat) : list site := map (fun l => (-1, Z.of_nat l)) x.
Definition runs_of (m : nat) (c : list nat) : list nat := flat_map (fun '(i, k) => repeat i k) (combine (seq m (length c)) c).
Lemma plain_runs c : plain_sites c = as_sites (runs_of 1 c).
Proof.
  unfold plain_sites, runs_of, as_sites. generalize 1%nat. induction c as [|k c IH]; intros m; [reflexivity|]. cbn [length seq combine flat_map]. rewrite map_app, <- IH. f_equal.
  induction k; cbn; [auto|]. f_equal. auto.
Qed.
Lemma occ_repeat x i k : occ x (repeat i k) = if (x =? i)%nat then k else 0%nat.
Proof. unfold occ. destruct (Nat.eqb_spec x i) as [->|Hn].
  - apply count_occ_repeat_eq. auto.
  - apply count_occ_repeat_neq. auto.
Qed.
Lemma runs_occ c : forall m x, occ x (runs_of m c) = if (m <=? x)%nat && (x <? m + length c)%nat then nth (x - m) c 0%nat else 0%nat.
Proof.
  induction c as [|k c IH]; intros m x.
  - destruct (_ && _)%bool; [destruct (x - m)%nat|]; auto.
  - change (runs_of m (k :: c)) with (repeat m k ++ runs_of (S m) c). rewrite occ_app, IH, occ_repeat. cbn [length].
    destruct (Nat.leb_spec m x), (Nat.leb_spec (S m) x), (Nat.ltb_spec x (m + S (length c))), (Nat.ltb_spec x (S m + length c)), (Nat.eqb_spec x m); cbn [andb]; try lia.
    + replace (x - m)%nat with (S (x - S m)) by lia. cbn. auto.
    + subst. rewrite Nat.sub_diag. cbn. lia.
Qed.
Lemma labeling_perm c x : In x (labelings c) -> Permutation (as_sites x) (plain_sites c).
Proof.
  intros Hx. rewrite plain_runs. apply Permutation_map. apply (Permutation_count_occ Nat.eq_dec). intros l. fold (occ l x). fold (occ l (runs_of 1 c)). rewrite runs_occ.
  unfold labelings in Hx. apply filter_In in Hx. destruct Hx as [Hw Hc]. apply in_words in Hw. destruct Hw as [_ Hw]. apply andb_true_iff in Hc. destruct Hc as [_ Hc]. rewrite forallb_forall in Hc.
  destruct (Nat.leb_spec 1 l), (Nat.ltb_spec l (1 + length c)); cbn [andb].
  - specialize (Hc (l - 1)%nat). apply Nat.eqb_eq. replace (S (l - 1)) with l in Hc by lia. apply Hc. apply in_seq. lia.
  - apply count_occ_not_In. intros Hl. apply Hw, in_seq in Hl. lia.
  - apply count_occ_not_In. intros Hl. apply Hw, in_seq in Hl. lia.
  - apply count_occ_not_In. intros Hl. apply Hw, in_seq in Hl. lia.
Qed.
(** There are at most (operations x classes) labelings. *)
Lemma orbit_bound concs cwa G reps : Permutation cwa (plain_sites concs) -> perm_group (length cwa) (map fst G) ->
  transversal (fun w => Permutation w cwa) (site_equiv G) reps -> (length (labelings concs) <= length reps * length G)%nat.
Proof.
  intros Hp HG [T1 [T2 T3]].
  assert (incl (map as_sites (labelings concs)) (flat_map (fun r => map (fun g => act (-1, 0) (fst g) r) G) reps)) as Hi.
  { intros w Hw. apply in_map_iff in Hw. destruct Hw as [x [<- Hx]]. assert (Permutation (as_sites x) cwa) as Hpx by (apply Permutation_trans with (plain_sites concs); [apply labeling_perm; auto|apply Permutation_sym; auto]).
    destruct (T2 _ Hpx) as [r [Hr He]]. apply in_flat_map. exists r. split; auto.
    apply (site_equiv_sym (length cwa)) in He; auto; [|apply Permutation_length; auto]. destruct He as [g [Hg ->]]. apply in_map_iff. exists g. auto. }
  apply NoDup_incl_length in Hi.
  - rewrite map_length in Hi. rewrite (length_flat_map_const _ _ (length G)) in Hi; [lia|]. intros; apply map_length.
  - apply NoDup_map_inj; [|apply labelings_NoDup]. intros x y _ _. unfold as_sites. revert y. induction x as [|a x IH]; intros [|b y] E; cbn in *; try discriminate; auto.
    injection E as E1 E2. f_equal; [lia|auto].
Qed.

(** At most 48 orthogonal integer matrices. *)
Definition all_turns : list mat := filter (fun M => mat_eqb (mmul M (transpose M)) mid) (flat_map (fun a => flat_map (fun b => map (fun c => (a, b, c)) directions) directions) directions).
Lemma unit_direction v : vdot v v = 1 -> In v directions.
Proof.
  destruct v as [[x y] z]. unfold vdot. intros H.
  assert (forall a, 0 <= a * a) as Hs by (intros; nia). pose proof (Hs x). pose proof (Hs y). pose proof (Hs z).
  assert (-1 <= x <= 1 /\ -1 <= y <= 1 /\ -1 <= z <= 1) as [Hx [Hy Hz]] by nia.
  assert (forall a, -1 <= a <= 1 -> a = -1 \/ a = 0 \/ a = 1) as Hc by lia.
  destruct (Hc x Hx) as [Ex|[Ex|Ex]], (Hc y Hy) as [Ey|[Ey|Ey]], (Hc z Hz) as [Ez|[Ez|Ez]]; rewrite Ex, Ey, Ez in *; cbn in H; try lia; cbn; tauto.
Qed.
Lemma orthogonal_listed R : orthogonal R -> In R all_turns.
Proof.
  intros [H _]. unfold all_turns. apply filter_In. split; [|apply mat_eqb_spec; auto]. destruct R as [[a b] c].
  assert (In a directions /\ In b directions /\ In c directions) as [Ha [Hb Hc]].
  { destruct a as [[a1 a2] a3], b as [[b1 b2] b3], c as [[c1 c2] c3]. revert H. mat_unfold. intros H.
    pose proof (f_equal (fun M => mget M 0 0) H) as E0. pose proof (f_equal (fun M => mget M 1 1) H) as E1. pose proof (f_equal (fun M => mget M 2 2) H) as E2. clear H. revert E0 E1 E2. mat_unfold. intros E0 E1 E2.
    repeat split; apply unit_direction; unfold vdot; lia. }
  apply in_flat_map. exists a. split; auto. apply in_flat_map. exists b. split; auto. apply in_map_iff. exists c. auto.
Qed.
Lemma pg_at_most_48 (pg : list (mat * mat)) : (forall C R, In (C, R) pg -> orthogonal R) -> NoDup (map snd pg) -> (length pg <= 48)%nat.
Proof.
  intros Ho Hn. rewrite <- (map_length snd). change 48%nat with (length all_turns). apply NoDup_incl_length; auto.
  intros R HR. apply in_map_iff in HR. destruct HR as [[C R'] [<- Hi]]. apply orthogonal_listed. eapply Ho; eauto.
Qed.

(** ** The two groups of a supercell *)
Lemma reduce_length arrows rps aps : length rps = length aps -> (length (reduce_rotations arrows rps aps) <= length rps)%nat.
Proof.
  intros E. unfold reduce_rotations. destruct (Nat.leb _ _); [rewrite combine_length; lia|]. destruct arrows.
  - rewrite map_length, lex_sort_length. etransitivity; [apply group_runs_length|]. rewrite map_length, combine_length. lia.
  - rewrite combine_length. pose proof (group_runs_length (lex_sort rps)). rewrite lex_sort_length in *. lia.
Qed.
Lemma good_origin pg D lo hi : 0 < D -> good_basis pg D [(0, 0, 0)] lo hi.
Proof. intros HD. split; [apply origin_nd|]. split; [apply origin_red; auto|]. split; [cbn; auto|]. intros H _. apply self_inverse_origin. Qed.
Lemma good_involutions pg D bas lo hi : (forall C R, In (C, R) pg -> unimodular C /\ mmul C C = mid) -> NoDup bas -> (forall d, In d bas -> reduced (D, D, D) d) -> In (0, 0, 0) bas ->
  good_basis pg D bas lo hi.
Proof. intros Hi Hn Hr Hz. split; auto. split; auto. split; auto. intros H _. apply involutions_self_inverse; auto. Qed.
Lemma good_basis_sub pg D bas lo hi lo' hi' : good_basis pg D bas lo hi -> lo <= lo' -> hi' <= hi -> good_basis pg D bas lo' hi'.
Proof. intros [A [B [C H]]] Hl Hh. repeat (split; [assumption|]). intros K HK. apply H. lia. Qed.
Section Basis.
Variables (pg : list (mat * mat)) (D : Z) (bas : list vec) (lo hi : Z).
Hypothesis HD : 0 < D.
Hypothesis Hpg : forall C R, In (C, R) pg -> unimodular C /\ orthogonal R.
Hypothesis Hgr : rotation_group pg.
Hypothesis Hdiff : NoDup (map snd pg).
Hypothesis Hgb : good_basis pg D bas lo hi.
Lemma gb_nd : NoDup bas.
Proof. apply Hgb. Qed.
Lemma gb_red : forall d, In d bas -> reduced (D, D, D) d.
Proof. apply Hgb. Qed.
Lemma gb_ne : bas <> [].
Proof. destruct Hgb as [_ [_ [Hz _]]]. intros E. rewrite E in Hz. destruct Hz. Qed.
Lemma gb_pos : (0 < length bas)%nat.
Proof. pose proof gb_ne. destruct bas; [congruence|cbn; lia]. Qed.
Lemma gb_self H : lo <= mdet H <= hi -> self_inverse_on_basis pg D bas H.
Proof. apply Hgb. Qed.
Lemma basis_group H arrows : 1 <= mdet H <= 10 ^ 5 -> lo <= mdet H <= hi -> exists G, sym_group pg D bas H arrows = Ok G /\ NoDup G /\ op_group (length bas * Z.to_nat (mdet H)) 6 G /\
  (length G <= 48 * (length bas * Z.to_nat (mdet H)))%nat.
Proof.
  intros Hd Hlh. destruct (snf_facts H Hd) as [M [L [B [E [HL [HB [Hs [Hp [Hsm Hv]]]]]]]]].
  destruct (C48_with_origin_partial pg D bas H L B (diag_of M) arrows HD (proj1 (proj2 (proj2 Hgb))) gb_nd gb_red Hpg Hgr Hdiff HL HB Hs Hp Hsm (gb_self H Hlh)) as [G [EG [HN [HG Hl]]]]. rewrite Hv in HG, Hl.
  exists G. split; [unfold sym_group; rewrite E; auto|]. split; auto. split; auto. etransitivity; [exact Hl|]. rewrite Nat.mul_assoc. apply Nat.mul_le_mono; auto. apply Nat.mul_le_mono; auto.
  apply pg_at_most_48; auto. intros C R Hin. apply (Hpg C R Hin).
Qed.
Lemma basis_same H Gt Gf : 1 <= mdet H <= 10 ^ 5 -> lo <= mdet H <= hi -> sym_group pg D bas H true = Ok Gt -> sym_group pg D bas H false = Ok Gf ->
  (forall v w, site_equiv Gt v w <-> site_equiv Gf v w) /\ (Z.to_nat (mdet H) <= length Gf)%nat.
Proof.
  intros Hd Hlh Et Ef. destruct (snf_facts H Hd) as [M [L [B [E [HL [HB [Hs [Hp [Hsm Hv]]]]]]]]]. unfold sym_group in Et, Ef. rewrite E in Et, Ef. cbn [rbind] in Et, Ef.
  destruct (C48_symmetry_group_partial pg D bas H L B (diag_of M) HD gb_ne gb_nd gb_red Hpg HL HB Hs Hp Hsm (gb_self H Hlh)) as [G1 [E1 H1]].
  destruct (C48_symmetry_group_plain_partial pg D bas H L B (diag_of M) HD gb_ne gb_nd gb_red Hpg HL HB Hs Hp Hsm (gb_self H Hlh)) as [G2 [E2 H2]].
  rewrite Et in E1. rewrite Ef in E2. injection E1 as <-. injection E2 as <-. split.
  - intros v w. split; intros [[p a] [Hg ->]]; cbn [fst].
    + apply H1 in Hg. destruct Hg as [C [R [s [S1 [S2 S3]]]]]. exists (p, idperm 6). split; [apply H2; split; auto; exists C, R, s; auto|auto].
    + apply H2 in Hg. destruct Hg as [-> [C [R [s [S1 S2]]]]]. destruct (turns_exists R) as [b Hb]; [apply (Hpg C R); apply S1|]. exists (p, b). split; [apply H1; exists C, R, s; auto|auto].
  - rewrite <- Hv. exact (proj2 (first_operations pg D bas H L B (diag_of M) HD gb_ne gb_red gb_nd Hpg (proj1 Hgr) HL HB Hs Hp Hsm (gb_self H Hlh) Gf Ef)).
Qed.
End Basis.
