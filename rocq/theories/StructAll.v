(** The enumeration of one size: all supercells together. *)
From Coq Require Import Permutation.
From Verif Require Import Decide PyBase Spec ListFacts PermFacts TransFacts PhononsModel TreeModel DecoFacts BranchTheorems EnumSysProofs Mat3 HNFModel HNFProofs.
From Verif Require Import LatSpec LatGroupModel LatFacts LatSites LatProofs LatMain LatTop LatGroupThm LatFirst.
From Verif Require Import SNFModel SuperModel StructSpec StructProofs StructThm StructMain PropertiesTree PropertiesLattice PropertiesGroup.
Local Open Scope Z_scope.

(** ** Contents *)
Lemma contents_lattice D bas H K f c : same_lattice H K -> contents D bas H f c -> contents D bas K f c.
Proof.
  intros Hs [pts [[T1 [T2 T3]] P]]. exists pts. split; auto. split; auto. split.
  - intros x Hx. destruct (T2 x Hx) as [y [Hy [k [Hk E]]]]. exists y. split; auto. exists k. split; auto. apply Hs; auto.
  - eapply FOP_impl; [|exact T3]. cbv beta. intros a b _ _ Hn [k [Hk E]]. apply Hn. exists k. split; auto. apply Hs; auto.
Qed.
Lemma primitive_lattice D bas H K f : same_lattice H K -> primitive D bas H f -> primitive D bas K f.
Proof. intros Hs Hp k. rewrite <- (Hs k). apply Hp. Qed.
Lemma contents_carried D bas C s H f g c : unimodular C -> crystal_symmetry D bas C s -> (forall x, crystal_point D bas x -> g (affine C s x) = f x) ->
  contents D bas H f c -> contents D bas (mmul C H) g c.
Proof.
  intros HC Hs Hg [pts [[T1 [T2 T3]] P]]. exists (map (affine C s) pts). split; [|rewrite map_map; erewrite map_ext_in; [exact P|intros x Hx; apply Hg, T1; auto]].
  assert (forall x k, affine C s (vadd x (vscale D k)) = vadd (affine C s x) (vscale D (mvec C k))) as Ea by (intros; rewrite affine_add, mvec_vscale; auto).
  split; [|split].
  - intros y Hy. apply in_map_iff in Hy. destruct Hy as [x [<- Hx]]. apply (proj1 (Hs x)); auto.
  - intros y Hy. destruct (symmetry_onto D bas C s y HC Hs Hy) as [x [Hx <-]]. destruct (T2 x Hx) as [r [Hr [k [[u Hk] E]]]].
    exists (affine C s r). split; [apply in_map; auto|]. exists (mvec C k). split; [exists u; rewrite mvec_mmul, <- Hk; auto|]. rewrite E. apply Ea.
  - apply FOP_map. eapply FOP_impl; [|exact T3]. cbv beta. intros a b _ _ Hn [k [[u Hk] E]]. apply Hn. exists (mvec H u). split; [exists u; auto|].
    rewrite mvec_mmul in Hk. rewrite Hk, <- Ea in E. unfold affine in E. apply (f_equal (fun v => mvec (minv C) (vsub v s))) in E.
    rewrite !vadd_vsub, !minv_vec_l in E by auto. auto.
Qed.
Lemma plain_contents D bas H f c : periodic D bas H f -> contents D bas H f c -> (forall s, In s c -> fst s = -1) -> no_directions D bas f.
Proof.
  intros Hp [pts [[T1 [T2 T3]] P]] Hc x Hx. destruct (T2 x Hx) as [y [Hy [k [Hk ->]]]].
  rewrite <- (Hp k Hk x Hx). apply Hc. eapply Permutation_in; [exact P|]. apply in_map; auto.
Qed.

Section All.
Variables (pg : list (mat * mat)) (D : Z) (bas : list vec).
Hypothesis HD : 0 < D.
Hypothesis Hne : bas <> [].
Hypothesis Hnd : NoDup bas.
Hypothesis Hred : forall d, In d bas -> reduced (D, D, D) d.
Hypothesis Hpg : forall C R, In (C, R) pg -> unimodular C /\ orthogonal R.
Hypothesis Hgr : rotation_group pg.
Variables (n : Z) (cwa : list site).
Hypothesis Hn : 1 <= n <= 10 ^ 5.
Hypothesis Hlen : length cwa = (length bas * Z.to_nat n)%nat.
Hypothesis Hno : Forall (fun s => fst s = -1) cwa.
Notation concs := (map (multiplicity site_eqb cwa) (first_occurrences site_eqb cwa)).
Notation wanted H := (fun f => primitive D bas H f /\ contents D bas H f cwa).
Definition means (e : mat * list site) (f : decoration) : Prop :=
  exists M L B, SmithNormalForm (fst e) = Ok (M, L, B) /\ describes D bas L (diag_of M) (snd e) f.
Let one (rnd : nat -> bool) (H : mat) (fuel : nat) : res (list (mat * list site)) :=
  do G <- sym_group pg D bas H false;
  do configs <- brancher concs G cwa 6 false (Z.to_nat n) false rnd fuel SNone;
  Ok (map (fun w => (H, w)) configs).

Lemma hnf_det H : In H (find_all_HNFs n) -> mdet H = n.
Proof. intros Hin. apply in_find_all in Hin. destruct Hin as [a [b [c [d [e [f [-> [_ [_ [_ [_ <-]]]]]]]]]]]. cbn. ring. Qed.

(** What the list of one supercell says. *)
Definition sound_list (H : mat) (l : list (mat * list site)) : Prop :=
  (forall e, In e l -> fst e = H /\ (exists f, means e f) /\ forall f, means e f -> wanted H f) /\
  ForallOrdPairs (fun v w => forall f g, means v f -> means w g -> ~ same_in_supercell pg D bas H f g) l.
Definition complete_list (H : mat) (l : list (mat * list site)) : Prop :=
  forall f, wanted H f -> exists e g, In e l /\ means e g /\ same_in_supercell pg D bas H f g.

Lemma one_supercell rnd H : In H (find_all_HNFs n) -> self_inverse_on_basis pg D bas H ->
  exists l fuel0, (forall fuel, (fuel0 <= fuel)%nat -> one rnd H fuel = Ok l) /\ sound_list H l /\
    ((length (first_occurrences site_eqb cwa) <= 3)%nat -> complete_list H l).
Proof.
  intros Hin Hself. pose proof (hnf_det H Hin) as Hdet.
  destruct (snf_facts H ltac:(lia)) as [M [L [B [E [HL [HB [Hs [Hp [Hsm Hv]]]]]]]]]. rewrite Hdet in Hv.
  destruct (C48_symmetry_group_plain_partial pg D bas H L B (diag_of M) HD Hne Hnd Hred Hpg HL HB Hs Hp Hsm Hself) as [G [EG HG]].
  destruct (C48_is_group_partial pg D bas H L B (diag_of M) false HD Hne Hnd Hred Hpg Hgr HL HB Hs Hp Hsm Hself) as [G' [EG' HG']].
  rewrite EG in EG'. inversion EG'; subst G'. rewrite Hv in HG'. rewrite <- Hlen in HG'.
  assert (cwa <> []) as Hcne.
  { intros E0. rewrite E0 in Hlen. cbn in Hlen. assert (0 < length bas)%nat by (destruct bas; [congruence|cbn; lia]). assert (0 < Z.to_nat n)%nat by lia. nia. }
  assert (perm_group (length cwa) (map fst G)) as HPG by (eapply op_group_perm_group; eauto).
  destruct (C04_full_enumeration cwa G 6 (Z.to_nat n) rnd Hcne Hno HPG) as [l [Ht [f0 Hf0]]].
  assert (In (mid, mid) pg) as Hid by apply Hgr.
  assert (forall w, Permutation w cwa -> length w = (length bas * Z.to_nat (volume (diag_of M)))%nat) as Hwl by (intros w Hw; rewrite (Permutation_length Hw), Hv; auto).
  assert (forall c, In c cwa -> fst c = -1) as Hc by (rewrite Forall_forall in Hno; auto).
  assert (forall w c, Permutation w cwa -> In c w -> fst c = -1) as Hcw by (intros w c Hw Hi; apply Hc; eapply Permutation_in; eauto).
  pose proof (plain_catalogue D bas H L B (diag_of M) HD Hred Hnd HL HB Hs Hp pg Hpg G cwa l ltac:(rewrite Hv; auto) Hc HG Ht) as [K1 [K2 [K3 K4]]].
  assert (Z.to_nat n <= length G)%nat as HlG.
  { rewrite <- Hv. apply (first_operations pg D bas H L B (diag_of M) HD Hne Hred Hnd Hpg Hid HL HB Hs Hp Hsm Hself G EG). }
  assert (forall w f, Permutation w cwa -> describes D bas L (diag_of M) w f -> primitive D bas H f <-> ~ fixed_by_some (translations G (Z.to_nat n)) w) as Hprim.
  { intros w f Hw Hf. rewrite <- Hv. apply (primitive_iff pg D bas H L B (diag_of M) HD Hne Hred Hnd Hpg Hid HL HB Hs Hp Hsm Hself G w f EG); auto. }
  assert (forall w f, means (H, w) f <-> describes D bas L (diag_of M) w f) as Hmeans.
  { intros w f. unfold means. cbn [fst snd]. split; [|intros; exists M, L, B; auto]. intros [M' [L' [B' [E' Hd]]]]. rewrite E in E'. inversion E'; subst. auto. }
  destruct Ht as [T1 [T2 T3]].
  assert (forall l' fuel0, NoDup l' -> (forall w, In w l' -> In w l /\ ~ fixed_by_some (translations G (Z.to_nat n)) w) ->
    (forall fuel, (fuel0 <= fuel)%nat -> brancher concs G cwa 6 false (Z.to_nat n) false rnd fuel SNone = Ok l') ->
    (forall fuel, (fuel0 <= fuel)%nat -> one rnd H fuel = Ok (map (fun w => (H, w)) l')) /\ sound_list H (map (fun w => (H, w)) l')) as Main.
  { intros l' fuel0 HN Hsub Hrun. split.
    { intros fuel Hfu. unfold one, sym_group. rewrite E. cbn [rbind]. rewrite EG. cbn [rbind]. rewrite Hrun by auto. auto. }
    split.
    - intros e He. apply in_map_iff in He. destruct He as [w [<- Hw]]. destruct (Hsub w Hw) as [Hwl' Hfx]. cbn [fst]. split; auto. split.
      + destruct (K1 w Hwl') as [f Hf]. exists f. apply Hmeans; auto.
      + intros f Hf. apply Hmeans in Hf. split; [apply (Hprim w f); auto; apply T1; auto|]. apply (K2 w f Hwl' Hf).
    - apply FOP_map. apply FOP_NoDup in HN. eapply FOP_impl; [|exact HN]. cbv beta. intros v w Hvi Hwi Hne' f g Hf Hg Hsame. apply Hmeans in Hf, Hg.
      destruct (Hsub v Hvi) as [Hvl _]. destruct (Hsub w Hwi) as [Hwl' _].
      assert (site_equiv G v w) as Heq.
      { apply (plain_same D bas H L B (diag_of M) HD Hred Hnd HL HB Hs Hp pg Hpg G v w f g); auto. intros c Hin'. apply (Hcw v c); auto. }
      assert (site_equiv G w v) as Heq' by (apply (site_equiv_sym (length cwa)); auto; apply Permutation_length, T1; auto).
      clear - T3 Hvl Hwl' Heq Heq' Hne'. induction T3 as [|a l Ha T3 IH]; [destruct Hvl|]. rewrite Forall_forall in Ha. destruct Hvl as [->|Hv], Hwl' as [->|Hw]; auto.
      + apply (Ha w Hw); auto.
      + apply (Ha v Hv); auto. }
  destruct (le_lt_dec (length (first_occurrences site_eqb cwa)) 3) as [Hk|Hk].
  - destruct (C06_superperiodic_removed_partial cwa G 6 (Z.to_nat n) rnd Hcne Hno HPG HlG Hk) as [l2 [keep [f1 [Hkeep Hrun]]]].
    assert (l2 = l) as ->.
    { destruct (Hrun (f0 + f1)%nat ltac:(lia)) as [R1 _]. cbv zeta in R1. rewrite Hf0 in R1 by lia. congruence. }
    destruct (Main (filter keep l) f1) as [Hone Hsound].
    + apply NoDup_filter. apply FOP_NoDup. eapply FOP_impl; [|exact T3]. cbv beta. intros a b Ha _ Hn' <-. apply Hn'.
      exists (idperm (length cwa), idperm 6). split; [apply HG'|]. cbn [fst]. rewrite <- (Permutation_length (T1 a Ha)). symmetry. apply act_id.
    + intros w Hw. apply filter_In in Hw. destruct Hw as [Hw1 Hw2]. split; auto. apply Hkeep; auto.
    + intros fuel Hfu. apply Hrun; auto.
    + exists (map (fun w => (H, w)) (filter keep l)), f1. split; auto. split; auto. intros _ f [Hf1 Hf2].
      destruct (K3 f) as [w [g [Hw [Hd Hsame]]]]; [split; auto; intros k Hk'; apply Hf1; auto|].
      exists (H, w), g. split; [|split; auto; apply Hmeans; auto]. apply in_map. apply filter_In. split; auto. apply Hkeep; auto. apply (Hprim w g); auto.
      destruct (K2 w g Hw Hd) as [G1 G2]. destruct Hsame as [C [R [s [[S1 [S2 S3]] Hcar]]]].
      assert (no_directions D bas f) as Nf by (apply (plain_contents D bas H f cwa); auto; intros k Hk'; apply Hf1; auto).
      assert (no_directions D bas g) as Ng by (apply (plain_contents D bas H g cwa); auto).
      apply (carried_primitive D bas C R s f g H H); auto; try (apply (Hpg C R S1)).
      * intros x Hx. rewrite (Nf x Hx). lia.
      * intros x Hx. rewrite (Ng x Hx). lia.
  - destruct (C06_superperiodic_sound cwa G 6 (Z.to_nat n) rnd Hcne Hno HPG HlG) as [l2 [l' [f1 [HN [Hsub Hrun]]]]].
    assert (l2 = l) as ->.
    { destruct (Hrun (f0 + f1)%nat ltac:(lia)) as [R1 _]. cbv zeta in R1. rewrite Hf0 in R1 by lia. congruence. }
    destruct (Main l' f1) as [Hone Hsound]; auto; [intros fuel Hfu; apply Hrun; auto|].
    exists (map (fun w => (H, w)) l'), f1. split; auto. split; auto. intros; lia.
Qed.

(** The rotations of the space group. *)
Notation ops := (get_spaceGroup pg D bas).
Lemma symmetry_into_cell C s : crystal_symmetry D bas C s -> crystal_symmetry D bas C (into_cell D s).
Proof.
  intros Hs x. destruct (proj1 (into_cell_eq D (into_cell D s) s HD)) as [z Ez]; [apply into_cell_id; auto using into_cell_reduced|].
  assert (affine C (into_cell D s) x = vadd (affine C s x) (vscale D z)) as ->.
  { unfold affine. rewrite Ez. generalize (mvec C x). vec_ring. }
  rewrite (Hs x). split; intros Hx; [apply same_site_point; auto|].
  replace (affine C s x) with (vadd (vadd (affine C s x) (vscale D z)) (vscale D (vsub (0, 0, 0) z))) by (rewrite vscale_vsub; generalize (affine C s x); vec_ring).
  apply same_site_point; auto.
Qed.
Lemma rots_in C : In C (map rot ops) <-> exists R s, In (C, R) pg /\ crystal_symmetry D bas C s.
Proof.
  rewrite in_map_iff. split.
  - intros [o [<- Ho]]. apply (spaceGroup_in pg D bas HD Hred Hnd Hne) in Ho; [|intros; apply (Hpg C R); auto]. exists (cart o), (shift o). tauto.
  - intros [R [s [Hin Hs]]]. exists {| rot := C; cart := R; shift := into_cell D s |}. split; auto.
    apply (spaceGroup_in pg D bas HD Hred Hnd Hne); [intros; apply (Hpg C0 R0); auto|]. cbn [rot cart shift]. split; auto. split; [apply into_cell_reduced; auto|apply symmetry_into_cell; auto].
Qed.
Lemma rots_group : mat_group (map rot ops).
Proof.
  apply finite_mat_group.
  - apply rots_in. exists mid, (0, 0, 0). split; [apply Hgr|apply symmetry_id].
  - intros r s Hr Hs. apply rots_in in Hr, Hs. destruct Hr as [R [u [Hr1 Hr2]]], Hs as [S [v [Hs1 Hs2]]]. apply rots_in.
    exists (mmul R S), (affine r u v). split; [apply Hgr; auto|apply symmetry_comp; auto].
  - intros r Hr. apply rots_in in Hr. destruct Hr as [R [s [Hr _]]]. apply (Hpg r R Hr).
Qed.
Hypothesis Hself : forall H, In H (find_all_HNFs n) -> self_inverse_on_basis pg D bas H.

Lemma get_HNFs_runs : exists hnfs, get_HNFs pg D bas n = Ok hnfs /\ (forall H, In H hnfs -> In H (find_all_HNFs n)) /\
  (forall K, mdet K = n \/ mdet K = - n -> exists H C R s, In H hnfs /\ In (C, R) pg /\ crystal_symmetry D bas C s /\ same_lattice (mmul C K) H) /\
  ForallOrdPairs (fun H K => forall C R s, In (C, R) pg -> crystal_symmetry D bas C s -> ~ same_lattice (mmul C H) K /\ ~ same_lattice (mmul C K) H) hnfs.
Proof.
  set (H0 := ((1, 0, 0), (0, 1, 0), (0, 0, n)) : mat).
  assert (In H0 (find_all_HNFs n)) as Hin0 by (apply in_find_all; exists 1, 0, 1, 0, 0, n; repeat split; lia).
  destruct (snf_facts H0) as [M [L [B [E [HL [HB [Hs [Hp [Hsm Hv]]]]]]]]]; [rewrite (hnf_det H0 Hin0); lia|].
  assert (forall C R, In (C, R) pg -> unimodular C) as Huni by (intros; apply (Hpg C R); auto).
  assert (forall C R, In (C, R) pg -> orthogonal R) as Hor by (intros; apply (Hpg C R); auto).
  destruct (pairs_ok pg D bas HD Hred Hnd Hne Huni H0 L B (diag_of M) HL HB Hs Hp Hsm (Hself H0 Hin0) Hor) as [vps [prs [Evps _]]]. cbv zeta in Evps.
  unfold get_HNFs. rewrite (cell_bas D bas HD Hred). rewrite Evps. cbn [rbind].
  destruct (C18_one_lattice_per_class (map rot ops) (find_all_HNFs n) rots_group) as [U1 [U2 U3]]; [intros h Hh; rewrite (hnf_det h Hh); lia|].
  eexists. split; [reflexivity|]. split; [intros H Hin; eapply subseq_In; eauto|]. split.
  - intros K HK. destruct (C17_superlattices n K ltac:(lia) HK) as [h [[Hh Hsl] _]]. destruct (U2 h Hh) as [u [Hu [r [Hr Hsr]]]].
    apply rots_in in Hr. destruct Hr as [R [s [Hr1 Hr2]]]. exists u, r, R, s. split; auto. split; auto. split; auto.
    eapply same_lattice_trans; [|exact Hsr]. apply same_lattice_map. apply same_lattice_sym; auto.
  - eapply FOP_impl; [|exact U3]. cbv beta. intros H K _ _ [N1 N2] C R s HC Hs'. split; intros Hsl; [apply N1|apply N2]; exists C; (split; auto); apply rots_in; eauto.
Qed.

Lemma plain_carries C R s f g : no_directions D bas f -> carries D bas C R s f g <-> forall x, crystal_point D bas x -> g (affine C s x) = f x.
Proof. intros Nf. unfold carries. split; intros Hx x Px; specialize (Hx x Px); apply (rotated_plain R (f x)); auto. Qed.

Lemma all_supercells rnd : exists l fuel0, (forall fuel, (fuel0 <= fuel)%nat -> enumerate_size pg D bas n cwa false rnd fuel = Ok l) /\
  (forall e, In e l -> exists f, means e f) /\
  (forall e f, In e l -> means e f -> size_structures D bas n cwa f) /\
  ForallOrdPairs (fun v w => forall f g, means v f -> means w g -> ~ same_structure pg D bas f g) l /\
  ((length (first_occurrences site_eqb cwa) <= 3)%nat -> forall f, size_structures D bas n cwa f -> exists e g, In e l /\ means e g /\ same_structure pg D bas f g).
Proof.
  destruct get_HNFs_runs as [hnfs [EH [Hin [Hall Hpairs]]]].
  set (good := fun H (l : list (mat * list site)) => sound_list H l /\ ((length (first_occurrences site_eqb cwa) <= 3)%nat -> complete_list H l)).
  destruct (rmap_each (one rnd) hnfs) with (P := good) as [ls [f0 [HF Hrun]]].
  { intros H HH. destruct (one_supercell rnd H) as [l [f0 [Hr _]]]; auto. eauto. }
  { intros H l f0 HH Hr. destruct (one_supercell rnd H) as [l' [f1 [Hr' [Hs Hc]]]]; auto. assert (l' = l) as ->; [|split; auto].
    specialize (Hr (f0 + f1)%nat ltac:(lia)). specialize (Hr' (f0 + f1)%nat ltac:(lia)). congruence. }
  exists (concat ls), f0.
  assert (Forall (fun s => fst s = -1) cwa) as Hno' by exact Hno. rewrite Forall_forall in Hno'.
  assert (forall e, In e (concat ls) -> exists H l, In H hnfs /\ In l ls /\ In e l /\ sound_list H l) as Hwhere.
  { intros e He. apply in_concat in He. destruct He as [l [Hl He]]. clear - HF Hl He. induction HF as [|H m hs ms Hg HF IH]; [destruct Hl|].
    destruct Hl as [->|Hl]; [exists H, l; split; cbn; auto; split; auto; split; auto; apply Hg|]. destruct (IH Hl) as [H' [l' [A [A' [A2 A3]]]]]. exists H', l'. cbn. auto. }
  assert (forall H f, In H hnfs -> primitive D bas H f /\ contents D bas H f cwa -> no_directions D bas f) as Hnodir.
  { intros H f HH [P1 P2]. apply (plain_contents D bas H f cwa); auto. intros k Hk. apply P1; auto. }
  assert (forall H f, In H hnfs -> primitive D bas H f /\ contents D bas H f cwa -> six_directions D bas f) as Hsix.
  { intros H f HH Pf x Hx. rewrite (Hnodir H f HH Pf x Hx). lia. }
  split; [|split; [|split; [|split]]].
  - intros fuel Hfu. unfold enumerate_size. destruct (concs_count cwa) as [a [b Ec]]. rewrite Ec. rewrite EH. cbn [rbind].
    specialize (Hrun fuel Hfu). unfold one in Hrun. rewrite Hrun. cbn [rbind]. auto.
  - intros e He. destruct (Hwhere e He) as [H [l [HH [_ [Hel [Hs _]]]]]]. apply (Hs e Hel).
  - intros e f He Hf. destruct (Hwhere e He) as [H [l [HH [_ [Hel [Hs _]]]]]]. exists H. split; [rewrite (hnf_det H) by auto; lia|]. apply (Hs e Hel); auto.
  - rewrite <- (map_id ls). clear Hrun Hwhere. 
    assert (forall H f K g C R s, In H hnfs -> In K hnfs -> wanted H f -> wanted K g -> In (C, R) pg -> crystal_symmetry D bas C s -> carries D bas C R s f g -> same_lattice (mmul C H) K) as Key.
    { intros H f K g C R s HH HK Wf Wg HC Hs Hcar. apply (carried_primitive D bas C R s f g H K); auto; try apply (Hpg C R HC); try apply Wf; try apply Wg; eauto. }
    apply FOP_concat.
    + intros l Hl. assert (exists H, In H hnfs /\ sound_list H l) as [H [HH [Hs1 Hs2]]].
      { clear - HF Hl. induction HF as [|H m hs ms Hg HF IH]; [destruct Hl|]. destruct Hl as [->|Hl]; [exists H; split; cbn; auto; apply Hg|]. destruct (IH Hl) as [H' [A A']]. exists H'. cbn; auto. }
      eapply FOP_impl; [|exact Hs2]. cbv beta. intros v w Hv Hw Hnot f g Hf Hg [C [R [s [HC [Hsym Hcar]]]]]. apply (Hnot f g Hf Hg).
      destruct (Hs1 v Hv) as [_ [_ Wf]]. destruct (Hs1 w Hw) as [_ [_ Wg]]. exists C, R, s. split; auto. split; auto. split; auto. apply (Key H f H g C R s); auto.
    + clear Hall EH. induction HF as [|H m hs ms Hg HF IH]; [constructor|]. inversion Hpairs as [|? ? Hp1 Hp2]; subst. constructor.
      * apply Forall_forall. intros l Hl v w Hv Hw f g Hf Hg' [C [R [s [HC [Hsym Hcar]]]]]. cbn [id] in Hv, Hw.
        assert (exists K, In K hs /\ sound_list K l) as [K [HK [Hs1 Hs2]]].
        { clear - HF Hl. induction HF as [|H m hs ms Hg HF IH]; [destruct Hl|]. destruct Hl as [->|Hl]; [exists H; split; cbn; auto; apply Hg|]. destruct (IH Hl) as [H' [A A']]. exists H'. cbn; auto. }
        destruct Hg as [[Hm1 _] _]. destruct (Hm1 v Hv) as [_ [_ Wf]]. destruct (Hs1 w Hw) as [_ [_ Wg]]. rewrite Forall_forall in Hp1.
        apply (proj1 (Hp1 K HK C R s HC Hsym)). apply (Key H f K g C R s); cbn [In]; auto.
      * apply IH; auto.
        -- intros; apply Hin; cbn; auto.
        -- intros H' f' HH. apply Hnodir; cbn; auto.
        -- intros H' f' HH. apply Hsix; cbn; auto.
        -- intros; eapply Key; cbn [In]; eauto.
  - intros Hk f [K [HK [Pf Cf]]]. destruct (Hall K) as [H [C [R [s [HH [HC [Hsym Hsl]]]]]]]; [lia|].
    assert (unimodular C) as HCu by apply (Hpg C R HC).
    set (f1 := fun y => f (mvec (minv C) (vsub y s))).
    assert (forall x, f1 (affine C s x) = f x) as Ef1 by (intros x; unfold f1, affine; rewrite vadd_vsub, minv_vec_l by auto; auto).
    assert (no_directions D bas f) as Nf by (apply (plain_contents D bas K f cwa); auto; intros k Hk'; apply Pf; auto).
    assert (no_directions D bas f1) as Nf1 by (intros y Hy; destruct (symmetry_onto D bas C s y HCu Hsym Hy) as [x [Hx <-]]; rewrite Ef1; auto).
    assert (carries D bas C R s f f1) as Hc1 by (apply plain_carries; auto).
    assert (wanted H f1) as Wf1.
    { split.
      - apply (carried_primitive D bas C R s f f1 K H); auto; try apply (Hpg C R HC); intros x Hx; [rewrite (Nf x Hx)|rewrite (Nf1 x Hx)]; lia.
      - apply (contents_lattice D bas (mmul C K) H); auto. apply (contents_carried D bas C s K f f1); auto. }
    assert (exists l, In l ls /\ complete_list H l) as [l [Hl Hcl]].
    { clear - HF HH Hk. induction HF as [|H' m hs ms Hg HF IH]; [destruct HH|]. destruct HH as [->|HH]; [exists m; split; cbn; auto; apply Hg; auto|].
      destruct (IH HH) as [l [A A']]. exists l. cbn; auto. }
    destruct (Hcl f1 Wf1) as [e [g [He [Hm [C' [R' [s' [[S1 [S2 S3]] Hc2]]]]]]]]. exists e, g. split; [apply in_concat; eauto|]. split; auto.
    exists (mmul C' C), (mmul R' R), (affine C' s' s). split; [apply Hgr; auto|]. split; [apply symmetry_comp; auto|]. apply plain_carries; auto.
    intros x Hx. rewrite <- affine_comp. pose proof (proj1 (plain_carries C' R' s' f1 g Nf1) Hc2) as Hc3. rewrite Hc3, Ef1; auto. apply (proj1 (Hsym x)); auto.
Qed.
End All.
