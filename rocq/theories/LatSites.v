(** The numbering of the sites of a supercell and the permutations induced on it by symmetry operations. *)
From Coq Require Import Permutation.
From Verif Require Import PyBase Spec ListFacts PermFacts Mat3 HNFModel LatSpec LatGroupModel LatFacts.
Local Open Scope Z_scope.

Ltac vec_ring := intros; repeat match goal with x := _ |- _ => clearbody x end;
  repeat match goal with |- context [nth ?a ?b ?c] => generalize (nth a b c) end; clear; intros; mat_destruct; unfold vsub, affine; mat_unfold;
  repeat match goal with |- (?a, ?b) = (?c, ?d) => apply (f_equal2 pair) end; try ring; try reflexivity.
Lemma vadd_0_r v : vadd v (0, 0, 0) = v.  Proof. vec_ring. Qed.
Lemma vadd_0_l v : vadd (0, 0, 0) v = v.  Proof. vec_ring. Qed.
Lemma vadd_comm u v : vadd u v = vadd v u.  Proof. vec_ring. Qed.
Lemma vadd_assoc u v w : vadd (vadd u v) w = vadd u (vadd v w).  Proof. vec_ring. Qed.
Lemma mvec_vadd M u v : mvec M (vadd u v) = vadd (mvec M u) (mvec M v).  Proof. vec_ring. Qed.
Lemma mvec_vsub M u v : mvec M (vsub u v) = vsub (mvec M u) (mvec M v).  Proof. vec_ring. Qed.
Lemma vscale_vadd k u v : vscale k (vadd u v) = vadd (vscale k u) (vscale k v).  Proof. vec_ring. Qed.
Lemma vscale_vsub k u v : vscale k (vsub u v) = vsub (vscale k u) (vscale k v).  Proof. vec_ring. Qed.
Lemma vscale_0 k : vscale k (0, 0, 0) = (0, 0, 0).  Proof. vec_ring. Qed.
Lemma mvec_0 M : mvec M (0, 0, 0) = (0, 0, 0).  Proof. vec_ring. Qed.
Lemma vsub_diag v : vsub v v = (0, 0, 0).  Proof. vec_ring. Qed.
Lemma vsub_vadd u v : vadd (vsub u v) v = u.  Proof. vec_ring. Qed.
Lemma vadd_vsub u v : vsub (vadd u v) v = u.  Proof. vec_ring. Qed.
Lemma vsub_0_iff u v : vsub u v = (0, 0, 0) -> u = v.
Proof. intros E. rewrite <- (vsub_vadd u v), E. apply vadd_0_l. Qed.
Lemma minv_vec_l M v : unimodular M -> mvec (minv M) (mvec M v) = v.
Proof. intros H. rewrite <- mvec_mmul, minv_l, mvec_id; auto. Qed.
Lemma minv_vec_r M v : unimodular M -> mvec M (mvec (minv M) v) = v.
Proof. intros H. rewrite <- mvec_mmul, minv_r, mvec_id; auto. Qed.

(** Congruence modulo the same number in all components. *)
Lemma congruent_D D x y : congruent (D, D, D) x y <-> exists z, x = vadd y (vscale D z).
Proof.
  destruct x as [[a b] c], y as [[p q] r]. rewrite congruent_triple. split.
  - intros [[u Hu] [[v Hv] [w Hw]]]. exists (u, v, w). cbn. f_equal; [f_equal|]; lia.
  - intros [[[u v] w] E]. cbn in E. inversion E. repeat split; [exists u|exists v|exists w]; lia.
Qed.
Lemma lattice_add M u v : in_lattice M u -> in_lattice M v -> in_lattice M (vadd u v).
Proof. intros [a ->] [b ->]. exists (vadd a b). rewrite mvec_vadd. auto. Qed.
Lemma lattice_sub M u v : in_lattice M u -> in_lattice M v -> in_lattice M (vsub u v).
Proof. intros [a ->] [b ->]. exists (vsub a b). rewrite mvec_vsub. auto. Qed.
Lemma lattice_0 M : in_lattice M (0, 0, 0).
Proof. exists (0, 0, 0). rewrite mvec_0. auto. Qed.

Section Sites.
Variables (D : Z) (bas : list vec) (H L B : mat) (diag : vec).
Hypothesis HD : 0 < D.
Hypothesis Hred : forall d, In d bas -> reduced (D, D, D) d.
Hypothesis Hnd : NoDup bas.
Hypothesis HL : unimodular L.
Hypothesis HB : unimodular B.
Hypothesis Hsnf : mmul (mmul L H) B = diagonal diag.
Hypothesis Hpos : positive diag.

Notation n := (Z.to_nat (volume diag)).
Notation N := (length bas * n)%nat.
Definition pt (iD : nat) (z : vec) : vec := vadd (nth iD bas (0, 0, 0)) (vscale D z).
Definition cellnr (z : vec) : nat := Z.to_nat (rank diag (vmod (mvec L z) diag)).
Definition si (iD : nat) (z : vec) : nat := (iD * n + cellnr z)%nat.
Notation site := (is_site D bas L diag).

Lemma n_pos : (0 < n)%nat.
Proof. pose proof (volume_pos diag Hpos). lia. Qed.
Lemma cellnr_lt z : (cellnr z < n)%nat.
Proof. unfold cellnr. pose proof (rank_bound diag _ (vmod_reduced diag (mvec L z) Hpos)). lia. Qed.
Lemma diag_lattice x : congruent diag x (0, 0, 0) <-> in_lattice (diagonal diag) x.
Proof.
  destruct diag as [[a b] c], x as [[i j] k]. rewrite congruent_triple, !Z.sub_0_r. split.
  - intros [[u ->] [[v ->] [w ->]]]. exists (u, v, w). cbn. f_equal; [f_equal|]; lia.
  - intros [[[u v] w] E]. cbn in E. inversion E. repeat split; [exists u|exists v|exists w]; lia.
Qed.
(** Cells are numbered alike exactly when they differ by a vector of the superlattice. *)
Lemma L_lattice z : congruent diag (mvec L z) (0, 0, 0) <-> in_lattice H z.
Proof.
  rewrite diag_lattice, <- Hsnf. split.
  - intros [k E]. rewrite !mvec_mmul in E. exists (mvec B k). apply (mvec_cancel L); auto. destruct HL as [HL'|HL']; rewrite HL'; discriminate.
  - intros [k ->]. exists (mvec (minv B) k). rewrite !mvec_mmul, minv_vec_r; auto.
Qed.
Lemma congruent_diff x y : congruent diag x y <-> congruent diag (vsub x y) (0, 0, 0).
Proof.
  split; intros E i Hi; specialize (E i Hi); rewrite vget_vsub in *; replace (vget (0, 0, 0) i) with 0 in * by (destruct i as [|[|[|]]]; auto); rewrite Z.sub_0_r in *; auto.
Qed.
Lemma cellnr_eq z w : cellnr z = cellnr w <-> in_lattice H (vsub z w).
Proof.
  rewrite <- L_lattice, mvec_vsub, <- congruent_diff. unfold cellnr.
  pose proof (vmod_reduced diag (mvec L z) Hpos) as R1. pose proof (vmod_reduced diag (mvec L w) Hpos) as R2.
  pose proof (rank_bound _ _ R1). pose proof (rank_bound _ _ R2). split.
  - intros E. assert (rank diag (vmod (mvec L z) diag) = rank diag (vmod (mvec L w) diag)) as E' by lia.
    apply (f_equal (dig diag)) in E'. rewrite !dig_rank in E' by auto.
    eapply congruent_trans; [apply vmod_congruent; auto|]. rewrite E'. apply congruent_sym, vmod_congruent; auto.
  - intros E. f_equal. f_equal. apply (reduced_unique diag); auto.
    eapply congruent_trans; [apply congruent_sym, vmod_congruent; auto|]. eapply congruent_trans; [exact E|]. apply vmod_congruent; auto.
Qed.
Lemma cellnr_onto k : (k < n)%nat -> cellnr (mvec (minv L) (nth k (make_member_list diag) (0, 0, 0))) = k.
Proof.
  intros Hk. unfold cellnr. rewrite minv_vec_r by auto. rewrite member_nth by auto.
  assert (vmod (dig diag (Z.of_nat k)) diag = dig diag (Z.of_nat k)) as ->.
  { apply (reduced_unique diag); auto using vmod_reduced, dig_reduced. apply congruent_sym, vmod_congruent; auto. }
  rewrite rank_dig by (auto; lia). lia.
Qed.
Lemma pt_inj iD z jD w : (iD < length bas)%nat -> (jD < length bas)%nat -> pt iD z = pt jD w -> iD = jD /\ z = w.
Proof.
  intros Hi Hj E. unfold pt in E. set (a := nth iD bas (0, 0, 0)) in *. set (b := nth jD bas (0, 0, 0)) in *.
  assert (In a bas) as Ha by (apply nth_In; auto). assert (In b bas) as Hb by (apply nth_In; auto).
  assert (a = b) as Eab.
  { apply (reduced_unique (D, D, D)); auto. apply congruent_D. exists (vsub w z). rewrite vscale_vsub.
    replace a with (vsub (vadd a (vscale D z)) (vscale D z)) by (apply vadd_vsub). rewrite E. vec_ring. }
  split.
  - apply (proj1 (NoDup_nth bas (0, 0, 0)) Hnd); auto.
  - rewrite Eab in E. apply (vscale_inj D); [lia|]. clear - E. replace (vscale D z) with (vsub (vadd b (vscale D z)) b) by vec_ring.
    rewrite E. vec_ring.
Qed.
Lemma site_iff x i : site x i <-> exists iD z, (iD < length bas)%nat /\ x = pt iD z /\ i = si iD z.
Proof.
  unfold is_site. split.
  - intros [iD [z [g [H1 [H2 [H3 [H4 H5]]]]]]]. exists iD, z. split; auto. split; auto. unfold si, cellnr. rewrite H5. do 4 f_equal.
    apply (reduced_unique diag); auto using vmod_reduced. eapply congruent_trans; [apply congruent_sym; exact H4|]. apply vmod_congruent; auto.
  - intros [iD [z [H1 [H2 H3]]]]. exists iD, z, (vmod (mvec L z) diag). split; auto. split; auto.
    split; [apply vmod_reduced; auto|]. split; [apply vmod_congruent; auto|]. auto.
Qed.
Lemma si_lt iD z : (iD < length bas)%nat -> (si iD z < N)%nat.
Proof. intros Hi. unfold si. pose proof (cellnr_lt z). nia. Qed.
Lemma si_inj iD z jD w : si iD z = si jD w -> iD = jD /\ cellnr z = cellnr w.
Proof.
  unfold si. pose proof (cellnr_lt z). pose proof (cellnr_lt w). intros E.
  assert (iD = jD). { apply (f_equal (fun x => x / n)%nat) in E. rewrite !Nat.div_add_l, !Nat.div_small in E by lia. lia. }
  subst. split; auto. lia.
Qed.
Lemma point_iff x : crystal_point D bas x <-> exists iD z, (iD < length bas)%nat /\ x = pt iD z.
Proof.
  unfold crystal_point, pt. split.
  - intros [d [z [Hd ->]]]. apply In_nth with (d := (0, 0, 0)) in Hd. destruct Hd as [iD [Hi <-]]. eauto.
  - intros [iD [z [Hi ->]]]. exists (nth iD bas (0, 0, 0)), z. split; auto. apply nth_In; auto.
Qed.
Lemma site_exists x : crystal_point D bas x -> exists i, (i < N)%nat /\ site x i.
Proof.
  intros Hx. apply point_iff in Hx. destruct Hx as [iD [z [Hi ->]]]. exists (si iD z). split; [apply si_lt; auto|].
  apply site_iff. eauto.
Qed.
Lemma site_point x i : site x i -> crystal_point D bas x.
Proof. intros Hs. apply site_iff in Hs. destruct Hs as [iD [z [Hi [-> _]]]]. apply point_iff. eauto. Qed.
Lemma site_lt x i : site x i -> (i < N)%nat.
Proof. intros Hs. apply site_iff in Hs. destruct Hs as [iD [z [Hi [_ ->]]]]. apply si_lt; auto. Qed.
Lemma site_fun x i j : site x i -> site x j -> i = j.
Proof.
  intros H1 H2. apply site_iff in H1. apply site_iff in H2. destruct H1 as [iD [z [Hi [-> ->]]]]. destruct H2 as [jD [w [Hj [E ->]]]].
  apply pt_inj in E; auto. destruct E as [-> ->]. auto.
Qed.
Lemma site_onto i : (i < N)%nat -> exists x, site x i.
Proof.
  intros Hi. pose proof n_pos as Hn. assert (i / n < length bas)%nat as Hq by (apply Nat.div_lt_upper_bound; nia).
  pose proof (Nat.mod_upper_bound i n ltac:(lia)) as Hm.
  exists (pt (i / n) (mvec (minv L) (nth (i mod n) (make_member_list diag) (0, 0, 0)))). apply site_iff. eexists _, _. split; [exact Hq|]. split; [reflexivity|].
  unfold si. rewrite cellnr_onto by auto. pose proof (Nat.div_mod i n ltac:(lia)). lia.
Qed.
Lemma site_same x y i : site x i -> (site y i <-> exists k, in_lattice H k /\ y = vadd x (vscale D k)).
Proof.
  intros Hx. apply site_iff in Hx. destruct Hx as [iD [z [Hi [-> ->]]]]. split.
  - intros Hy. apply site_iff in Hy. destruct Hy as [jD [w [Hj [-> E]]]]. apply si_inj in E. destruct E as [<- E]. symmetry in E. apply cellnr_eq in E.
    exists (vsub w z). split; auto. unfold pt. rewrite vscale_vsub. vec_ring.
  - intros [k [Hk ->]]. apply site_iff. exists iD, (vadd z k). split; auto. split; [unfold pt; rewrite vscale_vadd; vec_ring|].
    unfold si. f_equal. apply cellnr_eq. replace (vsub z (vadd z k)) with (vsub (0, 0, 0) k) by vec_ring. apply lattice_sub; auto. apply lattice_0.
Qed.

(** ** Induced permutations *)
Notation induces := (induces D bas L diag).
Notation symmetry := (crystal_symmetry D bas).
Definition fixes (C : mat) : Prop := same_lattice (mmul C H) H.

Lemma fixes_lattice C k : fixes C -> in_lattice H k -> in_lattice H (mvec C k).
Proof. intros HC [u ->]. apply HC. exists u. rewrite mvec_mmul. auto. Qed.
Lemma fixes_lattice_inv C k : unimodular C -> fixes C -> in_lattice H (mvec C k) -> in_lattice H k.
Proof.
  intros HCu HC Hk. apply HC in Hk. destruct Hk as [u E]. rewrite mvec_mmul in E. exists u. apply (mvec_cancel C); auto.
  destruct HCu as [E'|E']; rewrite E'; discriminate.
Qed.
Lemma affine_add C s x y : affine C s (vadd x y) = vadd (affine C s x) (mvec C y).
Proof. vec_ring. Qed.
Lemma affine_comp C s C' s' x : affine C s (affine C' s' x) = affine (mmul C C') (affine C s s') x.
Proof. unfold affine. rewrite mvec_mmul, !mvec_vadd. vec_ring. Qed.
Lemma symmetry_onto C s y : unimodular C -> symmetry C s -> crystal_point D bas y -> exists x, crystal_point D bas x /\ affine C s x = y.
Proof.
  intros HC Hs Hy. exists (mvec (minv C) (vsub y s)). assert (affine C s (mvec (minv C) (vsub y s)) = y) as E.
  { unfold affine. rewrite minv_vec_r by auto. apply vsub_vadd. }
  split; auto. apply Hs. rewrite E. auto.
Qed.
Lemma induces_unique C s p q : unimodular C -> symmetry C s -> induces (affine C s) p -> induces (affine C s) q -> p = q.
Proof.
  intros HC Hs [P1 P2] [Q1 Q2]. apply nth_ext_len with (d := 0%nat); [congruence|]. intros j Hj. rewrite P1 in Hj.
  destruct (site_onto j Hj) as [y Hy]. destruct (symmetry_onto C s y HC Hs (site_point _ _ Hy)) as [x [Hx <-]].
  destruct (site_exists x Hx) as [i [_ Hi]]. rewrite (P2 x i j Hi Hy), (Q2 x i j Hi Hy). auto.
Qed.
Lemma induces_comp f g p q : (forall x, crystal_point D bas x -> crystal_point D bas (g x)) ->
  induces f p -> induces g q -> induces (fun x => f (g x)) (comp p q).
Proof.
  intros Hg [P1 P2] [Q1 Q2]. split; [rewrite comp_length; auto|]. intros x i j Hx Hj. destruct (site_exists (g x)) as [k [Hk1 Hk2]]; [apply Hg; eapply site_point; eauto|].
  pose proof (P2 _ _ _ Hk2 Hj) as E1. pose proof (Q2 _ _ _ Hx Hk2) as E2. apply site_lt in Hj.
  unfold comp. rewrite nth_map_lt with (d := 0%nat) by lia. rewrite E1. auto.
Qed.
Lemma induces_perm C s p : unimodular C -> fixes C -> symmetry C s -> induces (affine C s) p -> is_perm N p.
Proof.
  intros HC HF Hs [P1 P2]. split; auto.
  assert (forall j, (j < N)%nat -> exists x, crystal_point D bas x /\ site (affine C s x) j /\ site x (nth j p 0%nat)) as Hj.
  { intros j Hj. destruct (site_onto j Hj) as [y Hy]. destruct (symmetry_onto C s y HC Hs (site_point _ _ Hy)) as [x [Hx <-]].
    destruct (site_exists x Hx) as [i [Hi1 Hi2]]. rewrite (P2 x i j Hi2 Hy). eauto. }
  split.
  - apply NoDup_nth with (d := 0%nat). intros j k Hj1 Hk1 E. rewrite P1 in Hj1, Hk1.
    destruct (Hj j Hj1) as [x [_ [Hx1 Hx2]]]. destruct (Hj k Hk1) as [y [_ [Hy1 Hy2]]]. rewrite <- E in Hy2.
    apply (site_same x y _ Hx2) in Hy2. destruct Hy2 as [m [Hm ->]].
    rewrite affine_add, mvec_vscale in Hy1.
    assert (site (vadd (affine C s x) (vscale D (mvec C m))) j) as Hy1'.
    { apply (site_same _ _ _ Hx1). exists (mvec C m). split; auto. apply fixes_lattice; auto. }
    eapply site_fun; eauto.
  - intros i Hi. apply In_nth with (d := 0%nat) in Hi. destruct Hi as [j [Hj1 <-]]. rewrite P1 in Hj1. destruct (Hj j Hj1) as [x [_ [_ Hx]]]. eapply site_lt; eauto.
Qed.
(** Only the translation modulo the superlattice matters. *)
Lemma induces_shift C s k p : fixes C -> in_lattice H k -> induces (affine C s) p -> induces (affine C (vadd s (vscale D k))) p.
Proof.
  intros HF Hk [P1 P2]. split; auto. intros x i j Hx Hj. apply (P2 x i j Hx).
  replace (affine C s x) with (vadd (affine C (vadd s (vscale D k)) x) (vscale D (vsub (0, 0, 0) k))) by vec_ring.
  apply (site_same _ _ _ Hj). exists (vsub (0, 0, 0) k). split; auto. apply lattice_sub; auto. apply lattice_0.
Qed.
Lemma symmetry_translation w : symmetry mid (vscale D w).
Proof.
  intros x. unfold affine. rewrite mvec_id. unfold crystal_point. split.
  - intros [d [z [Hd ->]]]. exists d, (vadd z w). split; auto. rewrite vscale_vadd. vec_ring.
  - intros [d [z [Hd E]]]. exists d, (vsub z w). split; auto. rewrite vscale_vsub. rewrite <- (vadd_vsub x (vscale D w)), E. vec_ring.
Qed.
Lemma symmetry_comp C s C' s' : symmetry C s -> symmetry C' s' -> symmetry (mmul C C') (affine C s s').
Proof. intros H1 H2 x. rewrite <- affine_comp. rewrite (H2 x). apply H1. Qed.
Lemma symmetry_id : symmetry mid (0, 0, 0).
Proof. pose proof (symmetry_translation (0, 0, 0)) as E. rewrite vscale_0 in E. auto. Qed.
Lemma affine_id x : affine mid (0, 0, 0) x = x.
Proof. vec_ring. Qed.
Lemma fixes_id : fixes mid.
Proof. unfold fixes. rewrite mmul_id_l. apply same_lattice_refl. Qed.
Lemma fixes_comp C C' : fixes C -> fixes C' -> fixes (mmul C C').
Proof.
  intros H1 H2. unfold fixes in *. rewrite mmul_assoc. eapply same_lattice_trans; [apply same_lattice_map; exact H2|exact H1].
Qed.
Lemma induces_id : induces (affine mid (0, 0, 0)) (idperm N).
Proof.
  split; [apply seq_length|]. intros x i j Hi Hj. rewrite affine_id in Hj. rewrite (site_fun _ _ _ Hj Hi). unfold idperm.
  rewrite seq_nth; auto. eapply site_lt; eauto.
Qed.
End Sites.
