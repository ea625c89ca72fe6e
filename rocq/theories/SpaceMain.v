(** The space group: exactly the motions of the crystal that keep the lattice (C65). *)
From Coq Require Import QArith Qabs Lqa Permutation.
From Verif Require Import PyBase Mat3 ListFacts CellModel CellProofs LatSpec LatGroupModel LatFacts LatSites LatMain LatTop.
From Verif Require Import ReduceSpec PointGroupModel PointGroupSpec PointGroupProofs PointGroupMain SpaceModel SpaceSpec SpaceProofs.
Local Open Scope Z_scope.

(** ** Integer coordinates *)
Section Cells.
Variables (N : Z) (zs : list (Z * vec)).
Hypothesis HN : 0 < N.
Hypothesis Hred : forall t z, In (t, z) zs -> reduced (N, N, N) z.
Hypothesis Hnd : NoDup (map snd zs).
Hypothesis Hne : zs <> [].

(** The atoms go to atoms of the same type, modulo the lattice. *)
Definition cell_map (C : mat) (s : vec) : Prop := forall t z, In (t, z) zs -> In (t, into_cell N (affine C s z)) zs.

Lemma imapped_iff C s t z : imapped N zs C s (t, z) = true <-> In (t, into_cell N (affine C s z)) zs.
Proof.
  unfold imapped. rewrite existsb_exists. cbn [fst snd]. split.
  - intros [[t' z'] [Hin E]]. cbn [fst snd] in E. apply andb_true_iff in E. destruct E as [E1 E2]. apply Z.eqb_eq in E1. apply vec_eqb_spec in E2. subst t'. unfold affine. rewrite E2. auto.
  - intros Hin. eexists. split; [exact Hin|]. cbn [fst snd]. rewrite Z.eqb_refl. cbn. apply vec_eqb_spec. reflexivity.
Qed.
Lemma forallb_mapped C s : forallb (imapped N zs C s) zs = true <-> cell_map C s.
Proof.
  rewrite forallb_forall. split.
  - intros H t z Hin. apply imapped_iff. apply H; auto.
  - intros H [t z] Hin. apply imapped_iff. auto.
Qed.
Lemma iop_in C i : In i (iop N zs C) <-> fst i = C /\ reduced (N, N, N) (snd i) /\ cell_map C (snd i).
Proof.
  destruct i as [C' s]. cbn [fst snd]. unfold iop. destruct zs as [|[t0 z0] zs'] eqn:Ez; [congruence|]. rewrite <- Ez in *. rewrite in_concat. split.
  - intros [l [Hl Hi]]. apply in_map_iff in Hl. destruct Hl as [[t z] [<- Hz]]. unfold iatom in Hi. cbn [fst snd] in Hi.
    destruct (negb (t =? t0)); [destruct Hi|]. destruct (forallb _ zs) eqn:Ef; [|destruct Hi]. destruct Hi as [E|[]].
    assert (C' = C /\ s = into_cell N (vsub z (mvec C z0))) as [-> ->] by (split; congruence).
    split; auto. split; [apply into_cell_reduced; auto|]. apply forallb_mapped; auto.
  - intros [-> [Hr Hm]]. assert (H0 : In (t0, z0) zs) by (rewrite Ez; left; auto). pose proof (Hm _ _ H0) as Hj.
    set (zj := into_cell N (affine C s z0)) in *. eexists. split; [apply in_map_iff; exists (t0, zj); split; [reflexivity|exact Hj]|].
    unfold iatom. cbn [fst snd]. rewrite Z.eqb_refl. cbn [negb].
    assert (into_cell N (vsub zj (mvec C z0)) = s) as Es.
    { transitivity (into_cell N s); [|apply into_cell_id; auto]. apply into_cell_eq; auto.
      destruct (proj1 (into_cell_eq N zj (affine C s z0) HN)) as [z E].
      - apply into_cell_id; auto. eapply Hred; eauto.
      - exists z. rewrite E. unfold affine. generalize (mvec C z0). vec_ring. }
    rewrite Es. rewrite (proj2 (forallb_mapped C s) Hm). left. auto.
Qed.
Lemma iop_NoDup C : NoDup (iop N zs C).
Proof.
  unfold iop. destruct zs as [|[t0 z0] zs'] eqn:Ez; [constructor|]. rewrite <- Ez in *.
  assert (F : forall a i, In i (iatom N zs C (mvec C z0) t0 a) -> i = (C, into_cell N (vsub (snd a) (mvec C z0)))).
  { intros a i. unfold iatom. destruct (negb _); [intros []|]. destruct (forallb _ zs); [|intros []]. intros [<-|[]]. auto. }
  rewrite <- flat_map_concat_map. apply NoDup_flat_map_disj.
  - eapply NoDup_map_inv. exact Hnd.
  - intros a _. unfold iatom. destruct (negb _); [constructor|]. destruct (forallb _ zs); repeat constructor; auto.
  - intros [t z] [t' z'] i H1 H2 I1 I2. apply F in I1. apply F in I2. cbn [snd] in I1, I2. rewrite I1 in I2. assert (E : into_cell N (vsub z (mvec C z0)) = into_cell N (vsub z' (mvec C z0))) by congruence. 
    assert (z = z') as Ezz.
    { rewrite <- (into_cell_id N z), <- (into_cell_id N z') by (auto; eapply Hred; eauto). apply into_cell_eq; auto. apply into_cell_eq in E; auto. destruct E as [k E]. exists k.
      apply (f_equal (fun v => vadd v (mvec C z0))) in E. replace (vadd (vsub z (mvec C z0)) (mvec C z0)) with z in E by (generalize (mvec C z0); vec_ring). rewrite E. generalize (mvec C z0). vec_ring. }
    subst z'. f_equal. clear - Hnd H1 H2. induction zs as [|[a b] l IH]; [destruct H1|]. cbn [map snd] in Hnd. inversion Hnd; subst.
    destruct H1 as [H1|H1], H2 as [H2|H2].
    + congruence.
    + exfalso. apply H3. apply in_map_iff. exists (t', z). split; auto. cbn. congruence.
    + exfalso. apply H3. apply in_map_iff. exists (t, z). split; auto. cbn. congruence.
    + auto.
Qed.
(** Finitely many atoms: the map is onto. *)
Lemma cell_map_onto C s : unimodular C -> cell_map C s -> forall t z, In (t, z) zs -> exists z', In (t, z') zs /\ into_cell N (affine C s z') = z.
Proof.
  intros HC Hm t z Hz. set (f := fun a : Z * vec => (fst a, into_cell N (affine C s (snd a)))).
  assert (P : Permutation (map f zs) zs).
  { apply NoDup_Permutation_bis.
    - apply (NoDup_map_inv snd). rewrite map_map. unfold f. cbn [snd].
      assert (Hnd' : NoDup zs) by (eapply NoDup_map_inv; exact Hnd).
      rewrite <- (map_map snd (fun z => into_cell N (affine C s z))). apply NoDup_map_inj; auto.
      intros x y Hx Hy E. apply in_map_iff in Hx, Hy. destruct Hx as [[t1 x'] [E1 Hx]], Hy as [[t2 y'] [E2 Hy]]. cbn [snd] in E1, E2. subst x' y'.
      apply into_cell_eq in E; auto. destruct E as [k E].
      rewrite <- (into_cell_id N x), <- (into_cell_id N y) by (auto; eapply Hred; eauto). apply into_cell_eq; auto. exists (mvec (minv C) k).
      rewrite <- (minv_vec_l C x), <- (minv_vec_l C y) by auto. rewrite <- mvec_vscale, <- mvec_vadd. f_equal.
      unfold affine in E. apply (f_equal (fun v => vsub v s)) in E. rewrite vadd_vsub in E. rewrite E. generalize (mvec C y) (vscale N k). vec_ring.
    - rewrite map_length. auto.
    - intros [t1 z1] H1. apply in_map_iff in H1. destruct H1 as [[t2 z2] [E H1]]. unfold f in E. cbn [fst snd] in E. apply Hm in H1. rewrite <- E. auto. }
  apply (Permutation_in _ (Permutation_sym P)) in Hz. apply in_map_iff in Hz. destruct Hz as [[t' z'] [E Hz]]. unfold f in E. cbn [fst snd] in E. exists z'. split; congruence.
Qed.
End Cells.

(** ** The crystal *)
Local Open Scope Q_scope.
Lemma lattice_vec_iff L N v : (0 < N)%Z -> lattice_vec L v <-> exists k, qeq v (grid (qtrans L) N (vscale N k)).
Proof.
  intros HN. assert (E : forall x y z : Z, qeq (combo L (inject_Z x) (inject_Z y) (inject_Z z)) (grid (qtrans L) N (vscale N (x, y, z)))).
  { intros x y z. eapply qeq_trans; [apply combo_qmvec|]. apply qeq_sym. apply (grid_lat (qtrans L) N HN (x, y, z)). }
  split.
  - intros [x [y [z H]]]. exists (x, y, z). eapply qeq_trans; [exact H|apply E].
  - intros [[[x y] z] H]. exists x, y, z. eapply qeq_trans; [exact H|apply qeq_sym, E].
Qed.

Section Crystal.
Variables (L c2l : qmat) (N : Z) (ideal : list (Z * qvec)) (zs : list (Z * vec)).
Notation l2c := (qtrans L).
Notation G := (grid l2c N).
Hypothesis HN : (0 < N)%Z.
Hypothesis I2 : inverse_of c2l l2c.
Hypothesis Hred : forall t z, In (t, z) zs -> reduced (N, N, N)%Z z.
Hypothesis Hnd : NoDup (map snd zs).
Hypothesis Hne : zs <> [].
Hypothesis Hid : Forall2 (fun a b => fst a = fst b /\ exists k, qeq (snd a) (G (vadd (snd b) (vscale N k)))) ideal zs.

Lemma grid_morph y z : y = z -> qeq (G y) (G z).
Proof. intros ->. apply qeq_refl. Qed.
Lemma grid_inj y z : qeq (G y) (G z) -> y = z.
Proof.
  intros H. assert (E : qeq (qof N y) (qof N z)).
  { eapply qeq_trans; [apply qeq_sym, I2|]. eapply qeq_trans; [apply qmvec_morph; exact H|apply I2]. }
  assert (0 < inject_Z N) by (change 0 with (inject_Z 0); rewrite <- Zlt_Qlt; auto).
  assert (K : forall a b, inject_Z a / inject_Z N == inject_Z b / inject_Z N -> a = b).
  { intros a b Hab. apply (near_int N a b 0); auto; lra. }
  destruct y as [[a b] d], z as [[a' b'] d']. cbn [qof qeq] in E. destruct E as [X [Y Z]]. f_equal; [f_equal|]; auto.
Qed.
Lemma grid_add3 y z w : qeq (G (vadd (vadd y z) w)) (qadd (qadd (G y) (G z)) (G w)).
Proof. eapply qeq_trans; [apply grid_add; auto|]. apply qadd_morph; [apply grid_add; auto|apply qeq_refl]. Qed.
Lemma occupied_iff t x : occupied L ideal t x <-> exists z k, In (t, z) zs /\ qeq x (G (vadd z (vscale N k))).
Proof.
  split.
  - intros [p [v [Hp [Hv Hx]]]]. apply (lattice_vec_iff L N v HN) in Hv. destruct Hv as [k Hv].
    assert (exists z k', In (t, z) zs /\ qeq p (G (vadd z (vscale N k')))) as [z [k' [Hz Ep]]].
    { destruct (Forall2_in_l _ _ _ _ Hid Hp) as [[t2 z] [Hz [E [k' W]]]]. cbn [fst snd] in *. subst t2. eauto. }
    exists z, (vadd k' k). split; auto. eapply qeq_trans; [exact Hx|]. eapply qeq_trans; [apply qadd_morph; [exact Ep|exact Hv]|].
    eapply qeq_trans; [apply qeq_sym, grid_add; auto|]. apply grid_morph. vec_ring.
  - intros [z [k [Hz Hx]]]. 
    assert (exists p k', In (t, p) ideal /\ qeq p (G (vadd z (vscale N k')))) as [p [k' [Hp Ep]]].
    { destruct (Forall2_in_r _ _ _ _ Hid Hz) as [[t2 p] [Hp [E [k' W]]]]. cbn [fst snd] in *. subst t2. eauto. }
    exists p, (G (vscale N (vsub k k'))). split; auto. split; [apply (lattice_vec_iff L N _ HN); eexists; apply qeq_refl|].
    eapply qeq_trans; [exact Hx|]. apply qeq_sym. eapply qeq_trans; [apply (qadd_morph _ _ _ _ Ep (qeq_refl _))|]. eapply qeq_trans; [apply qeq_sym, grid_add; auto|].
    apply grid_morph. vec_ring.
Qed.
Lemma occupied_morph t x y : qeq x y -> occupied L ideal t x -> occupied L ideal t y.
Proof. intros E [p [v [H1 [H2 H3]]]]. exists p, v. split; auto. split; auto. eapply qeq_trans; [apply qeq_sym; exact E|exact H3]. Qed.

Variables (R : qmat) (C : mat).
Hypothesis HC : unimodular C.
Hypothesis HR : forall z, qeq (qmvec R (G z)) (G (mvec C z)).
Hypothesis Hinj : forall u v, qeq (qmvec R u) (qmvec R v) -> qeq u v.

Lemma image_grid s t z : qeq t (G s) -> qeq (qadd (qmvec R (G z)) t) (G (affine C s z)).
Proof. intros E. apply qeq_sym. eapply qeq_trans; [apply grid_add; auto|]. apply qadd_morph; [apply qeq_sym, HR|apply qeq_sym; auto]. Qed.
Lemma image_point s t x z : qeq t (G s) -> qeq x (G z) -> qeq (qadd (qmvec R x) t) (G (affine C s z)).
Proof. intros Et Ex. eapply qeq_trans; [apply qadd_morph; [apply qmvec_morph; exact Ex|apply qeq_refl]|]. apply image_grid; auto. Qed.
Lemma into_cell_shift z : exists k, z = vadd (into_cell N z) (vscale N k).
Proof. apply (proj1 (into_cell_eq N z (into_cell N z) HN)). symmetry. apply into_cell_id; auto. apply into_cell_reduced; auto. Qed.
Lemma cell_map_shift s k : cell_map N zs C s <-> cell_map N zs C (vadd s (vscale N k)).
Proof.
  assert (E : forall z, into_cell N (affine C s z) = into_cell N (affine C (vadd s (vscale N k)) z)).
  { intros z. apply into_cell_eq; auto. exists (vscale (-1) k). unfold affine. generalize (mvec C z). vec_ring. }
  unfold cell_map. split; intros H t z Hz; [rewrite <- E|rewrite E]; auto.
Qed.
Lemma keeps_crystal_grid s t : qeq t (G s) -> (cell_map N zs C s <-> keeps_crystal L ideal R t).
Proof.
  intros Et. split.
  - intros Hm j x. split.
    + intros H. apply occupied_iff in H. destruct H as [z [k [Hz Ex]]]. apply occupied_iff.
      destruct (into_cell_shift (affine C s (vadd z (vscale N k)))) as [k' Ek].
      exists (into_cell N (affine C s z)), k'. split; [apply Hm; auto|]. eapply qeq_trans; [apply (image_point s t x _ Et Ex)|]. apply grid_morph. rewrite Ek at 1. f_equal.
      apply into_cell_eq; auto. exists (mvec C k). unfold affine. rewrite mvec_vadd, mvec_vscale. generalize (mvec C z) (mvec C k). vec_ring.
    + intros H. apply occupied_iff in H. destruct H as [z [k [Hz Ex]]]. destruct (cell_map_onto N zs HN Hred Hnd C s HC Hm j z Hz) as [z' [Hz' Ez]].
      apply occupied_iff. destruct (into_cell_shift (affine C s z')) as [k' Ek]. rewrite Ez in Ek.
      exists z', (mvec (minv C) (vsub k k')). split; auto. apply Hinj.
      assert (Q1 : qeq (qadd (qmvec R x) t) (qadd (qmvec R (G (vadd z' (vscale N (mvec (minv C) (vsub k k')))))) t)).
      { eapply qeq_trans; [exact Ex|]. apply qeq_sym. eapply qeq_trans; [apply (image_grid s t _ Et)|]. apply grid_morph.
        unfold affine in *. rewrite mvec_vadd, mvec_vscale, minv_vec_r by auto. revert Ek. generalize (mvec C z'). intros w Ew. replace z with (vsub (vadd w s) (vscale N k')) by (rewrite Ew; vec_ring). vec_ring. }
      revert Q1. generalize (qmvec R x) (qmvec R (G (vadd z' (vscale N (mvec (minv C) (vsub k k')))))). clear. intros. qdestruct. cbn [qeq qadd plus] in *. lra.
  - intros Hk j z Hz. assert (H : occupied L ideal j (G z)).
    { apply occupied_iff. exists z, (0, 0, 0)%Z. split; auto. apply grid_morph. vec_ring. }
    apply (proj1 (Hk j (G z))) in H. apply occupied_iff in H. destruct H as [z' [k [Hz' E]]].
    assert (E2 : affine C s z = vadd z' (vscale N k)). { apply grid_inj. eapply qeq_trans; [apply qeq_sym, (image_grid s t z Et)|exact E]. }
    rewrite E2. replace (into_cell N (vadd z' (vscale N k))) with z'; auto. rewrite <- (into_cell_id N z') at 1 by eauto. apply into_cell_eq; auto. exists (vscale (-1) k). vec_ring.
Qed.
(** The shift of a symmetry is a grid vector. *)
Lemma keeps_crystal_shift t : keeps_crystal L ideal R t -> exists s, qeq t (G s).
Proof.
  intros Hk. destruct zs as [|[j z] zs'] eqn:Ez; [congruence|]. rewrite <- Ez in *. assert (Hz : In (j, z) zs) by (rewrite Ez; left; auto).
  assert (H : occupied L ideal j (G z)).
  { apply occupied_iff. exists z, (0, 0, 0)%Z. split; auto. apply grid_morph. vec_ring. }
  apply (proj1 (Hk j (G z))) in H. apply occupied_iff in H. destruct H as [z' [k [Hz' E]]]. exists (vsub (vadd z' (vscale N k)) (mvec C z)).
  apply qeq_sym. eapply qeq_trans; [apply grid_sub; auto|]. 
  assert (E3 : qeq (qadd (G (mvec C z)) t) (G (vadd z' (vscale N k)))). { eapply qeq_trans; [apply qadd_morph; [apply qeq_sym, HR|apply qeq_refl]|exact E]. }
  revert E3. generalize (G (mvec C z)) (G (vadd z' (vscale N k))). clear. intros. qdestruct. cbn [qeq qadd qminus] in *. lra.
Qed.
(** So the symmetries with this rotation are the entries of [iop], up to lattice vectors. *)
Lemma motions_iff t : keeps_crystal L ideal R t <-> exists i k, In i (iop N zs C) /\ qeq t (G (vadd (snd i) (vscale N k))).
Proof.
  split.
  - intros Hk. destruct (keeps_crystal_shift t Hk) as [s Es]. destruct (into_cell_shift s) as [k Ek]. exists (C, into_cell N s), k. cbn [snd].
    split; [|eapply qeq_trans; [exact Es|apply grid_morph; auto]]. apply (iop_in N zs HN Hred Hnd Hne). cbn [fst snd]. split; auto. split; [apply into_cell_reduced; auto|].
    apply (cell_map_shift (into_cell N s) k). rewrite <- Ek. apply (keeps_crystal_grid s t Es); auto.
  - intros [[C' s] [k [Hi E]]]. apply (iop_in N zs HN Hred Hnd Hne) in Hi. cbn [fst snd] in *. destruct Hi as [_ [_ Hm]]. apply (proj1 (keeps_crystal_grid _ t E)). apply cell_map_shift. auto.
Qed.
End Crystal.
