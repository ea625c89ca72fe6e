(** [get_sym_group] returns the permutations induced by the symmetry operations of the crystal (C48). *)
From Coq Require Import Permutation.
From Verif Require Import PyBase Spec ListFacts PermFacts CanonProofs Mat3 HNFModel HNFProofs LatSpec LatGroupModel LatFacts LatSites LatProofs.
Local Open Scope Z_scope.

Lemma unimodular_neq0 M : unimodular M -> mdet M <> 0.
Proof. intros [E|E]; rewrite E; discriminate. Qed.
Lemma vdiv_vscale D z : D <> 0 -> vdiv (vscale D z) D = z.
Proof. destruct z as [[a b] c]. intros HD. cbn. rewrite !(Z.mul_comm D), !Z.div_mul; auto. Qed.
Lemma into_cell_reduced D v : 0 < D -> reduced (D, D, D) (into_cell D v).
Proof. intros HD. apply vmod_reduced. cbn. auto. Qed.
Lemma into_cell_congruent D v : 0 < D -> congruent (D, D, D) v (into_cell D v).
Proof. intros HD. apply vmod_congruent. cbn. auto. Qed.
Lemma into_cell_id D v : 0 < D -> reduced (D, D, D) v -> into_cell D v = v.
Proof.
  intros HD Hv. apply (reduced_unique (D, D, D)); auto using into_cell_reduced. apply congruent_sym, into_cell_congruent; auto.
Qed.
Lemma into_cell_eq D u v : 0 < D -> into_cell D u = into_cell D v <-> exists z, u = vadd v (vscale D z).
Proof.
  intros HD. rewrite <- congruent_D. split.
  - intros E. eapply congruent_trans; [apply into_cell_congruent; auto|]. rewrite E. apply congruent_sym, into_cell_congruent; auto.
  - intros E. apply (reduced_unique (D, D, D)); auto using into_cell_reduced.
    eapply congruent_trans; [apply congruent_sym, into_cell_congruent; auto|]. eapply congruent_trans; [exact E|]. apply into_cell_congruent; auto.
Qed.

Section Main.
Variables (D : Z) (bas : list vec) (H L B : mat) (diag : vec).
Hypothesis HD : 0 < D.
Hypothesis Hred : forall d, In d bas -> reduced (D, D, D) d.
Hypothesis Hnd : NoDup bas.
Hypothesis HL : unimodular L.
Hypothesis HB : unimodular B.
Hypothesis Hsnf : mmul (mmul L H) B = diagonal diag.
Hypothesis Hpos : positive diag.
Hypothesis Hsmall : forall i, (i < 3)%nat -> vget diag i <= 10 ^ 5.

Notation n := (Z.to_nat (volume diag)).
Notation N := (length bas * n)%nat.
Notation g := (make_member_list diag).
Notation induces := (induces D bas L diag).
Notation symmetry := (crystal_symmetry D bas).
Notation pt := (pt D bas).
Notation cellnr := (cellnr L diag).
Notation si := (si L diag).
Notation site := (is_site D bas L diag).

Lemma reduced_small x : reduced diag x -> small x.
Proof.
  destruct x as [[a b] c]. intros Hx. pose proof (Hx 0%nat ltac:(lia)) as H0. pose proof (Hx 1%nat ltac:(lia)) as H1. pose proof (Hx 2%nat ltac:(lia)) as H2.
  pose proof (Hsmall 0%nat ltac:(lia)). pose proof (Hsmall 1%nat ltac:(lia)). pose proof (Hsmall 2%nat ltac:(lia)). cbn [vget] in *. unfold small. lia.
Qed.
Lemma member_reduced i : (i < n)%nat -> reduced diag (nth i g (0, 0, 0)).
Proof. intros Hi. rewrite member_nth by auto. apply dig_reduced; auto. Qed.

(** A list of reduced vectors, all different, one for every member: its matching against the member list. *)
Lemma match_members (img : vec -> vec) : (forall x, reduced diag (img x)) ->
  (forall x y, reduced diag x -> reduced diag y -> img x = img y -> x = y) ->
  exists p, is_perm n p /\
    (forall i j, (i < n)%nat -> (j < n)%nat -> allclose (nth j (map img g) (0, 0, 0)) (nth i g (0, 0, 0)) = true <-> j = nth i p 0%nat) /\
    (forall j, (j < n)%nat -> nth (Z.to_nat (rank diag (img (nth j g (0, 0, 0))))) p 0%nat = j).
Proof.
  intros Him Hinj. assert (length g = n) as Hgl by (apply member_length; auto).
  assert (Permutation g (map img g)) as HP.
  { symmetry. apply NoDup_Permutation_bis.
    - apply NoDup_map_inj; [|apply member_nodup; auto]. intros x y Hx Hy. apply member_in in Hx, Hy; auto.
    - rewrite map_length. auto.
    - intros x Hx. apply in_map_iff in Hx. destruct Hx as [y [<- _]]. apply member_in; auto. }
  destruct (same_lists_perm vec_eqb (0, 0, 0) g (map img g) vec_eqb_spec (member_nodup _ Hpos) HP) as [p [Hp Hc]].
  rewrite Hgl in Hp, Hc. exists p. split; auto. split.
  - intros i j Hi Hj. rewrite allclose_exact; auto. apply reduced_small, member_reduced; auto.
  - intros j Hj. symmetry. assert (reduced diag (img (nth j g (0, 0, 0)))) as Hr by auto. pose proof (rank_bound _ _ Hr).
    apply Hc; [lia|auto|]. rewrite member_nth_rank by auto.
    rewrite (nth_indep _ _ (img (0, 0, 0))) by (rewrite map_length; lia). apply map_nth.
Qed.

(** ** Translations *)
Lemma translation_ok t : induces (affine mid (vscale D (mvec (minv L) t))) (translation_perm n (length bas) diag g t).
Proof.
  destruct (match_members (fun x => vmod (vadd x t) diag)) as [p [Hp [Hc Hn]]].
  { intros x. apply vmod_reduced; auto. }
  { intros x y Hx Hy E. apply (reduced_unique diag); auto. apply congruent_sym.
    assert (congruent diag (vadd x t) (vadd y t)) as E'.
    { eapply congruent_trans; [apply vmod_congruent; auto|]. rewrite E. apply congruent_sym, vmod_congruent; auto. }
    pose proof (congruent_sub diag _ _ t t E' (congruent_refl _ _)) as E2. rewrite !vadd_vsub in E2. apply congruent_sym; auto. }
  unfold translation_perm. assert (length g = n) as Hgl by (apply member_length; auto).
  assert (find_permutation_of_group g (map (fun x => vmod (vadd x t) diag) g) = p) as ->.
  { apply (match_lists_ok allclose (0, 0, 0)); rewrite ?Hgl; auto. rewrite map_length; auto. }
  destruct (concat_blocks 0%nat (length bas) n (map (fun il => map (fun i => (il * n + i)%nat) p) (seq 0 (length bas)))) as [C1 C2].
  { rewrite map_length, seq_length; auto. }
  { intros r Hr. apply in_map_iff in Hr. destruct Hr as [il [<- _]]. rewrite map_length. apply Hp. }
  split; auto. intros x i j Hi Hj. apply (site_iff D bas L diag Hpos) in Hi. destruct Hi as [iD [z [Hi [-> ->]]]].
  assert (affine mid (vscale D (mvec (minv L) t)) (pt iD z) = pt iD (vadd z (mvec (minv L) t))) as E.
  { unfold affine, LatSites.pt. rewrite mvec_id, vscale_vadd. generalize (vscale D (mvec (minv L) t)) (vscale D z). vec_ring. }
  rewrite E in Hj. assert (j = si iD (vadd z (mvec (minv L) t))) as ->.
  { apply (site_fun D bas L diag HD Hred Hnd Hpos (pt iD (vadd z (mvec (minv L) t)))); auto. apply (site_iff D bas L diag Hpos). eauto. }
  unfold LatSites.si. rewrite C2 by (auto; apply cellnr_lt; auto). rewrite nth_map_lt with (d := 0%nat) by (rewrite seq_length; auto).
  rewrite seq_nth by auto. cbn [Nat.add]. rewrite nth_map_lt with (d := 0%nat) by (destruct Hp as [-> _]; apply cellnr_lt; auto). f_equal.
  rewrite <- (Hn (cellnr z)) by (apply cellnr_lt; auto). f_equal. unfold LatSites.cellnr at 1. do 2 f_equal.
  rewrite mvec_vadd, minv_vec_r by auto. apply (reduced_unique diag); auto using vmod_reduced.
  eapply congruent_trans; [apply congruent_sym, vmod_congruent; auto|]. eapply congruent_trans; [|apply vmod_congruent; auto].
  apply congruent_add; [|apply congruent_refl]. unfold LatSites.cellnr. rewrite member_nth_rank by auto using vmod_reduced. apply vmod_congruent; auto.
Qed.

(** ** Rotations *)
Notation fixes := (fixes H).
(** [perm] and [u] say where the basis goes: C d_i + s is basis position perm(i) in cell u_i, up to a vector of the
    superlattice. *)
Definition basis_map (C : mat) (s : vec) (perm : list nat) (u : nat -> vec) : Prop :=
  is_perm (length bas) perm /\ forall iD, (iD < length bas)%nat -> exists k, in_lattice H k /\
    affine C s (nth iD bas (0, 0, 0)) = pt (nth iD perm 0%nat) (vadd (u iD) k).
Lemma rotation_ok o v perm : unimodular (rot o) -> fixes (rot o) ->
  basis_map (rot o) (shift o) perm (fun iD => vsub (0, 0, 0) (vdiv (nth iD v (0, 0, 0)) D)) ->
  induces (affine (rot o) (shift o)) (rotation_site_perm n D L diag g o (v, perm)).
Proof.
  intros HC HF [Hperm Hbm]. set (C := rot o) in *. set (s := shift o) in *.
  assert (length g = n) as Hgl by (apply member_length; auto).
  set (img := fun iD x => vmod (mvec L (vsub (mvec C (mvec (minv L) x)) (vdiv (nth iD v (0, 0, 0)) D))) diag).
  assert (forall iD, exists p, is_perm n p /\
    (forall i j, (i < n)%nat -> (j < n)%nat -> allclose (nth j (map (img iD) g) (0, 0, 0)) (nth i g (0, 0, 0)) = true <-> j = nth i p 0%nat) /\
    (forall j, (j < n)%nat -> nth (Z.to_nat (rank diag (img iD (nth j g (0, 0, 0))))) p 0%nat = j)) as Hmm.
  { intros iD. apply match_members.
    - intros x. apply vmod_reduced; auto.
    - intros x y Hx Hy E. unfold img in E. set (w := vdiv (nth iD v (0, 0, 0)) D) in *.
      apply (reduced_unique diag); auto. rewrite congruent_diff. rewrite <- (minv_vec_r L (vsub x y)) by auto.
      apply (L_lattice H L B diag HL HB Hsnf Hpos). rewrite mvec_vsub.
      apply (fixes_lattice_inv H C); auto. rewrite mvec_vsub.
      apply (L_lattice H L B diag HL HB Hsnf Hpos).
      replace (vsub (mvec C (mvec (minv L) x)) (mvec C (mvec (minv L) y))) with (vsub (vsub (mvec C (mvec (minv L) x)) w) (vsub (mvec C (mvec (minv L) y)) w))
        by (generalize (mvec C (mvec (minv L) x)), (mvec C (mvec (minv L) y)), w; clear; vec_ring).
      rewrite mvec_vsub. rewrite <- congruent_diff. eapply congruent_trans; [apply (vmod_congruent diag); auto|]. rewrite E. apply congruent_sym, vmod_congruent; auto. }
  unfold rotation_site_perm. assert (length perm = length bas) as Hpl by apply Hperm. rewrite Hpl.
  set (rows := fun iD => match_table allclose g (rotated_members D L diag C (nth iD v (0, 0, 0)) g) (iD * n)).
  destruct (fold_upd [] (length bas) perm rows (repeat (repeat 0%nat n) (length bas)) Hperm (repeat_length _ _)) as [T1 T2].
  cbn zeta in T1, T2.
  change (fold_left (fun table iD => upd table (nth iD perm 0%nat) (match_table allclose g (rotated_members D L diag C (nth iD v (0, 0, 0)) g) (iD * n))) (seq 0 (length bas)) (repeat (repeat 0%nat n) (length bas)))
    with (fold_left (fun t iD => upd t (nth iD perm 0%nat) (rows iD)) (seq 0 (length bas)) (repeat (repeat 0%nat n) (length bas))).
  set (T := fold_left (fun t iD => upd t (nth iD perm 0%nat) (rows iD)) (seq 0 (length bas)) (repeat (repeat 0%nat n) (length bas))) in *.
  assert (forall iD p, is_perm n p -> (forall i j, (i < n)%nat -> (j < n)%nat -> allclose (nth j (map (img iD) g) (0, 0, 0)) (nth i g (0, 0, 0)) = true <-> j = nth i p 0%nat) ->
            rows iD = map (fun j => (j + iD * n)%nat) p) as Hrow.
  { intros iD p Hp Hc. unfold rows. apply (match_table_ok allclose (0, 0, 0)); rewrite ?Hgl; auto.
    unfold rotated_members. rewrite map_length; auto. }
  assert (forall r, In r T -> length r = n) as Hlen.
  { intros r Hr. apply In_nth with (d := []) in Hr. destruct Hr as [k [Hk <-]]. rewrite T1 in Hk.
    pose proof (perm_In _ _ k Hperm Hk) as Hin. apply In_nth with (d := 0%nat) in Hin. destruct Hin as [iD [HiD <-]]. rewrite Hpl in HiD.
    rewrite T2 by auto. destruct (Hmm iD) as [p [Hp [Hc _]]]. rewrite (Hrow iD p); auto. rewrite map_length. apply Hp. }
  destruct (concat_blocks 0%nat (length bas) n T T1 Hlen) as [C1 C2]. split; auto.
  intros x i j Hi Hj. apply (site_iff D bas L diag Hpos) in Hi. destruct Hi as [iD [z [Hi [-> ->]]]].
  set (w := vdiv (nth iD v (0, 0, 0)) D) in *.
  destruct (Hbm iD Hi) as [k [Hk Hbk]]. fold w in Hbk.
  assert (affine C s (pt iD z) = pt (nth iD perm 0%nat) (vadd (vsub (mvec C z) w) k)) as E.
  { unfold LatSites.pt at 1. rewrite affine_add, Hbk. unfold LatSites.pt. rewrite mvec_vscale, !vscale_vadd, !vscale_vsub, vscale_0.
    generalize (vscale D (mvec C z)) (vscale D w). vec_ring. }
  assert (nth iD perm 0%nat < length bas)%nat as Hpi by (apply Hperm, nth_In; lia).
  rewrite E in Hj. assert (j = si (nth iD perm 0%nat) (vsub (mvec C z) w)) as ->.
  { assert (si (nth iD perm 0%nat) (vsub (mvec C z) w) = si (nth iD perm 0%nat) (vadd (vsub (mvec C z) w) k)) as ->.
    { unfold LatSites.si. f_equal. apply (cellnr_eq H L B diag HL HB Hsnf Hpos).
      replace (vsub (vsub (mvec C z) w) (vadd (vsub (mvec C z) w) k)) with (vsub (0, 0, 0) k)
        by (generalize (vsub (mvec C z) w); vec_ring).
      apply lattice_sub; auto. apply lattice_0. }
    apply (site_fun D bas L diag HD Hred Hnd Hpos (pt (nth iD perm 0%nat) (vadd (vsub (mvec C z) w) k))); auto. apply (site_iff D bas L diag Hpos). eauto. }
  unfold LatSites.si. rewrite C2 by (auto; apply cellnr_lt; auto). rewrite T2 by auto.
  destruct (Hmm iD) as [p [Hp [Hc Hn]]]. rewrite (Hrow iD p) by auto.
  rewrite nth_map_lt with (d := 0%nat) by (destruct Hp as [-> _]; apply cellnr_lt; auto). rewrite (Nat.add_comm (iD * n)). f_equal.
  rewrite <- (Hn (cellnr z)) by (apply cellnr_lt; auto). f_equal. unfold LatSites.cellnr at 1. do 2 f_equal.
  unfold img. fold w. apply (reduced_unique diag); auto using vmod_reduced.
  eapply congruent_trans; [apply congruent_sym, vmod_congruent; auto|]. eapply congruent_trans; [|apply vmod_congruent; auto].
  rewrite congruent_diff. rewrite <- mvec_vsub. apply (L_lattice H L B diag HL HB Hsnf Hpos).
  unfold LatSites.cellnr. rewrite member_nth_rank by auto using vmod_reduced.
  set (y := vmod (mvec L z) diag).
  replace (vsub (vsub (mvec C z) w) (vsub (mvec C (mvec (minv L) y)) w)) with (mvec C (vsub z (mvec (minv L) y))).
  - apply fixes_lattice; auto. apply (L_lattice H L B diag HL HB Hsnf Hpos). rewrite mvec_vsub, minv_vec_r by auto. rewrite <- congruent_diff. apply vmod_congruent; auto.
  - rewrite mvec_vsub. generalize (mvec C z), (mvec C (mvec (minv L) y)). vec_ring.
Qed.
End Main.
