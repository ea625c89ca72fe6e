(** [get_sym_group] is the group of permutations induced by the symmetry operations of the crystal (C48). *)
From Coq Require Import Permutation.
From Verif Require Import PyBase Spec ListFacts PermFacts CanonProofs PolyaThm Mat3 HNFModel HNFProofs LatSpec LatGroupModel LatFacts LatSites LatProofs LatMain.
Local Open Scope Z_scope.

Lemma Forall2_in_l {A B} (P : A -> B -> Prop) l m a : Forall2 P l m -> In a l -> exists b, In b m /\ P a b.
Proof. induction 1 as [|x y l m Hxy _ IH]; intros Ha; cbn in *; [tauto|]. destruct Ha as [<-|Ha]; [eauto|]. destruct (IH Ha) as [b [Hb E]]; eauto. Qed.
Lemma Forall2_in_r {A B} (P : A -> B -> Prop) l m b : Forall2 P l m -> In b m -> exists a, In a l /\ P a b.
Proof. induction 1 as [|x y l m Hxy _ IH]; intros Ha; cbn in *; [tauto|]. destruct Ha as [<-|Ha]; [eauto|]. destruct (IH Ha) as [a [Hb E]]; eauto. Qed.
Lemma Forall2_nth_error {A B} (P : A -> B -> Prop) l m i a : Forall2 P l m -> nth_error l i = Some a -> exists b, nth_error m i = Some b /\ P a b.
Proof.
  intros HF. revert i. induction HF as [|x y l m Hxy _ IH]; intros [|i] E; cbn in *; try discriminate; [|auto].
  inversion E; subst. eauto.
Qed.
Lemma combine_fst_snd {A B} (l : list (A * B)) : combine (map fst l) (map snd l) = l.
Proof. induction l as [|[a b] l IH]; cbn; congruence. Qed.

Section Top.
Variables (pg : list (mat * mat)) (D : Z) (bas : list vec).
Hypothesis HD : 0 < D.
Hypothesis Hred : forall d, In d bas -> reduced (D, D, D) d.
Hypothesis Hnd : NoDup bas.
Hypothesis Hne : bas <> [].
Hypothesis Huni : forall C R, In (C, R) pg -> unimodular C.
Notation symmetry := (crystal_symmetry D bas).

Lemma cell_bas : map (into_cell D) bas = bas.
Proof. rewrite <- (map_id bas) at 2. apply map_ext_in. intros d Hd. apply into_cell_id; auto. Qed.
Lemma point_cell x : crystal_point D bas x <-> In (into_cell D x) bas.
Proof.
  split.
  - intros [d [z [Hd ->]]]. replace (into_cell D (vadd d (vscale D z))) with d; auto.
    rewrite <- (into_cell_id D d) at 1 by auto. apply into_cell_eq; auto. exists (vsub (0, 0, 0) z). vec_ring.
  - intros Hx. destruct (proj1 (into_cell_eq D x (into_cell D x) HD)) as [z E].
    + symmetry. apply into_cell_id; auto using into_cell_reduced.
    + exists (into_cell D x), z. auto.
Qed.
Lemma symmetry_cell C s : symmetry C s -> forall d, In d bas -> In (into_cell D (affine C s d)) bas.
Proof. intros Hs d Hd. apply point_cell. apply (proj1 (Hs d)). apply point_cell. rewrite into_cell_id; auto. Qed.
Lemma cell_affine_inj C s d e : unimodular C -> In d bas -> In e bas -> into_cell D (affine C s d) = into_cell D (affine C s e) -> d = e.
Proof.
  intros HC Hd He E. apply into_cell_eq in E; auto. destruct E as [z E].
  rewrite <- (into_cell_id D d), <- (into_cell_id D e) by auto. apply into_cell_eq; auto. exists (mvec (minv C) z).
  rewrite <- (minv_vec_l C d), <- (minv_vec_l C e) by auto. rewrite <- mvec_vscale, <- mvec_vadd. f_equal.
  unfold affine in E. apply (f_equal (fun x => vsub x s)) in E. rewrite vadd_vsub in E. rewrite E. generalize (mvec C e) (vscale D z). vec_ring.
Qed.
Lemma cell_affine_perm C s : unimodular C -> (forall d, In d bas -> In (into_cell D (affine C s d)) bas) ->
  Permutation (map (fun d => into_cell D (affine C s d)) bas) bas.
Proof.
  intros HC Hs. apply NoDup_Permutation_bis.
  - apply NoDup_map_inj; auto. intros x y Hx Hy E. apply (cell_affine_inj C s); auto.
  - rewrite map_length. auto.
  - intros x Hx. apply in_map_iff in Hx. destruct Hx as [d [<- Hd]]. auto.
Qed.
Lemma cell_symmetry C s : unimodular C -> (forall d, In d bas -> In (into_cell D (affine C s d)) bas) -> symmetry C s.
Proof.
  intros HC Hs x. split.
  - intros [d [z [Hd ->]]]. rewrite affine_add, mvec_vscale. specialize (Hs d Hd). apply point_cell.
    replace (into_cell D (vadd (affine C s d) (vscale D (mvec C z)))) with (into_cell D (affine C s d)); auto.
    apply into_cell_eq; auto. exists (vsub (0, 0, 0) (mvec C z)). generalize (affine C s d) (mvec C z). vec_ring.
  - intros Hx. apply point_cell in Hx.
    apply (Permutation_in _ (Permutation_sym (cell_affine_perm C s HC Hs))) in Hx. apply in_map_iff in Hx. destruct Hx as [d [E Hd]].
    apply into_cell_eq in E; auto. destruct E as [z E]. exists d, (mvec (minv C) (vsub (0, 0, 0) z)). split; auto.
    rewrite <- (minv_vec_l C x), <- (minv_vec_l C d), <- mvec_vscale, <- mvec_vadd by auto. f_equal.
    unfold affine in E. apply (f_equal (fun v => vsub v s)) in E. rewrite vadd_vsub in E. rewrite E. generalize (mvec C x). vec_ring.
Qed.

(** The space group: the rotations of the point group with the reduced shifts that make them symmetries. *)
Lemma spaceGroup_in o : In o (get_spaceGroup pg D bas) <->
  In (rot o, cart o) pg /\ reduced (D, D, D) (shift o) /\ symmetry (rot o) (shift o).
Proof.
  unfold get_spaceGroup. rewrite cell_bas. rewrite in_flat_map. split.
  - intros [[C R] [Hin Ho]]. apply in_flat_map in Ho. destruct Ho as [aj [Hj Ho]].
    destruct (forallb _ bas) eqn:Ef; [|destruct Ho]. destruct Ho as [<-|[]]. cbn [rot cart shift]. split; auto.
    split; [apply into_cell_reduced; auto|]. apply cell_symmetry; [eapply Huni; eauto|]. intros d Hd.
    rewrite forallb_forall in Ef. apply Ef in Hd. apply existsb_exists in Hd. destruct Hd as [e [He E]]. apply vec_eqb_spec in E.
    unfold affine. rewrite E. auto.
  - destruct o as [C R s]. cbn [rot cart shift]. intros [Hin [Hr Hs]]. exists (C, R). split; auto. apply in_flat_map.
    set (a0 := nth 0 bas (0, 0, 0)). assert (In a0 bas) as Ha0 by (apply nth_In; destruct bas; [congruence|cbn; lia]).
    pose proof (symmetry_cell C s Hs a0 Ha0) as Hj. exists (into_cell D (affine C s a0)). split; auto.
    assert (into_cell D (vsub (into_cell D (affine C s a0)) (mvec C a0)) = s) as Es.
    { rewrite <- (into_cell_id D s) at 2 by auto. apply into_cell_eq; auto.
      destruct (proj1 (into_cell_eq D (into_cell D (affine C s a0)) (affine C s a0) HD)) as [z E].
      - apply into_cell_id; auto. 
      - exists z. rewrite E. unfold affine. generalize (mvec C a0). vec_ring. }
    rewrite Es. destruct (forallb _ bas) eqn:Ef; [cbn; auto|]. exfalso. apply Bool.not_true_iff_false in Ef. apply Ef. apply forallb_forall.
    intros d Hd. apply existsb_exists. exists (into_cell D (affine C s d)). split; [apply symmetry_cell; auto|]. apply vec_eqb_spec. auto.
Qed.

Variables (H L B : mat) (diag : vec).
Hypothesis HL : unimodular L.
Hypothesis HB : unimodular B.
Hypothesis Hsnf : mmul (mmul L H) B = diagonal diag.
Hypothesis Hpos : positive diag.
Hypothesis Hsmall : forall i, (i < 3)%nat -> vget diag i <= 10 ^ 5.
Hypothesis Hself : self_inverse_on_basis pg D bas H.
Notation n := (Z.to_nat (volume diag)).
Notation g := (make_member_list diag).
Notation induces := (induces D bas L diag).
Notation fixes := (fixes H).
Notation basis_map := (basis_map D bas H).

Lemma dvector_ok o : In (rot o, cart o) pg -> symmetry (rot o) (shift o) ->
  exists v perm, get_dvector_permutation D bas o = Ok (v, perm) /\ is_perm (length bas) perm /\
    (fixes (rot o) -> basis_map (rot o) (shift o) perm (fun iD => vsub (0, 0, 0) (vdiv (nth iD v (0, 0, 0)) D))).
Proof.
  intros Hin Hs. unfold get_dvector_permutation. set (C := rot o) in *. set (s := shift o) in *.
  assert (unimodular C) as HC by eauto.
  set (trd := map (fun d => vadd (mvec (minv C) d) s) bas). set (rd := map (into_cell D) trd).
  assert (forall d, In d bas -> into_cell D (vadd (mvec (minv C) d) s) = into_cell D (affine C s d)) as Hcell.
  { intros d Hd. destruct (Hself C (cart o) s d Hin Hs Hd) as [k [E _]]. apply into_cell_eq; auto. exists (vsub (0, 0, 0) k). unfold affine. rewrite E.
    generalize (mvec (minv C) d). vec_ring. }
  assert (rd = map (fun d => into_cell D (affine C s d)) bas) as Erd.
  { unfold rd, trd. rewrite map_map. apply map_ext_in. auto. }
  assert (Permutation rd bas) as HP by (rewrite Erd; apply cell_affine_perm; auto; apply symmetry_cell; auto).
  assert (length rd = length bas) as Hlr by (apply Permutation_length; auto).
  destruct (same_lists_perm vec_eqb (0, 0, 0) rd bas vec_eqb_spec) as [p [Hp Hpc]]; auto.
  { eapply Permutation_NoDup; [apply Permutation_sym; exact HP|auto]. }
  rewrite Hlr in Hp, Hpc. unfold map_dvector_permutation.
  assert (match_lists (fun y x => vec_eqb x y) rd bas = p) as ->.
  { apply (match_lists_ok (fun y x => vec_eqb x y) (0, 0, 0)); rewrite ?Hlr; auto. intros i j Hi Hj. rewrite vec_eqb_spec, <- Hpc by auto. split; auto. }
  pose proof Hp as [P1 [P2 P3]]. rewrite P1, Nat.eqb_refl. cbn [negb rbind].
  exists (map (fun '(x, y) => vsub x y) (combine rd trd)), p. split; auto. split; auto.
  intros HF. split; auto. intros iD Hi. set (d := nth iD bas (0, 0, 0)). assert (In d bas) as Hd by (apply nth_In; auto).
  destruct (Hself C (cart o) s d Hin Hs Hd) as [k [Ek Hk]]. exists k. split; auto.
  assert (length trd = length bas) as Hlt by (unfold trd; apply map_length).
  rewrite nth_map_lt with (d := ((0, 0, 0), (0, 0, 0))) by (rewrite combine_length, Hlr, Hlt, Nat.min_id; auto).
  assert (nth iD (combine rd trd) ((0, 0, 0), (0, 0, 0)) = (nth iD rd (0, 0, 0), nth iD trd (0, 0, 0))) as Ec by (apply combine_nth; rewrite Hlr, Hlt; auto).
  match goal with |- context [let '(x, y) := ?t in _] => replace t with (nth iD rd (0, 0, 0), nth iD trd (0, 0, 0)) by (symmetry; exact Ec) end.
  assert (nth iD trd (0, 0, 0) = vadd (mvec (minv C) d) s) as Et by (unfold trd; rewrite nth_map_lt with (d := (0, 0, 0)) by auto; auto).
  assert (nth (nth iD p 0%nat) bas (0, 0, 0) = nth iD rd (0, 0, 0)) as Eb.
  { apply Hpc; auto. apply P3, nth_In. lia. }
  assert (nth iD rd (0, 0, 0) = into_cell D (vadd (mvec (minv C) d) s)) as Er.
  { transitivity (into_cell D (nth iD trd (0, 0, 0))); [|rewrite Et; auto]. apply nth_map_lt. eapply Nat.lt_le_trans; [exact Hi|]. apply Nat.eq_le_incl. symmetry. exact Hlt. }
  unfold pt. rewrite Eb, Er, Et. unfold affine. rewrite Ek. set (y := vadd (mvec (minv C) d) s).
  destruct (proj1 (into_cell_eq D (into_cell D y) y HD)) as [z E]; [apply into_cell_id; auto using into_cell_reduced|].
  replace (vsub (into_cell D y) y) with (vscale D z) by (rewrite E; vec_ring). rewrite vdiv_vscale by lia. rewrite E. unfold y. generalize (mvec (minv C) d). vec_ring.
Qed.

Lemma det_H : mdet H <> 0.
Proof.
  intros E. apply (f_equal mdet) in Hsnf. rewrite !mdet_mmul, E, Z.mul_0_r, Z.mul_0_l in Hsnf. destruct diag as [[a b] c]. cbn in *.
  destruct Hpos as [Ha [Hb Hc]]. nia.
Qed.

(** All rotations with their site and arrow permutations. *)
Lemma pairs_ok : (forall C R, In (C, R) pg -> orthogonal R) ->
  let ops := get_spaceGroup pg D bas in
  exists vps pairs, get_dvector_permutations D bas ops = Ok vps /\
    rmap (fun iRot => do o <- get ops iRot; do vp <- get vps iRot; do ap <- rotation_arrow_perm o; Ok (rotation_site_perm n D L diag g o vp, ap))
         (fst (get_sLV_fixing_operations H (map rot ops))) = Ok pairs /\
    (forall r a, In (r, a) pairs <-> exists o, In o ops /\ fixes (rot o) /\ induces (affine (rot o) (shift o)) r /\ turns (cart o) a) /\
    (forall o, In o ops -> fixes (rot o) -> exists r a, In (r, a) pairs /\ induces (affine (rot o) (shift o)) r /\ turns (cart o) a) /\
    Forall2 (fun i ra => exists o, nth_error ops i = Some o /\ induces (affine (rot o) (shift o)) (fst ra) /\ turns (cart o) (snd ra))
      (fst (get_sLV_fixing_operations H (map rot ops))) pairs.
Proof.
  intros Horth ops. 
  destruct (rmap_exists (get_dvector_permutation D bas) (fun o vp => is_perm (length bas) (snd vp) /\
    (fixes (rot o) -> basis_map (rot o) (shift o) (snd vp) (fun iD => vsub (0, 0, 0) (vdiv (nth iD (fst vp) (0, 0, 0)) D)))) ops) as [vps [E1 F1]].
  { intros o Ho. apply spaceGroup_in in Ho; auto. destruct Ho as [Ho1 [_ Ho2]]. destruct (dvector_ok o Ho1 Ho2) as [v [perm [E [Hp Hb]]]]. exists (v, perm). auto. }
  set (fixing := fst (get_sLV_fixing_operations H (map rot ops))).
  assert (forall i, In i fixing <-> (i < length ops)%nat /\ fixes (nth i (map rot ops) mid)) as Hfix.
  { intros i. unfold fixing. rewrite fixing_indices.
    - rewrite map_length. tauto.
    - intros r Hr. apply in_map_iff in Hr. destruct Hr as [o [<- Ho]]. apply spaceGroup_in in Ho; auto. destruct Ho as [Ho1 _]. eauto.
    - apply det_H. }
  set (Q := fun i ra => exists o, nth_error ops i = Some o /\ induces (affine (rot o) (shift o)) (fst ra) /\ turns (cart o) (snd ra)).
  destruct (rmap_exists (fun iRot => do o <- get ops iRot; do vp <- get vps iRot; do ap <- rotation_arrow_perm o; Ok (rotation_site_perm n D L diag g o vp, ap)) Q fixing) as [pairs [E2 F2]].
  { intros i Hi. apply Hfix in Hi. destruct Hi as [Hi HF]. destruct (nth_error ops i) as [o|] eqn:Eo; [|apply nth_error_None in Eo; lia].
    destruct (Forall2_nth_error _ _ _ _ _ F1 Eo) as [vp [Ev [Hp Hb]]]. unfold get. rewrite Eo, Ev. cbn [rbind].
    assert (nth i (map rot ops) mid = rot o) as Er.
    { apply nth_error_nth. apply map_nth_error. auto. }
    rewrite Er in HF. specialize (Hb HF). assert (In o ops) as Ho by (eapply nth_error_In; eauto).
    apply spaceGroup_in in Ho; auto. destruct Ho as [Ho1 [_ Ho2]].
    destruct (arrow_perm_ok o (Horth _ _ Ho1)) as [a [Ea Ha]]. rewrite Ea. cbn [rbind]. eexists. split; [reflexivity|].
    exists o. split; auto. cbn [fst snd]. split; auto. destruct vp as [v perm]. cbn [fst snd] in *.
    apply (rotation_ok D bas H L B diag); eauto. }
  exists vps, pairs. split; auto. split; auto.
  assert (forall o, In o ops -> fixes (rot o) -> exists r a, In (r, a) pairs /\ induces (affine (rot o) (shift o)) r /\ turns (cart o) a) as Hex.
  { intros o Ho HF. destruct (In_nth_error _ _ Ho) as [i Eo].
    assert (In i fixing) as Hi.
    { apply Hfix. split; [apply nth_error_Some; congruence|]. erewrite nth_error_nth; [exact HF|apply map_nth_error; exact Eo]. }
    destruct (Forall2_in_l _ _ _ _ F2 Hi) as [[r' a'] [Hra' [o' [Eo' [Hr' Ha']]]]]. rewrite Eo in Eo'. inversion Eo'; subst o'. eauto. }
  split; [|auto]. intros r a. split.
  - intros Hra. destruct (Forall2_in_r _ _ _ _ F2 Hra) as [i [Hi [o [Eo [Hr Ha]]]]]. apply Hfix in Hi. destruct Hi as [Hi HF].
    exists o. split; [eapply nth_error_In; eauto|]. split; auto.
    erewrite nth_error_nth in HF; [exact HF|apply map_nth_error; exact Eo].
  - intros [o [Ho [HF [Hr Ha]]]]. destruct (Hex o Ho HF) as [r' [a' [Hra' [Hr' Ha']]]].
    apply spaceGroup_in in Ho; auto. destruct Ho as [Ho1 [_ Ho2]].
    assert (r = r') as -> by (apply (induces_unique D bas L diag HL Hpos (rot o) (shift o)); auto; eapply Huni; eauto).
    assert (a = a') as -> by (eapply turns_unique; eauto). auto.
Qed.

(** What the final double loop runs over. *)
Lemma sym_group_shape arrows : (forall C R, In (C, R) pg -> orthogonal R) ->
  let ops := get_spaceGroup pg D bas in
  exists pairs, get_sym_group pg D bas H L diag arrows =
      Ok (flat_map (fun '(r, ap) => map (fun t => (map (fun i => nth i t 0%nat) r, if arrows then ap else seq 0 6)) (translation_perms n (length bas) diag g))
                   (reduce_rotations arrows (map fst pairs) (map snd pairs))) /\
    (forall r a, In (r, a) pairs <-> exists o, In o ops /\ fixes (rot o) /\ induces (affine (rot o) (shift o)) r /\ turns (cart o) a) /\
    Forall2 (fun i ra => exists o, nth_error ops i = Some o /\ induces (affine (rot o) (shift o)) (fst ra) /\ turns (cart o) (snd ra))
      (fst (get_sLV_fixing_operations H (map rot ops))) pairs.
Proof.
  intros Horth. destruct (pairs_ok Horth) as [vps [pairs [E1 [E2 [Hp [_ HF]]]]]]. unfold get_sym_group. rewrite cell_bas. rewrite E1. cbn [rbind].
  unfold get_rotation_perms_list. destruct diag as [[da db] dc] eqn:Ediag. rewrite <- Ediag in *.
  replace (Z.to_nat (da * db * dc)) with n by (rewrite Ediag; auto). rewrite E2. cbn [rbind]. exists pairs. auto.
Qed.

(** A rotation after a translation of the supercell, and every symmetry is of this form. *)
Notation tperm := (translation_perm n (length bas) diag g).
Lemma affine_trans C s w x : affine C s (affine mid (vscale D w) x) = affine C (vadd s (vscale D (mvec C w))) x.
Proof. unfold affine. rewrite mvec_id, mvec_vadd, mvec_vscale. generalize (mvec C x) (mvec C w). vec_ring. Qed.
Lemma induces_ext f f' p : (forall x, f x = f' x) -> induces f p -> induces f' p.
Proof. intros E [P1 P2]. split; auto. intros x i j Hi Hj. rewrite <- E in Hj. eauto. Qed.
Lemma symmetry_shift C s w : symmetry C s -> symmetry C (vadd s (vscale D (mvec C w))).
Proof.
  intros Hs x. rewrite <- affine_trans. rewrite (symmetry_translation D bas w x). apply Hs.
Qed.
Lemma rot_trans C s r t : symmetry C s -> induces (affine C s) r ->
  symmetry C (vadd s (vscale D (mvec C (mvec (minv L) t)))) /\
  induces (affine C (vadd s (vscale D (mvec C (mvec (minv L) t))))) (comp r (tperm t)).
Proof.
  intros Hs Hr. split; [apply symmetry_shift; auto|].
  apply (induces_ext (fun x => affine C s (affine mid (vscale D (mvec (minv L) t)) x))); [intros; apply affine_trans|].
  apply induces_comp; auto.
  - intros x Hx. apply (proj1 (symmetry_translation D bas (mvec (minv L) t) x)). exact Hx.
  - apply translation_ok; auto.
Qed.
Lemma rot_trans_inv C R s p : supercell_symmetry pg D bas H C R s -> induces (affine C s) p ->
  exists o, In o (get_spaceGroup pg D bas) /\ rot o = C /\ cart o = R /\
    forall r, induces (affine C (shift o)) r -> exists t, In t g /\ p = comp r (tperm t).
Proof.
  intros [Hin [HF Hs]] Hp. assert (unimodular C) as HC by eauto.
  set (s0 := into_cell D s). destruct (proj1 (into_cell_eq D s s0 HD)) as [z Ez].
  { symmetry. apply into_cell_id; auto using into_cell_reduced. }
  assert (s0 = vadd s (vscale D (mvec C (mvec (minv C) (vsub (0, 0, 0) z))))) as Es0.
  { rewrite minv_vec_r by auto. transitivity (vadd (vadd s0 (vscale D z)) (vscale D (vsub (0, 0, 0) z))); [vec_ring|rewrite <- Ez; auto]. }
  assert (symmetry C s0) as Hs0 by (rewrite Es0; apply symmetry_shift; auto).
  exists {| rot := C; cart := R; shift := s0 |}. cbn [rot cart shift]. split; [apply spaceGroup_in; cbn; auto; split; auto; split; auto; apply into_cell_reduced; auto|].
  split; auto. split; auto. intros r Hr.
  set (w := mvec (minv C) z). set (t := vmod (mvec L w) diag). exists t. split; [apply member_in; auto; apply vmod_reduced; auto|].
  destruct (rot_trans C s0 r t Hs0 Hr) as [Ht Hrt].
  (* L^-1 t differs from w by a superlattice vector *)
  assert (in_lattice H (vsub w (mvec (minv L) t))) as Hk.
  { apply (L_lattice H L B diag HL HB Hsnf Hpos). rewrite mvec_vsub, minv_vec_r by auto. rewrite <- congruent_diff. apply vmod_congruent; auto. }
  assert (in_lattice H (mvec C (vsub w (mvec (minv L) t)))) as Hk2 by (apply fixes_lattice; auto).
  pose proof (induces_shift D bas H L B diag HL HB Hsnf Hpos C _ _ _ HF Hk2 Hrt) as Hfin.
  apply (induces_unique D bas L diag HL Hpos C s); auto.
  replace s with (vadd (vadd s0 (vscale D (mvec C (mvec (minv L) t)))) (vscale D (mvec C (vsub w (mvec (minv L) t))))); auto.
  rewrite mvec_vsub. unfold w. rewrite minv_vec_r by auto. transitivity (vadd s0 (vscale D z)); [|symmetry; exact Ez]. generalize (mvec C (mvec (minv L) t)). vec_ring.
Qed.

Lemma comp_map r t : map (fun i => nth i t 0%nat) r = comp r t.
Proof. auto. Qed.
Theorem sym_group_arrows : (forall C R, In (C, R) pg -> orthogonal R) ->
  exists G, get_sym_group pg D bas H L diag true = Ok G /\ forall p a, In (p, a) G <->
    exists C R s, supercell_symmetry pg D bas H C R s /\ induces (affine C s) p /\ turns R a.
Proof.
  intros Horth. destruct (pairs_ok Horth) as [vps [pairs [E1 [E2 [Hp [Hex _]]]]]]. unfold get_sym_group. rewrite cell_bas. rewrite E1. cbn [rbind].
  unfold get_rotation_perms_list. destruct diag as [[da db] dc] eqn:Ediag. rewrite <- Ediag in *.
  replace (Z.to_nat (da * db * dc)) with n by (rewrite Ediag; auto). rewrite E2. cbn [rbind]. eexists. split; [reflexivity|].
  intros p a. rewrite in_flat_map.
  assert (forall r a, In (r, a) (reduce_rotations true (map fst pairs) (map snd pairs)) <-> In (r, a) pairs) as Hred'.
  { intros r a'. rewrite (reduce_arrows _ _ (length bas * n)); [rewrite combine_fst_snd; tauto|rewrite !map_length; auto|].
    intros r' Hr'. apply in_map_iff in Hr'. destruct Hr' as [[r2 a2] [<- Hin]]. apply Hp in Hin. destruct Hin as [o [_ [_ [Hi _]]]]. apply Hi. }
  split.
  - intros [[r a'] [Hra Hin]]. apply Hred', Hp in Hra. destruct Hra as [o [Ho [HF [Hr Ha]]]].
    apply in_map_iff in Hin. destruct Hin as [tp [E Htp]]. inversion E; subst p a'. apply in_map_iff in Htp. destruct Htp as [t [<- Ht]].
    apply spaceGroup_in in Ho; auto. destruct Ho as [Ho1 [_ Ho2]]. rewrite comp_map.
    destruct (rot_trans _ _ r t Ho2 Hr) as [Hs2 Hi2]. exists (rot o), (cart o). eexists. split; [split; [auto|split; [auto|exact Hs2]]|]. auto.
  - intros [C [R [s [Hs [Hi Ha]]]]]. destruct (rot_trans_inv C R s p Hs Hi) as [o [Ho [E3 [E4 Hr]]]]. destruct Hs as [Hs1 [HF Hs3]].
    destruct (Hex o Ho) as [r [a' [Hra [Hir Hta]]]]; [rewrite E3; auto|]. rewrite E3 in Hir. destruct (Hr r Hir) as [t [Ht ->]].
    rewrite E4 in Hta. assert (a = a') as -> by (eapply turns_unique; eauto).
    exists (r, a'). split; [apply Hred'; auto|]. apply in_map_iff. exists (tperm t). split; auto. apply in_map. auto.
Qed.
Theorem sym_group_plain : (forall C R, In (C, R) pg -> orthogonal R) ->
  exists G, get_sym_group pg D bas H L diag false = Ok G /\ forall p a, In (p, a) G <->
    a = idperm 6 /\ exists C R s, supercell_symmetry pg D bas H C R s /\ induces (affine C s) p.
Proof.
  intros Horth. destruct (pairs_ok Horth) as [vps [pairs [E1 [E2 [Hp [Hex _]]]]]]. unfold get_sym_group. rewrite cell_bas. rewrite E1. cbn [rbind].
  unfold get_rotation_perms_list. destruct diag as [[da db] dc] eqn:Ediag. rewrite <- Ediag in *.
  replace (Z.to_nat (da * db * dc)) with n by (rewrite Ediag; auto). rewrite E2. cbn [rbind]. eexists. split; [reflexivity|].
  intros p a. rewrite in_flat_map.
  assert (forall r, In r (map fst (reduce_rotations false (map fst pairs) (map snd pairs))) <-> In r (map fst pairs)) as Hred'.
  { intros r. apply reduce_plain. rewrite !map_length. auto. }
  split.
  - intros [[r a'] [Hra Hin]]. apply (in_map fst) in Hra. cbn [fst] in Hra. apply Hred', in_map_iff in Hra. destruct Hra as [[r2 a2] [E Hra]]. cbn in E. subst r2.
    apply Hp in Hra. destruct Hra as [o [Ho [HF [Hr Ha]]]].
    apply in_map_iff in Hin. destruct Hin as [tp [E Htp]]. inversion E; subst p a. apply in_map_iff in Htp. destruct Htp as [t [<- Ht]].
    apply spaceGroup_in in Ho; auto. destruct Ho as [Ho1 [_ Ho2]]. rewrite comp_map. split; auto.
    destruct (rot_trans _ _ r t Ho2 Hr) as [Hs2 Hi2]. exists (rot o), (cart o). eexists. split; [split; [auto|split; [auto|exact Hs2]]|]. auto.
  - intros [-> [C [R [s [Hs Hi]]]]]. destruct (rot_trans_inv C R s p Hs Hi) as [o [Ho [E3 [E4 Hr]]]]. destruct Hs as [Hs1 [HF Hs3]].
    destruct (Hex o Ho) as [r [a' [Hra [Hir Hta]]]]; [rewrite E3; auto|]. rewrite E3 in Hir. destruct (Hr r Hir) as [t [Ht ->]].
    apply (in_map fst) in Hra. cbn [fst] in Hra. apply Hred', in_map_iff in Hra. destruct Hra as [[r2 a2] [E Hra]]. cbn in E. subst r2.
    exists (r, a2). split; auto. apply in_map_iff. exists (tperm t). split; auto. apply in_map. auto.
Qed.
End Top.
