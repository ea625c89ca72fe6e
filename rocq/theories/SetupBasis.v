(** From the text of lattice.in with several atoms per cell to the setup of a run (C60, C68). *)
From Coq Require Import QArith.
From Verif Require Import TextModel PyBase ListFacts Mat3 FilesModel EnumOutModel ReduceSpec PointGroupModel PointGroupSpec PointGroupProofs PropertiesPoint RunModel RunSpec LatticeInModel LatticeInSpec LatticeInProofs PropertiesLatticeIn RunText PropertiesSetup.
Local Open Scope Z_scope.

(** Coordinates in lowest terms: no number but 1 and -1 divides D and all of them. *)
Definition lowest_terms (D : Z) (bas : list vec) : Prop :=
  forall d, (d | D) -> (forall x y z, In (x, y, z) bas -> (d | x) /\ (d | y) /\ (d | z)) -> Z.abs d = 1.

(** ** Same numbers, same coordinates *)
Lemma Forall2_Qeq_sym a b : Forall2 Qeq a b -> Forall2 Qeq b a.
Proof. induction 1; constructor; auto. symmetry; auto. Qed.
Lemma same_numbers_sym a b : same_numbers a b -> same_numbers b a.
Proof. unfold same_numbers. induction 1; constructor; auto. apply Forall2_Qeq_sym; auto. Qed.
Lemma same_numbers_trans a b c : same_numbers a b -> same_numbers b c -> same_numbers a c.
Proof. unfold same_numbers. intros H. revert c. induction H as [|x y a b Hxy _ IH]; intros c K; inversion K; subst; constructor; [eapply Forall2_Qeq_trans; eauto|auto]. Qed.
Lemma nth_same a b j : Forall2 Qeq a b -> (nth j a 0 == nth j b 0)%Q.
Proof. intros H. revert j. induction H; intros [|j]; cbn [nth]; auto; reflexivity. Qed.
Lemma at_coordinates_same vecs vecs' D u q q' : same_numbers vecs vecs' -> Forall2 Qeq q q' -> at_coordinates vecs D u q -> at_coordinates vecs' D u q'.
Proof.
  intros Hv Hq [a [b [c [-> [Lq H]]]]]. inversion Hv as [|? a' ? l1 Ha K1]; subst. inversion K1 as [|? b' ? l2 Hb K2]; subst. inversion K2 as [|? c' ? l3 Hc K3]; subst. inversion K3; subst.
  exists a', b', c'. split; auto. split; [rewrite <- (Forall2_length _ _ _ Hq); auto|]. destruct u as [[x y] z]. intros j Hj. specialize (H j Hj).
  rewrite <- (nth_same _ _ j Hq), <- (nth_same _ _ j Ha), <- (nth_same _ _ j Hb), <- (nth_same _ _ j Hc). auto.
Qed.
(** The coordinates along independent vectors are unique. *)
Lemma at_over DL A D u q j : 0 < DL -> at_coordinates (rows_over DL A) D u q -> (j < 3)%nat -> (nth j q 0 * inject_Z D * inject_Z DL == inject_Z (let '(x, y, z) := mvec (transpose A) u in nth j [x; y; z] 0%Z))%Q.
Proof.
  intros HD [a [b [c [E [Lq H]]]]] Hj. destruct A as [[[[p0 p1] p2] [[s0 s1] s2]] [[t0 t1] t2]]. cbn [rows_over] in E. injection E as <- <- <-. destruct u as [[x y] z]. specialize (H j Hj).
  assert (~ inject_Z DL == 0)%Q as N1 by (change 0%Q with (inject_Z 0); rewrite inject_Z_injective; lia).
  rewrite H. cbn [transpose mvec vdot].
  destruct j as [|[|[|j]]]; [..|lia]; cbn [nth]; rewrite !inject_Z_plus, !inject_Z_mult; field; auto.
Qed.
Lemma coordinates_unique DL A D D' u u' q : 0 < DL -> mdet A <> 0 -> at_coordinates (rows_over DL A) D u q -> at_coordinates (rows_over DL A) D' u' q -> vscale D' u = vscale D u'.
Proof.
  intros HD Hd H H'.
  assert (vscale D' (mvec (transpose A) u) = vscale D (mvec (transpose A) u')) as E.
  { assert (forall j, (j < 3)%nat -> D' * (let '(x, y, z) := mvec (transpose A) u in nth j [x; y; z] 0) = D * (let '(x, y, z) := mvec (transpose A) u' in nth j [x; y; z] 0)) as Hj.
    { intros j Hj. apply inject_Z_injective. rewrite !inject_Z_mult, <- (at_over DL A D u q j), <- (at_over DL A D' u' q j) by auto. ring. }
    destruct (mvec (transpose A) u) as [[x y] z], (mvec (transpose A) u') as [[x' y'] z']. pose proof (Hj 0%nat ltac:(lia)). pose proof (Hj 1%nat ltac:(lia)). pose proof (Hj 2%nat ltac:(lia)). cbn [nth] in *. unfold vscale. congruence. }
  assert (forall M k v, mvec M (vscale k v) = vscale k (mvec M v)) as Hms by (intros M k v; mat_ring).
  rewrite <- !Hms in E. apply (f_equal (mvec (madj (transpose A)))) in E. rewrite <- !mvec_mmul, madj_l in E.
  assert (mdet (transpose A) = mdet A) as Edt by mat_ring. rewrite Edt, !mscale_vec, !mvec_id in E. destruct u as [[x y] z], u' as [[x' y'] z']. unfold vscale in *. injection E as E1 E2 E3.
  repeat match goal with |- (_, _) = (_, _) => f_equal end; apply (Z.mul_reg_l _ _ (mdet A)); auto; lia.
Qed.
Lemma gcd_mult k d D l : 0 <= k -> (d | k * D) -> (forall x y z, In (x, y, z) l -> (d | k * x) /\ (d | k * y) /\ (d | k * z)) -> (d | k * gcd_all D l).
Proof.
  intros Hk HD. induction l as [|[[x y] z] l IH]; intros H; [exact HD|]. cbn [gcd_all fold_right]. fold (gcd_all D l). destruct (H x y z (or_introl eq_refl)) as [Hx [Hy Hz]].
  specialize (IH ltac:(intros; apply H; right; auto)). rewrite <- !Z.gcd_mul_mono_l_nonneg by auto. repeat apply Z.gcd_greatest; auto.
Qed.
Lemma gcd_lowest D l : 0 < D -> lowest_terms D l -> gcd_all D l = 1.
Proof. intros HD H. destruct (gcd_pos D l HD) as [A [B C]]. specialize (H (gcd_all D l) B C). lia. Qed.
Lemma proportional_divides D D' bas bas' : 0 < D -> 0 < D' -> lowest_terms D bas -> Forall2 (fun u u' => vscale D' u = vscale D u') bas bas' -> (D | D').
Proof.
  intros HD HD' Hl HF. rewrite <- (Z.mul_1_r D'), <- (gcd_lowest D bas HD Hl). apply gcd_mult; [lia|apply Z.divide_factor_r|]. clear Hl.
  induction HF as [|[[x y] z] [[x' y'] z'] bas bas' E _ IH]; intros a b c Hi; [destruct Hi|]. destruct Hi as [Hi|Hi]; [|apply IH; auto]. injection Hi as <- <- <-. unfold vscale in E. injection E as E1 E2 E3.
  rewrite E1, E2, E3. repeat split; apply Z.divide_factor_l.
Qed.
Lemma proportional_equal D D' bas bas' : 0 < D -> 0 < D' -> lowest_terms D bas -> lowest_terms D' bas' -> Forall2 (fun u u' => vscale D' u = vscale D u') bas bas' -> D' = D /\ bas' = bas.
Proof.
  intros HD HD' Hl Hl' HF. assert (D | D') as H1 by (eapply proportional_divides; eauto).
  assert (D' | D) as H2.
  { apply (proportional_divides D' D bas' bas); auto. clear - HF. induction HF; constructor; auto. }
  assert (D' = D) as -> by (apply Z.divide_antisym_nonneg; auto; lia). split; auto. clear - HF HD. induction HF as [|[[x y] z] [[x' y'] z'] bas bas' E _ IH]; auto. f_equal; auto.
  unfold vscale in E. injection E as E1 E2 E3. repeat match goal with |- (_, _) = (_, _) => f_equal end; apply (Z.mul_reg_l _ _ D); auto; lia.
Qed.

(** ** The setup *)
Lemma vec_over_ok d l : length l = 3%nat -> exists v, vec_over d l = Ok v.
Proof. destruct l as [|x [|y [|z [|]]]]; intros E; try discriminate. eexists. reflexivity. Qed.
Lemma rmap_ok {A B} (f : A -> res B) l : (forall x, In x l -> exists y, f x = Ok y) -> exists r, rmap f l = Ok r.
Proof. induction l as [|x l IH]; intros H; [eexists; reflexivity|]. cbn [rmap]. destruct (H x (or_introl eq_refl)) as [y ->]. destruct IH as [r ->]; [intros; apply H; right; auto|]. eexists. reflexivity. Qed.
Lemma divided_lowest D l : 0 < D -> lowest_terms (D / gcd_all D l) (map (fun '(x, y, z) => (x / gcd_all D l, y / gcd_all D l, z / gcd_all D l)) l).
Proof.
  intros HD d Hd Hl. destruct (gcd_pos D l HD) as [Hg [HgD Hgl]]. set (g := gcd_all D l) in *.
  assert (d * g | 1 * gcd_all D l) as Hdiv.
  { apply gcd_mult; [lia| |].
    - rewrite Z.mul_1_l. destruct HgD as [k Ek]. rewrite Ek in Hd |- *. rewrite Z.div_mul in Hd by lia. apply Z.mul_divide_mono_r. auto.
    - intros x y z Hi. rewrite !Z.mul_1_l. destruct (Hgl x y z Hi) as [[a Ea] [[b Eb] [c Ec]]]. destruct (Hl (x / g) (y / g) (z / g)) as [H1 [H2 H3]]; [apply in_map_iff; exists (x, y, z); auto|].
      rewrite Ea, Eb, Ec in *. rewrite !Z.div_mul in * by lia. repeat split; apply Z.mul_divide_mono_r; auto. }
  fold g in Hdiv. rewrite Z.mul_1_l in Hdiv. destruct Hdiv as [k Ek]. assert (g * (k * d) = g * 1) as E by (rewrite Z.mul_1_r; transitivity (k * (d * g)); [ring|auto]). apply Z.mul_reg_l in E; [|lia]. rewrite Z.mul_comm in E. apply Z.eq_mul_1 in E. lia.
Qed.
Theorem setup_basis par DL A m lo hi ranges concs D bas basq : 0 < DL -> mdet A <> 0 -> tolerable (1 # 10000000000) DL A m -> fine (1 # 10000000000) A -> integer_rotations A ->
  same_numbers (l_vecs par) (rows_over DL A) -> same_numbers (l_bas par) basq -> Forall2 (fun q u => at_coordinates (rows_over DL A) D u q) basq bas -> 0 < D -> lowest_terms D bas ->
  l_sizes par = [lo; hi] -> same_numbers (l_concs par) concs -> restrictions ranges concs ->
  exists pg c A0 m0, 0 < c /\ A = mscale c A0 /\ mdet A0 <> 0 /\ (exists DL0, 0 < DL0 /\ tolerable (1 # 10000000000) DL0 A0 m0 /\ fine (1 # 10000000000) A0 /\ integer_rotations A0 /\ point_group (1 # 10000000000) DL0 A0 = Ok pg) /\
    setup_of par = Ok {| s_pg := pg; s_D := D; s_bas := bas; s_species := Z.to_nat (l_nspecies par); s_lo := lo; s_hi := hi; s_restricted := l_restricted par; s_concs := the_ranges ranges;
        s_arrows := negb (Qeq_bool (fold_right Qplus 0%Q (get_arrow_concs par)) 0); s_na := displaced (get_arrow_concs par) |}.
Proof.
  intros HD Hd Ht Hf Hi Hv Hb Hat HDb Hlow Hs Hcs Hrs. destruct (concs_read _ _ _ Hrs Hcs) as [Ecs Elen]. destruct (least_terms DL A HD) as [c [A0 [Hcp [EDL [EA Em]]]]]. pose proof Hv as Hv'. rewrite <- (lowest_same _ _ Hv) in *. set (vecs := lowest (l_vecs par)) in *.
  assert (mdet A0 <> 0) as Hd0 by (intros E; apply Hd; rewrite EA, det_scale, E; ring). pose proof (common_pos vecs) as Hp.
  assert (0 <= 1 # 10000000000)%Q as He by discriminate. pose proof EA as EA'.
  rewrite EA in Ht. rewrite EDL in Ht at 1. destruct (tolerable_scale _ _ _ _ _ Hcp Ht) as [m0 Ht0]. rewrite EA in Hf, Hi. apply fine_scale in Hf; auto. apply rotations_scale in Hi; [|lia].
  destruct (C56_usable (1 # 10000000000) (common vecs) A0 m0) as [pg [Epg _]]; auto.
  exists pg, c, A0, m0. split; auto. split; auto. split; auto. split; [exists (common vecs); auto|].
  destruct (rmap_ok (vec_over (common (lowest (l_bas par)))) (lowest (l_bas par))) as [basis Ebasis].
  { intros q Hq. apply vec_over_ok. unfold lowest in Hq. apply in_map_iff in Hq. destruct Hq as [q' [<- Hq]]. rewrite map_length. clear - Hq Hb Hat. revert bas Hat. induction Hb as [|x y xs ys Hxy _ IH]; intros bas Hat; [destruct Hq|]. inversion Hat as [|? u ? us Hu Hus]; subst.
    destruct Hq as [->|Hq]; [|eapply IH; eauto]. rewrite (Forall2_length _ _ _ Hxy). destruct Hu as [? [? [? [_ [Hl _]]]]]. auto. }
  assert (exists su, setup_of par = Ok su) as [su Esu].
  { unfold setup_of. fold vecs. rewrite Em. cbn [rbind]. rewrite Epg. cbn [rbind]. rewrite Ebasis. cbn [rbind]. rewrite Hs. change (zget [lo; hi] 0) with (Ok lo). change (zget [lo; hi] 1) with (Ok hi). cbn [rbind]. rewrite Ecs. cbn [rbind]. eexists. reflexivity. }
  destruct (C59_basis par su Esu) as [HDs Hbs]. rewrite Esu. unfold setup_of in Esu. fold vecs in Esu. rewrite Em in Esu. cbn [rbind] in Esu. rewrite Epg in Esu. cbn [rbind] in Esu. rewrite Ebasis in Esu. cbn [rbind] in Esu. rewrite Hs in Esu.
  change (zget [lo; hi] 0) with (Ok lo) in Esu. change (zget [lo; hi] 1) with (Ok hi) in Esu. cbn [rbind] in Esu. rewrite Ecs in Esu. cbn [rbind] in Esu. set (coords := map _ basis) in Esu. set (D0 := Z.abs (mdet A0) * common (lowest (l_bas par))) in Esu.
  assert (0 < D0) as HD0 by (unfold D0; pose proof (common_pos (lowest (l_bas par))); nia). pose proof (divided_lowest D0 coords HD0) as Hlow'.
  injection Esu as <-. cbn [s_D s_bas] in HDs, Hbs.
  destruct (proportional_equal D (D0 / gcd_all D0 coords) bas (map (fun '(x, y, z) => (x / gcd_all D0 coords, y / gcd_all D0 coords, z / gcd_all D0 coords)) coords)) as [E1 E2]; auto; [|rewrite E1, E2; auto].
  clear - Hbs Hat Hb Hv' HD Hd. revert bas Hat. revert Hbs. generalize (map (fun '(x, y, z) => (x / gcd_all D0 coords, y / gcd_all D0 coords, z / gcd_all D0 coords)) coords) as bs. generalize (D0 / gcd_all D0 coords) as D'.
  intros D'.
  induction Hb as [|x y xs ys Hxy _ IH]; intros bs Hbs bas Hat; inversion Hbs as [|? u' ? bs' Hu' Hbs']; subst; inversion Hat as [|? u ? bas' Hu Hat']; subst; constructor; [|apply IH; auto].
  apply (coordinates_unique DL A D D' u u' y); auto. eapply at_coordinates_same; eauto.
Qed.
