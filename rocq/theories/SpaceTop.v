(** From the lattice vectors and positions to the list of motions (C65). *)
From Coq Require Import QArith Qabs Lqa Permutation.
From Verif Require Import PyBase Mat3 ListFacts CellModel CellProofs LatSpec LatGroupModel LatFacts LatSites LatMain LatTop.
From Verif Require Import ReduceSpec PointGroupModel PointGroupSpec PointGroupProofs PointGroupMain SpaceModel SpaceSpec SpaceProofs SpaceMain.
Local Open Scope Q_scope.

Lemma inject_ne0 d : d <> 0%Z -> ~ inject_Z d == 0.
Proof. intros H E. apply H. change 0 with (inject_Z 0) in E. apply inject_Z_injective. auto. Qed.
Lemma qtrans_qmof d M : qtrans (qmof d M) = qmof d (transpose M).
Proof. mat_destruct. reflexivity. Qed.
Lemma qmvec_qof d e M v : d <> 0%Z -> e <> 0%Z -> qeq (qmvec (qmof d M) (qof e v)) (qof (d * e) (mvec M v)).
Proof.
  intros Hd He. apply inject_ne0 in Hd, He. mat_destruct. cbn [qmof qof qmvec qdot mvec vdot qeq]. rewrite !inject_Z_plus, !inject_Z_mult. qsplit; field; auto.
Qed.
Lemma qof_cancel k e v : k <> 0%Z -> e <> 0%Z -> qeq (qof (k * e) (vscale k v)) (qof e v).
Proof. intros Hd He. apply inject_ne0 in Hd, He. mat_destruct. cbn [qof vscale qeq]. rewrite !inject_Z_mult. qsplit; field; auto. Qed.
Lemma qof_inj d u v : d <> 0%Z -> qeq (qof d u) (qof d v) -> u = v.
Proof.
  intros Hd. apply inject_ne0 in Hd. assert (K : forall a b, inject_Z a / inject_Z d == inject_Z b / inject_Z d -> a = b).
  { intros a b E. apply inject_Z_injective. transitivity (inject_Z a / inject_Z d * inject_Z d); [field; auto|]. rewrite E. field; auto. }
  mat_destruct. cbn [qof qeq]. intros [X [Y Z]]. f_equal; [f_equal|]; auto.
Qed.
Lemma qdot_qof d v : d <> 0%Z -> qdot (qof d v) (qof d v) == inject_Z (len2 v) / inject_Z (d * d).
Proof. intros Hd. apply inject_ne0 in Hd. unfold len2. mat_destruct. cbn [qof qdot vdot]. rewrite !inject_Z_plus, !inject_Z_mult. field; auto. Qed.
Lemma qdet_qmof d M : d <> 0%Z -> (mdet M <> 0)%Z -> ~ qdet (qmof d M) == 0.
Proof.
  intros Hd HM. apply inject_ne0 in Hd, HM. intros E. apply HM. assert (K : qdet (qmof d M) == inject_Z (mdet M) / (inject_Z d * inject_Z d * inject_Z d)).
  { clear - Hd. mat_destruct. cbn [qmof qof qdet mdet]. unfold Z.sub. repeat rewrite ?inject_Z_plus, ?inject_Z_opp, ?inject_Z_mult. field; auto. }
  rewrite K in E. transitivity (inject_Z (mdet M) / (inject_Z d * inject_Z d * inject_Z d) * (inject_Z d * inject_Z d * inject_Z d)); [field; auto|]. rewrite E. ring.
Qed.
Lemma qdot_morph u v u' v' : qeq u u' -> qeq v v' -> qdot u v == qdot u' v'.
Proof. qdestruct. cbn [qeq qdot]. intros [A [B C]] [D [E F]]. rewrite A, B, C, D, E, F. reflexivity. Qed.

(** *** A rotation of the list *)
Section Op.
Variables (D : Z) (A R C : mat).
Hypothesis HD : (0 < D)%Z.
Hypothesis Hd : mdet A <> 0%Z.
Hypothesis HRC : mmul R (transpose A) = mscale (mdet A) (mmul (transpose A) C).
Hypothesis Hg : gram R = mscale (mdet A * mdet A) mid.
Notation op := (qmof (mdet A) R).
Notation l2c := (qtrans (qmof D A)).

Lemma op_grid N z : (0 < N)%Z -> qeq (qmvec op (grid l2c N z)) (grid l2c N (mvec C z)).
Proof.
  intros HN. unfold grid. rewrite qtrans_qmof.
  eapply qeq_trans; [apply qmvec_morph, qmvec_qof; lia|]. eapply qeq_trans; [apply qmvec_qof; nia|]. apply qeq_sym. eapply qeq_trans; [apply qmvec_qof; lia|].
  rewrite <- (mvec_mmul R), HRC, mscale_vec, mvec_mmul. apply qeq_sym, qof_cancel; nia.
Qed.
Lemma gram_l : mmul (transpose R) R = mscale (mdet A * mdet A) mid.
Proof.
  set (k := (mdet A * mdet A)%Z) in *. assert (Hk : k <> 0%Z) by (unfold k; nia).
  assert (HR : mdet R <> 0%Z). { apply (f_equal mdet) in Hg. unfold gram in Hg. rewrite mdet_mmul, mdet_transpose, mdet_mscale, mdet_id in Hg. intros E. rewrite E in Hg. nia. }
  apply (mmul_cancel_l R); auto. rewrite <- mmul_assoc. fold (gram R). rewrite Hg, mscale_mmul_l, mscale_mmul_r, mmul_id_l, mmul_id_r. auto.
Qed.
Lemma op_rigid : rigid op.
Proof.
  intros u. pose proof gram_l as G. set (k := mdet A) in *. apply inject_ne0 in Hd. revert G Hd. unfold k. generalize (mdet A). clear. intros k G Hk.
  destruct R as [[[[a b] c] [[d e] f]] [[g h] i]]. revert G. mat_unfold. intros G.
  assert (E : forall x y, x = y -> inject_Z x == inject_Z y) by (intros; subst; reflexivity).
  injection G as G1 G2 G3 G4 G5 G6 G7 G8 G9. apply E in G1, G2, G3, G5, G6, G9. repeat rewrite ?inject_Z_plus, ?inject_Z_mult in *. change (inject_Z 0) with 0 in *. change (inject_Z 1) with 1 in *.
  destruct u as [[x y] z]. cbn [turn dotp qmof qof].
  generalize dependent (inject_Z a). generalize dependent (inject_Z b). generalize dependent (inject_Z c). generalize dependent (inject_Z d). generalize dependent (inject_Z e). generalize dependent (inject_Z f). generalize dependent (inject_Z g). generalize dependent (inject_Z h). generalize dependent (inject_Z i). generalize dependent (inject_Z k). clear. intros.
  match goal with |- ?lhs == _ => transitivity ((x * x * (q8 * q8 + q5 * q5 + q2 * q2) + y * y * (q7 * q7 + q4 * q4 + q1 * q1) + z * z * (q6 * q6 + q3 * q3 + q0 * q0) + 2 * x * y * (q8 * q7 + q5 * q4 + q2 * q1) + 2 * x * z * (q8 * q6 + q5 * q3 + q2 * q0) + 2 * y * z * (q7 * q6 + q4 * q3 + q1 * q0)) / (q * q)); [field; auto|] end.
  rewrite G1, G2, G3, G5, G6, G9. field; auto.
Qed.
Lemma small_row a b c e x y z : Qabs a <= 1 -> Qabs b <= 1 -> Qabs c <= 1 -> small e (x, y, z) -> Qabs (a * x + b * y + c * z) <= 3 * e.
Proof.
  intros Ha Hb Hc [Hx [Hy Hz]]. assert (K : forall a x, Qabs a <= 1 -> Qabs x <= e -> Qabs (a * x) <= e).
  { intros p q Hp Hq. rewrite Qabs_Qmult. eapply Qle_trans; [apply Qmult_le_compat_r; [exact Hp|apply Qabs_nonneg]|]. lra. }
  pose proof (K a x Ha Hx) as K1. pose proof (K b y Hb Hy) as K2. pose proof (K c z Hc Hz) as K3. rewrite abs_le in *. lra.
Qed.
Lemma small_quot a k : (a * a <= k * k)%Z -> k <> 0%Z -> Qabs (inject_Z a / inject_Z k) <= 1.
Proof.
  intros H Hk. assert (Hk' := inject_ne0 _ Hk). assert (Z.abs a <= Z.abs k)%Z as Hab by nia.
  unfold Qdiv. rewrite Qabs_Qmult, Qabs_Qinv. assert (P : forall m, Qabs (inject_Z m) == inject_Z (Z.abs m)) by (intros m; reflexivity). rewrite !P.
  apply Qle_shift_div_r; [change 0 with (inject_Z 0); rewrite <- Zlt_Qlt; lia|]. rewrite Qmult_1_l, <- Zle_Qle. auto.
Qed.
Lemma op_small e u : small e u -> small (3 * e) (qmvec op u).
Proof.
  intros Hu. pose proof Hg as G. revert G. clear HRC. set (k := mdet A) in *. clearbody k. destruct R as [[[[a b] c] [[d f] g]] [[h i] j]]. unfold gram. mat_unfold. intros G.
  injection G as G1 _ _ _ G5 _ _ _ G9. destruct u as [[x y] z]. cbn [qmof qof qmvec qdot]. unfold small at 1.
  split; [|split]; apply small_row; auto; apply small_quot; auto; nia.
Qed.
End Op.

(** *** Rigid rational matrices *)
Lemma rigid_gram R : rigid R -> let '((a, b, c), (d, e, f), (g, h, i)) := R in
  a * a + d * d + g * g == 1 /\ b * b + e * e + h * h == 1 /\ c * c + f * f + i * i == 1 /\
  a * b + d * e + g * h == 0 /\ a * c + d * f + g * i == 0 /\ b * c + e * f + h * i == 0.
Proof.
  intros H. pose proof (H (1, 0, 0)) as H1. pose proof (H (0, 1, 0)) as H2. pose proof (H (0, 0, 1)) as H3. pose proof (H (1, 1, 0)) as H4. pose proof (H (1, 0, 1)) as H5. pose proof (H (0, 1, 1)) as H6. clear H.
  destruct R as [[[[a b] c] [[d e] f]] [[g h] i]]. cbn [turn dotp] in *. ring_simplify in H1. ring_simplify in H2. ring_simplify in H3. ring_simplify in H4. ring_simplify in H5. ring_simplify in H6.
  repeat split; lra.
Qed.
Lemma rigid_det R : rigid R -> ~ qdet R == 0.
Proof.
  intros H. apply rigid_gram in H. destruct R as [[[[a b] c] [[d e] f]] [[g h] i]]. destruct H as (H1 & H2 & H3 & H4 & H5 & H6). intros E.
  assert (K : qdet ((a, b, c), (d, e, f), (g, h, i)) * qdet ((a, b, c), (d, e, f), (g, h, i)) ==
    (a * a + d * d + g * g) * ((b * b + e * e + h * h) * (c * c + f * f + i * i) - (b * c + e * f + h * i) * (b * c + e * f + h * i))
    - (a * b + d * e + g * h) * ((a * b + d * e + g * h) * (c * c + f * f + i * i) - (b * c + e * f + h * i) * (a * c + d * f + g * i))
    + (a * c + d * f + g * i) * ((a * b + d * e + g * h) * (b * c + e * f + h * i) - (b * b + e * e + h * h) * (a * c + d * f + g * i))) by (cbn [qdet]; ring).
  rewrite H1, H2, H3, H4, H5, H6, E in K. lra.
Qed.
Lemma qtrans_invol R : qtrans (qtrans R) = R.
Proof. qdestruct. reflexivity. Qed.
Lemma rigid_onto R : rigid R -> forall x, exists y, qeq (qmvec R y) x.
Proof.
  intros H x. assert (Hd : ~ qdet (qtrans R) == 0) by (rewrite qdet_trans; apply rigid_det; auto). exists (qmvec (qinv R) x). pose proof (inv_l2c (qtrans R) Hd x) as E. rewrite qtrans_invol in E. exact E.
Qed.
Lemma rigid_inj R : rigid R -> forall u v, qeq (qmvec R u) (qmvec R v) -> qeq u v.
Proof.
  intros H u v E. assert (Hd : ~ qdet (qtrans R) == 0) by (rewrite qdet_trans; apply rigid_det; auto). pose proof (inv_c2l (qtrans R) Hd) as I. rewrite qtrans_invol in I.
  eapply qeq_trans; [apply qeq_sym, I|]. eapply qeq_trans; [apply qmvec_morph; exact E|apply I].
Qed.
(** In a primitive cell every motion of the crystal keeps the lattice. *)
Lemma primitive_keeps L atoms R t : primitive L atoms -> rigid R -> keeps_crystal L atoms R t -> keeps_lattice L R.
Proof.
  intros Hp HR Hk v Hv. apply Hp. intros j x.
  assert (M : forall x y, qeq x y -> occupied L atoms j x -> occupied L atoms j y).
  { intros a b E [p [w [H1 [H2 H3]]]]. exists p, w. split; auto. split; auto. eapply qeq_trans; [apply qeq_sym; exact E|exact H3]. }
  destruct (rigid_onto R HR (qminus x t)) as [y Ey].
  assert (E1 : qeq (plus (turn R y) t) x).
  { change (qeq (qadd (qmvec R y) t) x). revert Ey. generalize (qmvec R y). clear. intros. qdestruct. cbn [qeq qadd qminus] in *. lra. }
  assert (E2 : qeq (plus (turn R (plus y v)) t) (plus x (turn R v))).
  { change (qeq (qadd (qmvec R (qadd y v)) t) (qadd x (qmvec R v))). eapply qeq_trans; [apply qadd_morph; [apply qmvec_add|apply qeq_refl]|].
    change (qeq (qadd (qmvec R y) t) x) in E1. revert E1. generalize (qmvec R y) (qmvec R v). clear. intros. qdestruct. cbn [qeq qadd qminus] in *. lra. }
  assert (T : occupied L atoms j y <-> occupied L atoms j (plus y v)).
  { destruct Hv as [a [b [c Ev]]]. split; intros [p [w [H1 [[a' [b' [c' Ew]]] H3]]]].
    - exists p, (plus w v). split; auto. split.
      + exists (a' + a)%Z, (b' + b)%Z, (c' + c)%Z. change (qeq (qadd w v) (combo L (inject_Z (a' + a)) (inject_Z (b' + b)) (inject_Z (c' + c)))). rewrite !inject_Z_plus.
        change (qeq w (combo L (inject_Z a') (inject_Z b') (inject_Z c'))) in Ew. change (qeq v (combo L (inject_Z a) (inject_Z b) (inject_Z c))) in Ev.
        eapply qeq_trans; [apply qadd_morph; [exact Ew|exact Ev]|]. clear. destruct L as [[[[? ?] ?] [[? ?] ?]] [[? ?] ?]]. cbn [combo qadd qeq]. qsplit; ring.
      + change (qeq (qadd y v) (qadd p (qadd w v))). change (qeq y (qadd p w)) in H3. revert H3. clear. intros. qdestruct. cbn [qeq qadd] in *. lra.
    - exists p, (qminus w v). split; auto. split.
      + exists (a' + - a)%Z, (b' + - b)%Z, (c' + - c)%Z. change (qeq (qminus w v) (combo L (inject_Z (a' + - a)) (inject_Z (b' + - b)) (inject_Z (c' + - c)))). rewrite !inject_Z_plus, !inject_Z_opp.
        change (qeq w (combo L (inject_Z a') (inject_Z b') (inject_Z c'))) in Ew. change (qeq v (combo L (inject_Z a) (inject_Z b) (inject_Z c))) in Ev. revert Ew Ev. generalize (inject_Z a) (inject_Z b) (inject_Z c) (inject_Z a') (inject_Z b') (inject_Z c'). clear.
        intros. destruct L as [[[[? ?] ?] [[? ?] ?]] [[? ?] ?]]. qdestruct. cbn [combo qminus qeq] in *. destruct Ew as [W1 [W2 W3]], Ev as [V1 [V2 V3]]. rewrite W1, W2, W3, V1, V2, V3. qsplit; ring.
      + change (qeq y (qadd p (qminus w v))). change (qeq (qadd y v) (qadd p w)) in H3. revert H3. clear. intros. qdestruct. cbn [qeq qadd qminus] in *. lra. }
  split; intros H.
  - apply (M _ _ E2). apply (proj1 (Hk j _)). apply (proj1 T). apply (proj2 (Hk j _)). apply (M _ _ (qeq_sym _ _ E1)). auto.
  - apply (M _ _ E1). apply (proj1 (Hk j _)). apply (proj2 T). apply (proj2 (Hk j _)). apply (M _ _ (qeq_sym _ _ E2)). auto.
Qed.
(** A rigid matrix that keeps the lattice is an integer matrix on lattice coordinates. *)
Lemma rigid_coordinates D A R : (0 < D)%Z -> rigid R -> keeps_lattice (qmof D A) R ->
  exists C, keeps_lengths A C /\ forall x, qeq (qmvec R (qmvec (qtrans (qmof D A)) x)) (qmvec (qtrans (qmof D A)) (qmvec (qmof 1 C) x)).
Proof.
  intros HD HR HL. set (L := qmof D A) in *. set (l2c := qtrans L) in *.
  assert (K : forall x y z : Z, exists k : vec, qeq (qmvec R (qmvec l2c (qof 1 (x, y, z)))) (qmvec l2c (qof 1 k))).
  { intros x y z. assert (Q1 : forall u : Z, inject_Z u / inject_Z 1 == inject_Z u) by (intros; change (inject_Z 1) with 1; field).
    assert (lattice_vec L (qmvec l2c (qof 1 (x, y, z)))) as H.
    { exists x, y, z. apply qeq_sym. eapply qeq_trans; [apply combo_qmvec|]. apply qmvec_morph. cbn [qof qeq]. rewrite !Q1. qsplit; reflexivity. }
    apply HL in H. destruct H as [x' [y' [z' H]]]. exists (x', y', z'). eapply qeq_trans; [exact H|]. eapply qeq_trans; [apply combo_qmvec|]. apply qmvec_morph. cbn [qof qeq]. rewrite !Q1. qsplit; reflexivity. }
  destruct (K 1 0 0)%Z as [u Eu], (K 0 1 0)%Z as [v Ev], (K 0 0 1)%Z as [w Ew]. clear K. exists (transpose (u, v, w)).
  assert (E : forall x, qeq (qmvec R (qmvec l2c x)) (qmvec l2c (qmvec (qmof 1 (transpose (u, v, w))) x))).
  { intros [[x y] z]. clearbody l2c. clear HL HR HD. destruct u as [[u1 u2] u3], v as [[v1 v2] v3], w as [[w1 w2] w3]. destruct l2c as [[[[a b] c] [[d e] f]] [[g h] i]], R as [[[[r1 r2] r3] [[r4 r5] r6]] [[r7 r8] r9]].
    cbn [qof qmof transpose qmvec qdot qeq] in *. change (inject_Z 1 / inject_Z 1) with 1 in *. change (inject_Z 0 / inject_Z 1) with 0 in *.
    generalize dependent (inject_Z u1 / inject_Z 1). generalize dependent (inject_Z u2 / inject_Z 1). generalize dependent (inject_Z u3 / inject_Z 1). generalize dependent (inject_Z v1 / inject_Z 1). generalize dependent (inject_Z v2 / inject_Z 1). generalize dependent (inject_Z v3 / inject_Z 1). generalize dependent (inject_Z w1 / inject_Z 1). generalize dependent (inject_Z w2 / inject_Z 1). generalize dependent (inject_Z w3 / inject_Z 1).
    intros. destruct Eu as [U1 [U2 U3]], Ev as [V1 [V2 V3]], Ew as [W1 [W2 W3]].
    assert (G : forall P Q U V W U' V' W', P == x * U + y * V + z * W -> Q == x * U' + y * V' + z * W' -> U == U' -> V == V' -> W == W' -> P == Q).
    { intros P Q' U V W U' V' W' HP HQ H1 H2 H3. rewrite HP, HQ, H1, H2, H3. reflexivity. }
    qsplit; [refine (G _ _ _ _ _ _ _ _ _ _ U1 V1 W1)|refine (G _ _ _ _ _ _ _ _ _ _ U2 V2 W2)|refine (G _ _ _ _ _ _ _ _ _ _ U3 V3 W3)]; ring. }
  split; auto. intros x. set (C := transpose (u, v, w)) in *.
  assert (X1 : qeq (qmvec l2c (qof 1 x)) (qof D (mvec (transpose A) x))) by (unfold l2c, L; rewrite qtrans_qmof; eapply qeq_trans; [apply qmvec_qof; lia|]; rewrite Z.mul_1_r; apply qeq_refl).
  assert (X2 : qeq (qmvec l2c (qmvec (qmof 1 C) (qof 1 x))) (qof D (mvec (transpose A) (mvec C x)))).
  { eapply qeq_trans; [apply qmvec_morph, qmvec_qof; lia|]. unfold l2c, L. rewrite qtrans_qmof. eapply qeq_trans; [apply qmvec_qof; lia|]. replace (D * (1 * 1))%Z with D by ring. apply qeq_refl. }
  pose proof (HR (qof D (mvec (transpose A) x))) as HH. change (qdot (qmvec R (qof D (mvec (transpose A) x))) (qmvec R (qof D (mvec (transpose A) x))) == qdot (qof D (mvec (transpose A) x)) (qof D (mvec (transpose A) x))) in HH.
  assert (X3 : qeq (qmvec R (qof D (mvec (transpose A) x))) (qof D (mvec (transpose A) (mvec C x)))).
  { eapply qeq_trans; [apply qmvec_morph, qeq_sym; exact X1|]. eapply qeq_trans; [apply E|exact X2]. }
  rewrite (qdot_morph _ _ _ _ X3 X3), !qdot_qof in HH by lia. apply inject_Z_injective. assert (~ inject_Z (D * D) == 0) as N0 by (apply inject_ne0; nia).
  transitivity (inject_Z (len2 (mvec (transpose A) (mvec C x))) / inject_Z (D * D) * inject_Z (D * D)); [field; auto|]. rewrite HH. field. auto.
Qed.

(** *** The positions *)
Lemma fractional_grid L N p : fractional L N p -> exists z, qeq p (grid (qtrans L) N z).
Proof. intros [x [y [z H]]]. exists (x, y, z). eapply qeq_trans; [exact H|apply combo_qmvec]. Qed.
Lemma choose_cells L N (ideal : list (Z * pt)) : (0 < N)%Z -> (forall a, In a ideal -> fractional L N (snd a)) ->
  exists zs, Forall2 (fun a b => fst a = fst b /\ exists k, qeq (snd a) (grid (qtrans L) N (vadd (snd b) (vscale N k)))) ideal zs /\
    forall t z, In (t, z) zs -> reduced (N, N, N)%Z z.
Proof.
  intros HN. induction ideal as [|[t p] l IH]; intros H; [exists []; split; auto; intros ? ? []|].
  destruct IH as [zs [H1 H2]]; [intros a Ha; apply H; right; auto|]. destruct (fractional_grid L N p) as [z Hz]; [apply (H (t, p)); left; auto|].
  destruct (into_cell_shift N HN z) as [k Ek]. exists ((t, into_cell N z) :: zs). split.
  - constructor; auto. cbn [fst snd]. split; auto. exists k. rewrite <- Ek. auto.
  - intros t' z' [E|H']; [|eapply H2; eauto]. assert (z' = into_cell N z) as -> by congruence. apply into_cell_reduced; auto.
Qed.
Lemma distinct_nodup L N ideal zs : (0 < N)%Z -> distinct_sites L ideal ->
  Forall2 (fun a b => fst a = fst b /\ exists k, qeq (snd a) (grid (qtrans L) N (vadd (snd b) (vscale N k)))) ideal zs -> NoDup (map snd zs).
Proof.
  intros HN Hd HF. revert Hd. unfold distinct_sites. induction HF as [|[t p] [t' z] l m [E [k W]] HF IH]; intros Hd; cbn [map snd]; constructor.
  - intros Hin. apply in_map_iff in Hin. destruct Hin as [[t2 z2] [E2 Hin]]. cbn [snd] in E2. subst z2. destruct (Forall2_in_r _ _ _ _ HF Hin) as [[t3 p3] [H3 [_ [k3 W3]]]]. cbn [fst snd] in *.
    inversion Hd as [|? ? Hall _]; subst. rewrite Forall_forall in Hall. apply (Hall _ H3). exists (grid (qtrans L) N (vscale N (vsub k k3))). split.
    + apply (lattice_vec_iff L N _ HN). eexists. apply qeq_refl.
    + cbn [snd]. change (qeq p (qadd p3 (grid (qtrans L) N (vscale N (vsub k k3))))). eapply qeq_trans; [exact W|]. apply qeq_sym. eapply qeq_trans; [apply qadd_morph; [exact W3|apply qeq_refl]|].
      eapply qeq_trans; [apply qeq_sym, grid_add; auto|]. replace (vadd (vadd z (vscale N k3)) (vscale N (vsub k k3))) with (vadd z (vscale N k)) by vec_ring. apply qeq_refl.
  - apply IH. inversion Hd; auto.
Qed.
Definition cartesian (L : qmat) (lattcoords : bool) (p : pt) : pt := if lattcoords then (let '(x, y, z) := p in combo L x y z) else p.

Lemma Forall2_concat {X Y W} (P : Y -> W -> Prop) (f : X -> res (list Y)) (g : X -> list W) l :
  (forall x, In x l -> exists out, f x = Ok out /\ Forall2 P out (g x)) -> exists out, rmap f l = Ok out /\ Forall2 P (concat out) (concat (map g l)).
Proof.
  induction l as [|x l IH]; intros H; [exists []; cbn; auto|]. destruct (H x (or_introl eq_refl)) as [o [O1 O2]]. destruct IH as [os [O3 O4]]; [intros; apply H; right; auto|].
  exists (o :: os). cbn. rewrite O1. cbn. rewrite O3. cbn. split; auto. apply Forall2_app; auto.
Qed.
Lemma rmap_map {X Y W} (f : Y -> res W) (g : X -> Y) l : rmap f (map g l) = rmap (fun x => f (g x)) l.
Proof. induction l as [|x l IH]; cbn; auto. destruct (f (g x)); cbn; auto. rewrite IH. auto. Qed.

Lemma lin_ext M1 M2 M3 M4 : (forall z : vec, qeq (qmvec M1 (qmvec M2 (qof 1 z))) (qmvec M3 (qmvec M4 (qof 1 z)))) ->
  forall x, qeq (qmvec M1 (qmvec M2 x)) (qmvec M3 (qmvec M4 x)).
Proof.
  intros H [[x y] z]. pose proof (H (1, 0, 0)%Z) as Eu. pose proof (H (0, 1, 0)%Z) as Ev. pose proof (H (0, 0, 1)%Z) as Ew. clear H. qdestruct.
  cbn [qof qmvec qdot qeq] in *. change (inject_Z 1 / inject_Z 1) with 1 in *. change (inject_Z 0 / inject_Z 1) with 0 in *.
  destruct Eu as [U1 [U2 U3]], Ev as [V1 [V2 V3]], Ew as [W1 [W2 W3]].
  assert (G : forall P Q U V W U' V' W', P == x * U + y * V + z * W -> Q == x * U' + y * V' + z * W' -> U == U' -> V == V' -> W == W' -> P == Q).
  { intros P Q' U V W U' V' W' HP HQ H1 H2 H3. rewrite HP, HQ, H1, H2, H3. reflexivity. }
  qsplit; [refine (G _ _ _ _ _ _ _ _ _ _ U1 V1 W1)|refine (G _ _ _ _ _ _ _ _ _ _ U2 V2 W2)|refine (G _ _ _ _ _ _ _ _ _ _ U3 V3 W3)]; ring.
Qed.
Lemma Forall2_map_r {X Y W} (P : X -> Y -> Prop) (P' : X -> W -> Prop) (f : Y -> W) l m : (forall x y, P x y -> P' x (f y)) -> Forall2 P l m -> Forall2 P' l (map f m).
Proof. intros H. induction 1; cbn; constructor; auto. Qed.
Lemma mvec_ext_eq M M' : (forall z, mvec M z = mvec M' z) -> M = M'.
Proof.
  intros K. pose proof (K (1, 0, 0)%Z) as K1. pose proof (K (0, 1, 0)%Z) as K2. pose proof (K (0, 0, 1)%Z) as K3. revert K1 K2 K3. clear.
  mat_destruct. mat_unfold. intros K1 K2 K3. injection K1 as A1 A2 A3. injection K2 as B1 B2 B3. injection K3 as C1 C2 C3. repeat apply (f_equal2 pair); lia.
Qed.

Section Space.
Variables (eps : Q) (D : Z) (A : mat) (atoms ideal : list (Z * pt)) (lattcoords : bool) (N : Z) (delta c : Q).
Hypothesis HD : (0 < D)%Z.
Hypothesis Hd : mdet A <> 0%Z.
Hypothesis Hbox : box_ok eps D A.
Hypothesis Hfine : eps * inject_Z (mdet A * mdet A) < 1.
Hypothesis HN : (0 < N)%Z.
Hypothesis C1 : 1 <= c.
Hypothesis D0 : 0 <= delta.
Hypothesis S1 : 8 * c * delta < eps.
Hypothesis S2 : 2 * c * eps * inject_Z N < 1.
Notation L := (qmof D A).
Hypothesis Hcb : coordinates_bound L c.
Hypothesis Hne : ideal <> [].
Hypothesis Hat : Forall2 (fun a b => fst a = fst b /\ within delta (cartesian L lattcoords (snd a)) (snd b)) atoms ideal.
Hypothesis Hfr : forall a, In a ideal -> fractional L N (snd a).
Hypothesis Hdi : distinct_sites L ideal.
Notation l2c := (qtrans L).
Notation c2l := (qinv l2c).

Lemma det_ok : ~ qdet L == 0.
Proof. apply qdet_qmof; auto. lia. Qed.
Lemma bound_l2c e x : small e (qmvec l2c x) -> small (c * e) x.
Proof. destruct x as [[x y] z]. intros H. apply Hcb. eapply small_morph; [apply Qeq_refl|apply qeq_sym, combo_qmvec|exact H]. Qed.
Lemma eps_range : 0 <= eps /\ eps <= 1.
Proof.
  assert (0 <= c * delta) by (apply Qmult_le_0_compat; lra). assert (E : 0 <= eps) by lra. split; auto.
  assert (1 <= inject_Z N) by (change 1 with (inject_Z 1); rewrite <- Zle_Qle; lia). assert (0 <= (c - 1) * eps) by (apply Qmult_le_0_compat; lra).
  assert (0 <= (2 * c * eps) * (inject_Z N - 1)) by (apply Qmult_le_0_compat; lra). lra.
Qed.
Lemma positions_ok zs : Forall2 (fun a b => fst a = fst b /\ exists k, qeq (snd a) (grid l2c N (vadd (snd b) (vscale N k)))) ideal zs ->
  (forall t z, In (t, z) zs -> reduced (N, N, N)%Z z) ->
  exists ps, rmap (fun '(t, p) => do q <- bring_into_cell p c2l l2c eps; Ok (t, q)) (map (fun '(t, p) => (t, if lattcoords then qmvec l2c p else p)) atoms) = Ok ps /\
    Forall2 (fun a b => fst a = fst b /\ cnear l2c N delta (snd a) (snd b)) ps zs.
Proof.
  intros HZ HR. rewrite rmap_map. pose proof Hat as HF. revert zs HZ HR. clear Hat Hne Hfr Hdi. induction HF as [|[t p] [t' q] l m [E W] _ IH]; intros zs HZ HR.
  - inversion HZ; subst. exists []. cbn. auto.
  - inversion HZ as [|? [t2 z] ? m2 [E2 [k W2]] HZ']; subst. cbn [fst snd] in *. subst. destruct (IH m2 HZ') as [ps [P1 P2]]; [intros; eapply HR; right; eauto|].
    assert (W3 : cnear l2c N delta (if lattcoords then qmvec l2c p else p) (vadd z (vscale N k))).
    { unfold cnear. eapply within_morph; [|exact W2|exact W]. unfold cartesian. destruct lattcoords; [|apply qeq_refl]. destruct p as [[x y] w]. apply combo_qmvec. }
    destruct eps_range as [E0 E1].
    destruct (s_bring N c eps HN E0 delta D0 C1 S1 S2 delta) as [B1 B2]; [lra|].
    destruct (bring_near l2c c2l N c eps (inv_l2c _ det_ok) (inv_c2l _ det_ok) HN bound_l2c E0 E1 delta _ _ B1 B2 W3) as [r [R1 R2]].
    exists ((t2, r) :: ps). cbn [rmap]. rewrite R1. cbn [rbind]. rewrite P1. cbn [rbind]. split; auto. constructor; auto. cbn [fst snd]. split; auto.
    replace z with (into_cell N (vadd z (vscale N k))); auto. rewrite <- (into_cell_id N z) by (auto; eapply HR; left; eauto). apply into_cell_eq; auto. exists k. rewrite (into_cell_id N z); auto. eapply HR; left; eauto.
Qed.

Definition ops : list mat := map (rotation_num A) (images eps D A).
Lemma op_facts R : In R ops -> unimodular (on_coordinates A R) /\ keeps_lengths A (on_coordinates A R) /\
  mmul R (transpose A) = mscale (mdet A) (mmul (transpose A) (on_coordinates A R)) /\ gram R = mscale (mdet A * mdet A) mid.
Proof.
  intros H. apply in_map_iff in H. destruct H as [[[u v] w] [<- H]]. pose proof (found_gram _ _ _ _ _ _ Hd Hfine H) as G. apply in_images_elim in H. destruct H as [_ [Hu [Hv Hw]]].
  destruct (rows_factor A u v w Hu Hv Hw) as [X EX]. destruct (coordinates A _ X Hd EX G) as [HX [X1 X2]]. rewrite X1.
  split; [apply unimodular_transpose, unimodular_minv; auto|]. split; [apply gram_keeps; auto; rewrite <- EX; auto|]. split; [exact X2|apply gram_num; auto].
Qed.
Lemma op_found C : keeps_lengths A C -> exists R, In R ops /\ on_coordinates A R = C.
Proof.
  intros H. assert (S : small_eps eps D A) by (split; auto). destruct (proj2 (pg_coordinates eps D A C HD Hd S) H) as [R0 HR]. apply in_map_iff in HR. destruct HR as [R [E HR]]. exists R. split; auto. injection E as E1 E2. auto.
Qed.

Variable zs : list (Z * vec).
Hypothesis HZ : Forall2 (fun a b => fst a = fst b /\ exists k, qeq (snd a) (grid l2c N (vadd (snd b) (vscale N k)))) ideal zs.
Hypothesis HZr : forall t z, In (t, z) zs -> reduced (N, N, N)%Z z.
Lemma zs_ne : zs <> [].
Proof. intros E. pose proof HZ as F. rewrite E in F. pose proof Hne as K. destruct ideal; [congruence|inversion F]. Qed.
Lemma zs_nodup : NoDup (map snd zs).
Proof. eapply distinct_nodup; eauto. Qed.
(** The exact motions: rotations of the list with the shifts of [iop]. *)
Definition keys : list (mat * vec) := concat (map (fun R => map (fun i => (R, snd i)) (iop N zs (on_coordinates A R))) ops).
Definition motion (k : mat * vec) : qmat * qvec := (qmof (mdet A) (fst k), grid l2c N (snd k)).
Lemma in_keys R s : In (R, s) keys <-> In R ops /\ reduced (N, N, N)%Z s /\ cell_map N zs (on_coordinates A R) s.
Proof.
  unfold keys. rewrite <- flat_map_concat_map, in_flat_map. split.
  - intros [R' [HR H]]. apply in_map_iff in H. destruct H as [i [E Hi]]. assert (R' = R /\ snd i = s) as [-> <-] by (split; congruence). apply (iop_in N zs HN HZr zs_nodup zs_ne) in Hi. tauto.
  - intros [HR [Hr Hm]]. exists R. split; auto. apply in_map_iff. exists (on_coordinates A R, s). split; auto. apply (iop_in N zs HN HZr zs_nodup zs_ne). cbn. auto.
Qed.
Lemma NoDup_keys : NoDup keys.
Proof.
  unfold keys. rewrite <- flat_map_concat_map. apply NoDup_flat_map_disj.
  - apply pointGroup_nodup; auto.
  - intros R HR. apply NoDup_map_inj; [|apply iop_NoDup; auto using zs_nodup, zs_ne].
    intros x y Hx Hy E. apply (iop_in N zs HN HZr zs_nodup zs_ne) in Hx, Hy. destruct x as [C s], y as [C' s']. cbn [fst snd] in *. destruct Hx as [-> _], Hy as [-> _]. congruence.
  - intros R R' y _ _ H H'. apply in_map_iff in H, H'. destruct H as [i [E _]], H' as [i' [E' _]]. congruence.
Qed.
Lemma motion_inj k k' : In k keys -> In k' keys -> same_motion L (motion k) (motion k') -> k = k'.
Proof.
  destruct k as [R s], k' as [R' s']. intros Hk Hk' [H1 [v [Hv H2]]]. apply in_keys in Hk, Hk'. destruct Hk as [_ [Hs _]], Hk' as [_ [Hs' _]]. unfold motion in *. cbn [fst snd] in *. f_equal.
  - apply mvec_ext_eq. intros z. apply (qof_inj (mdet A)); auto.
    assert (E : forall M, qeq (qmvec (qmof (mdet A) M) (qof 1 z)) (qof (mdet A) (mvec M z))) by (intros M; eapply qeq_trans; [apply qmvec_qof; lia|]; rewrite Z.mul_1_r; apply qeq_refl).
    eapply qeq_trans; [apply qeq_sym, E|]. eapply qeq_trans; [apply (H1 (qof 1 z))|apply E].
  - apply (lattice_vec_iff L N v HN) in Hv. destruct Hv as [k Hv]. assert (s = vadd s' (vscale N k)) as E.
    { apply (grid_inj L c2l N HN (inv_c2l _ det_ok)). eapply qeq_trans; [exact H2|]. eapply qeq_trans; [apply qadd_morph; [apply qeq_refl|exact Hv]|]. apply qeq_sym, grid_add; auto. }
    rewrite <- (into_cell_id N s), <- (into_cell_id N s') by auto. apply into_cell_eq; auto. exists k. auto.
Qed.
Theorem space_group_ok : exists out, SpaceModel.get_spaceGroup eps D A atoms lattcoords = Ok out /\
  Forall2 (fun o m => fst o = fst m /\ within (4 * delta) (snd o) (snd m)) out (map motion keys).
Proof.
  unfold SpaceModel.get_spaceGroup. rewrite (proj2 (Z.eqb_neq _ _) Hd). unfold get_transformations. cbv iota beta.
  destruct (positions_ok zs HZ HZr) as [ps [P1 P2]]. rewrite P1. cbn [rbind]. rewrite pointGroup_images by auto. cbn [rbind]. fold ops.
  assert (Hps : ps <> []) by (pose proof zs_ne as K; intros E; rewrite E in P2; destruct zs; [congruence|inversion P2]). destruct eps_range as [E0 E1].
  rewrite rmap_map.
  destruct (Forall2_concat (fun o m : qmat * qvec => fst o = fst m /\ within (4 * delta) (snd o) (snd m)) (fun R => try_op eps l2c c2l ps (qmof (mdet A) R)) (fun R => map motion (map (fun i => (R, snd i)) (iop N zs (on_coordinates A R)))) ops) as [out [O1 O2]].
  { intros R HR. destruct (op_facts R HR) as [F1 [F2 [F3 F4]]].
    destruct (try_op_near l2c c2l N c eps (inv_l2c _ det_ok) (inv_c2l _ det_ok) HN bound_l2c E0 E1 delta (qmof (mdet A) R) (on_coordinates A R) D0 C1 S1 S2
      (fun z => op_grid D A R _ HD Hd F3 N z HN) (op_small A R Hd F4) ps zs P2 Hps) as [o [O1 O2]]. exists o. split; auto.
    rewrite map_map. eapply Forall2_map_r; [|exact O2]. intros x y [X1 [X2 X3]]. unfold motion. cbn [fst snd]. auto. }
  exists (concat out). rewrite O1. cbn [rbind]. split; auto. unfold keys. rewrite concat_map, map_map. auto.
Qed.
Theorem motions_sound m : In m (map motion keys) -> rigid (fst m) /\ keeps_lattice L (fst m) /\ keeps_crystal L ideal (fst m) (snd m).
Proof.
  intros H. apply in_map_iff in H. destruct H as [[R s] [<- H]]. apply in_keys in H. destruct H as [HR [Hs Hm]]. destruct (op_facts R HR) as [F1 [F2 [F3 F4]]]. unfold motion. cbn [fst snd].
  pose proof (op_rigid A R Hd F4) as Hri. split; auto. split.
  - intros v Hv. apply (lattice_vec_iff L N v HN) in Hv. destruct Hv as [k Hv]. apply (lattice_vec_iff L N _ HN). exists (mvec (on_coordinates A R) k).
    eapply qeq_trans; [apply (qmvec_morph (qmof (mdet A) R) _ _ Hv)|]. eapply qeq_trans; [apply (op_grid D A R _ HD Hd F3 N _ HN)|]. rewrite mvec_vscale. apply qeq_refl.
  - apply (keeps_crystal_grid L c2l N ideal zs HN (inv_c2l _ det_ok) HZr zs_nodup HZ _ (on_coordinates A R) F1 (fun z => op_grid D A R _ HD Hd F3 N z HN) (rigid_inj _ Hri) s _ (qeq_refl _)). auto.
Qed.
Theorem motions_complete R t : rigid R -> keeps_lattice L R -> keeps_crystal L ideal R t -> exists m, In m (map motion keys) /\ same_motion L m (R, t).
Proof.
  intros HR HL Hk. destruct (rigid_coordinates D A R HD HR HL) as [C [HC E]]. destruct (op_found C HC) as [M [HM EM]]. destruct (op_facts M HM) as [F1 [F2 [F3 F4]]]. rewrite EM in *.
  assert (EG : forall n z, (0 < n)%Z -> qeq (qmvec R (grid l2c n z)) (grid l2c n (mvec C z))).
  { intros n z Hn. unfold grid. eapply qeq_trans; [apply E|]. apply qmvec_morph. eapply qeq_trans; [apply qmvec_qof; lia|]. rewrite Z.mul_1_l. apply qeq_refl. }
  assert (ER : forall u, qeq (qmvec (qmof (mdet A) M) u) (qmvec R u)).
  { assert (K : forall x, qeq (qmvec (qmof (mdet A) M) (qmvec l2c x)) (qmvec R (qmvec l2c x))).
    { apply lin_ext. intros z. eapply qeq_trans; [apply (op_grid D A M _ HD Hd F3 1 z ltac:(lia))|]. apply qeq_sym, (EG 1%Z z). lia. }
    intros u. pose proof (inv_l2c _ det_ok u) as I. eapply qeq_trans; [apply qmvec_morph, qeq_sym; exact I|]. eapply qeq_trans; [apply K|]. apply qmvec_morph. exact I. }
  destruct (proj1 (motions_iff L c2l N ideal zs HN (inv_c2l _ det_ok) HZr zs_nodup zs_ne HZ R C F1 (fun z => EG N z HN) (rigid_inj R HR) t) Hk) as [i [k [Hi Et]]].
  exists (motion (M, snd i)). split.
  - apply in_map. apply in_keys. rewrite EM. apply (iop_in N zs HN HZr zs_nodup zs_ne) in Hi. tauto.
  - split; unfold motion; cbn [fst snd]; [exact ER|]. exists (grid l2c N (vscale N (vscale (-1) k))). split; [apply (lattice_vec_iff L N _ HN); eexists; apply qeq_refl|].
    change (qeq (grid l2c N (snd i)) (qadd t (grid l2c N (vscale N (vscale (-1) k))))). apply qeq_sym. eapply qeq_trans; [apply qadd_morph; [exact Et|apply qeq_refl]|].
    eapply qeq_trans; [apply qeq_sym, grid_add; auto|]. replace (vadd (vadd (snd i) (vscale N k)) (vscale N (vscale (-1) k))) with (snd i) by (generalize (snd i); vec_ring). apply qeq_refl.
Qed.
Theorem motions_distinct i j m m' : nth_error (map motion keys) i = Some m -> nth_error (map motion keys) j = Some m' -> same_motion L m m' -> i = j.
Proof.
  intros Hi Hj Hs. rewrite nth_error_map in Hi, Hj. destruct (nth_error keys i) as [k|] eqn:Ki; [|discriminate]. destruct (nth_error keys j) as [k'|] eqn:Kj; [|discriminate]. cbn in Hi, Hj.
  assert (k = k') by (apply motion_inj; [eapply nth_error_In; eauto|eapply nth_error_In; eauto|congruence]). subst k'.
  eapply (proj1 (NoDup_nth_error keys) NoDup_keys); [apply nth_error_Some; congruence|congruence].
Qed.
End Space.
