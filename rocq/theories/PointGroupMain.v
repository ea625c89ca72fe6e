(** The point group: exactly the isometries; and the form in which the rest of the model takes it. *)
From Coq Require Import QArith Qabs Lqa.
From Verif Require Import PyBase Mat3 ReduceModel ReduceSpec ReduceGauss ListFacts PointGroupModel PointGroupSpec PointGroupProofs LatSpec LatGroupThm.
Local Open Scope Z_scope.

(** Every isometry is found. *)
Theorem isometry_found eps D A f : 0 < D -> mdet A <> 0 -> box_ok eps D A -> lattice_isometry A f ->
  exists R, In R (map (rotation_num A) (images eps D A)) /\ acts_as A R (mdet A) f.
Proof.
  intros HD Hd Hb Hf. pose proof (isometry_linear A f Hf) as L. destruct A as [[a b] c]. destruct L as [G L].
  destruct (rows_basis a b c) as [Ha [Hb' Hc]]. destruct Hf as [F0 [F1 F2]].
  exists (rotation_num (a, b, c) (f a, f b, f c)). split.
  - apply in_map. apply gram_found; auto.
  - intros v [x [y [z ->]]]. rewrite L, <- !row_times_comb3, <- row_times_mmul, A_num. unfold row_times. rewrite transpose_mscale, mscale_vec. auto.
Qed.
Lemma acts_num A N x y z : row_times (comb3 A x y z) (rotation_num A N) = vscale (mdet A) (comb3 N x y z).
Proof. rewrite <- !row_times_comb3, <- row_times_mmul, A_num. unfold row_times. rewrite transpose_mscale, mscale_vec. auto. Qed.
Lemma comb3_rows A u v w x y z : in_rows A u -> in_rows A v -> in_rows A w -> in_rows A (comb3 (u, v, w) x y z).
Proof.
  intros [x1 [y1 [z1 ->]]] [x2 [y2 [z2 ->]]] [x3 [y3 [z3 ->]]]. exists (x * x1 + y * x2 + z * x3), (x * y1 + y * y2 + z * y3), (x * z1 + y * z2 + z * z3).
  unfold comb3. mat_ring.
Qed.
Definition vdivz (v : vec) (k : Z) : vec := let '(a, b, c) := v in (a / k, b / k, c / k).
Lemma vdivz_vscale k v : k <> 0 -> vdivz (vscale k v) k = v.
Proof. intros H. destruct v as [[a b] c]. cbn. rewrite !(Z.mul_comm k), !Z.div_mul by auto. auto. Qed.
Theorem found_isometry eps D A R : mdet A <> 0 -> (eps * inject_Z (mdet A * mdet A) < 1)%Q -> In R (map (rotation_num A) (images eps D A)) ->
  exists f, lattice_isometry A f /\ acts_as A R (mdet A) f.
Proof.
  intros Hd He H. apply in_map_iff in H. destruct H as [[[u v] w] [<- H]]. pose proof (found_gram _ _ _ _ _ _ Hd He H) as G.
  apply in_images_elim in H. destruct H as [_ [Hu [Hv Hw]]]. set (N := (u, v, w)) in *.
  exists (fun p => vdivz (row_times p (rotation_num A N)) (mdet A)).
  assert (E : forall x y z, vdivz (row_times (comb3 A x y z) (rotation_num A N)) (mdet A) = comb3 N x y z) by (intros; rewrite acts_num; apply vdivz_vscale; auto).
  split; [split; [|split]|].
  - specialize (E 0 0 0). unfold comb3 in E at 2. assert (comb3 A 0 0 0 = zero3) as Z0 by (unfold comb3, zero3; clear; mat_ring). rewrite Z0 in E. rewrite E. unfold comb3, zero3, N. clear. mat_ring.
  - intros p [x [y [z ->]]]. rewrite E. apply comb3_rows; auto.
  - intros p q [x [y [z ->]]] [x' [y' [z' ->]]]. rewrite !E, !vminus_comb3, !len2_comb3, G. auto.
  - intros p [x [y [z ->]]]. rewrite E. apply acts_num.
Qed.
Theorem pointGroup_nodup eps D A : mdet A <> 0 -> NoDup (map (rotation_num A) (images eps D A)).
Proof. intros Hd. apply NoDup_map_inj; [|apply NoDup_images; auto]. intros x y _ _. apply rotation_num_inj; auto. Qed.
(** An isometry is determined by its matrix and conversely. *)
Lemma acts_as_unique A R R' f : mdet A <> 0 -> acts_as A R (mdet A) f -> acts_as A R' (mdet A) f -> R = R'.
Proof.
  intros Hd H H'. apply (mmul_cancel_l A); auto.
  assert (K : forall v, row_times v (mmul A R) = row_times v (mmul A R')).
  { intros [[x y] z]. rewrite !row_times_mmul, row_times_comb3. rewrite (H (comb3 A x y z)), (H' (comb3 A x y z)); auto; exists x, y, z; auto. }
  pose proof (K (1, 0, 0)) as K1. pose proof (K (0, 1, 0)) as K2. pose proof (K (0, 0, 1)) as K3. revert K1 K2 K3. generalize (mmul A R), (mmul A R'). clear.
  intros M N. unfold row_times. mat_destruct. mat_unfold. intros K1 K2 K3. injection K1 as A1 A2 A3. injection K2 as B1 B2 B3. injection K3 as C1 C2 C3.
  repeat apply (f_equal2 pair); lia.
Qed.

(** ** Lattice coordinates *)
Lemma rows_factor A u v w : in_rows A u -> in_rows A v -> in_rows A w -> exists X, (u, v, w) = mmul X A.
Proof.
  intros [x1 [y1 [z1 ->]]] [x2 [y2 [z2 ->]]] [x3 [y3 [z3 ->]]]. exists ((x1, y1, z1), (x2, y2, z2), (x3, y3, z3)). unfold comb3. mat_ring.
Qed.
Lemma factor_rows A X : in_rows A (mrow (mmul X A) 0) /\ in_rows A (mrow (mmul X A) 1) /\ in_rows A (mrow (mmul X A) 2).
Proof.
  destruct X as [[[[a b] c] [[d e] f]] [[g h] i]]. split; [exists a, b, c|split; [exists d, e, f|exists g, h, i]]; unfold comb3; mat_ring.
Qed.
Lemma mdivz_mscale k M : k <> 0 -> mdivz (mscale k M) k = M.
Proof. intros H. mat_destruct. cbn. rewrite !(Z.mul_comm k), !Z.div_mul by auto. auto. Qed.
Lemma sym_form_eq M N : transpose M = M -> transpose N = N -> (forall x, vdot x (mvec M x) = vdot x (mvec N x)) -> M = N.
Proof.
  intros S1 S2 K.
  pose proof (K (1, 0, 0)) as K1. pose proof (K (0, 1, 0)) as K2. pose proof (K (0, 0, 1)) as K3. pose proof (K (1, 1, 0)) as K4. pose proof (K (1, 0, 1)) as K5. pose proof (K (0, 1, 1)) as K6. clear K.
  mat_destruct. cbv beta iota zeta delta [transpose mvec vdot] in *. injection S1 as A1 A2 A3 A4 A5 A6. injection S2 as B1 B2 B3 B4 B5 B6.
  repeat apply (f_equal2 pair); lia.
Qed.
Lemma keeps_gram A C : keeps_lengths A C <-> mmul (mmul (transpose C) (gram A)) C = gram A.
Proof.
  assert (E : forall x, len2 (mvec (transpose A) (mvec C x)) = vdot x (mvec (mmul (mmul (transpose C) (gram A)) C) x)) by (intros x; unfold len2, gram; clear; mat_destruct; mat_unfold; ring).
  assert (E' : forall x, len2 (mvec (transpose A) x) = vdot x (mvec (gram A) x)) by (intros x; unfold len2, gram; clear; mat_destruct; mat_unfold; ring).
  unfold keeps_lengths. split.
  - intros H.
    assert (S1 : transpose (mmul (mmul (transpose C) (gram A)) C) = mmul (mmul (transpose C) (gram A)) C) by (unfold gram; clear; mat_ring).
    assert (S2 : transpose (gram A) = gram A) by (unfold gram; clear; mat_ring).
    assert (K : forall x, vdot x (mvec (mmul (mmul (transpose C) (gram A)) C) x) = vdot x (mvec (gram A) x)) by (intros x; rewrite <- E, <- E'; auto).
    apply sym_form_eq; auto.
  - intros H x. rewrite E, E', H. auto.
Qed.
Lemma keeps_unimodular A C : mdet A <> 0 -> keeps_lengths A C -> unimodular C.
Proof.
  intros Hd H. apply keeps_gram in H. apply (f_equal mdet) in H. unfold gram in H. rewrite !mdet_mmul, !mdet_transpose in H. unfold unimodular.
  assert (E : (mdet C * mdet C - 1) * (mdet A * mdet A) = 0) by lia. apply Z.mul_eq_0 in E. destruct E as [E|E]; nia.
Qed.
(** The integer matrix of an image, and the matrix on coordinates. *)
Lemma coordinates A N X : mdet A <> 0 -> N = mmul X A -> gram N = gram A ->
  unimodular X /\ on_coordinates A (rotation_num A N) = transpose (minv X) /\
  mmul (rotation_num A N) (transpose A) = mscale (mdet A) (mmul (transpose A) (transpose (minv X))).
Proof.
  intros Hd E G.
  assert (HX : unimodular X).
  { pose proof (gram_det _ _ G) as HD. rewrite E, mdet_mmul, Z.abs_mul in HD. unfold unimodular. nia. }
  assert (P : mmul (rotation_num A N) (transpose A) = mscale (mdet A) (mmul (transpose A) (transpose (minv X)))).
  { apply (mmul_cancel_r (transpose X)); [rewrite mdet_transpose; destruct HX; lia|].
    rewrite mscale_mmul_l, !mmul_assoc, <- (transpose_mmul X A), <- (transpose_mmul X (minv X)), minv_r by auto. rewrite <- E.
    replace (transpose mid) with mid by reflexivity. rewrite mmul_id_r.
    transitivity (mmul (madj A) (gram N)); [unfold rotation_num, gram; apply mmul_assoc|]. rewrite G. unfold gram. rewrite <- mmul_assoc, madj_l, mscale_mmul_l, mmul_id_l. auto. }
  split; auto. split; auto. unfold on_coordinates. rewrite mmul_assoc, P, mscale_mmul_r, <- mmul_assoc, <- transpose_mmul, madj_r, transpose_mscale.
  rewrite mscale_mmul_l, mscale_mscale. replace (transpose mid) with mid by reflexivity. rewrite mmul_id_l. apply mdivz_mscale. nia.
Qed.
Lemma unimodular_transpose X : unimodular X -> unimodular (transpose X).
Proof. unfold unimodular. rewrite mdet_transpose. auto. Qed.
Lemma minv_minv X : unimodular X -> minv (minv X) = X.
Proof.
  intros H. apply (mmul_cancel_l (minv X)); [destruct (unimodular_minv X H); lia|]. rewrite minv_r, minv_l; auto. apply unimodular_minv; auto.
Qed.
Lemma minv_transpose X : unimodular X -> minv (transpose X) = transpose (minv X).
Proof.
  intros H. apply (mmul_cancel_l (transpose X)); [rewrite mdet_transpose; destruct H; lia|]. rewrite minv_r by (apply unimodular_transpose; auto).
  rewrite <- transpose_mmul, minv_l by auto. reflexivity.
Qed.
Lemma gram_keeps A X : unimodular X -> (gram (mmul X A) = gram A <-> keeps_lengths A (transpose (minv X))).
Proof.
  intros HX. rewrite keeps_gram, transpose_involutive.
  assert (E : gram (mmul X A) = mmul (mmul X (gram A)) (transpose X)) by (unfold gram; clear; mat_ring). rewrite E. set (G := gram A). split; intros H.
  - rewrite <- H at 1. rewrite !mmul_assoc, <- transpose_mmul, minv_l by auto. replace (transpose mid) with mid by reflexivity. rewrite mmul_id_r, <- mmul_assoc, minv_l, mmul_id_l by auto. auto.
  - rewrite <- H at 1. rewrite !mmul_assoc, <- transpose_mmul, minv_r by auto. replace (transpose mid) with mid by reflexivity. rewrite mmul_id_r, <- mmul_assoc, minv_r, mmul_id_l by auto. auto.
Qed.

Definition small_eps (eps : Q) (D : Z) (A : mat) : Prop := box_ok eps D A /\ (eps * inject_Z (mdet A * mdet A) < 1)%Q.

Definition pg_list (eps : Q) (D : Z) (A : mat) : list (mat * mat) :=
  map (fun R => (on_coordinates A R, mround R (mdet A))) (map (rotation_num A) (images eps D A)).
Lemma point_group_list eps D A : mdet A <> 0 -> point_group eps D A = Ok (pg_list eps D A).
Proof. intros H. unfold point_group. rewrite pointGroup_images by auto. reflexivity. Qed.
(** The matrices on coordinates are those that keep all lengths, each once. *)
Lemma pg_coordinates eps D A C : 0 < D -> mdet A <> 0 -> small_eps eps D A -> ((exists R, In (C, R) (pg_list eps D A)) <-> keeps_lengths A C).
Proof.
  intros HD Hd [Hb He]. split.
  - intros [R H]. apply in_map_iff in H. destruct H as [M [E H]]. apply in_map_iff in H. destruct H as [[[u v] w] [<- H]].
    pose proof (found_gram _ _ _ _ _ _ Hd He H) as G. apply in_images_elim in H. destruct H as [_ [Hu [Hv Hw]]].
    destruct (rows_factor A u v w Hu Hv Hw) as [X EX]. destruct (coordinates A _ X Hd EX G) as [HX [E1 E2]]. injection E as EC ER. rewrite <- EC, E1.
    apply gram_keeps; auto. rewrite <- EX. auto.
  - intros H. pose proof (keeps_unimodular A C Hd H) as HC. set (X := minv (transpose C)).
    assert (HX : unimodular X) by (apply unimodular_minv, unimodular_transpose; auto).
    assert (EC : transpose (minv X) = C) by (unfold X; rewrite minv_minv, transpose_involutive by (apply unimodular_transpose; auto); auto).
    assert (G : gram (mmul X A) = gram A) by (apply gram_keeps; auto; rewrite EC; auto).
    exists (mround (rotation_num A (mmul X A)) (mdet A)). apply in_map_iff. exists (rotation_num A (mmul X A)).
    destruct (coordinates A (mmul X A) X Hd eq_refl G) as [_ [E1 E2]]. rewrite E1, EC. split; auto. apply in_map.
    destruct (factor_rows A X) as [Hu [Hv Hw]]. destruct (mmul X A) as [[u v] w]. apply gram_found; auto.
Qed.
Lemma pg_NoDup_coordinates eps D A : mdet A <> 0 -> (eps * inject_Z (mdet A * mdet A) < 1)%Q -> NoDup (map fst (pg_list eps D A)).
Proof.
  intros Hd He. unfold pg_list. rewrite map_map. cbn [fst]. apply NoDup_map_inj; [|apply pointGroup_nodup; auto].
  intros M M' H H' E. apply in_map_iff in H, H'. destruct H as [[[u v] w] [<- H]], H' as [[[u' v'] w'] [<- H']].
  pose proof (found_gram _ _ _ _ _ _ Hd He H) as G. pose proof (found_gram _ _ _ _ _ _ Hd He H') as G'.
  apply in_images_elim in H, H'. destruct H as [_ [Hu [Hv Hw]]], H' as [_ [Hu' [Hv' Hw']]].
  destruct (rows_factor A u v w Hu Hv Hw) as [X EX], (rows_factor A u' v' w' Hu' Hv' Hw') as [X' EX'].
  destruct (coordinates A _ X Hd EX G) as [HX [E1 E2]], (coordinates A _ X' Hd EX' G') as [HX' [E1' E2']].
  rewrite E1, E1' in E. f_equal. rewrite EX, EX'. f_equal. apply (f_equal transpose) in E. rewrite !transpose_involutive in E.
  rewrite <- (minv_minv X HX), E. apply minv_minv; auto.
Qed.
Lemma round_even_exact q r : 0 < q -> round_even (q * r) q = r.
Proof.
  intros Hq. unfold round_even. rewrite (Z.mul_comm q r), Z.div_mul, Z.mod_mul by lia. cbn [Z.mul]. destruct (Z.ltb_spec 0 q); lia.
Qed.
Lemma mround_mscale k M : k <> 0 -> mround (mscale k M) k = M.
Proof.
  intros Hk. assert (E : forall x, round_even (Z.sgn k * (k * x)) (Z.abs k) = x).
  { intros x. replace (Z.sgn k * (k * x)) with (Z.abs k * x) by (destruct (Z.lt_trichotomy k 0) as [L|[L|L]]; [rewrite Z.sgn_neg, Z.abs_neq by lia|lia|rewrite Z.sgn_pos, Z.abs_eq by lia]; ring). apply round_even_exact. lia. }
  mat_destruct. unfold mround, mscale, vscale. rewrite !E. auto.
Qed.
(** Where the Cartesian matrices are integer ones, they are returned. *)
Lemma pg_cartesian eps D A : mdet A <> 0 -> (eps * inject_Z (mdet A * mdet A) < 1)%Q -> integer_rotations A ->
  forall C R, In (C, R) (pg_list eps D A) -> cartesian_of A C R /\ keeps_lengths A C.
Proof.
  intros Hd He Hi C R H. apply in_map_iff in H. destruct H as [M [E H]]. apply in_map_iff in H. destruct H as [[[u v] w] [<- H]].
  pose proof (found_gram _ _ _ _ _ _ Hd He H) as G. apply in_images_elim in H. destruct H as [_ [Hu [Hv Hw]]].
  destruct (rows_factor A u v w Hu Hv Hw) as [X EX]. destruct (coordinates A _ X Hd EX G) as [HX [E1 E2]]. injection E as EC ER.
  assert (HK : keeps_lengths A C) by (rewrite <- EC, E1; apply gram_keeps; auto; rewrite <- EX; auto).
  split; auto. destruct (Hi C HK) as [R' HR']. pose proof HR' as HR. unfold cartesian_of in HR'. rewrite <- EC, E1 in HR'. rewrite <- HR' in E2.
  rewrite <- mscale_mmul_l in E2. apply mmul_cancel_r in E2; [|rewrite mdet_transpose; auto]. rewrite E2, mround_mscale in ER by auto. subst R. exact HR.
Qed.
Lemma cartesian_orthogonal A C R : mdet A <> 0 -> keeps_lengths A C -> cartesian_of A C R -> orthogonal R.
Proof.
  intros Hd HK HR. pose proof (keeps_unimodular A C Hd HK) as HC. apply keeps_gram in HK. unfold cartesian_of in HR.
  assert (T : mmul (transpose R) R = mid).
  { apply (mmul_cancel_r (transpose A)); [rewrite mdet_transpose; auto|]. apply (mmul_cancel_l A); auto. rewrite mmul_id_l.
    transitivity (mmul (transpose (mmul R (transpose A))) (mmul R (transpose A))); [clear; mat_ring|]. rewrite HR. fold (gram A).
    transitivity (mmul (mmul (transpose C) (gram A)) C); [|exact HK]. unfold gram. clear. mat_ring. }
  split; auto. assert (mdet R <> 0) as HdR. { apply (f_equal mdet) in T. rewrite mdet_mmul, mdet_transpose, mdet_id in T. nia. }
  apply (mmul_cancel_r R); auto. rewrite mmul_assoc, T, mmul_id_l, mmul_id_r. auto.
Qed.
Lemma cartesian_unique A C R R' : mdet A <> 0 -> cartesian_of A C R -> cartesian_of A C R' -> R = R'.
Proof. unfold cartesian_of. intros Hd H H'. apply (mmul_cancel_r (transpose A)); [rewrite mdet_transpose; auto|congruence]. Qed.

(** What C48-C50 need to know about the point group. *)
Theorem pg_facts eps D A : 0 < D -> mdet A <> 0 -> small_eps eps D A -> integer_rotations A ->
  (forall C R, In (C, R) (pg_list eps D A) <-> keeps_lengths A C /\ cartesian_of A C R) /\
  (forall C R, In (C, R) (pg_list eps D A) -> unimodular C /\ orthogonal R) /\ rotation_group (pg_list eps D A) /\ NoDup (map snd (pg_list eps D A)).
Proof.
  intros HD Hd Hs Hi. destruct (Hs) as [Hb He].
  assert (F : forall C R, In (C, R) (pg_list eps D A) <-> keeps_lengths A C /\ cartesian_of A C R).
  { intros C R. split.
    - intros H. destruct (pg_cartesian eps D A Hd He Hi C R H); auto.
    - intros [HK HR]. destruct (proj2 (pg_coordinates eps D A C HD Hd Hs) HK) as [R' H]. destruct (pg_cartesian eps D A Hd He Hi C R' H) as [HR' _].
      rewrite (cartesian_unique A C R R' Hd HR HR'). auto. }
  split; auto. split; [|split].
  - intros C R H. apply F in H. destruct H as [HK HR]. split; [apply (keeps_unimodular A); auto|apply (cartesian_orthogonal A C); auto].
  - split.
    + apply F. split; [intros x; rewrite mvec_id; auto|unfold cartesian_of; rewrite mmul_id_l, mmul_id_r; auto].
    + intros C R C' R' H H'. apply F in H, H'. apply F. destruct H as [HK HR], H' as [HK' HR']. split.
      * intros x. rewrite mvec_mmul, HK. apply HK'.
      * unfold cartesian_of in *. rewrite mmul_assoc, HR', <- mmul_assoc, HR, mmul_assoc. auto.
  - assert (N : NoDup (pg_list eps D A)). { eapply NoDup_map_inv. apply pg_NoDup_coordinates; auto. }
    apply NoDup_map_inj; auto. intros [C R] [C' R'] H H' E. cbn in E. subst R'. apply F in H, H'. destruct H as [_ H], H' as [_ H']. unfold cartesian_of in *. rewrite H in H'.
    apply mmul_cancel_l in H'; [congruence|rewrite mdet_transpose; auto].
Qed.
