(** C56: the point group of the parent lattice ([get_lattice_pointGroup]), and C48-C50 with the lattice as input. *)
From Coq Require Import QArith Qabs Lqa.
From Verif Require Import PyBase Spec Mat3 PhononsModel TreeModel HNFModel LatGroupModel LatSpec LatGroupThm SNFModel SuperModel StructSpec.
From Verif Require Import ReduceSpec PointGroupModel PointGroupSpec PointGroupProofs PointGroupMain PropertiesGroup PropertiesStruct.
Local Open Scope Z_scope.

(** The tolerance in units of the lattice: [m] bounds the squared lengths of the lattice vectors. *)
Definition tolerable (eps : Q) (D : Z) (A : mat) (m : Z) : Prop :=
  (forall i, (i < 3)%nat -> len2 (mrow A i) <= m) /\ (0 <= eps)%Q /\ (3 * eps * eps * inject_Z m < inject_Z (D * D))%Q.
Definition fine (eps : Q) (A : mat) : Prop := (eps * inject_Z (mdet A * mdet A) < 1)%Q.

Lemma tolerable_box eps D A m : 0 < D -> tolerable eps D A m -> box_ok eps D A.
Proof.
  intros HD [Hm [He Ht]]. split; auto. assert (max_norm2 A <= m) as L.
  { destruct A as [[a b] c]. unfold max_norm2, ReduceModel.nrm2. pose proof (Hm 0%nat ltac:(lia)). pose proof (Hm 1%nat ltac:(lia)). pose proof (Hm 2%nat ltac:(lia)). cbn [mrow] in *. unfold len2 in *. lia. }
  eapply Qle_lt_trans; [|exact Ht]. rewrite (Qmult_comm _ (inject_Z (max_norm2 A))), (Qmult_comm _ (inject_Z m)). apply Qmult_le_compat_r; [rewrite <- Zle_Qle; auto|].
  apply Qmult_le_0_compat; auto. apply Qmult_le_0_compat; auto. discriminate.
Qed.

(** Every map of the lattice into itself that keeps the origin and all distances is found (whatever the tolerance, as long
    as it is small against the cell), and nothing is listed twice. *)
Theorem C56_complete : forall eps D A m, 0 < D -> mdet A <> 0 -> tolerable eps D A m ->
  exists ops, get_lattice_pointGroup eps D A = Ok ops /\ NoDup ops /\
    forall f, lattice_isometry A f -> exists R, In R ops /\ acts_as A R (mdet A) f.
Proof.
  intros eps D A m HD Hd Ht. exists (map (rotation_num A) (images eps D A)). split; [apply pointGroup_images; auto|]. split; [apply pointGroup_nodup; auto|].
  intros f Hf. apply isometry_found; auto. eapply tolerable_box; eauto.
Qed.
(** Nothing else is, if the tolerance cannot blur the entries of R R^T. *)
Theorem C56_sound : forall eps D A, mdet A <> 0 -> fine eps A ->
  exists ops, get_lattice_pointGroup eps D A = Ok ops /\
    forall R, In R ops -> exists f, lattice_isometry A f /\ acts_as A R (mdet A) f.
Proof.
  intros eps D A Hd Hf. exists (map (rotation_num A) (images eps D A)). split; [apply pointGroup_images; auto|]. intros R HR. eapply found_isometry; eauto.
Qed.
Theorem C56_singular : forall eps D A, mdet A = 0 -> get_lattice_pointGroup eps D A = Err ValueError.
Proof. intros eps D A H. unfold get_lattice_pointGroup. rewrite H. reflexivity. Qed.
(** With a coarse tolerance other maps are listed: 1 x 1 x 1.1 with tolerance 1/4 is taken for a cube. *)
Definition slab : mat := ((10, 0, 0), (0, 10, 0), (0, 0, 11)).
Theorem C56_coarse_refuted : exists ops R, get_lattice_pointGroup (1 # 4) 10 slab = Ok ops /\ In R ops /\
  ~ exists f, lattice_isometry slab f /\ acts_as slab R (mdet slab) f.
Proof.
  eexists. exists ((0, 0, 1210), (0, 1100, 0), (1000, 0, 0)). split; [vm_compute; reflexivity|]. split.
  - repeat (try (left; reflexivity); right).
  - intros [f [Hf Hact]]. destruct (rows_basis (10, 0, 0) (0, 10, 0) (0, 0, 11)) as [Ha _]. pose proof (Hact _ Ha) as E.
    pose proof (isometry_dot _ _ _ _ Hf Ha Ha) as L. destruct (f (10, 0, 0)) as [[x y] z]. 
    change (row_times (10, 0, 0) _) with (0, 0, 12100) in E. change (vscale (mdet slab) (x, y, z)) with (1100 * x, 1100 * y, 1100 * z) in E. change (x * x + y * y + z * z = 100) in L.
    pose proof (f_equal (fun v => vget v 0) E) as E0. pose proof (f_equal (fun v => vget v 1) E) as E1. pose proof (f_equal (fun v => vget v 2) E) as E2. cbn [vget] in E0, E1, E2. assert (x = 0 /\ y = 0 /\ z = 11) as [-> [-> ->]] by lia. lia.
Qed.

(** The form the rest takes it in: the integer matrices on lattice coordinates that keep all lengths, each once, ... *)
Theorem C56_coordinates : forall eps D A m, 0 < D -> mdet A <> 0 -> tolerable eps D A m -> fine eps A ->
  exists pg, point_group eps D A = Ok pg /\ NoDup (map fst pg) /\ forall C, (exists R, In (C, R) pg) <-> keeps_lengths A C.
Proof.
  intros eps D A m HD Hd Ht Hf. exists (pg_list eps D A). split; [apply point_group_list; auto|]. split; [apply pg_NoDup_coordinates; auto|].
  intros C. apply pg_coordinates; auto. split; auto. eapply tolerable_box; eauto.
Qed.
(** ... with their Cartesian matrices, where these are integer; then all that C48-C50 suppose about the point group holds. *)
Theorem C56_usable : forall eps D A m, 0 < D -> mdet A <> 0 -> tolerable eps D A m -> fine eps A -> integer_rotations A ->
  exists pg, point_group eps D A = Ok pg /\ (forall C R, In (C, R) pg <-> keeps_lengths A C /\ cartesian_of A C R) /\
    (forall C R, In (C, R) pg -> unimodular C /\ orthogonal R) /\ rotation_group pg /\ NoDup (map snd pg).
Proof.
  intros eps D A m HD Hd Ht Hf Hi. exists (pg_list eps D A). split; [apply point_group_list; auto|]. apply pg_facts; auto. split; auto. eapply tolerable_box; eauto.
Qed.

(** The three cubic lattices, of any lattice constant. *)
Definition simple_cubic (k : Z) : mat := ((k, 0, 0), (0, k, 0), (0, 0, k)).
Definition face_centred (k : Z) : mat := ((0, k, k), (k, 0, k), (k, k, 0)).
Definition body_centred (k : Z) : mat := ((- k, k, k), (k, - k, k), (k, k, - k)).

Lemma integer_scale k A B : k <> 0 -> A = mscale k B -> integer_rotations B -> integer_rotations A.
Proof.
  intros Hk -> H C HC.
  assert (keeps_lengths B C) as HB.
  { intros x. specialize (HC x). rewrite transpose_mscale, !mscale_vec in HC. unfold len2 in *.
    assert (forall u, vdot (vscale k u) (vscale k u) = k * k * vdot u u) as E by (intros [[a b] c]; unfold vscale, vdot; ring). rewrite !E in HC. nia. }
  destruct (H C HB) as [R HR]. exists R. unfold cartesian_of in *. rewrite transpose_mscale, mscale_mmul_r, mscale_mmul_l, HR. auto.
Qed.
(** Column [j] of a length-preserving matrix has the length of basis vector [j]; pairs keep their dot products. *)
Lemma keeps_cols A C : keeps_lengths A C -> mmul (mmul (transpose C) (gram A)) C = gram A.
Proof. apply keeps_gram. Qed.
Definition cube3 : list vec := flat_map (fun x => flat_map (fun y => map (fun z => (x, y, z)) [-1; 0; 1]) [-1; 0; 1]) [-1; 0; 1].
Lemma in_cube3 x y z : -1 <= x <= 1 -> -1 <= y <= 1 -> -1 <= z <= 1 -> In (x, y, z) cube3.
Proof.
  intros Hx Hy Hz. assert (forall t, -1 <= t <= 1 -> In t [-1; 0; 1]) as E by (intros t Ht; cbn; lia).
  apply in_flat_map. exists x. split; [apply E; auto|]. apply in_flat_map. exists y. split; [apply E; auto|]. apply in_map_iff. exists z. split; auto.
Qed.
Definition form (G : mat) (u v : vec) : Z := vdot u (mvec G v).
(** Is (A^T C A^-T) an integer matrix? *)
Definition int_cart (A C : mat) : bool :=
  let d := mdet A in mat_eqb (mscale d (mdivz (mmul (mmul (transpose A) C) (madj (transpose A))) d)) (mmul (mmul (transpose A) C) (madj (transpose A))).
Definition all_cart (A : mat) : bool :=
  let G := gram A in
  let S := filter (fun v => form G v v =? mget G 0 0) cube3 in
  forallb (fun u => forallb (fun v => if form G u v =? mget G 0 1 then
     forallb (fun w => if (form G u w =? mget G 0 2) && (form G v w =? mget G 1 2) then int_cart A (transpose (u, v, w)) else true) S else true) S) S.
Lemma all_cart_ok A : mdet A <> 0 -> all_cart A = true -> mget (gram A) 1 1 = mget (gram A) 0 0 -> mget (gram A) 2 2 = mget (gram A) 0 0 ->
  (forall v, form (gram A) v v = mget (gram A) 0 0 -> In v cube3) -> integer_rotations A.
Proof.
  intros Hd Hall E1 E2 Hs C HC. apply keeps_gram in HC. set (G := gram A) in *.
  assert (exists u v w, C = transpose (u, v, w)) as [u [v [w EC]]].
  { destruct (transpose C) as [[u v] w] eqn:E. exists u, v, w. rewrite <- E, transpose_involutive. auto. }
  assert (EG : mmul (mmul (transpose C) G) C = ((form G u u, form G u v, form G u w), (form G v u, form G v v, form G v w), (form G w u, form G w v, form G w w))).
  { rewrite EC. clear. unfold form. generalize G. intros H. mat_ring. }
  rewrite HC in EG. clear HC.
  assert (form G u u = mget G 0 0 /\ form G v v = mget G 1 1 /\ form G w w = mget G 2 2 /\ form G u v = mget G 0 1 /\ form G u w = mget G 0 2 /\ form G v w = mget G 1 2) as [F1 [F2 [F3 [F4 [F5 F6]]]]] by (repeat split; match goal with |- _ = mget G ?i ?j => rewrite (f_equal (fun M => mget M i j) EG); reflexivity end).
  rewrite E1 in F2. rewrite E2 in F3.
  assert (forall t, form G t t = mget G 0 0 -> In t (filter (fun v => form G v v =? mget G 0 0) cube3)) as HS by (intros t Ht; apply filter_In; split; [apply Hs; auto|apply Z.eqb_eq; auto]).
  unfold all_cart in Hall. fold G in Hall. rewrite forallb_forall in Hall. specialize (Hall u (HS u F1)). rewrite forallb_forall in Hall. specialize (Hall v (HS v F2)).
  rewrite F4, Z.eqb_refl in Hall. rewrite forallb_forall in Hall. specialize (Hall w (HS w F3)). rewrite F5, F6, !Z.eqb_refl in Hall. cbn [andb] in Hall.
  unfold int_cart in Hall. rewrite <- EC in Hall. apply mat_eqb_spec in Hall. set (d := mdet A) in *.
  exists (mdivz (mmul (mmul (transpose A) C) (madj (transpose A))) d). unfold cartesian_of. apply (mscale_inj d); auto.
  rewrite <- mscale_mmul_l, Hall, mmul_assoc, madj_l, mdet_transpose, mscale_mmul_r, mmul_id_r. auto.
Qed.
Lemma small_sq t : t * t <= 3 -> -1 <= t <= 1.
Proof. intros H. split; nia. Qed.
Theorem C56_cubic : forall k, k <> 0 -> integer_rotations (simple_cubic k) /\ integer_rotations (face_centred k) /\ integer_rotations (body_centred k).
Proof.
  intros k Hk. split; [|split].
  - intros C _. exists C. unfold cartesian_of, simple_cubic. mat_ring.
  - apply (integer_scale k _ (face_centred 1)); auto; [unfold face_centred; cbn; repeat apply (f_equal2 pair); ring|].
    apply all_cart_ok; [discriminate|vm_compute; reflexivity|reflexivity|reflexivity|].
    intros [[x y] z] H. assert (x * x + y * y + z * z + (x + y + z) * (x + y + z) = 2) as E by (unfold form, gram, face_centred in H; mat_unfold; revert H; mat_unfold; lia).
    pose proof (Z.square_nonneg x). pose proof (Z.square_nonneg y). pose proof (Z.square_nonneg z). pose proof (Z.square_nonneg (x + y + z)). apply in_cube3; apply small_sq; lia.
  - apply (integer_scale k _ (body_centred 1)); auto; [unfold body_centred; cbn; repeat apply (f_equal2 pair); ring|].
    apply all_cart_ok; [discriminate|vm_compute; reflexivity|reflexivity|reflexivity|].
    intros [[x y] z] H. assert (x * x + y * y + z * z + (x - y) * (x - y) + (x - z) * (x - z) + (y - z) * (y - z) = 3) as E by (unfold form, gram, body_centred in H; revert H; mat_unfold; lia).
    pose proof (Z.square_nonneg x). pose proof (Z.square_nonneg y). pose proof (Z.square_nonneg z). pose proof (Z.square_nonneg (x - y)). pose proof (Z.square_nonneg (x - z)). pose proof (Z.square_nonneg (y - z)).
    apply in_cube3; apply small_sq; lia.
Qed.
(** Rectangular boxes of any proportions: the cubic, tetragonal and orthorhombic primitive lattices. *)
Definition box_lattice (a b c : Z) : mat := ((a, 0, 0), (0, b, 0), (0, 0, c)).
Lemma box_entry a b x q : a <> 0 -> b <> 0 -> a * a * (x * x) <= b * b -> x * (a * a) = b * b * q -> exists r, r * b = a * x.
Proof.
  intros Ha Hb H E. destruct (Z.eq_dec x 0) as [->|Hx]; [exists 0; lia|].
  assert (q <> 0) as Hq by (intros ->; nia).
  assert (0 < a * a) as Pa by nia. assert (0 < b * b) as Pb by nia.
  assert (Z.abs x * (a * a) = b * b * Z.abs q) as E' by (rewrite <- (Z.abs_eq (a * a)) by lia; rewrite <- Z.abs_mul, E, Z.abs_mul, (Z.abs_eq (b * b)) by lia; auto).
  assert (x * x = Z.abs x * Z.abs x) as Ex by (rewrite <- Z.abs_mul, Z.abs_eq; nia). rewrite Ex in H.
  assert (Z.abs x = 1) as X1 by (assert (1 <= Z.abs x) by lia; assert (1 <= Z.abs q) by lia; nia).
  assert (a * a = b * b) as Eab by (rewrite X1 in *; assert (1 <= Z.abs q) by lia; nia).
  assert (a = b \/ a = - b) as [-> | ->] by (assert ((a - b) * (a + b) = 0) by lia; nia); [exists x|exists (- x)]; ring.
Qed.
Theorem C56_box : forall a b c, a <> 0 -> b <> 0 -> c <> 0 -> integer_rotations (box_lattice a b c).
Proof.
  intros a b c Ha Hb Hc C HC.
  assert (mdet (box_lattice a b c) <> 0) as Hd by (unfold box_lattice, mdet; intros E; assert (a * (b * c) = 0) as E' by (rewrite <- E; ring); apply Z.mul_eq_0 in E'; destruct E' as [E'|E']; auto; apply Z.mul_eq_0 in E'; destruct E'; auto).
  pose proof (keeps_unimodular _ _ Hd HC) as U. apply keeps_gram in HC.
  assert (mmul (transpose C) (gram (box_lattice a b c)) = mscale (mdet C) (mmul (gram (box_lattice a b c)) (madj C))) as K.
  { assert (mdet C * mdet C = 1) as U2 by (destruct U as [-> | ->]; reflexivity).
    rewrite <- (mscale_1 (mmul (transpose C) _)), <- U2 at 1. rewrite <- mscale_mscale. f_equal.
    rewrite <- HC at 2. rewrite mmul_assoc, madj_r, mscale_mmul_r, mmul_id_r. auto. }
  assert (forall i j, mget (mmul (transpose C) (gram (box_lattice a b c))) i j = mdet C * mget (mmul (gram (box_lattice a b c)) (madj C)) i j) as Ke.
  { intros i j. rewrite K at 1. destruct (mmul (gram _) (madj C)) as [[[[m1 m2] m3] [[m4 m5] m6]] [[m7 m8] m9]]. unfold mscale, vscale, mget, vget, mrow. destruct i as [|[|i]], j as [|[|j]]; reflexivity. }
  clear K. destruct (madj C) as [[[[y11 y12] y13] [[y21 y22] y23]] [[y31 y32] y33]].
  set (d := mdet C) in *. clearbody d.
  destruct C as [[[[x11 x12] x13] [[x21 x22] x23]] [[x31 x32] x33]].
  pose proof (f_equal (fun M => mget M 0 0) HC) as N1. pose proof (f_equal (fun M => mget M 1 1) HC) as N2. pose proof (f_equal (fun M => mget M 2 2) HC) as N3. clear HC.
  pose proof (Ke 0%nat 0%nat) as K11. pose proof (Ke 0%nat 1%nat) as K12. pose proof (Ke 0%nat 2%nat) as K13.
  pose proof (Ke 1%nat 0%nat) as K21. pose proof (Ke 1%nat 1%nat) as K22. pose proof (Ke 1%nat 2%nat) as K23.
  pose proof (Ke 2%nat 0%nat) as K31. pose proof (Ke 2%nat 1%nat) as K32. pose proof (Ke 2%nat 2%nat) as K33. clear Ke.
  unfold gram, box_lattice in *. cbv [mget mrow vget mmul transpose mvec vdot] in N1, N2, N3, K11, K12, K13, K21, K22, K23, K31, K32, K33.
  assert (a * a * (x11 * x11) + b * b * (x21 * x21) + c * c * (x31 * x31) = a * a) as M1 by (etransitivity; [|etransitivity; [exact N1|]]; ring).
  assert (a * a * (x12 * x12) + b * b * (x22 * x22) + c * c * (x32 * x32) = b * b) as M2 by (etransitivity; [|etransitivity; [exact N2|]]; ring).
  assert (a * a * (x13 * x13) + b * b * (x23 * x23) + c * c * (x33 * x33) = c * c) as M3 by (etransitivity; [|etransitivity; [exact N3|]]; ring).
  assert (x11 * (a * a) = a * a * (d * y11)) as E11 by (etransitivity; [|etransitivity; [exact K11|]]; ring).
  assert (x12 * (a * a) = b * b * (d * y21)) as E12 by (etransitivity; [|etransitivity; [exact K21|]]; ring).
  assert (x13 * (a * a) = c * c * (d * y31)) as E13 by (etransitivity; [|etransitivity; [exact K31|]]; ring).
  assert (x21 * (b * b) = a * a * (d * y12)) as E21 by (etransitivity; [|etransitivity; [exact K12|]]; ring).
  assert (x22 * (b * b) = b * b * (d * y22)) as E22 by (etransitivity; [|etransitivity; [exact K22|]]; ring).
  assert (x23 * (b * b) = c * c * (d * y32)) as E23 by (etransitivity; [|etransitivity; [exact K32|]]; ring).
  assert (x31 * (c * c) = a * a * (d * y13)) as E31 by (etransitivity; [|etransitivity; [exact K13|]]; ring).
  assert (x32 * (c * c) = b * b * (d * y23)) as E32 by (etransitivity; [|etransitivity; [exact K23|]]; ring).
  assert (x33 * (c * c) = c * c * (d * y33)) as E33 by (etransitivity; [|etransitivity; [exact K33|]]; ring).
  clear N1 N2 N3 K11 K12 K13 K21 K22 K23 K31 K32 K33 Hd.
  assert (forall u x, 0 <= u * u * (x * x)) as Pos by (intros; apply Z.mul_nonneg_nonneg; apply Z.square_nonneg).
  assert (a * a * (x11 * x11) <= a * a) as L11 by (pose proof (Pos a x11); pose proof (Pos b x21); pose proof (Pos c x31); clear - M1 H H0 H1; lia).
  assert (a * a * (x12 * x12) <= b * b) as L12 by (pose proof (Pos a x12); pose proof (Pos b x22); pose proof (Pos c x32); clear - M2 H H0 H1; lia).
  assert (a * a * (x13 * x13) <= c * c) as L13 by (pose proof (Pos a x13); pose proof (Pos b x23); pose proof (Pos c x33); clear - M3 H H0 H1; lia).
  assert (b * b * (x21 * x21) <= a * a) as L21 by (pose proof (Pos a x11); pose proof (Pos b x21); pose proof (Pos c x31); clear - M1 H H0 H1; lia).
  assert (b * b * (x22 * x22) <= b * b) as L22 by (pose proof (Pos a x12); pose proof (Pos b x22); pose proof (Pos c x32); clear - M2 H H0 H1; lia).
  assert (b * b * (x23 * x23) <= c * c) as L23 by (pose proof (Pos a x13); pose proof (Pos b x23); pose proof (Pos c x33); clear - M3 H H0 H1; lia).
  assert (c * c * (x31 * x31) <= a * a) as L31 by (pose proof (Pos a x11); pose proof (Pos b x21); pose proof (Pos c x31); clear - M1 H H0 H1; lia).
  assert (c * c * (x32 * x32) <= b * b) as L32 by (pose proof (Pos a x12); pose proof (Pos b x22); pose proof (Pos c x32); clear - M2 H H0 H1; lia).
  assert (c * c * (x33 * x33) <= c * c) as L33 by (pose proof (Pos a x13); pose proof (Pos b x23); pose proof (Pos c x33); clear - M3 H H0 H1; lia).
  destruct (box_entry a a x11 (d * y11) Ha Ha L11 E11) as [r11 R11].
  destruct (box_entry a b x12 (d * y21) Ha Hb L12 E12) as [r12 R12].
  destruct (box_entry a c x13 (d * y31) Ha Hc L13 E13) as [r13 R13].
  destruct (box_entry b a x21 (d * y12) Hb Ha L21 E21) as [r21 R21].
  destruct (box_entry b b x22 (d * y22) Hb Hb L22 E22) as [r22 R22].
  destruct (box_entry b c x23 (d * y32) Hb Hc L23 E23) as [r23 R23].
  destruct (box_entry c a x31 (d * y13) Hc Ha L31 E31) as [r31 R31].
  destruct (box_entry c b x32 (d * y23) Hc Hb L32 E32) as [r32 R32].
  destruct (box_entry c c x33 (d * y33) Hc Hc L33 E33) as [r33 R33].
  exists ((r11, r12, r13), (r21, r22, r23), (r31, r32, r33)). unfold cartesian_of. cbv [mmul transpose mvec vdot]. rewrite !Z.mul_0_r, !Z.mul_0_l, !Z.add_0_l, !Z.add_0_r, ?Z.add_0_l, ?Z.add_0_r. rewrite R11, R12, R13, R21, R22, R23, R31, R32, R33. reflexivity.
Qed.
(** For any lattice the list of the point group tells: all rotations are integer matrices if and only if those listed are. *)
Theorem C56_check : forall eps D A m, 0 < D -> mdet A <> 0 -> tolerable eps D A m -> fine eps A ->
  exists ops, get_lattice_pointGroup eps D A = Ok ops /\ (integer_rotations A <-> forall R, In R ops -> exists R', R = mscale (mdet A) R').
Proof.
  intros eps D A m HD Hd Ht Hf. exists (map (rotation_num A) (images eps D A)). split; [apply pointGroup_images; auto|]. split.
  - intros Hi R HR. apply in_map_iff in HR. destruct HR as [[[u v] w] [<- H]]. pose proof (found_gram _ _ _ _ _ _ Hd Hf H) as G. apply in_images_elim in H. destruct H as [_ [Hu [Hv Hw]]].
    destruct (rows_factor A u v w Hu Hv Hw) as [X EX]. destruct (coordinates A _ X Hd EX G) as [HX [E1 E2]].
    destruct (Hi (transpose (minv X))) as [R' HR']; [apply gram_keeps; auto; rewrite <- EX; auto|]. exists R'. unfold cartesian_of in HR'. rewrite <- HR', <- mscale_mmul_l in E2. apply mmul_cancel_r in E2; [auto|rewrite mdet_transpose; auto].
  - intros Hall C HC. pose proof (keeps_unimodular A C Hd HC) as U. set (X := minv (transpose C)).
    assert (HX : unimodular X) by (apply unimodular_minv, unimodular_transpose; auto).
    assert (EC : transpose (minv X) = C) by (unfold X; rewrite minv_minv, transpose_involutive by (apply unimodular_transpose; auto); auto).
    assert (G : gram (mmul X A) = gram A) by (apply gram_keeps; auto; rewrite EC; auto).
    destruct (coordinates A (mmul X A) X Hd eq_refl G) as [_ [E1 E2]]. rewrite EC in E2.
    destruct (Hall (rotation_num A (mmul X A))) as [R' HR'].
    { apply in_map. destruct (factor_rows A X) as [Hu [Hv Hw]]. destruct (mmul X A) as [[u v] w]. apply gram_found; auto. eapply tolerable_box; eauto. }
    exists R'. unfold cartesian_of. rewrite HR', mscale_mmul_l in E2. apply mscale_inj in E2; auto.
Qed.
Definition divides_all (d : Z) (M : mat) : bool := mat_eqb (mscale d (mdivz M d)) M.
Lemma check_integer eps D A m : 0 < D -> mdet A <> 0 -> tolerable eps D A m -> fine eps A ->
  match get_lattice_pointGroup eps D A with Ok ops => forallb (divides_all (mdet A)) ops | Err _ => false end = true -> integer_rotations A.
Proof.
  intros HD Hd Ht Hf H. destruct (C56_check eps D A m HD Hd Ht Hf) as [ops [E [_ Hi]]]. rewrite E in H. apply Hi. intros R HR. rewrite forallb_forall in H. apply H, mat_eqb_spec in HR. eauto.
Qed.
(** A monoclinic and a base-centred orthorhombic lattice; and one with hexagonal layers across (1, 1, 1), which is not so. *)
Example C56_check_example : integer_rotations ((2, 0, 0), (1, 2, 0), (0, 1, 2)) /\ integer_rotations ((2, 0, 0), (0, 3, 0), (1, 0, 2)) /\
  ~ integer_rotations ((1, -1, 0), (0, 1, -1), (1, 1, 1)).
Proof.
  assert (forall A, mdet A <> 0 -> tolerable (1 # 10000000000) 1 A 14 -> fine (1 # 10000000000) A ->
    match get_lattice_pointGroup (1 # 10000000000) 1 A with Ok ops => forallb (divides_all (mdet A)) ops | Err _ => false end = true -> integer_rotations A) as Hc by (intros; eapply check_integer; eauto; lia).
  assert (forall A, (forall i, (i < 3)%nat -> len2 (mrow A i) <= 14) -> tolerable (1 # 10000000000) 1 A 14) as Ht by (intros A HA; split; [exact HA|]; split; [discriminate|reflexivity]).
  split; [|split].
  1, 2: apply Hc; [discriminate|apply Ht; intros i Hi; destruct i as [|[|[|i]]]; try lia; vm_compute; discriminate|reflexivity|vm_compute; reflexivity].
  intros H. destruct (H ((1, 0, 0), (0, 1, 0), (0, 0, -1))) as [R HR]; [intros [[x y] z]; unfold len2; mat_unfold; ring|].
  unfold cartesian_of in HR. assert (mscale 3 R = ((1, -2, -2), (-2, 1, -2), (-2, -2, 1))) as E.
  { apply (mmul_cancel_r (transpose ((1, -1, 0), (0, 1, -1), (1, 1, 1)))); [discriminate|]. rewrite mscale_mmul_l, HR. reflexivity. }
  apply (f_equal (fun M => mget M 0 0)) in E. destruct R as [[[[a b] c] [[d e] f]] [[g h] t]]. cbn [mscale vscale mget mrow vget] in E. lia.
Qed.
(** The code's tolerance 1E-10, vectors in units of 1/2; and the 48 operations of the cube. *)
Example C56_example : (forall A, In A [simple_cubic 2; face_centred 1; body_centred 1] -> mdet A <> 0 /\ tolerable (1 # 10000000000) 2 A 4 /\ fine (1 # 10000000000) A) /\
  exists ops, get_lattice_pointGroup (1 # 10000000000) 1 (simple_cubic 1) = Ok ops /\ length ops = 48%nat.
Proof.
  split.
  - intros A [<-|[<-|[<-|[]]]]; (split; [discriminate|]); (split; [split; [intros i Hi; destruct i as [|[|[|i]]]; try lia; vm_compute; discriminate|split; [discriminate|reflexivity]]|reflexivity]).
  - eexists. split; [vm_compute; reflexivity|reflexivity].
Qed.

(** ** C49, C50 from the lattice vectors *)
(** One atom per cell: the structures of one size, from the lattice vectors to the list. *)
Theorem C50_from_lattice_partial : forall eps D A m n cwa rnd,
  0 < D -> mdet A <> 0 -> tolerable eps D A m -> fine eps A -> integer_rotations A ->
  1 <= n <= 10 ^ 5 -> length cwa = Z.to_nat n -> Forall (fun s => fst s = -1) cwa ->
  (length (first_occurrences site_eqb cwa) <= 3)%nat ->
  exists pg, point_group eps D A = Ok pg /\ (forall C R, In (C, R) pg <-> keeps_lengths A C /\ cartesian_of A C R) /\
  exists l fuel0, (forall fuel, (fuel0 <= fuel)%nat -> enumerate_size pg 1 [(0, 0, 0)] n cwa false rnd fuel = Ok l) /\
    catalogue (size_structures 1 [(0, 0, 0)] n cwa) (same_structure pg 1 [(0, 0, 0)])
      (fun e f => exists M L B, SmithNormalForm (fst e) = Ok (M, L, B) /\ describes 1 [(0, 0, 0)] L (diag_of M) (snd e) f) l.
Proof.
  intros eps D A m n cwa rnd HD Hd Ht Hf Hi Hn Hlen Hno Hk.
  destruct (C56_usable eps D A m HD Hd Ht Hf Hi) as [pg [E [F1 [F2 [F3 F4]]]]]. exists pg. split; auto. split; auto.
  apply C50_one_atom_partial; auto. lia.
Qed.
Theorem C49_from_lattice : forall eps D A m H cwa rnd,
  0 < D -> mdet A <> 0 -> tolerable eps D A m -> fine eps A -> integer_rotations A ->
  1 <= mdet H <= 10 ^ 5 -> length cwa = Z.to_nat (mdet H) -> (exists s, In s cwa /\ has_arrow s = true) ->
  (forall s t, In s cwa -> In t cwa -> skeleton s = skeleton t -> s = t) ->
  exists pg, point_group eps D A = Ok pg /\ (forall C R, In (C, R) pg <-> keeps_lengths A C /\ cartesian_of A C R) /\
  exists M L B G l fuel0, SmithNormalForm H = Ok (M, L, B) /\ sym_group pg 1 [(0, 0, 0)] H true = Ok G /\
    (forall fuel, (fuel0 <= fuel)%nat ->
       brancher (map (multiplicity site_eqb cwa) (first_occurrences site_eqb cwa)) G cwa 6 true (Z.to_nat (mdet H)) false rnd fuel SNone = Ok l) /\
    catalogue (arrow_structures 1 [(0, 0, 0)] H cwa) (same_in_supercell pg 1 [(0, 0, 0)] H) (describes 1 [(0, 0, 0)] L (diag_of M)) l.
Proof.
  intros eps D A m H cwa rnd HD Hd Ht Hf Hi HH Hlen Har Hc.
  destruct (C56_usable eps D A m HD Hd Ht Hf Hi) as [pg [E [F1 [F2 [F3 F4]]]]]. exists pg. split; auto. split; auto.
  apply C49_one_atom_arrows; auto. lia.
Qed.

Print Assumptions C56_complete.
Print Assumptions C56_sound.
Print Assumptions C56_singular.
Print Assumptions C56_coarse_refuted.
Print Assumptions C56_coordinates.
Print Assumptions C56_usable.
Print Assumptions C56_cubic.
Print Assumptions C56_box.
Print Assumptions C56_check.
Print Assumptions C50_from_lattice_partial.
Print Assumptions C49_from_lattice.
