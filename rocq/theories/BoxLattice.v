(** Rectangular boxes with three different edges (the primitive orthorhombic lattices): every symmetry is its own inverse.
    Used for C60 with several atoms per cell. *)
From Coq Require Import QArith.
From Verif Require Import PyBase Mat3 TransFacts HNFProofs LatSpec PointGroupModel PointGroupSpec PointGroupProofs PointGroupMain PropertiesPoint.
Local Open Scope Z_scope.

Lemma box_off a b x y r : a <> 0 -> b <> 0 -> Z.abs a <> Z.abs b -> r * r <= 1 -> r * b = a * x -> b * y = r * a -> r = 0.
Proof.
  intros Ha Hb Hab Hr E1 E2. destruct (Z.eq_dec r 0) as [|Hr0]; auto. exfalso. assert (Z.abs r = 1) as R1 by (assert (-1 <= r <= 1) by nia; lia).
  assert (Z.abs b = Z.abs a * Z.abs x) as F1 by (rewrite <- Z.abs_mul, <- E1, Z.abs_mul, R1; lia). assert (Z.abs b * Z.abs y = Z.abs a) as F2 by (rewrite <- Z.abs_mul, E2, Z.abs_mul, R1; lia).
  assert (1 <= Z.abs x) by (assert (x <> 0) by (intros ->; lia); lia). assert (1 <= Z.abs y) by (assert (y <> 0) by (intros ->; lia); lia). nia.
Qed.
(** A box with three different edges has only involutions. *)
Lemma box_involutions a b c : a <> 0 -> b <> 0 -> c <> 0 -> Z.abs a <> Z.abs b -> Z.abs a <> Z.abs c -> Z.abs b <> Z.abs c ->
  forall C, keeps_lengths (box_lattice a b c) C -> mmul C C = mid.
Proof.
  intros Ha Hb Hc Hab Hac Hbc C HC.
  assert (mdet (box_lattice a b c) <> 0) as Hd by (unfold box_lattice, mdet; intros E; assert (a * (b * c) = 0) as E' by (rewrite <- E; ring); apply Z.mul_eq_0 in E'; destruct E' as [E'|E']; auto; apply Z.mul_eq_0 in E'; destruct E'; auto).
  destruct (C56_box a b c Ha Hb Hc C HC) as [R HR]. destruct (cartesian_orthogonal _ _ _ Hd HC HR) as [O1 O2]. pose proof (keeps_unimodular _ _ Hd HC) as U.
  unfold cartesian_of in HR. assert (transpose (box_lattice a b c) = box_lattice a b c) as Et by reflexivity. rewrite Et in HR.
  assert (mmul (box_lattice a b c) (minv C) = mmul (transpose R) (box_lattice a b c)) as HS.
  { rewrite <- (mmul_id_l (box_lattice a b c)) at 1. rewrite <- O2. rewrite (mmul_assoc (transpose R) R), HR, <- (mmul_assoc (transpose R)), mmul_assoc, minv_r, mmul_id_r; auto. }
  destruct (minv C) as [[[[y11 y12] y13] [[y21 y22] y23]] [[y31 y32] y33]]. destruct C as [[[[x11 x12] x13] [[x21 x22] x23]] [[x31 x32] x33]]. destruct R as [[[[r11 r12] r13] [[r21 r22] r23]] [[r31 r32] r33]].
  pose proof (f_equal (fun M => mget M 0 0) O1) as N1. pose proof (f_equal (fun M => mget M 1 1) O1) as N2. pose proof (f_equal (fun M => mget M 2 2) O1) as N3.
  clear O1 O2 U HC.
  assert (forall i j, mget (mmul ((r11, r12, r13), (r21, r22, r23), (r31, r32, r33)) (box_lattice a b c)) i j = mget (mmul (box_lattice a b c) ((x11, x12, x13), (x21, x22, x23), (x31, x32, x33))) i j) as HE by exact (fun i j => f_equal (fun M => mget M i j) HR).
  assert (forall i j, mget (mmul (box_lattice a b c) ((y11, y12, y13), (y21, y22, y23), (y31, y32, y33))) i j = mget (mmul (transpose ((r11, r12, r13), (r21, r22, r23), (r31, r32, r33))) (box_lattice a b c)) i j) as HF by exact (fun i j => f_equal (fun M => mget M i j) HS).
  pose proof (HE 0%nat 0%nat) as E11. pose proof (HE 0%nat 1%nat) as E12. pose proof (HE 0%nat 2%nat) as E13.
  pose proof (HE 1%nat 0%nat) as E21. pose proof (HE 1%nat 1%nat) as E22. pose proof (HE 1%nat 2%nat) as E23.
  pose proof (HE 2%nat 0%nat) as E31. pose proof (HE 2%nat 1%nat) as E32. pose proof (HE 2%nat 2%nat) as E33.
  pose proof (HF 0%nat 1%nat) as F12. pose proof (HF 0%nat 2%nat) as F13. pose proof (HF 1%nat 0%nat) as F21. pose proof (HF 1%nat 2%nat) as F23. pose proof (HF 2%nat 0%nat) as F31. pose proof (HF 2%nat 1%nat) as F32.
  clear HE HF HR HS. cbn in N1, N2, N3, E11, E12, E13, E21, E22, E23, E31, E32, E33, F12, F13, F21, F23, F31, F32.
  assert (r12 = 0) as Z12 by (apply (box_off a b x12 y21); auto; nia).
  assert (r13 = 0) as Z13 by (apply (box_off a c x13 y31); auto; nia).
  assert (r21 = 0) as Z21 by (apply (box_off b a x21 y12); auto; nia).
  assert (r23 = 0) as Z23 by (apply (box_off b c x23 y32); auto; nia).
  assert (r31 = 0) as Z31 by (apply (box_off c a x31 y13); auto; nia).
  assert (r32 = 0) as Z32 by (apply (box_off c b x32 y23); auto; nia).
  rewrite Z12, Z13, Z21, Z23, Z31, Z32 in *.
  assert (x12 = 0 /\ x13 = 0 /\ x21 = 0 /\ x23 = 0 /\ x31 = 0 /\ x32 = 0) as [-> [-> [-> [-> [-> ->]]]]] by (repeat split; nia).
  assert (x11 = r11) as -> by nia. assert (x22 = r22) as -> by nia. assert (x33 = r33) as -> by nia.
  cbn. unfold mid. repeat apply (f_equal2 pair); nia.
Qed.
