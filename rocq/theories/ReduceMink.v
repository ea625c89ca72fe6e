(** _minkowski_reduce_basis and the Minkowski conditions. *)
From Coq Require Import QArith Lqa.
From Verif Require Import PyBase Mat3 ReduceModel ReduceSpec ReduceGauss ReduceC.
Local Open Scope Z_scope.

(** ** The twelve conditions suffice *)
Lemma form2_nonneg a p c x y : 0 <= a -> a <= c -> - a <= 2 * p -> 0 <= x -> 0 <= y ->
  (1 <= y -> c <= x * x * a + 2 * (x * y) * p + y * y * c) /\ (1 <= x -> a <= x * x * a + 2 * (x * y) * p + y * y * c) /\
  0 <= x * x * a + 2 * (x * y) * p + y * y * c.
Proof.
  intros Ha Hc Hp Hx Hy.
  assert (X : - (x * y * a) <= 2 * (x * y) * p) by (assert (0 <= x * y) by nia; nia).
  assert (Main : 1 <= y -> c <= x * x * a - x * y * a + y * y * c).
  { intros Hq1. destruct (Z_le_gt_dec y x) as [L|L].
    - assert (0 <= x * (x - y) * a) by (apply Z.mul_nonneg_nonneg; [apply Z.mul_nonneg_nonneg|]; lia).
      assert (1 * c <= y * y * c) by (apply Z.mul_le_mono_nonneg_r; [lia|nia]). nia.
    - assert (1 <= y * y) by nia. assert (x * (y - x) <= y * y - 1) by nia.
      assert (x * (y - x) * a <= x * (y - x) * c) by (apply Z.mul_le_mono_nonneg_l; [apply Z.mul_nonneg_nonneg; lia|lia]).
      assert (x * (y - x) * c <= (y * y - 1) * c) by (apply Z.mul_le_mono_nonneg_r; lia). nia. }
  destruct (Z.eq_dec y 0) as [->|Ny].
  - assert (0 <= x * x * a) by (apply Z.mul_nonneg_nonneg; nia).
    assert (1 <= x -> 1 * a <= x * x * a) by (intros; apply Z.mul_le_mono_nonneg_r; [lia|nia]).
    split; [lia|]. split; [intros; specialize (H0 H1); lia|lia].
  - specialize (Main ltac:(lia)). split; [lia|]. split; lia.
Qed.
Definition form3 (a b c p q r x y z : Z) : Z := x * x * a + y * y * b + z * z * c + 2 * (x * y) * p + 2 * (x * z) * q + 2 * (y * z) * r.
Lemma form3_nonneg a b c p q r x y z : 0 <= a -> a <= b -> b <= c -> - a <= 2 * p -> - a <= 2 * q -> - b <= 2 * r -> 0 <= a + b + 2 * p + 2 * q + 2 * r ->
  0 <= x -> 0 <= y -> 0 <= z ->
  (1 <= z -> c <= form3 a b c p q r x y z) /\ (1 <= y -> b <= form3 a b c p q r x y z) /\ (1 <= x -> a <= form3 a b c p q r x y z).
Proof.
  intros Ha Hb Hc Hp Hq Hr HS Hx Hy Hz. set (S := a + b + c + 2 * p + 2 * q + 2 * r).
  assert (HSc : c <= S) by (unfold S; lia).
  assert (Fin : forall w G F, 0 <= w -> 0 <= G -> w * w * S + G <= F -> (1 <= w -> c <= F) /\ G <= F).
  { intros w G F Hw HG HF. assert (0 <= w * w * S) by (apply Z.mul_nonneg_nonneg; nia). split; [|lia].
    intros Hw1. assert (1 * S <= w * w * S) by (apply Z.mul_le_mono_nonneg_r; [lia|nia]). lia. }
  assert (P2 : forall u v k, 0 <= u -> 0 <= v -> 0 <= k -> 0 <= u * v * k) by (intros; apply Z.mul_nonneg_nonneg; [apply Z.mul_nonneg_nonneg|]; lia).
  destruct (Z_le_gt_dec x y) as [L1|L1]; [destruct (Z_le_gt_dec x z) as [L2|L2]|destruct (Z_le_gt_dec y z) as [L2|L2]].
  - (* x smallest *)
    destruct (form2_nonneg b r c (y - x) (z - x) ltac:(lia) Hc Hr ltac:(lia) ltac:(lia)) as (G1 & G2 & G3).
    set (G := (y - x) * (y - x) * b + 2 * ((y - x) * (z - x)) * r + (z - x) * (z - x) * c) in *.
    destruct (Fin x G (form3 a b c p q r x y z) Hx G3) as [F1 F2].
    { replace (form3 a b c p q r x y z) with (x * x * S + G + x * (y - x) * (2 * (b + p + r)) + x * (z - x) * (2 * (c + q + r))) by (unfold form3, S, G; ring).
      pose proof (P2 x (y - x) (2 * (b + p + r)) ltac:(lia) ltac:(lia) ltac:(lia)). pose proof (P2 x (z - x) (2 * (c + q + r)) ltac:(lia) ltac:(lia) ltac:(lia)). lia. }
    destruct (Z_le_gt_dec 1 x); lia.
  - (* z smallest *)
    destruct (form2_nonneg a p b (x - z) (y - z) ltac:(lia) Hb Hp ltac:(lia) ltac:(lia)) as (G1 & G2 & G3).
    set (G := (x - z) * (x - z) * a + 2 * ((x - z) * (y - z)) * p + (y - z) * (y - z) * b) in *.
    destruct (Fin z G (form3 a b c p q r x y z) Hz G3) as [F1 F2].
    { replace (form3 a b c p q r x y z) with (z * z * S + G + z * (x - z) * (2 * (a + p + q)) + z * (y - z) * (2 * (b + p + r))) by (unfold form3, S, G; ring).
      pose proof (P2 z (x - z) (2 * (a + p + q)) ltac:(lia) ltac:(lia) ltac:(lia)). pose proof (P2 z (y - z) (2 * (b + p + r)) ltac:(lia) ltac:(lia) ltac:(lia)). lia. }
    destruct (Z_le_gt_dec 1 z); lia.
  - (* y smallest *)
    destruct (form2_nonneg a q c (x - y) (z - y) ltac:(lia) ltac:(lia) Hq ltac:(lia) ltac:(lia)) as (G1 & G2 & G3).
    set (G := (x - y) * (x - y) * a + 2 * ((x - y) * (z - y)) * q + (z - y) * (z - y) * c) in *.
    destruct (Fin y G (form3 a b c p q r x y z) Hy G3) as [F1 F2].
    { replace (form3 a b c p q r x y z) with (y * y * S + G + y * (x - y) * (2 * (a + p + q)) + y * (z - y) * (2 * (c + q + r))) by (unfold form3, S, G; ring).
      pose proof (P2 y (x - y) (2 * (a + p + q)) ltac:(lia) ltac:(lia) ltac:(lia)). pose proof (P2 y (z - y) (2 * (c + q + r)) ltac:(lia) ltac:(lia) ltac:(lia)). lia. }
    destruct (Z_le_gt_dec 1 y); lia.
  - (* z smallest *)
    destruct (form2_nonneg a p b (x - z) (y - z) ltac:(lia) Hb Hp ltac:(lia) ltac:(lia)) as (G1 & G2 & G3).
    set (G := (x - z) * (x - z) * a + 2 * ((x - z) * (y - z)) * p + (y - z) * (y - z) * b) in *.
    destruct (Fin z G (form3 a b c p q r x y z) Hz G3) as [F1 F2].
    { replace (form3 a b c p q r x y z) with (z * z * S + G + z * (x - z) * (2 * (a + p + q)) + z * (y - z) * (2 * (b + p + r))) by (unfold form3, S, G; ring).
      pose proof (P2 z (x - z) (2 * (a + p + q)) ltac:(lia) ltac:(lia) ltac:(lia)). pose proof (P2 z (y - z) (2 * (b + p + r)) ltac:(lia) ltac:(lia) ltac:(lia)). lia. }
    destruct (Z_le_gt_dec 1 z); lia.
Qed.
Definition sg (x : Z) : Z := if x <? 0 then -1 else 1.
Lemma sg_abs x : x = sg x * Z.abs x.
Proof. unfold sg. destruct (Z.ltb_spec x 0); lia. Qed.
Lemma sg_cases x : sg x = 1 \/ sg x = -1.
Proof. unfold sg. destruct (x <? 0); auto. Qed.
Lemma form3_ge a b c p q r x y z : 0 <= a -> a <= b -> b <= c -> 2 * Z.abs p <= a -> 2 * Z.abs q <= a -> 2 * Z.abs r <= b ->
  (forall s t, (s = 1 \/ s = -1) -> (t = 1 \/ t = -1) -> 0 <= a + b + 2 * (s * p) + 2 * (t * q) + 2 * (s * t * r)) ->
  (z <> 0 -> c <= form3 a b c p q r x y z) /\ (y <> 0 -> b <= form3 a b c p q r x y z) /\ (x <> 0 -> a <= form3 a b c p q r x y z).
Proof.
  intros Ha Hb Hc Hp Hq Hr HS.
  assert (E : form3 a b c p q r x y z = form3 a b c (sg x * sg y * p) (sg x * sg z * q) (sg y * sg z * r) (Z.abs x) (Z.abs y) (Z.abs z)).
  { assert (G : forall i j k X Y T, (i = 1 \/ i = -1) -> (j = 1 \/ j = -1) -> (k = 1 \/ k = -1) ->
       form3 a b c p q r (i * X) (j * Y) (k * T) = form3 a b c (i * j * p) (i * k * q) (j * k * r) X Y T).
    { intros i j k X Y T [-> | ->] [-> | ->] [-> | ->]; unfold form3; ring. }
    rewrite <- (G (sg x) (sg y) (sg z) (Z.abs x) (Z.abs y) (Z.abs z) (sg_cases x) (sg_cases y) (sg_cases z)).
    rewrite <- !sg_abs. reflexivity. }
  rewrite E.
  destruct (form3_nonneg a b c (sg x * sg y * p) (sg x * sg z * q) (sg y * sg z * r) (Z.abs x) (Z.abs y) (Z.abs z)) as (H1 & H2 & H3); try lia.
  - destruct (sg_cases x) as [-> | ->], (sg_cases y) as [-> | ->]; lia.
  - destruct (sg_cases x) as [-> | ->], (sg_cases z) as [-> | ->]; lia.
  - destruct (sg_cases y) as [-> | ->], (sg_cases z) as [-> | ->]; lia.
  - pose proof (HS 1 1 ltac:(auto) ltac:(auto)). pose proof (HS 1 (-1) ltac:(auto) ltac:(auto)). pose proof (HS (-1) 1 ltac:(auto) ltac:(auto)). pose proof (HS (-1) (-1) ltac:(auto) ltac:(auto)).
    destruct (sg_cases x) as [-> | ->], (sg_cases y) as [-> | ->], (sg_cases z) as [-> | ->]; lia.
Qed.

Lemma len_comb3 A B C x y z : len2 (comb3 (A, B, C) x y z) = form3 (nrm2 A) (nrm2 B) (nrm2 C) (vdot A B) (vdot A C) (vdot B C) x y z.
Proof. unfold form3. mat_destruct. vunf. ring. Qed.
Lemma len_add u v : nrm2 (vadd u v) = nrm2 u + nrm2 v + 2 * vdot u v.
Proof. mat_destruct. vunf. ring. Qed.
Lemma len_sub u v : nrm2 (vsub u v) = nrm2 u + nrm2 v - 2 * vdot u v.
Proof. mat_destruct. vunf. ring. Qed.
Lemma dot_add_l u v w : vdot (vadd u v) w = vdot u w + vdot v w.
Proof. mat_destruct. vunf. ring. Qed.
Lemma dot_sub_l u v w : vdot (vsub u v) w = vdot u w - vdot v w.
Proof. mat_destruct. vunf. ring. Qed.
Lemma dot_comm u v : vdot u v = vdot v u.
Proof. mat_destruct. vunf. ring. Qed.

Lemma no_longer_exact e m u v : small_tolerance e m -> nrm2 u <= m -> no_longer e u v = true <-> nrm2 u <= nrm2 v.
Proof.
  intros [[H1 H2] _] Hu. unfold no_longer. rewrite (norm_ge_exact _ _ e m); auto.
  - apply Z.leb_le.
  - apply nrm2_nonneg.
  - pose proof (nrm2_nonneg u). lia.
Qed.
Definition conditions_exact (M : mat) : Prop :=
  let '(A, B, C) := M in
  let a := nrm2 A in let b := nrm2 B in let c := nrm2 C in let p := vdot A B in let q := vdot A C in let r := vdot B C in
  a <= b /\ b <= c /\ 2 * Z.abs p <= a /\ 2 * Z.abs q <= a /\ 2 * Z.abs r <= b /\
  (forall s t, (s = 1 \/ s = -1) -> (t = 1 \/ t = -1) -> 0 <= a + b + 2 * (s * p) + 2 * (t * q) + 2 * (s * t * r)).
Lemma conditions_iff e m M : small_tolerance e m -> nrm2 (mrow M 1) <= m -> nrm2 (mrow M 2) <= m -> nrm2 (mrow M 0) <= m ->
  conditions e M = true <-> conditions_exact M.
Proof.
  intros Hs H1 H2 H0. destruct M as [[A B] C]. cbn in H0, H1, H2. unfold conditions, conditions_exact. cbv zeta. rewrite !andb_true_iff.
  rewrite !(no_longer_exact e m) by auto.
  repeat (rewrite len_add || rewrite len_sub || rewrite dot_add_l || rewrite dot_sub_l). rewrite ?(dot_comm C A), ?(dot_comm C B), ?(dot_comm B A).
  split.
  - intros H. repeat apply conj; try lia.
  - intros (X1 & X2 & X3 & X4 & X5 & X6).
    pose proof (X6 1 1 ltac:(auto) ltac:(auto)). pose proof (X6 1 (-1) ltac:(auto) ltac:(auto)). pose proof (X6 (-1) 1 ltac:(auto) ltac:(auto)). pose proof (X6 (-1) (-1) ltac:(auto) ltac:(auto)).
    repeat apply conj; lia.
Qed.
Theorem conditions_reduced M : conditions_exact M -> minkowski_reduced M.
Proof.
  destruct M as [[A B] C]. intros (X1 & X2 & X3 & X4 & X5 & X6). pose proof (nrm2_nonneg A) as PA.
  assert (G : forall x y z, (z <> 0 -> nrm2 C <= len2 (comb3 (A, B, C) x y z)) /\ (y <> 0 -> nrm2 B <= len2 (comb3 (A, B, C) x y z)) /\ (x <> 0 -> nrm2 A <= len2 (comb3 (A, B, C) x y z))).
  { intros x y z. rewrite len_comb3. apply form3_ge; auto. }
  unfold nrm2 in *. unfold minkowski_reduced, len2 at 1 3 5. split; [|split].
  - intros x y z H. destruct (G x y z) as (G1 & G2 & G3). destruct (Z.eq_dec z 0) as [->|]; [|lia]. destruct (Z.eq_dec y 0) as [->|]; [|lia].
    apply G3. intros ->. apply H. reflexivity.
  - intros x y z H. destruct (G x y z) as (G1 & G2 & G3). destruct (Z.eq_dec z 0) as [->|]; [|lia]. apply G2. intros ->. apply H. reflexivity.
  - intros x y z H. apply (G x y z). auto.
Qed.

(** ** Sorting *)
Definition row_perm (M N : mat) : Prop :=
  let '(A, B, C) := M in N = (A, B, C) \/ N = (A, C, B) \/ N = (B, A, C) \/ N = (B, C, A) \/ N = (C, A, B) \/ N = (C, B, A).
Lemma sort_rows_spec M : 0 < nrm2 (mrow M 0) -> 0 < nrm2 (mrow M 1) -> 0 < nrm2 (mrow M 2) ->
  row_perm M (sort_rows M) /\ nrm2 (mrow (sort_rows M) 0) <= nrm2 (mrow (sort_rows M) 1) <= nrm2 (mrow (sort_rows M) 2).
Proof.
  destruct M as [[A B] C]. cbn [mrow]. intros HA HB HC. unfold sort_rows.
  remember (nrm2 A) as a eqn:Ea. remember (nrm2 B) as b eqn:Eb. remember (nrm2 C) as c eqn:Ec.
  unfold max_index, zero_at.
  repeat match goal with
         | |- context [?x <=? ?y] => destruct (Z.leb_spec x y); try (exfalso; lia); cbn [andb]
         end; unfold row_perm; cbn [mrow]; rewrite <- ?Ea, <- ?Eb, <- ?Ec; split; auto 7; try lia.
Qed.
Lemma row_perm_lattice M N : row_perm M N -> same_row_lattice M N.
Proof.
  destruct M as [[A B] C]. intros H w.
  destruct H as [->|[->|[->|[->|[->| ->]]]]]; split; intros (x & y & z & ->).
  all: first [exists x, y, z; vec_eq | exists x, z, y; vec_eq | exists y, x, z; vec_eq | exists y, z, x; vec_eq | exists z, x, y; vec_eq | exists z, y, x; vec_eq].
Qed.
Lemma det_rows M : mdet M <> 0 -> 0 < nrm2 (mrow M 0) /\ 0 < nrm2 (mrow M 1) /\ 0 < nrm2 (mrow M 2).
Proof.
  intros H. assert (X : forall v, v <> (0, 0, 0) -> 0 < nrm2 v).
  { intros v Hv. pose proof (nrm2_nonneg v). destruct (Z.eq_dec (nrm2 v) 0) as [E|]; [|lia]. exfalso. apply Hv. destruct v as [[a b] c]. revert E. vunf. intros E.
    assert (a = 0 /\ b = 0 /\ c = 0) as (-> & -> & ->) by nia. reflexivity. }
  destruct M as [[A B] C]. cbn [mrow]. repeat split; apply X; intros ->; apply H; mat_destruct; vunf; ring.
Qed.

(** ** The loop *)
Definition fits (m : Z) (M : mat) : Prop := nrm2 (mrow M 0) <= m /\ nrm2 (mrow M 1) <= m /\ nrm2 (mrow M 2) <= m.
Lemma row_perm_fits m M N : row_perm M N -> fits m M -> fits m N.
Proof. destruct M as [[A B] C]. unfold fits. intros H (H0 & H1 & H2). cbn [mrow] in *. destruct H as [->|[->|[->|[->|[->| ->]]]]]; cbn [mrow]; auto. Qed.

Lemma mink_loop_lattice eps D : (0 <= eps)%Q -> (eps < 1)%Q -> forall n M M', mdet M <> 0 -> mink_loop n eps D M = Ok M' -> same_row_lattice M M'.
Proof.
  intros E0 E1. induction n as [|n IH]; intros M M' Hd H; cbn [mink_loop] in H.
  - injection H as <-. apply same_row_refl.
  - destruct (det_rows M Hd) as (P0 & P1 & P2). destruct (sort_rows_spec M P0 P1 P2) as [S1 _]. apply row_perm_lattice in S1.
    destruct (sort_rows M) as [[A B] C] eqn:ES.
    assert (Hd2 : mdet (A, B, C) <> 0) by (pose proof (same_row_det _ _ S1); lia).
    pose proof (reduce_C_returns eps D A B C E0 E1 Hd2) as R. destruct (gauss (eps * inject_Z D) A B) as [[A' B']|x]; [|rewrite R in H; discriminate].
    destruct R as (i & j & R1 & R2 & _). rewrite R1 in H. cbn [rbind] in H.
    set (N := (A', B', vsub C (comb2 A' B' i j))) in *.
    assert (L : same_row_lattice M N) by (eapply same_row_trans; eauto).
    destruct (norm_ge _ _ _).
    + injection H as <-. exact L.
    + eapply same_row_trans; [exact L|]. apply IH; auto. pose proof (same_row_det _ _ L). lia.
Qed.
(** With a small tolerance nothing gets longer, and when the loop is left by its [break] the conditions hold. *)
Lemma mink_loop_fits eps D m : (0 <= eps)%Q -> (4 * eps <= 1)%Q -> small_tolerance (eps * inject_Z D) m -> forall n M M', mdet M <> 0 -> fits m M ->
  mink_loop n eps D M = Ok M' -> fits m M'.
Proof.
  intros E0 E4 Hs. assert (E1 : (eps < 1)%Q) by lra.
  induction n as [|n IH]; intros M M' Hd Hf H; cbn [mink_loop] in H.
  - injection H as <-. auto.
  - destruct (det_rows M Hd) as (P0 & P1 & P2). destruct (sort_rows_spec M P0 P1 P2) as [S1 _].
    pose proof (row_perm_fits m _ _ S1 Hf) as Hf2. apply row_perm_lattice in S1.
    destruct (sort_rows M) as [[A B] C] eqn:ES.
    assert (Hd2 : mdet (A, B, C) <> 0) by (pose proof (same_row_det _ _ S1); lia).
    pose proof (reduce_C_returns eps D A B C E0 E1 Hd2) as R. destruct (gauss (eps * inject_Z D) A B) as [[A' B']|x] eqn:G; [|rewrite R in H; discriminate].
    destruct R as (i & j & R1 & R2 & R3). rewrite R1 in H. cbn [rbind] in H.
    destruct Hf2 as (F0 & F1 & F2). cbn [mrow] in F0, F1, F2.
    destruct (gauss_reduced _ m A B A' B' Hs F0 F1 G) as (G1 & G2 & G3). specialize (R3 E4 G1 0 0).
    assert (Z0 : vsub C (comb2 A' B' 0 0) = C) by (clear; vec_eq). rewrite Z0 in R3.
    set (C' := vsub C (comb2 A' B' i j)) in *.
    assert (Hf3 : fits m (A', B', C')) by (unfold fits; cbn [mrow]; lia).
    assert (L : same_row_lattice M (A', B', C')) by (eapply same_row_trans; eauto).
    destruct (norm_ge _ _ _).
    + injection H as <-. exact Hf3.
    + apply (IH (A', B', C')); auto. pose proof (same_row_det _ _ L). lia.
Qed.
Lemma one_pass_conditions eps D m M M' : (0 <= eps)%Q -> (4 * eps <= 1)%Q -> small_tolerance (eps * inject_Z D) m -> mdet M <> 0 -> fits m M ->
  (let '(A, B, C) := sort_rows M in reduce_C eps D A B C) = Ok M' -> nrm2 (mrow M' 1) <= nrm2 (mrow M' 2) -> conditions_exact M'.
Proof.
  intros E0 E4 Hs Hd Hf H HB. assert (E1 : (eps < 1)%Q) by lra.
  destruct (det_rows M Hd) as (P0 & P1 & P2). destruct (sort_rows_spec M P0 P1 P2) as [S1 _].
  pose proof (row_perm_fits m _ _ S1 Hf) as Hf2. apply row_perm_lattice in S1.
  destruct (sort_rows M) as [[A B] C] eqn:ES.
  assert (Hd2 : mdet (A, B, C) <> 0) by (pose proof (same_row_det _ _ S1); lia).
  pose proof (reduce_C_returns eps D A B C E0 E1 Hd2) as R. destruct (gauss (eps * inject_Z D) A B) as [[A' B']|x] eqn:G; [|rewrite R in H; discriminate].
  destruct R as (i & j & R1 & R2 & R3). rewrite R1 in H. injection H as <-.
  destruct Hf2 as (F0 & F1 & F2). cbn [mrow] in F0, F1, F2.
  destruct (gauss_reduced _ m A B A' B' Hs F0 F1 G) as ([G1 G1'] & G2 & G3). specialize (R3 E4 (Build_reduced _ _ G1 G1')).
  set (C' := vsub C (comb2 A' B' i j)) in *. cbn [mrow] in HB.
  assert (Y : forall x y, nrm2 C' <= nrm2 (vsub C' (comb2 A' B' x y))).
  { intros x y. specialize (R3 (i + x) (j + y)). replace (vsub C (comb2 A' B' (i + x) (j + y))) with (vsub C' (comb2 A' B' x y)) in R3; auto.
    unfold C'. clear. vec_eq. }
  assert (Y2 : forall x y, 0 <= x * x * nrm2 A' + y * y * nrm2 B' + 2 * (x * y) * vdot A' B' - 2 * x * vdot A' C' - 2 * y * vdot B' C').
  { intros x y. specialize (Y x y). rewrite len_sub in Y. pose proof (len_comb2 A' B' x y) as LC. unfold len2 in LC. unfold nrm2 at 3 in Y.
    rewrite LC in Y. replace (vdot C' (comb2 A' B' x y)) with (x * vdot A' C' + y * vdot B' C') in Y by (clear; mat_destruct; vunf; ring). lia. }
  unfold conditions_exact. cbv zeta.
  pose proof (Y2 1 0). pose proof (Y2 (-1) 0). pose proof (Y2 0 1). pose proof (Y2 0 (-1)).
  repeat apply conj; try lia.
  intros s t Hs' Ht'. pose proof (Y2 (- t) (- s * t)).
  destruct Hs' as [-> | ->], Ht' as [-> | ->]; lia.
Qed.

(** ** The function *)
Theorem minkowski_lattice eps D IN OUT : (0 <= eps)%Q -> (eps < 1)%Q -> 0 < D -> minkowski_reduce eps D IN = Ok OUT ->
  same_row_lattice IN OUT /\ 0 < mdet OUT.
Proof.
  intros E0 E1 HD H. unfold minkowski_reduce in H.
  destruct (Qle_bool _ _) eqn:ED; [discriminate|].
  assert (Hd : mdet IN <> 0).
  { intros E. rewrite E in ED. assert (X : Qle_bool (inject_Z (Z.abs 0)) (eps * inject_Z (D * D * D)) = true); [|congruence].
    apply Qle_bool_iff. change (inject_Z (Z.abs 0)) with 0%Q. apply Qmult_le_0_compat; auto. change 0%Q with (inject_Z 0). rewrite <- Zle_Qle. nia. }
  destruct (mink_loop 10 eps D IN) as [M|x] eqn:EM; [|discriminate]. cbn [rbind] in H.
  apply mink_loop_lattice in EM; auto. pose proof (same_row_det _ _ EM) as DM.
  destruct (conditions _ M); [|discriminate]. destruct M as [[A B] C]. destruct (Z.ltb_spec (mdet (A, B, C)) 0) as [L|L]; injection H as <-.
  - split.
    + eapply same_row_trans; [exact EM|]. apply row_perm_lattice. cbn. auto.
    + replace (mdet (A, C, B)) with (- mdet (A, B, C)) by (clear; mat_destruct; vunf; ring). lia.
  - split; auto. lia.
Qed.
Theorem minkowski_is_reduced eps D m IN OUT : (0 <= eps)%Q -> (4 * eps <= 1)%Q -> 0 < D -> small_tolerance (eps * inject_Z D) m -> fits m IN ->
  minkowski_reduce eps D IN = Ok OUT -> exists M, same_rows M OUT /\ minkowski_reduced M.
Proof.
  intros E0 E4 HD Hs Hf H. unfold minkowski_reduce in H.
  destruct (Qle_bool _ _) eqn:ED; [discriminate|].
  assert (Hd : mdet IN <> 0).
  { intros E. rewrite E in ED. assert (X : Qle_bool (inject_Z (Z.abs 0)) (eps * inject_Z (D * D * D)) = true); [|congruence].
    apply Qle_bool_iff. change (inject_Z (Z.abs 0)) with 0%Q. apply Qmult_le_0_compat; auto. change 0%Q with (inject_Z 0). rewrite <- Zle_Qle. nia. }
  destruct (mink_loop 10 eps D IN) as [M|x] eqn:EM; [|discriminate]. cbn [rbind] in H.
  apply (mink_loop_fits eps D m) in EM; auto. destruct EM as (F0 & F1 & F2).
  destruct (conditions _ M) eqn:EC; [|discriminate]. apply (conditions_iff _ m) in EC; auto. apply conditions_reduced in EC.
  exists M. destruct M as [[A B] C]. split; auto. unfold same_rows. destruct (mdet (A, B, C) <? 0); injection H as <-; auto.
Qed.

(** ** What can go wrong *)
Lemma gauss_loop_errors e : forall n U V x, 0 < nrm2 (cross U V) -> gauss_loop n e U V = Err x -> x = SystemExit.
Proof.
  induction n as [|n IH]; intros U V x HC H; cbn [gauss_loop] in H; [congruence|].
  pose proof (cross_nonzero U V HC). destruct (Z.eqb_spec (vdot U U) 0) as [E|E]; [unfold nrm2 in *; lia|].
  destruct (norm_ge _ _ _); [discriminate|]. apply IH in H; auto. apply independent_step. auto.
Qed.
Lemma gauss_errors e U V x : 0 < nrm2 (cross U V) -> gauss e U V = Err x -> x = SystemExit.
Proof.
  intros HC. unfold gauss. destruct (norm_gt _ _ _); intros H.
  - destruct (gauss_loop 10 e V U) as [[? ?]|y] eqn:E; [discriminate|]. cbn in H. injection H as <-. apply gauss_loop_errors in E; auto.
    replace (nrm2 (cross V U)) with (nrm2 (cross U V)); auto. mat_destruct. vunf. ring.
  - destruct (gauss_loop 10 e U V) as [[? ?]|y] eqn:E; [discriminate|]. cbn in H. injection H as <-. apply gauss_loop_errors in E; auto.
Qed.
Lemma mink_loop_errors eps D : (0 <= eps)%Q -> (eps < 1)%Q -> forall n M x, mdet M <> 0 -> mink_loop n eps D M = Err x -> x = SystemExit.
Proof.
  intros E0 E1. induction n as [|n IH]; intros M x Hd H; cbn [mink_loop] in H; [discriminate|].
  destruct (det_rows M Hd) as (P0 & P1 & P2). destruct (sort_rows_spec M P0 P1 P2) as [S1 _]. apply row_perm_lattice in S1.
  destruct (sort_rows M) as [[A B] C] eqn:ES.
  assert (Hd2 : mdet (A, B, C) <> 0) by (pose proof (same_row_det _ _ S1); lia).
  pose proof (reduce_C_returns eps D A B C E0 E1 Hd2) as R. destruct (gauss (eps * inject_Z D) A B) as [[A' B']|y] eqn:G.
  - destruct R as (i & j & R1 & R2 & _). rewrite R1 in H. cbn [rbind] in H.
    set (N := (A', B', vsub C (comb2 A' B' i j))) in *.
    assert (L : same_row_lattice M N) by (eapply same_row_trans; eauto).
    destruct (norm_ge _ _ _); [discriminate|]. apply IH in H; auto. pose proof (same_row_det _ _ L). lia.
  - rewrite R in H. cbn in H. injection H as <-. eapply gauss_errors; [|exact G]. apply (vol_positive A B C Hd2).
Qed.
Theorem minkowski_errors eps D IN x : (0 <= eps)%Q -> (eps < 1)%Q -> 0 < D -> minkowski_reduce eps D IN = Err x ->
  (x = ValueError /\ (inject_Z (Z.abs (mdet IN)) <= eps * inject_Z (D * D * D))%Q) \/ x = SystemExit.
Proof.
  intros E0 E1 HD H. unfold minkowski_reduce in H. destruct (Qle_bool _ _) eqn:ED.
  - left. injection H as <-. split; auto. apply Qle_bool_iff. auto.
  - right.
    assert (Hd : mdet IN <> 0).
    { intros E. rewrite E in ED. assert (X : Qle_bool (inject_Z (Z.abs 0)) (eps * inject_Z (D * D * D)) = true); [|congruence].
      apply Qle_bool_iff. change (inject_Z (Z.abs 0)) with 0%Q. apply Qmult_le_0_compat; auto. change 0%Q with (inject_Z 0). rewrite <- Zle_Qle. nia. }
    destruct (mink_loop 10 eps D IN) as [M|y] eqn:EM; cbn [rbind] in H.
    + destruct (conditions _ M); [destruct M as [[A B] C]; discriminate|congruence].
    + injection H as <-. eapply mink_loop_errors; eauto.
Qed.
(** The conditions can only fail when the last pass still shortened the third vector below the second. *)
Lemma mink_loop_conditions eps D m : (0 <= eps)%Q -> (4 * eps <= 1)%Q -> small_tolerance (eps * inject_Z D) m -> forall n M M', mdet M <> 0 -> fits m M ->
  mink_loop (S n) eps D M = Ok M' -> conditions_exact M' \/ nrm2 (mrow M' 2) < nrm2 (mrow M' 1).
Proof.
  intros E0 E4 Hs n M M' Hd Hf H. destruct (Z_lt_le_dec (nrm2 (mrow M' 2)) (nrm2 (mrow M' 1))) as [L|L]; [right; auto|left].
  assert (E1 : (eps < 1)%Q) by lra.
  revert M Hd Hf H. induction n as [|n IH]; intros M Hd Hf H; remember (mink_loop) as ml; rewrite Heqml in H; cbn [mink_loop] in H.
  - pose proof (one_pass_conditions eps D m M M' E0 E4 Hs Hd Hf) as O. destruct (sort_rows M) as [[A B] C].
    destruct (reduce_C eps D A B C) as [N|x]; [|discriminate]. cbn [rbind] in H. assert (N = M') as -> by (destruct (norm_ge _ _ _); injection H; auto). apply O; auto.
  - pose proof (one_pass_conditions eps D m M M' E0 E4 Hs Hd Hf) as O.
    destruct (det_rows M Hd) as (P0 & P1 & P2). destruct (sort_rows_spec M P0 P1 P2) as [S1 _].
    pose proof (mink_loop_fits eps D m E0 E4 Hs 1 M) as FF. pose proof (mink_loop_lattice eps D E0 E1 1 M) as LL. cbn [mink_loop] in FF, LL.
    destruct (sort_rows M) as [[A B] C]. destruct (reduce_C eps D A B C) as [N|x]; [|discriminate]. cbn [rbind] in *.
    destruct (norm_ge _ _ _).
    + injection H as ->. apply O; auto.
    + specialize (FF N Hd Hf eq_refl). specialize (LL N Hd eq_refl). subst ml. apply (IH N); auto.
      pose proof (same_row_det _ _ LL). lia.
Qed.
(** Rows of a matrix and columns of its transpose. *)
Lemma row_lattice_columns M N : same_row_lattice M N -> same_lattice (transpose M) (transpose N).
Proof.
  assert (X : forall P w, in_lattice (transpose P) w <-> exists x y z, w = comb3 P x y z).
  { intros P w. split.
    - intros [[[x y] z] ->]. exists x, y, z. destruct P as [[A B] C]. vec_eq.
    - intros (x & y & z & ->). exists (x, y, z). destruct P as [[A B] C]. vec_eq. }
  intros H v. rewrite !X. apply H.
Qed.
