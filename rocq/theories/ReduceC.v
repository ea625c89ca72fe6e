(** The reduction of the third vector: _reduce_C_in_ABC. *)
From Coq Require Import QArith Lqa.
From Verif Require Import PyBase Mat3 ReduceModel ReduceSpec ReduceGauss.
Local Open Scope Z_scope.

(** ** The quadratic form of the plane *)
Definition form (a b c u v : Z) : Z := a * (u * u) + 2 * b * (u * v) + c * (v * v).
Lemma form_neg a b c u v : form a b c (- u) (- v) = form a b c u v.
Proof. unfold form. ring. Qed.
Lemma form_swap a b c u v : form a b c u v = form c b a v u.
Proof. unfold form. ring. Qed.
(** From [4u >= 3q] one can step towards 0, moving [v] too only if it is more than half a step away. *)
Lemma step_down a b c q u v : 0 < q -> 2 * Z.abs b <= a -> 2 * Z.abs b <= c -> 3 * q <= 4 * u ->
  form a b c (u - q) v <= form a b c u v \/
  (q < 2 * v /\ form a b c (u - q) (v - q) <= form a b c u v) \/
  (2 * v < - q /\ form a b c (u - q) (v + q) <= form a b c u v).
Proof.
  intros Hq Ha Hc Hu.
  assert (E1 : form a b c (u - q) v = form a b c u v - q * (a * (2 * u - q) + 2 * b * v)) by (unfold form; ring).
  destruct (Z_le_gt_dec 0 (a * (2 * u - q) + 2 * b * v)) as [L|L]; [left; nia|right].
  assert (Hb : Z.abs b * q <= Z.abs b * (4 * u - 2 * q)) by (apply Z.mul_le_mono_nonneg_l; lia).
  assert (Hau : 2 * Z.abs b * (2 * u - q) <= a * (2 * u - q)) by (apply Z.mul_le_mono_nonneg_r; lia).
  assert (Hbv : - (2 * Z.abs b * Z.abs v) <= 2 * b * v) by (rewrite <- Z.mul_assoc, <- Z.abs_mul; lia).
  assert (Hv : 2 * u - q < Z.abs v).
  { destruct (Z_lt_le_dec (2 * u - q) (Z.abs v)) as [|X]; auto. exfalso.
    assert (2 * Z.abs b * Z.abs v <= 2 * Z.abs b * (2 * u - q)) by (apply Z.mul_le_mono_nonneg_l; lia). lia. }
  assert (Key : 0 <= a * (2 * u - q) + c * (2 * Z.abs v - q) - 2 * Z.abs b * (u + Z.abs v - q)).
  { assert (2 * Z.abs b * (2 * Z.abs v - q) <= c * (2 * Z.abs v - q)) by (apply Z.mul_le_mono_nonneg_r; lia).
    assert (0 <= 2 * Z.abs b * (u + Z.abs v - q)) by (apply Z.mul_nonneg_nonneg; lia). lia. }
  destruct (Z_lt_le_dec v 0) as [Sv|Sv].
  - right. split; [lia|].
    assert (E2 : form a b c (u - q) (v + q) = form a b c u v - q * (a * (2 * u - q) + c * (2 * - v - q) - 2 * b * (u - v - q))) by (unfold form; ring).
    rewrite Z.abs_neq in Key by lia.
    assert (2 * b * (u - v - q) <= 2 * Z.abs b * (u + - v - q)).
    { replace (u - v - q) with (u + - v - q) by ring. apply Z.mul_le_mono_nonneg_r; lia. }
    rewrite E2. assert (0 <= q * (a * (2 * u - q) + c * (2 * - v - q) - 2 * b * (u - v - q))) by (apply Z.mul_nonneg_nonneg; lia). lia.
  - left. split; [lia|].
    assert (E2 : form a b c (u - q) (v - q) = form a b c u v - q * (a * (2 * u - q) + c * (2 * v - q) + 2 * b * (u + v - q))) by (unfold form; ring).
    rewrite Z.abs_eq in Key by lia.
    assert (2 * - b * (u + v - q) <= 2 * Z.abs b * (u + v - q)) by (apply Z.mul_le_mono_nonneg_r; lia).
    rewrite E2. assert (0 <= q * (a * (2 * u - q) + c * (2 * v - q) + 2 * b * (u + v - q))) by (apply Z.mul_nonneg_nonneg; lia). lia.
Qed.
Lemma step_up a b c q u v : 0 < q -> 2 * Z.abs b <= a -> 2 * Z.abs b <= c -> 4 * u <= - (3 * q) ->
  form a b c (u + q) v <= form a b c u v \/
  (q < 2 * v /\ form a b c (u + q) (v - q) <= form a b c u v) \/
  (2 * v < - q /\ form a b c (u + q) (v + q) <= form a b c u v).
Proof.
  intros Hq Ha Hc Hu. destruct (step_down a b c q (- u) (- v) Hq Ha Hc ltac:(lia)) as [H|[[H1 H]|[H1 H]]]; rewrite (form_neg a b c u v) in H; rewrite <- form_neg in H.
  - left. replace (- (- u - q)) with (u + q) in H by ring. replace (- - v) with v in H by ring. auto.
  - right. right. split; [lia|]. replace (- (- u - q)) with (u + q) in H by ring. replace (- (- v - q)) with (v + q) in H by ring. auto.
  - right. left. split; [lia|]. replace (- (- u - q)) with (u + q) in H by ring. replace (- (- v + q)) with (v - q) in H by ring. auto.
Qed.

(** The corner [n] of the enclosing cell of the coordinate [s/q], up to a tolerance below 1/4. *)
Definition enclosing (q s n : Z) : Prop := 4 * (q * n - s) <= q /\ s < q * (n + 1).
Definition away (n i : Z) : nat := Z.to_nat (Z.max (n - i) (i - n - 1)).

Lemma corner_best a b c q s t n m : 0 < q -> 2 * Z.abs b <= a -> 2 * Z.abs b <= c -> enclosing q s n -> enclosing q t m ->
  forall i j, exists x y, In (x, y) corners /\ form a b c (q * (x + n) - s) (q * (y + m) - t) <= form a b c (q * i - s) (q * j - t).
Proof.
  intros Hq Ha Hc [Hn1 Hn2] [Hm1 Hm2].
  assert (Main : forall k i j, (away n i + away m j <= k)%nat -> exists x y, In (x, y) corners /\ form a b c (q * (x + n) - s) (q * (y + m) - t) <= form a b c (q * i - s) (q * j - t)).
  { induction k as [|k IH]; intros i j Hk.
    - exists (i - n), (j - m). split.
      + unfold away in Hk. assert (i - n = 0 \/ i - n = 1) as [E|E] by lia; assert (j - m = 0 \/ j - m = 1) as [E'|E'] by lia; rewrite E, E'; cbn; auto.
      + replace (i - n + n) with i by ring. replace (j - m + m) with j by ring. lia.
    - assert (Cut : forall i' j', (away n i' + away m j' < away n i + away m j)%nat -> form a b c (q * i' - s) (q * j' - t) <= form a b c (q * i - s) (q * j - t) ->
         exists x y, In (x, y) corners /\ form a b c (q * (x + n) - s) (q * (y + m) - t) <= form a b c (q * i - s) (q * j - t)).
      { intros i' j' Hl Hf. destruct (IH i' j') as (x & y & H1 & H2); [lia|]. exists x, y. split; auto. lia. }
      assert (I1 : q * (i - 1) - s = q * i - s - q) by ring. assert (I2 : q * (i + 1) - s = q * i - s + q) by ring.
      assert (J1 : q * (j - 1) - t = q * j - t - q) by ring. assert (J2 : q * (j + 1) - t = q * j - t + q) by ring.
      assert (JU : q < 2 * (q * j - t) -> m + 1 <= j) by (intros; nia).
      assert (JD : 2 * (q * j - t) < - q -> j <= m) by (intros; nia).
      assert (IU : q < 2 * (q * i - s) -> n + 1 <= i) by (intros; nia).
      assert (ID : 2 * (q * i - s) < - q -> i <= n) by (intros; nia).
      destruct (Z_le_gt_dec (n + 2) i) as [A1|A1]; [|destruct (Z_le_gt_dec i (n - 1)) as [A2|A2]; [|destruct (Z_le_gt_dec (m + 2) j) as [A3|A3]; [|destruct (Z_le_gt_dec j (m - 1)) as [A4|A4]]]].
      + destruct (step_down a b c q (q * i - s) (q * j - t) Hq Ha Hc ltac:(nia)) as [H|[[X H]|[X H]]].
        * rewrite <- I1 in H. apply (Cut (i - 1) j); auto. unfold away. lia.
        * rewrite <- I1, <- J1 in H. apply (Cut (i - 1) (j - 1)); auto. specialize (JU X). unfold away. lia.
        * rewrite <- I1, <- J2 in H. apply (Cut (i - 1) (j + 1)); auto. specialize (JD X). unfold away. lia.
      + destruct (step_up a b c q (q * i - s) (q * j - t) Hq Ha Hc ltac:(nia)) as [H|[[X H]|[X H]]].
        * rewrite <- I2 in H. apply (Cut (i + 1) j); auto. unfold away. lia.
        * rewrite <- I2, <- J1 in H. apply (Cut (i + 1) (j - 1)); auto. specialize (JU X). unfold away. lia.
        * rewrite <- I2, <- J2 in H. apply (Cut (i + 1) (j + 1)); auto. specialize (JD X). unfold away. lia.
      + destruct (step_down c b a q (q * j - t) (q * i - s) Hq Hc Ha ltac:(nia)) as [H|[[X H]|[X H]]]; rewrite !(form_swap c) in H.
        * rewrite <- J1 in H. apply (Cut i (j - 1)); auto. unfold away. lia.
        * rewrite <- I1, <- J1 in H. apply (Cut (i - 1) (j - 1)); auto. specialize (IU X). unfold away. lia.
        * rewrite <- I2, <- J1 in H. apply (Cut (i + 1) (j - 1)); auto. specialize (ID X). unfold away. lia.
      + destruct (step_up c b a q (q * j - t) (q * i - s) Hq Hc Ha ltac:(nia)) as [H|[[X H]|[X H]]]; rewrite !(form_swap c) in H.
        * rewrite <- J2 in H. apply (Cut i (j + 1)); auto. unfold away. lia.
        * rewrite <- I1, <- J2 in H. apply (Cut (i - 1) (j + 1)); auto. specialize (IU X). unfold away. lia.
        * rewrite <- I2, <- J2 in H. apply (Cut (i + 1) (j + 1)); auto. specialize (ID X). unfold away. lia.
      + apply (IH i j). unfold away. lia. }
  intros i j. apply (Main _ i j (le_n _)).
Qed.

(** ** The pieces of the function *)
Lemma closest_spec f : forall l best, In (closest f best l) (best :: l) /\ forall x, In x (best :: l) -> f (closest f best l) <= f x.
Proof.
  induction l as [|y l IH]; intros best; cbn [closest].
  - split; [left; auto|]. intros x [<-|[]]. lia.
  - destruct (Z.ltb_spec (f y) (f best)) as [L|L].
    + destruct (IH y) as [H1 H2]. split.
      * right. exact H1.
      * intros x [<-|[<-|Hx]]; [specialize (H2 y (or_introl eq_refl)); lia|apply H2; left; auto|apply H2; right; auto].
    + destruct (IH best) as [H1 H2]. split.
      * destruct H1 as [<-|H1]; [left; auto|right; right; auto].
      * intros x [<-|[<-|Hx]]; [apply H2; left; auto|specialize (H2 best (or_introl eq_refl)); lia|apply H2; right; auto].
Qed.
Lemma floor_eps_cancel eps p q k : q <> 0 -> k <> 0 -> floor_eps eps (p * k) (q * k) = floor_eps eps p q.
Proof.
  intros Hq Hk. unfold floor_eps. replace (p * k * Z.pos (Qden eps) + Qnum eps * (q * k)) with ((p * Z.pos (Qden eps) + Qnum eps * q) * k) by ring.
  replace (q * k * Z.pos (Qden eps)) with (q * Z.pos (Qden eps) * k) by ring. apply Z.div_mul_cancel_r; lia.
Qed.
Lemma floor_eps_zero eps q : q <> 0 -> (0 <= eps)%Q -> (eps < 1)%Q -> floor_eps eps 0 q = 0.
Proof.
  intros Hq H0 H1. unfold floor_eps. destruct eps as [n d]. unfold Qle, Qlt in *. cbn in *.
  replace (0 * Z.pos d + n * q) with (n * q) by ring. rewrite (Z.mul_comm q). rewrite Z.div_mul_cancel_r by lia. apply Z.div_small. lia.
Qed.
Lemma floor_eps_enclosing eps s q : 0 < q -> (0 <= eps)%Q -> (4 * eps <= 1)%Q -> enclosing q s (floor_eps eps s q).
Proof.
  intros Hq H0 H1. unfold floor_eps, enclosing. destruct eps as [n d]. unfold Qle in *. cbn [Qnum Qden Qmult] in *. rewrite Pos.mul_1_l in H1.
  set (D := Z.pos d) in *. assert (HD : 0 < D) by (unfold D; lia).
  set (f := (s * D + n * q) / (q * D)).
  pose proof (Z.div_mod (s * D + n * q) (q * D) ltac:(nia)) as E. fold f in E.
  pose proof (Z.mod_pos_bound (s * D + n * q) (q * D) ltac:(nia)) as B. set (r := (s * D + n * q) mod (q * D)) in *. clearbody f r.
  assert (4 * n <= D) by lia. assert (0 <= n) by lia. split.
  - assert (4 * n * q <= D * q) by (apply Z.mul_le_mono_nonneg_r; lia).
    apply (Z.mul_le_mono_pos_l _ _ D); [lia|]. replace (D * (4 * (q * f - s))) with (4 * (q * D * f) - 4 * (s * D)) by ring. lia.
  - assert (0 <= n * q) by (apply Z.mul_nonneg_nonneg; lia).
    apply (Z.mul_lt_mono_pos_l D); [lia|]. replace (D * (q * (f + 1))) with (q * D * f + q * D) by ring. lia.
Qed.

Lemma round_even_exact k q : 0 < q -> round_even (k * q) q = k.
Proof. intros H. unfold round_even. rewrite Z.div_mul, Z.mod_mul by lia. cbn. destruct (Z.ltb_spec 0 q); lia. Qed.
Lemma near_int_exact eps d k : (0 <= eps)%Q -> d <> 0 -> near_int eps d (k * d) = true.
Proof.
  intros He Hd. unfold near_int. apply Qle_bool_iff.
  replace (Z.sgn d * (k * d)) with (k * Z.abs d) by (rewrite <- (Z.sgn_abs d); ring).
  rewrite round_even_exact by lia. rewrite Z.sub_diag. cbn [Z.abs]. change (inject_Z 0) with 0%Q.
  apply Qmult_le_0_compat; auto. change 0%Q with (inject_Z 0). rewrite <- Zle_Qle. lia.
Qed.

(** Vector identities. *)
Lemma gram A B : vdot (cross A B) (cross A B) = nrm2 A * nrm2 B - vdot A B * vdot A B.
Proof. mat_destruct. vunf. ring. Qed.
Lemma projection A B C : let N := cross A B in let N2 := vdot N N in
  vsub (vscale N2 C) (vscale (vdot C N) N) = comb2 A B (nrm2 B * vdot C A - vdot A B * vdot C B) (nrm2 A * vdot C B - vdot A B * vdot C A).
Proof. cbv zeta. vec_eq. Qed.
Lemma det_first A B C s t : mdet (comb2 A B s t, B, C) = s * mdet (A, B, C).
Proof. mat_destruct. vunf. ring. Qed.
Lemma det_second A B C s t : mdet (A, comb2 A B s t, C) = t * mdet (A, B, C).
Proof. mat_destruct. vunf. ring. Qed.
Lemma det_third A B s t : mdet (A, B, comb2 A B s t) = 0.
Proof. mat_destruct. vunf. ring. Qed.
Lemma form_of A B s t q i j : nrm2 (vsub (comb2 A B s t) (vscale q (comb2 A B i j))) = form (nrm2 A) (vdot A B) (nrm2 B) (q * i - s) (q * j - t).
Proof. unfold form. mat_destruct. vunf. ring. Qed.
(** The distance in the plane and the length of the reduced vector. *)
Lemma pythagoras A B C i j : let N := cross A B in let N2 := vdot N N in
  N2 * N2 * nrm2 (vsub C (comb2 A B i j)) =
  nrm2 (vsub (vsub (vscale N2 C) (vscale (vdot C N) N)) (vscale N2 (comb2 A B i j))) + N2 * (vdot C N * vdot C N).
Proof. cbv zeta. mat_destruct. vunf. ring. Qed.
Lemma vol_positive A B C : mdet (A, B, C) <> 0 -> 0 < vdot (cross A B) (cross A B).
Proof.
  intros H. pose proof (nrm2_nonneg (cross A B)) as P. destruct (Z.eq_dec (vdot (cross A B) (cross A B)) 0) as [E|]; [|unfold nrm2 in P; lia].
  exfalso. apply H. assert (D : mdet (A, B, C) = vdot C (cross A B)) by (mat_destruct; vunf; ring). rewrite D.
  destruct (cross A B) as [[x y] z], C as [[u v] w]. revert E. vunf. intros E. assert (x = 0 /\ y = 0 /\ z = 0) as (-> & -> & ->) by nia. ring.
Qed.

(** ** Lattices *)
Lemma same_row_trans M N P : same_row_lattice M N -> same_row_lattice N P -> same_row_lattice M P.
Proof. intros H1 H2 w. rewrite (H1 w). apply H2. Qed.
Lemma same_row_refl M : same_row_lattice M M.
Proof. intros w. tauto. Qed.
Lemma pair_row A B A' B' C : same_pair_lattice A B A' B' -> same_row_lattice (A, B, C) (A', B', C).
Proof.
  intros H w. split; intros (x & y & z & ->).
  - destruct (H (comb2 A B x y)) as [H1 _]. destruct H1 as (x' & y' & E); [eauto|]. exists x', y', z.
    unfold comb3. unfold comb2 in E. rewrite E. reflexivity.
  - destruct (H (comb2 A' B' x y)) as [_ H1]. destruct H1 as (x' & y' & E); [eauto|]. exists x', y', z.
    unfold comb3. unfold comb2 in E. rewrite E. reflexivity.
Qed.
Lemma shear_row A B C i j : same_row_lattice (A, B, C) (A, B, vsub C (comb2 A B i j)).
Proof.
  intros w. split; intros (x & y & z & ->).
  - exists (x + z * i), (y + z * j), z. vec_eq.
  - exists (x - z * i), (y - z * j), z. vec_eq.
Qed.
(** Spanning the same lattice, through integer matrices. *)
Lemma same_row_matrix M N : same_row_lattice M N -> exists P, M = mmul P N.
Proof.
  intros H. destruct M as [[A B] C].
  assert (X : forall w, (exists x y z, w = comb3 (A, B, C) x y z) -> exists p, w = mvec (transpose N) p).
  { intros w Hw. apply H in Hw. destruct Hw as (x & y & z & ->). exists (x, y, z). destruct N as [[D E] F]. vec_eq. }
  destruct (X A) as [p Hp]; [exists 1, 0, 0; vec_eq|]. destruct (X B) as [q Hq]; [exists 0, 1, 0; vec_eq|]. destruct (X C) as [r Hr]; [exists 0, 0, 1; vec_eq|].
  exists (p, q, r). rewrite Hp, Hq, Hr. clear. mat_ring.
Qed.
Lemma same_row_sym M N : same_row_lattice M N -> same_row_lattice N M.
Proof. intros H w. symmetry. apply H. Qed.
Lemma same_row_det M N : same_row_lattice M N -> Z.abs (mdet M) = Z.abs (mdet N).
Proof.
  intros H. destruct (same_row_matrix M N H) as [P HP]. destruct (same_row_matrix N M (same_row_sym _ _ H)) as [Q HQ].
  apply (f_equal mdet) in HP, HQ. rewrite mdet_mmul in HP, HQ.
  destruct (Z.eq_dec (mdet N) 0) as [E|E]; [rewrite E in HP |- *; lia|].
  assert (mdet P * mdet Q = 1 \/ mdet N = 0) by nia. assert (mdet P * mdet Q = 1) by tauto.
  assert (mdet P = 1 \/ mdet P = -1) as [X|X] by (apply Z.mul_eq_1 in H1 || nia; auto); rewrite X in HP; lia.
Qed.
Lemma mmul_assoc3 P N d : mmul N (madj N) = mscale d mid -> entries (mmul (mmul P N) (madj N)) = map (fun k => k * d) (entries P).
Proof.
  intros H. assert (E : mmul (mmul P N) (madj N) = mmul P (mmul N (madj N))) by apply mmul_assoc.
  rewrite E, H. clear. mat_destruct. mat_unfold. cbn [entries map]. repeat (apply f_equal2; [ring|]). reflexivity.
Qed.
Lemma mmul_madj N : mmul N (madj N) = mscale (mdet N) mid.
Proof. mat_ring. Qed.
Lemma preserved_check eps M N : (0 <= eps)%Q -> same_row_lattice M N -> mdet N <> 0 ->
  forallb (near_int eps (mdet N)) (entries (mmul M (madj N))) = true.
Proof.
  intros He H Hd. destruct (same_row_matrix M N H) as [P ->]. rewrite (mmul_assoc3 P N _ (mmul_madj N)).
  apply forallb_forall. intros x Hx. apply in_map_iff in Hx as (k & <- & _). apply near_int_exact; auto.
Qed.

(** ** The function *)
Lemma comb2_zero_third i j l0 l1 A B C : vadd (vadd (vscale (i + l0) A) (vscale (j + l1) B)) (vscale 0 C) = comb2 A B (i + l0) (j + l1).
Proof. vec_eq. Qed.

Theorem reduce_C_returns eps D A0 B0 C : (0 <= eps)%Q -> (eps < 1)%Q -> mdet (A0, B0, C) <> 0 ->
  match gauss (eps * inject_Z D) A0 B0 with
  | Err x => reduce_C eps D A0 B0 C = Err x
  | Ok (A, B) => exists i j, reduce_C eps D A0 B0 C = Ok (A, B, vsub C (comb2 A B i j)) /\
      same_row_lattice (A0, B0, C) (A, B, vsub C (comb2 A B i j)) /\
      ((4 * eps <= 1)%Q -> reduced A B -> forall x y, nrm2 (vsub C (comb2 A B i j)) <= nrm2 (vsub C (comb2 A B x y)))
  end.
Proof.
  intros E0 E1 Hd. unfold reduce_C. destruct (gauss (eps * inject_Z D) A0 B0) as [[A B]|x] eqn:G; [|reflexivity].
  cbn [rbind]. cbv zeta.
  pose proof (gauss_lattice _ _ _ _ _ G) as L. apply (pair_row _ _ _ _ C) in L.
  assert (HdA : mdet (A, B, C) <> 0) by (pose proof (same_row_det _ _ L); lia).
  pose proof (vol_positive A B C HdA) as HN. set (N2 := vdot (cross A B) (cross A B)) in *.
  pose proof (projection A B C) as HP. cbv zeta in HP. fold N2 in HP.
  set (s := nrm2 B * vdot C A - vdot A B * vdot C B) in *. set (t := nrm2 A * vdot C B - vdot A B * vdot C A) in *.
  pose proof (pythagoras A B C) as PY. cbv zeta in PY. fold N2 in PY.
  rewrite HP in *. rewrite det_first, det_second, det_third.
  rewrite !floor_eps_cancel by lia.
  assert (F3 : floor_eps eps 0 (N2 * mdet (A, B, C)) = 0) by (apply floor_eps_zero; auto; nia). rewrite F3.
  set (n := floor_eps eps s N2). set (m := floor_eps eps t N2).
  set (f := fun ij : Z * Z => nrm2 (vsub (comb2 A B s t) (vscale N2 (let '(i, j) := ij in vadd (vadd (vscale (i + n) A) (vscale (j + m) B)) (vscale 0 C))))).
  pose proof (closest_spec f corners (0, 0)) as [K1 K2]. set (best := closest f (0, 0) corners) in *. clearbody best. destruct best as [bi bj].
  rewrite comb2_zero_third. exists (bi + n), (bj + m).
  assert (SL : same_row_lattice (A0, B0, C) (A, B, vsub C (comb2 A B (bi + n) (bj + m)))) by (eapply same_row_trans; [exact L|apply shear_row]).
  assert (HdM : mdet (A, B, vsub C (comb2 A B (bi + n) (bj + m))) <> 0) by (pose proof (same_row_det _ _ SL); lia).
  rewrite (preserved_check _ _ _ E0 SL HdM). split; [reflexivity|]. split; [exact SL|].
  intros E4 [R1 R2] x y.
  destruct (corner_best (nrm2 A) (vdot A B) (nrm2 B) N2 s t n m HN ltac:(lia) ltac:(lia)
              (floor_eps_enclosing eps s N2 HN E0 E4) (floor_eps_enclosing eps t N2 HN E0 E4) x y) as (ci & cj & C1 & C2).
  specialize (K2 (ci, cj)). assert (K3 : In (ci, cj) ((0, 0) :: corners)) by (right; exact C1). specialize (K2 K3).
  unfold f in K2. rewrite !comb2_zero_third, !form_of in K2.
  pose proof (PY (bi + n) (bj + m)) as P1. pose proof (PY x y) as P2. rewrite form_of in P1, P2.
  assert (N2 * N2 * nrm2 (vsub C (comb2 A B (bi + n) (bj + m))) <= N2 * N2 * nrm2 (vsub C (comb2 A B x y))) by lia.
  nia.
Qed.
