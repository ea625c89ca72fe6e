(** The number model of PolyaModel.v is exact on integers below 2^53. *)
From Verif Require Import PyBase PolyaModel.
Local Open Scope Z_scope.

Definition val (x : num) (z : Z) : Prop := fst (frac x) = z * snd (frac x).

Lemma frac_pos x : 0 < snd (frac x).
Proof. destruct x; cbn; [lia|]. apply Z.pow_pos_nonneg; lia. Qed.
Lemma val_I z : val (I z) z.
Proof. unfold val. cbn. lia. Qed.

Lemma exponent_le z d : 0 < d -> 0 < z < 2 ^ 53 -> exponent (z * d) d <= 0.
Proof.
  intros Hd Hz. unfold exponent. set (e := Z.log2 (z * d) - Z.log2 d - 52).
  pose proof (Z.log2_mul_above z d ltac:(lia) ltac:(lia)) as H1.
  assert (Z.log2 z < 53) as H2 by (apply Z.log2_lt_pow2; lia).
  assert (e <= 1) by (unfold e; lia).
  destruct (Z.eq_dec e 1) as [->|].
  - change (Z.max (-(1)) 0) with 0. change (Z.max 1 0) with 1.
    destruct (Z.ltb_spec (z * d * 2 ^ 0) (d * 2 ^ 1 * 2 ^ 52)); [lia|].
    change (2 ^ 0) with 1 in *. change (2 ^ 1) with 2 in *. assert (z * d < 2 ^ 53 * d) by nia.
    replace (2 ^ 53) with (2 * 2 ^ 52) in * by reflexivity. lia.
  - destruct (_ <? _); lia.
Qed.

Lemma round_val n d z : 0 < d -> n = z * d -> 0 <= z < 2 ^ 53 -> val (round n d) z.
Proof.
  intros Hd -> Hz. unfold round. destruct (Z.eqb_spec (z * d) 0) as [E|E].
  - assert (z = 0) by nia. subst. reflexivity.
  - assert (0 < z) by nia. pose proof (exponent_le z d Hd ltac:(lia)) as He. set (e := exponent (z * d) d) in *.
    rewrite Z.max_l by lia. rewrite (Z.max_r e 0) by lia. change (2 ^ 0) with 1. rewrite Z.mul_1_r.
    assert (round_half_even (z * d * 2 ^ (- e)) d = z * 2 ^ (- e)) as ->.
    { unfold round_half_even. replace (z * d * 2 ^ (- e)) with (z * 2 ^ (- e) * d) by ring.
      rewrite Z.div_mul, Z.mod_mul by lia. cbn [Z.mul]. destruct (Z.ltb_spec 0 d); lia. }
    unfold val. cbn [frac fst snd]. rewrite (Z.max_r e 0), Z.max_l by lia. change (2 ^ 0) with 1. lia.
Qed.

Lemma to_float_val x z : val x z -> 0 <= z < 2 ^ 53 -> val (to_float x) z.
Proof.
  destruct x as [a|m e]; intros H Hz; cbn [to_float]; auto.
  unfold val in H. cbn in H. apply round_val; lia.
Qed.

Lemma val_elim x z : val x z -> exists n d, frac x = (n, d) /\ 0 < d /\ n = z * d.
Proof. intros H. exists (fst (frac x)), (snd (frac x)). split; [apply surjective_pairing|]. split; [apply frac_pos|exact H]. Qed.

Lemma val_II a z : val (I a) z -> a = z.
Proof. unfold val. cbn. lia. Qed.

Lemma nmul_val x y a b : val x a -> val y b -> 0 <= a < 2 ^ 53 -> 0 <= b < 2 ^ 53 -> a * b < 2 ^ 53 ->
  val (nmul x y) (a * b).
Proof.
  intros Hx Hy Ha Hb Hab.
  destruct (val_elim _ _ (to_float_val x a Hx Ha)) as [n1 [d1 [E1 [H1 ->]]]].
  destruct (val_elim _ _ (to_float_val y b Hy Hb)) as [n2 [d2 [E2 [H2 ->]]]].
  assert (val (round (a * d1 * (b * d2)) (d1 * d2)) (a * b)) as R by (apply round_val; nia).
  unfold nmul. destruct x as [xa|], y as [yb|]; try (rewrite E1, E2; exact R).
  apply val_II in Hx, Hy. subst. apply val_I.
Qed.
Lemma nadd_val x y a b : val x a -> val y b -> 0 <= a -> 0 <= b -> a + b < 2 ^ 53 -> val (nadd x y) (a + b).
Proof.
  intros Hx Hy Ha Hb Hab.
  destruct (val_elim _ _ (to_float_val x a Hx ltac:(lia))) as [n1 [d1 [E1 [H1 ->]]]].
  destruct (val_elim _ _ (to_float_val y b Hy ltac:(lia))) as [n2 [d2 [E2 [H2 ->]]]].
  assert (val (round (a * d1 * d2 + b * d2 * d1) (d1 * d2)) (a + b)) as R by (apply round_val; nia).
  unfold nadd. destruct x as [xa|], y as [yb|]; try (rewrite E1, E2; exact R).
  apply val_II in Hx, Hy. subst. apply val_I.
Qed.
Lemma ndiv_val v x y a b : val x (a * b) -> val y b -> 0 <= a -> 0 < b < 2 ^ 53 -> a * b < 2 ^ 53 -> val (ndiv v x y) a.
Proof.
  intros Hx Hy Ha Hb Hab.
  destruct (val_elim _ _ (to_float_val x (a * b) Hx ltac:(nia))) as [n1 [d1 [E1 [H1 ->]]]].
  destruct (val_elim _ _ (to_float_val y b Hy ltac:(lia))) as [n2 [d2 [E2 [H2 ->]]]].
  assert (val (round (a * b * d1 * d2) (d1 * (b * d2))) a) as R by (apply round_val; nia).
  unfold ndiv. destruct x as [xa|], y as [yb|]; try (rewrite E1, E2; exact R).
  apply val_II in Hx, Hy. subst. destruct v.
  - rewrite Z.div_mul by lia. apply val_I.
  - apply round_val; nia.
Qed.
Lemma nint_val x z : val x z -> nint x = z.
Proof.
  intros H. destruct (val_elim _ _ H) as [n [d [E [Hd ->]]]]. unfold nint. rewrite E. apply Z.div_mul. lia.
Qed.
