(** The comparison of norms in ReduceModel.v is the comparison of square roots (uses the standard library's real numbers). *)
From Coq Require Import QArith Qreals Reals Lra.
From Verif Require Import PyBase Mat3 ReduceModel.
Local Open Scope R_scope.

Lemma norm_test_aux (u v e : R) : 0 <= u -> 0 <= v -> 0 <= e ->
  sqrt u >= sqrt v - e <-> v - u - e * e <= 0 \/ (v - u - e * e) * (v - u - e * e) <= 4 * e * e * u.
Proof.
  intros Hu Hv He. pose proof (sqrt_pos u) as Pu. pose proof (sqrt_pos v) as Pv.
  pose proof (sqrt_sqrt u Hu) as Su. pose proof (sqrt_sqrt v Hv) as Sv.
  set (x := sqrt u) in *. set (y := sqrt v) in *. clearbody x y. subst u v.
  split.
  - intros H. assert (H' : y <= x + e) by lra. assert (Y : y * y <= (x + e) * (x + e)) by nra.
    destruct (Rle_dec (y * y - x * x - e * e) 0) as [L|L]; [left; auto|right].
    assert (0 <= y * y - x * x - e * e <= 2 * e * x) by nra.
    assert ((y * y - x * x - e * e) * (y * y - x * x - e * e) <= (2 * e * x) * (2 * e * x)) by (apply Rmult_le_compat; lra). lra.
  - intros H. apply Rle_ge. cut (y <= x + e); [lra|]. apply Rnot_lt_le. intros L.
    assert (Y : (x + e) * (x + e) < y * y) by nra.
    assert (P : 0 <= 2 * e * x) by nra.
    destruct H as [H|H]; [nra|].
    assert (D : 2 * e * x < y * y - x * x - e * e) by nra. set (d := y * y - x * x - e * e) in *. nra.
Qed.
Theorem norm_ge_sqrt (u v : Z) (e : Q) : (0 <= u)%Z -> (0 <= v)%Z -> (0 <= e)%Q ->
  norm_ge u v e = true <-> sqrt (IZR u) >= sqrt (IZR v) - Q2R e.
Proof.
  intros Hu Hv He. apply IZR_le in Hu, Hv. apply Qle_Rle in He. rewrite RMicromega.Q2R_0 in He.
  rewrite norm_test_aux by auto. unfold norm_ge. rewrite orb_true_iff, !Qle_bool_iff.
  assert (I : forall z : Z, Q2R (inject_Z z) = IZR z) by (intros z; unfold Q2R, inject_Z; cbn; field).
  assert (F : Q2R 4 = 4) by (unfold Q2R; cbn; field).
  split; (intros [H|H]; [left|right]).
  - apply Qle_Rle in H. rewrite RMicromega.Q2R_0, !Q2R_minus, Q2R_mult, !I in H. exact H.
  - apply Qle_Rle in H. rewrite !Q2R_mult, !Q2R_minus, !Q2R_mult, !I, F in H. exact H.
  - apply Rle_Qle. rewrite RMicromega.Q2R_0, !Q2R_minus, Q2R_mult, !I. exact H.
  - apply Rle_Qle. rewrite !Q2R_mult, !Q2R_minus, !Q2R_mult, !I, F. exact H.
Qed.
