(** The reduction of a pair: _gaussian_reduce_two_vectors. *)
From Coq Require Import QArith Lqa.
From Verif Require Import PyBase Mat3 ReduceModel ReduceSpec.
Local Open Scope Z_scope.

Ltac vunf := unfold nrm2, len2, comb2, comb3, cross, vsub in *; cbv beta iota zeta delta [mmul transpose mvec vdot mdet madj mid mscale vscale vadd mrow vget mget].

(** ** Comparison of norms *)
Lemma norm_ge_true u v e : v <= u -> norm_ge u v e = true.
Proof.
  intros H. unfold norm_ge. apply orb_true_iff. left. apply Qle_bool_iff. rewrite Zle_Qle in H.
  assert (0 <= e * e)%Q by (destruct (Qlt_le_dec e 0); nra). lra.
Qed.
Lemma norm_ge_exact u v e m : (0 <= e)%Q -> (4 * e * e * inject_Z m < 1)%Q -> 0 <= u -> 0 <= v <= m -> norm_ge u v e = (v <=? u).
Proof.
  intros He Hm Hu Hv. destruct (Z.leb_spec v u) as [L|L]; [apply norm_ge_true; auto|].
  unfold norm_ge.
  assert (M1 : (inject_Z 1 <= inject_Z m)%Q) by (rewrite <- Zle_Qle; lia). change (inject_Z 1) with 1%Q in M1.
  assert (D1 : (1 <= inject_Z v - inject_Z u)%Q).
  { change 1%Q with (inject_Z 1). unfold Qminus. rewrite <- inject_Z_opp, <- inject_Z_plus, <- Zle_Qle. lia. }
  assert (U1 : (inject_Z u + 1 <= inject_Z m)%Q).
  { change 1%Q with (inject_Z 1). rewrite <- inject_Z_plus, <- Zle_Qle. lia. }
  assert (U0 : (0 <= inject_Z u)%Q) by (change 0%Q with (inject_Z 0); rewrite <- Zle_Qle; lia).
  set (s := (e * e)%Q) in *. assert (S0 : (0 <= s)%Q) by (unfold s; nra).
  assert (Hm' : (4 * (s * inject_Z m) < 1)%Q) by (unfold s; lra).
  assert (S1 : (s * inject_Z u + s <= s * inject_Z m)%Q) by nra.
  assert (S2 : (s <= s * inject_Z m)%Q) by nra.
  set (d := (inject_Z v - inject_Z u - s)%Q). assert (Dd : (1 - s <= d)%Q) by (unfold d; lra).
  apply orb_false_iff. split.
  - destruct (Qle_bool d 0) eqn:E; auto. apply Qle_bool_iff in E. lra.
  - destruct (Qle_bool (d * d) _) eqn:E; auto. apply Qle_bool_iff in E.
    assert (E' : (d * d <= 4 * (s * inject_Z u))%Q) by (unfold s; lra).
    assert ((1 - s) * (1 - s) <= d * d)%Q by nra. nra.
Qed.
Lemma norm_gt_exact u v e m : (0 <= e)%Q -> (4 * e * e * inject_Z m < 1)%Q -> 0 <= u -> 0 <= v <= m ->
  if norm_gt u v e then v <= u else u <= v.
Proof.
  intros He Hm Hu Hv.
  assert (G : norm_gt u v e = true -> norm_ge u v e = true).
  { unfold norm_gt, norm_ge. set (d := (inject_Z v - inject_Z u - e * e)%Q). rewrite !orb_true_iff, !negb_true_iff, !Qle_bool_iff.
    intros [H|H]; [left|right].
    - destruct (Qlt_le_dec 0 d) as [L|L]; auto. apply Qlt_le_weak, Qle_bool_iff in L. congruence.
    - destruct (Qlt_le_dec (4 * e * e * inject_Z u) (d * d)) as [L|L]; auto. apply Qlt_le_weak, Qle_bool_iff in L. congruence. }
  destruct (norm_gt u v e) eqn:E.
  - specialize (G eq_refl). rewrite (norm_ge_exact u v e m) in G; auto. apply Z.leb_le in G. exact G.
  - destruct (Z_le_gt_dec u v) as [L|L]; auto. exfalso. unfold norm_gt in E.
    apply orb_false_iff in E as [E _]. apply negb_false_iff, Qle_bool_iff in E.
    assert (inject_Z v < inject_Z u)%Q by (rewrite <- Zlt_Qlt; lia). assert (0 <= e * e)%Q by nra. lra.
Qed.

(** ** Rounding *)
Lemma round_even_bound p q : 0 < q -> 2 * Z.abs (round_even p q * q - p) <= q.
Proof.
  intros Hq. unfold round_even. pose proof (Z.div_mod p q ltac:(lia)). pose proof (Z.mod_pos_bound p q Hq).
  destruct (Z.ltb_spec (2 * (p mod q)) q); [nia|]. destruct (Z.ltb_spec q (2 * (p mod q))); [nia|].
  destruct (Z.even (p / q)); nia.
Qed.
Lemma multiple_nearest U V : 0 < vdot U U -> 2 * vdot U U < 10 ^ 10 -> 2 * Z.abs (multiple U V * vdot U U - vdot U V) <= vdot U U.
Proof.
  intros H0 H1. unfold multiple. set (q := vdot U U) in *. set (p := vdot U V). unfold nudge. set (K := 10 ^ 10) in *.
  pose proof (round_even_bound (p * K + q) (q * K) ltac:(nia)) as B. set (k := round_even _ _) in *.
  (* 2|kqK - pK - q| <= qK, so 2|kq - p| < q + 1 *)
  assert (HK : 0 < K) by (unfold K; lia).
  assert (2 * (k * q - p) * K <= q * K + 2 * q) by lia.
  assert (- (q * K) + 2 * q <= 2 * (k * q - p) * K) by lia.
  assert (2 * (k * q - p) < q + 1) by nia.
  assert (- q < 2 * (k * q - p) + 0) by nia. lia.
Qed.

(** ** Lattices *)
Lemma same_pair_refl U V : same_pair_lattice U V U V.
Proof. intros w. tauto. Qed.
Lemma same_pair_trans U V U1 V1 U2 V2 : same_pair_lattice U V U1 V1 -> same_pair_lattice U1 V1 U2 V2 -> same_pair_lattice U V U2 V2.
Proof. intros H1 H2 w. rewrite (H1 w). apply H2. Qed.
Ltac vec_eq := mat_destruct; vunf; apply f_equal2; [apply f_equal2|]; ring.
Lemma same_pair_swap U V : same_pair_lattice U V V U.
Proof. intros w. split; intros (x & y & ->); exists y, x; vec_eq. Qed.
Lemma same_pair_step U V k : same_pair_lattice U V (vsub V (vscale k U)) U.
Proof.
  intros w. split; intros (x & y & ->).
  - exists y, (x + k * y). vec_eq.
  - exists (y - k * x), x. vec_eq.
Qed.

Lemma gauss_loop_lattice : forall n e U V A B, gauss_loop n e U V = Ok (B, A) -> same_pair_lattice U V A B.
Proof.
  induction n as [|n IH]; intros e U V A B H; cbn [gauss_loop] in H; [discriminate|].
  destruct (vdot U U =? 0); [discriminate|].
  set (R := vsub V (vscale (multiple U V) U)) in *.
  assert (S : same_pair_lattice U V R U) by apply same_pair_step.
  destruct (norm_ge _ _ _).
  - injection H as <- <-. eapply same_pair_trans; [exact S|apply same_pair_swap].
  - eapply same_pair_trans; [exact S|]. eapply IH. exact H.
Qed.
Theorem gauss_lattice e U V A B : gauss e U V = Ok (A, B) -> same_pair_lattice U V A B.
Proof.
  unfold gauss. destruct (norm_gt _ _ _); intros H.
  - destruct (gauss_loop 10 e V U) as [[B' A']|] eqn:E; [|discriminate]. cbn in H. injection H as <- <-.
    eapply same_pair_trans; [apply same_pair_swap|]. eapply gauss_loop_lattice; eauto.
  - destruct (gauss_loop 10 e U V) as [[B' A']|] eqn:E; [|discriminate]. cbn in H. injection H as <- <-.
    eapply gauss_loop_lattice; eauto.
Qed.

(** ** Lengths *)
Lemma nrm2_nonneg u : 0 <= nrm2 u.
Proof. destruct u as [[a b] c]. vunf. nia. Qed.
Lemma step_len U V k : nrm2 (vsub V (vscale k U)) = nrm2 V - 2 * k * vdot U V + k * k * nrm2 U.
Proof. mat_destruct. vunf. ring. Qed.
Lemma step_dot U V k : vdot (vsub V (vscale k U)) U = vdot U V - k * nrm2 U.
Proof. mat_destruct. vunf. ring. Qed.
Lemma nearest_shorter q p v k : 0 < q -> 2 * Z.abs (k * q - p) <= q -> v - 2 * k * p + k * k * q <= v.
Proof.
  intros Hq H. assert (k * (k * q - 2 * p) <= 0); [|nia].
  destruct (Z.lt_trichotomy k 0) as [L|[->|L]]; [|lia|].
  - assert (0 <= k * q - 2 * p) by nia. nia.
  - assert (k * q - 2 * p <= 0) by nia. nia.
Qed.

Record reduced (A B : vec) : Prop := { red_order : nrm2 A <= nrm2 B; red_dot : 2 * Z.abs (vdot A B) <= nrm2 A }.

Lemma gauss_loop_reduced e m : small_tolerance e m -> forall n U V A B, nrm2 U <= nrm2 V <= m ->
  gauss_loop n e U V = Ok (B, A) -> reduced A B /\ nrm2 A <= nrm2 U /\ nrm2 B <= nrm2 V.
Proof.
  intros [[He1 He2] Hm]. induction n as [|n IH]; intros U V A B HUV H; cbn [gauss_loop] in H; [discriminate|].
  destruct (Z.eqb_spec (vdot U U) 0) as [E|E]; [discriminate|].
  pose proof (nrm2_nonneg U) as PU. pose proof (nrm2_nonneg V) as PV. pose proof (nrm2_nonneg (vsub V (vscale (multiple U V) U))) as PR.
  assert (NU : 0 < nrm2 U) by (unfold nrm2 in *; lia).
  assert (HN : 2 * Z.abs (multiple U V * nrm2 U - vdot U V) <= nrm2 U) by (apply multiple_nearest; unfold nrm2 in *; lia).
  pose proof (step_len U V (multiple U V)) as HR. pose proof (nearest_shorter (nrm2 U) (vdot U V) (nrm2 V) _ NU HN) as HR2.
  pose proof (step_dot U V (multiple U V)) as HD.
  set (R := vsub V (vscale (multiple U V) U)) in *.
  rewrite (norm_ge_exact _ _ e m) in H by (auto; lia).
  destruct (Z.leb_spec (nrm2 U) (nrm2 R)) as [L|L].
  - injection H as <- <-. split; [split; auto|lia].
    replace (vdot U R) with (vdot R U) by (destruct U as [[? ?] ?], R as [[? ?] ?]; vunf; ring). lia.
  - apply IH in H; [|lia]. lia || (destruct H as (H1 & H2 & H3); split; [auto|lia]).
Qed.
Theorem gauss_reduced e m U V A B : small_tolerance e m -> nrm2 U <= m -> nrm2 V <= m -> gauss e U V = Ok (A, B) ->
  reduced A B /\ nrm2 A <= Z.min (nrm2 U) (nrm2 V) /\ nrm2 B <= Z.max (nrm2 U) (nrm2 V).
Proof.
  intros Hs HU HV. unfold gauss.
  pose proof (nrm2_nonneg U) as PU. pose proof (nrm2_nonneg V) as PV.
  pose proof (norm_gt_exact (nrm2 U) (nrm2 V) e m ltac:(apply Hs) ltac:(apply Hs) ltac:(lia) ltac:(lia)) as G.
  destruct (norm_gt _ _ _); intros H.
  - destruct (gauss_loop 10 e V U) as [[B' A']|] eqn:E; [|discriminate]. cbn in H. injection H as <- <-.
    apply (gauss_loop_reduced e m Hs) in E; [|lia]. destruct E as (E1 & E2 & E3). split; auto. lia.
  - destruct (gauss_loop 10 e U V) as [[B' A']|] eqn:E; [|discriminate]. cbn in H. injection H as <- <-.
    apply (gauss_loop_reduced e m Hs) in E; [|lia]. destruct E as (E1 & E2 & E3). split; auto. lia.
Qed.

(** A reduced pair is a shortest pair. *)
Lemma form2_ge a b c x y : 0 <= a -> a <= c -> 2 * Z.abs b <= a ->
  (x <> 0 \/ y <> 0 -> a <= x * x * a + 2 * (x * y) * b + y * y * c) /\ (y <> 0 -> c <= x * x * a + 2 * (x * y) * b + y * y * c).
Proof.
  intros Ha Hc Hb.
  assert (X : - (Z.abs (x * y) * a) <= 2 * (x * y) * b) by nia.
  rewrite Z.abs_mul in X. set (p := Z.abs x) in *. set (q := Z.abs y) in *.
  replace (x * x) with (p * p) by (unfold p; nia). replace (y * y) with (q * q) by (unfold q; nia).
  assert (Hp : 0 <= p) by (unfold p; lia). assert (Hq : 0 <= q) by (unfold q; lia).
  assert (Q : y <> 0 -> 1 <= q) by (unfold q; lia). assert (P : x <> 0 \/ y <> 0 -> 1 <= p \/ 1 <= q) by (unfold p, q; lia).
  clearbody p q.
  assert (Main : 1 <= q -> c <= p * p * a - p * q * a + q * q * c).
  { intros Hq1. destruct (Z_le_gt_dec q p) as [L|L].
    - assert (0 <= p * (p - q) * a) by (apply Z.mul_nonneg_nonneg; [apply Z.mul_nonneg_nonneg|]; lia).
      assert (1 * c <= q * q * c) by (apply Z.mul_le_mono_nonneg_r; [lia|nia]). nia.
    - (* p < q *) assert (1 <= q * q) by nia. assert (p * (q - p) <= q * q - 1) by nia.
      assert (p * (q - p) * a <= p * (q - p) * c) by (apply Z.mul_le_mono_nonneg_l; [apply Z.mul_nonneg_nonneg; lia|lia]).
      assert (p * (q - p) * c <= (q * q - 1) * c) by (apply Z.mul_le_mono_nonneg_r; lia). nia. }
  split.
  - intros H. destruct (P H) as [Hp1|Hq1]; [|specialize (Main Hq1); lia].
    destruct (Z.eq_dec q 0) as [->|Nq]; [assert (1 * a <= p * p * a) by (apply Z.mul_le_mono_nonneg_r; [lia|nia]); lia|]. specialize (Main ltac:(lia)). lia.
  - intros H. specialize (Main (Q H)). lia.
Qed.
Lemma len_comb2 A B x y : len2 (comb2 A B x y) = x * x * nrm2 A + 2 * (x * y) * vdot A B + y * y * nrm2 B.
Proof. mat_destruct. vunf. ring. Qed.
Theorem reduced_shortest A B : reduced A B -> shortest_pair A B.
Proof.
  intros [O D]. pose proof (nrm2_nonneg A) as PA. split; intros x y H; rewrite len_comb2.
  - apply (form2_ge (nrm2 A) (vdot A B) (nrm2 B) x y); auto. destruct (Z.eq_dec x 0) as [->|]; [|auto]. right. intros ->. apply H. reflexivity.
  - apply (form2_ge (nrm2 A) (vdot A B) (nrm2 B) x y); auto.
Qed.

(** ** No exit *)
Lemma independent_step U V k : 0 < nrm2 (cross U V) -> 0 < nrm2 (cross (vsub V (vscale k U)) U).
Proof. replace (nrm2 (cross (vsub V (vscale k U)) U)) with (nrm2 (cross U V)); auto. mat_destruct. vunf. ring. Qed.
Lemma cross_nonzero U V : 0 < nrm2 (cross U V) -> 0 < nrm2 U.
Proof.
  intros H. pose proof (nrm2_nonneg U). destruct (Z.eq_dec (nrm2 U) 0) as [E|]; [|lia]. exfalso.
  destruct U as [[a b] c], V as [[x y] z]. revert E H. vunf. intros E.
  assert (a = 0 /\ b = 0 /\ c = 0) as (-> & -> & ->) by nia. nia.
Qed.
(** After the first pass the product of the two is small, and every further pass but the last shortens threefold. *)
Lemma gauss_loop_converges e m : small_tolerance e m -> forall n U V, nrm2 U <= nrm2 V <= m -> 0 < nrm2 (cross U V) ->
  2 * Z.abs (vdot U V) <= nrm2 V -> nrm2 V < 3 ^ Z.of_nat n -> exists A B, gauss_loop (S n) e U V = Ok (B, A).
Proof.
  intros [[He1 He2] Hm]. induction n as [|n IH]; intros U V HUV HC HD HV.
  { pose proof (cross_nonzero U V HC). change (3 ^ Z.of_nat 0) with 1 in HV. lia. }
  pose proof (cross_nonzero U V HC) as NU. pose proof (nrm2_nonneg V) as PV.
  remember (S n) as n1 eqn:En1. cbn [gauss_loop]. subst n1.
  destruct (Z.eqb_spec (vdot U U) 0) as [E|E]; [unfold nrm2 in NU; lia|].
  pose proof (nrm2_nonneg (vsub V (vscale (multiple U V) U))) as PR.
  assert (HN : 2 * Z.abs (multiple U V * nrm2 U - vdot U V) <= nrm2 U) by (apply multiple_nearest; unfold nrm2 in *; lia).
  pose proof (step_len U V (multiple U V)) as HR. pose proof (nearest_shorter (nrm2 U) (vdot U V) (nrm2 V) _ NU HN) as HR2.
  pose proof (step_dot U V (multiple U V)) as HD2. pose proof (independent_step U V (multiple U V) HC) as HC2.
  set (k := multiple U V) in *. set (R := vsub V (vscale k U)) in *.
  rewrite (norm_ge_exact _ _ e m) by (auto; lia).
  destruct (Z.leb_spec (nrm2 U) (nrm2 R)) as [L|L]; [eauto|].
  apply IH; auto; try lia.
  (* 3 |U|^2 <= |V|^2 *)
  rewrite Nat2Z.inj_succ, Z.pow_succ_r in HV by lia.
  assert (3 * nrm2 U <= nrm2 V); [|lia].
  assert (K : 2 <= Z.abs k).
  { destruct (Z_le_gt_dec 2 (Z.abs k)) as [|K]; auto. exfalso. assert (k = 0 \/ k = 1 \/ k = -1) as [K1|[K1|K1]] by lia; rewrite K1 in HR; lia. }
  assert (3 * nrm2 U <= 2 * Z.abs (vdot U V)) by nia. lia.
Qed.
Theorem gauss_returns e m U V : small_tolerance e m -> nrm2 U <= m -> nrm2 V <= m -> 0 < nrm2 (cross U V) ->
  Z.min (nrm2 U) (nrm2 V) < 3 ^ 8 -> exists A B, gauss e U V = Ok (A, B).
Proof.
  intros Hs HU HV HC HM.
  assert (X : forall U V, nrm2 U <= nrm2 V <= m -> 0 < nrm2 (cross U V) -> nrm2 U < 3 ^ 8 -> exists A B, gauss_loop 10 e U V = Ok (B, A)).
  { clear U V HU HV HC HM. intros U V HUV HC HM. pose proof Hs as [[He1 He2] Hm].
    pose proof (cross_nonzero U V HC) as NU. pose proof (nrm2_nonneg V) as PV.
    change 10%nat with (S 9). remember 9%nat as n1 eqn:En1. cbn [gauss_loop].
    destruct (Z.eqb_spec (vdot U U) 0) as [E|E]; [unfold nrm2 in NU; lia|].
    pose proof (nrm2_nonneg (vsub V (vscale (multiple U V) U))) as PR.
    assert (HN : 2 * Z.abs (multiple U V * nrm2 U - vdot U V) <= nrm2 U) by (apply multiple_nearest; unfold nrm2 in *; lia).
    pose proof (step_len U V (multiple U V)) as HR. pose proof (nearest_shorter (nrm2 U) (vdot U V) (nrm2 V) _ NU HN) as HR2.
    pose proof (step_dot U V (multiple U V)) as HD2. pose proof (independent_step U V (multiple U V) HC) as HC2.
    set (k := multiple U V) in *. set (R := vsub V (vscale k U)) in *.
    rewrite (norm_ge_exact _ _ e m) by (auto; lia).
    destruct (Z.leb_spec (nrm2 U) (nrm2 R)) as [L|L]; [eauto|].
    subst n1. apply (gauss_loop_converges e m Hs 8); auto; lia. }
  unfold gauss. pose proof (nrm2_nonneg U) as PU. pose proof (nrm2_nonneg V) as PV.
  pose proof (norm_gt_exact (nrm2 U) (nrm2 V) e m ltac:(apply Hs) ltac:(apply Hs) ltac:(lia) ltac:(lia)) as G.
  destruct (norm_gt _ _ _).
  - destruct (X V U) as (A & B & H); try lia.
    + replace (nrm2 (cross V U)) with (nrm2 (cross U V)); auto. mat_destruct. vunf. ring.
    + rewrite H. cbn. eauto.
  - destruct (X U V) as (A & B & H); try lia. rewrite H. cbn. eauto.
Qed.
