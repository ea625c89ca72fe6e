(** Proofs about CellModel.v. *)
From Coq Require Import QArith Qabs Qround Qminmax Lqa.
From Verif Require Import PyBase CellModel.
Local Open Scope Q_scope.

(** ** Specification *)
Definition qadd (u v : qvec) : qvec := let '(a, b, c) := u in let '(x, y, z) := v in (a + x, b + y, c + z).
Definition qeq (u v : qvec) : Prop := let '(a, b, c) := u in let '(x, y, z) := v in a == x /\ b == y /\ c == z.
(** An integer vector. *)
Definition ivec (k : Z * Z * Z) : qvec := let '(x, y, z) := k in (inject_Z x, inject_Z y, inject_Z z).
Definition all3 (P : Q -> Prop) (v : qvec) : Prop := let '(x, y, z) := v in P x /\ P y /\ P z.
(** The matrices undo each other. *)
Definition inverse_of (A B : qmat) : Prop := forall v, qeq (qmvec A (qmvec B v)) v.

Lemma qlt_bool_iff x y : qlt_bool x y = true <-> x < y.
Proof.
  unfold qlt_bool. rewrite negb_true_iff. split; intros H.
  - apply Qnot_le_lt. intros L. apply Qle_bool_iff in L. congruence.
  - destruct (Qle_bool y x) eqn:E; auto. apply Qle_bool_iff in E. lra.
Qed.
Lemma qlt_bool_false x y : qlt_bool x y = false <-> y <= x.
Proof. unfold qlt_bool. rewrite negb_false_iff. apply Qle_bool_iff. Qed.
Lemma Qle_bool_false x y : Qle_bool x y = false <-> y < x.
Proof. rewrite <- qlt_bool_iff. unfold qlt_bool. rewrite negb_true_iff. tauto. Qed.

Lemma outside_false eps v : outside eps v = false <-> all3 (fun x => - eps <= x /\ x <= 1 - eps) v.
Proof.
  destruct v as [[x y] z]. unfold outside, all3. cbn.
  rewrite !orb_false_iff, !qlt_bool_false. split; intros H; repeat split; lra.
Qed.
Lemma not_direct_false eps v : not_direct eps v = false <-> all3 (fun x => - eps <= x /\ x < 1 - eps) v.
Proof.
  destruct v as [[x y] z]. unfold not_direct, all3. cbn.
  rewrite !orb_false_iff, !qlt_bool_false, !Qle_bool_false. split; intros H; repeat split; lra.
Qed.

Lemma shift_in_spec eps x : exists k : Z, shift_in eps x == x + inject_Z k.
Proof.
  unfold shift_in. destruct (Qle_bool _ _); [exists (-1)%Z|destruct (qlt_bool _ _); [exists 1%Z|exists 0%Z]]; unfold inject_Z; ring.
Qed.
Lemma shift_in_bound eps x (k : Q) : 0 <= k -> - eps - (k + 1) <= x -> x <= 1 - eps + (k + 1) ->
  - eps - k <= shift_in eps x /\ shift_in eps x <= 1 - eps + k.
Proof.
  intros Hk H1 H2. unfold shift_in. destruct (Qle_bool (1 - eps) x) eqn:E.
  - apply Qle_bool_iff in E. lra.
  - apply Qle_bool_false in E. destruct (qlt_bool x (0 - eps)) eqn:E2.
    + apply qlt_bool_iff in E2. lra.
    + apply qlt_bool_false in E2. lra.
Qed.
Lemma updown_spec eps x : exists k : Z, up eps (down eps x) == x + inject_Z k.
Proof.
  assert (D : exists k : Z, down eps x == x + inject_Z k).
  { unfold down. destruct (qlt_bool _ _); [exists 0%Z|exists (-1)%Z]; unfold inject_Z; ring. }
  destruct D as [k Hk]. unfold up. destruct (Qle_bool _ _).
  - exists k. exact Hk.
  - exists (k + 1)%Z. rewrite Hk, inject_Z_plus. unfold inject_Z. ring.
Qed.
Lemma updown_bound eps x (k : Q) : 0 <= k -> - eps - (k + 1) <= x -> x < 1 - eps + (k + 1) ->
  - eps - k <= up eps (down eps x) /\ up eps (down eps x) < 1 - eps + k.
Proof.
  intros Hk H1 H2.
  assert (D : (x < 1 - eps /\ down eps x = x) \/ (1 - eps <= x /\ down eps x = x - 1)).
  { unfold down. destruct (qlt_bool x (1 - eps)) eqn:E; [left; apply qlt_bool_iff in E|right; apply qlt_bool_false in E]; auto. }
  unfold up. destruct D as [[D E]|[D E]]; rewrite E.
  - destruct (Qle_bool (0 - eps) x) eqn:F; [apply Qle_bool_iff in F|apply Qle_bool_false in F]; lra.
  - destruct (Qle_bool (0 - eps) (x - 1)) eqn:F; [apply Qle_bool_iff in F|apply Qle_bool_false in F]; lra.
Qed.

(** ** The loops *)
Lemma inject_S n : inject_Z (Z.of_nat (S n)) == inject_Z (Z.of_nat n) + 1.
Proof. rewrite Nat2Z.inj_succ. unfold Z.succ. rewrite inject_Z_plus. unfold inject_Z. ring. Qed.
Lemma inject_nonneg n : 0 <= inject_Z (Z.of_nat n).
Proof. unfold Qle. cbn. lia. Qed.

Lemma ivec_step f (H : forall x, exists k : Z, f x == x + inject_Z k) v : exists k, qeq (vmap f v) (qadd v (ivec k)).
Proof.
  destruct v as [[x y] z]. destruct (H x) as [a Ha], (H y) as [b Hb], (H z) as [c Hc]. exists (a, b, c). cbn. auto.
Qed.
Lemma ivec_add u v w k k' : qeq v (qadd u (ivec k)) -> qeq w (qadd v (ivec k')) -> exists k'', qeq w (qadd u (ivec k'')).
Proof.
  destruct u as [[a b] c], v as [[d e] f], w as [[g h] i], k as [[p q] r], k' as [[s t] o]. cbn. intros (A1 & A2 & A3) (B1 & B2 & B3).
  exists (p + s, q + t, r + o)%Z. cbn. rewrite !inject_Z_plus. repeat split; lra.
Qed.

Lemma bring_loop_ok eps limit : forall n fuel c v, (n <= fuel)%nat -> (c + Z.of_nat n <= limit)%Z ->
  all3 (fun x => - eps - inject_Z (Z.of_nat n) <= x /\ x <= 1 - eps + inject_Z (Z.of_nat n)) v ->
  exists w k, bring_loop fuel eps limit c v = Ok w /\ qeq w (qadd v (ivec k)) /\ outside eps w = false.
Proof.
  assert (Z0 : forall v, qeq v (qadd v (ivec (0, 0, 0)%Z))).
  { intros [[x y] z]. cbn. repeat split; unfold inject_Z; ring. }
  induction n as [|n IH]; intros fuel c v Hf Hc Hv.
  - assert (E : outside eps v = false).
    { apply outside_false. destruct v as [[x y] z]. unfold all3 in *. change (inject_Z (Z.of_nat 0)) with 0 in Hv. repeat split; lra. }
    exists v, (0, 0, 0)%Z. destruct fuel; cbn [bring_loop]; rewrite E; auto.
  - destruct (outside eps v) eqn:E.
    + destruct fuel as [|fuel]; [lia|]. cbn [bring_loop]. rewrite E.
      destruct (Z.ltb_spec limit (c + 1)) as [L|L]; [lia|].
      destruct (IH fuel (c + 1)%Z (vmap (shift_in eps) v)) as (w & k & W1 & W2 & W3); [lia|lia| |].
      * destruct v as [[x y] z]. unfold all3, vmap in *. rewrite inject_S in Hv.
        pose proof (inject_nonneg n). repeat split; apply shift_in_bound; lra.
      * destruct (ivec_step _ (shift_in_spec eps) v) as [k0 K0].
        destruct (ivec_add _ _ _ _ _ K0 W2) as [k1 K1]. exists w, k1. auto.
    + exists v, (0, 0, 0)%Z. destruct fuel; cbn [bring_loop]; rewrite E; auto.
Qed.

Lemma direct_loop_ok eps : forall n fuel v, (n <= fuel)%nat ->
  all3 (fun x => - eps - inject_Z (Z.of_nat n) <= x /\ x < 1 - eps + inject_Z (Z.of_nat n)) v ->
  exists w k, direct_loop fuel eps v = Ok w /\ qeq w (qadd v (ivec k)) /\ not_direct eps w = false.
Proof.
  assert (Z0 : forall v, qeq v (qadd v (ivec (0, 0, 0)%Z))).
  { intros [[x y] z]. cbn. repeat split; unfold inject_Z; ring. }
  induction n as [|n IH]; intros fuel v Hf Hv.
  - assert (E : not_direct eps v = false).
    { apply not_direct_false. destruct v as [[x y] z]. unfold all3 in *. change (inject_Z (Z.of_nat 0)) with 0 in Hv. repeat split; lra. }
    exists v, (0, 0, 0)%Z. destruct fuel; cbn [direct_loop]; rewrite E; auto.
  - destruct (not_direct eps v) eqn:E.
    + destruct fuel as [|fuel]; [lia|]. cbn [direct_loop]. rewrite E.
      destruct (IH fuel (vmap (up eps) (vmap (down eps) v))) as (w & k & W1 & W2 & W3); [lia| |].
      * destruct v as [[x y] z]. unfold all3, vmap in *. rewrite inject_S in Hv.
        pose proof (inject_nonneg n). repeat split; apply updown_bound; lra.
      * destruct (ivec_step _ (updown_spec eps) v) as [k0 K0].
        assert (K0' : qeq (vmap (up eps) (vmap (down eps) v)) (qadd v (ivec k0))) by (destruct v as [[x y] z]; exact K0).
        destruct (ivec_add _ _ _ _ _ K0' W2) as [k1 K1]. exists w, k1. auto.
    + exists v, (0, 0, 0)%Z. destruct fuel; cbn [direct_loop]; rewrite E; auto.
Qed.

(** ** The bounds *)
Lemma ceil_bound q : - inject_Z (Qceiling (Qabs q)) <= q /\ q <= inject_Z (Qceiling (Qabs q)).
Proof. pose proof (Qle_ceiling (Qabs q)). apply Qabs_Qle_condition. auto. Qed.
Lemma maxc_bound v : (0 <= maxc v / 2)%Z /\ (maxc v = 2 * (maxc v / 2))%Z /\
  all3 (fun x => - inject_Z (maxc v / 2) <= x /\ x <= inject_Z (maxc v / 2)) v.
Proof.
  unfold maxc. set (m := Z.max _ _). rewrite Z.div_mul by lia.
  assert (M1 : inject_Z (Qceiling (Qabs (max3 v))) <= inject_Z m) by (rewrite <- Zle_Qle; lia).
  assert (M2 : inject_Z (Qceiling (Qabs (min3 v))) <= inject_Z m) by (rewrite <- Zle_Qle; lia).
  pose proof (ceil_bound (max3 v)) as B1. pose proof (ceil_bound (min3 v)) as B2.
  split; [|split; [lia|]].
  - assert (0 <= inject_Z m) by lra. rewrite Zle_Qle. auto.
  - destruct v as [[x y] z]. unfold all3, max3, min3 in *.
    assert (X : forall p, p <= Qmax (Qmax x y) z -> Qmin (Qmin x y) z <= p -> - inject_Z m <= p /\ p <= inject_Z m) by (intros; lra).
    pose proof (Q.le_max_l x y). pose proof (Q.le_max_r x y). pose proof (Q.le_max_l (Qmax x y) z). pose proof (Q.le_max_r (Qmax x y) z).
    pose proof (Q.le_min_l x y). pose proof (Q.le_min_r x y). pose proof (Q.le_min_l (Qmin x y) z). pose proof (Q.le_min_r (Qmin x y) z).
    repeat split; apply X; lra.
Qed.

Lemma bring_main eps : 0 <= eps -> eps <= 1 -> forall v, exists w k,
  bring_loop (S (Z.to_nat (maxc v))) eps (maxc v) 0 v = Ok w /\ qeq w (qadd v (ivec k)) /\ outside eps w = false.
Proof.
  intros E0 E1 v. destruct (maxc_bound v) as (M0 & M1 & M2).
  apply (bring_loop_ok eps (maxc v) (Z.to_nat (maxc v / 2))); [lia|lia|].
  destruct v as [[x y] z]. unfold all3 in *. rewrite Z2Nat.id by lia. repeat split; lra.
Qed.

Definition reach (eps x : Q) : nat := S (Z.to_nat (Qceiling (Qabs x + Qabs eps))).
Lemma reach_ok eps x n : (reach eps x <= n)%nat -> - eps - inject_Z (Z.of_nat n) <= x /\ x < 1 - eps + inject_Z (Z.of_nat n).
Proof.
  intros H. unfold reach in H. pose proof (Qle_ceiling (Qabs x + Qabs eps)) as C.
  assert (N : inject_Z (Qceiling (Qabs x + Qabs eps)) + 1 <= inject_Z (Z.of_nat n)).
  { change 1 with (inject_Z 1). rewrite <- inject_Z_plus, <- Zle_Qle. lia. }
  pose proof (Qle_Qabs x). pose proof (Qle_Qabs eps). pose proof (Qle_Qabs (- x)). pose proof (Qle_Qabs (- eps)).
  rewrite Qabs_opp in *. lra.
Qed.
Lemma direct_main eps v : exists f0, forall fuel, (f0 <= fuel)%nat -> exists w k,
  direct_loop fuel eps v = Ok w /\ qeq w (qadd v (ivec k)) /\ not_direct eps w = false.
Proof.
  destruct v as [[x y] z]. exists (reach eps x + reach eps y + reach eps z)%nat. intros fuel Hf.
  apply (direct_loop_ok eps (reach eps x + reach eps y + reach eps z)); [lia|].
  unfold all3. split; [|split]; apply reach_ok; lia.
Qed.

(** ** Matrices *)
Ltac qsplit := match goal with |- _ /\ _ => split; qsplit | _ => idtac end.
Lemma qmvec_add M u v : qeq (qmvec M (qadd u v)) (qadd (qmvec M u) (qmvec M v)).
Proof.
  destruct M as [[[[? ?] ?] [[? ?] ?]] [[? ?] ?]], u as [[? ?] ?], v as [[? ?] ?]. cbn. qsplit; ring.
Qed.
Lemma qmvec_morph M u v : qeq u v -> qeq (qmvec M u) (qmvec M v).
Proof.
  destruct M as [[[[? ?] ?] [[? ?] ?]] [[? ?] ?]], u as [[? ?] ?], v as [[? ?] ?]. cbn. intros (A & B & C). rewrite A, B, C. qsplit; reflexivity.
Qed.
Lemma qadd_morph u v u' v' : qeq u u' -> qeq v v' -> qeq (qadd u v) (qadd u' v').
Proof.
  destruct u as [[? ?] ?], v as [[? ?] ?], u' as [[? ?] ?], v' as [[? ?] ?]. cbn. intros (A & B & C) (D & E & F). rewrite A, B, C, D, E, F. qsplit; reflexivity.
Qed.
Lemma qeq_trans u v w : qeq u v -> qeq v w -> qeq u w.
Proof.
  destruct u as [[? ?] ?], v as [[? ?] ?], w as [[? ?] ?]. cbn. intros (A & B & C) (D & E & F). rewrite A, B, C, D, E, F. qsplit; reflexivity.
Qed.
Lemma qeq_sym u v : qeq u v -> qeq v u.
Proof. destruct u as [[? ?] ?], v as [[? ?] ?]. cbn. intros (A & B & C). rewrite A, B, C. qsplit; reflexivity. Qed.
Lemma qeq_refl u : qeq u u.
Proof. destruct u as [[? ?] ?]. cbn. qsplit; reflexivity. Qed.
(** [v inv(M) M = v]. *)
Lemma qinv_ok M v : ~ qdet M == 0 -> qeq (qvecm (qvecm v (qinv M)) M) v.
Proof.
  destruct M as [[[[a b] c] [[d e] f]] [[g h] i]], v as [[x y] z]. intros H. unfold qinv. cbn [qvecm qtrans qmvec qdot qeq].
  set (D := qdet _) in *. assert (ED : a * (e * i - f * h) - b * (d * i - f * g) + c * (d * h - e * g) == D) by reflexivity.
  qsplit; apply (Qmult_inj_r _ _ D H);
    match goal with |- ?l * D == _ => let t := constr:(l) in idtac end.
  - transitivity (x * (a * (e * i - f * h) - b * (d * i - f * g) + c * (d * h - e * g))); [field; auto|rewrite ED; ring].
  - transitivity (y * (a * (e * i - f * h) - b * (d * i - f * g) + c * (d * h - e * g))); [field; auto|rewrite ED; ring].
  - transitivity (z * (a * (e * i - f * h) - b * (d * i - f * g) + c * (d * h - e * g))); [field; auto|rewrite ED; ring].
Qed.

Lemma rmap_forall2 {A B} (f : A -> res B) (P : A -> B -> Prop) : forall l, (forall a, In a l -> exists b, f a = Ok b /\ P a b) ->
  exists out, rmap f l = Ok out /\ Forall2 P l out.
Proof.
  induction l as [|a l IH]; intros H.
  - exists []. split; [reflexivity|constructor].
  - destruct (H a (or_introl eq_refl)) as (b & Hb & Pb). destruct IH as (out & H1 & H2).
    { intros x Hx. apply H. right; auto. }
    exists (b :: out). cbn. rewrite Hb. cbn. rewrite H1. cbn. split; [reflexivity|constructor; auto].
Qed.
Lemma forall_fuel {A} (P : A -> nat -> Prop) : forall l, (forall a, In a l -> exists f0, forall fuel, (f0 <= fuel)%nat -> P a fuel) ->
  exists f0, forall fuel, (f0 <= fuel)%nat -> forall a, In a l -> P a fuel.
Proof.
  induction l as [|a l IH]; intros H.
  - exists 0%nat. intros fuel _ a [].
  - destruct (H a (or_introl eq_refl)) as [f1 F1]. destruct IH as [f2 F2].
    { intros x Hx. apply H. right; auto. }
    exists (Nat.max f1 f2). intros fuel Hf x [<-|Hx]; [apply F1; lia|apply F2; [lia|auto]].
Qed.

(** ** The functions *)
Theorem bring_into_cell_ok vec c2l l2c eps : inverse_of l2c c2l -> inverse_of c2l l2c -> 0 <= eps -> eps <= 1 ->
  exists r k, bring_into_cell vec c2l l2c eps = Ok r /\ qeq r (qadd vec (qmvec l2c (ivec k))) /\
    all3 (fun x => - eps <= x /\ x <= 1 - eps) (qmvec c2l r).
Proof.
  intros I1 I2 E0 E1. destruct (bring_main eps E0 E1 (qmvec c2l vec)) as (w & k & W1 & W2 & W3).
  exists (qmvec l2c w), k. unfold bring_into_cell. cbn zeta. rewrite W1. cbn [rbind]. split; [reflexivity|]. split.
  - eapply qeq_trans; [apply qmvec_morph; exact W2|]. eapply qeq_trans; [apply qmvec_add|]. apply qadd_morph; [apply I1|apply qeq_refl].
  - apply outside_false in W3. specialize (I2 w). destruct w as [[x y] z]. destruct (qmvec c2l (qmvec l2c (x, y, z))) as [[x' y'] z'].
    cbn in I2. unfold all3 in *. destruct I2 as (A & B & C). repeat split; lra.
Qed.

Theorem cartesian2direct_ok sLV aBas eps : ~ qdet sLV == 0 -> exists f0, forall fuel, (f0 <= fuel)%nat ->
  exists out, cartesian2direct fuel sLV aBas eps = Ok out /\
    Forall2 (fun p d => all3 (fun x => - eps <= x /\ x < 1 - eps) d /\ exists k, qeq (qvecm d sLV) (qadd p (qvecm (ivec k) sLV))) aBas out.
Proof.
  intros Hd.
  destruct (forall_fuel (fun p fuel => exists w k, direct_loop fuel eps (qvecm p (qinv sLV)) = Ok w /\
     qeq w (qadd (qvecm p (qinv sLV)) (ivec k)) /\ not_direct eps w = false) aBas) as [f0 F0].
  { intros p _. apply direct_main. }
  exists f0. intros fuel Hf. unfold cartesian2direct. apply rmap_forall2. intros p Hp.
  destruct (F0 fuel Hf p Hp) as (w & k & W1 & W2 & W3). exists w. split; [exact W1|]. split.
  - apply not_direct_false. exact W3.
  - exists k. unfold qvecm in *. eapply qeq_trans; [apply qmvec_morph; exact W2|]. eapply qeq_trans; [apply qmvec_add|].
    apply qadd_morph; [|apply qeq_refl]. apply (qinv_ok sLV p Hd).
Qed.

(** Coordinates in the half-open cell that differ by integers are equal. *)
Lemma int_between (a b eps : Q) (k : Z) : - eps <= a -> a < 1 - eps -> - eps <= b -> b < 1 - eps -> a == b + inject_Z k -> a == b.
Proof.
  intros A1 A2 B1 B2 E. assert (K1 : inject_Z k < inject_Z 1) by (change (inject_Z 1) with 1; lra).
  assert (K2 : inject_Z (-1) < inject_Z k) by (change (inject_Z (-1)) with (-(1)); lra).
  rewrite <- Zlt_Qlt in K1, K2. assert (k = 0%Z) by lia. subst k. rewrite E. change (inject_Z 0) with 0. ring.
Qed.
Lemma qinv_ok2 M v : ~ qdet M == 0 -> qeq (qvecm (qvecm v M) (qinv M)) v.
Proof.
  destruct M as [[[[a b] c] [[d e] f]] [[g h] i]], v as [[x y] z]. intros H. unfold qinv. cbn [qvecm qtrans qmvec qdot qeq].
  set (D := qdet _) in *. assert (ED : a * (e * i - f * h) - b * (d * i - f * g) + c * (d * h - e * g) == D) by reflexivity.
  qsplit; apply (Qmult_inj_r _ _ D H).
  - transitivity (x * (a * (e * i - f * h) - b * (d * i - f * g) + c * (d * h - e * g))); [field; auto|rewrite ED; ring].
  - transitivity (y * (a * (e * i - f * h) - b * (d * i - f * g) + c * (d * h - e * g))); [field; auto|rewrite ED; ring].
  - transitivity (z * (a * (e * i - f * h) - b * (d * i - f * g) + c * (d * h - e * g))); [field; auto|rewrite ED; ring].
Qed.
Theorem direct_canonical sLV eps p p' d d' k k' K : ~ qdet sLV == 0 ->
  qeq p' (qadd p (qvecm (ivec K) sLV)) ->
  qeq (qvecm d sLV) (qadd p (qvecm (ivec k) sLV)) -> qeq (qvecm d' sLV) (qadd p' (qvecm (ivec k') sLV)) ->
  all3 (fun x => - eps <= x /\ x < 1 - eps) d -> all3 (fun x => - eps <= x /\ x < 1 - eps) d' -> qeq d d'.
Proof.
  intros Hd HK H1 H2 A B.
  assert (X : forall q e j, qeq (qvecm e sLV) (qadd q (qvecm (ivec j) sLV)) -> qeq e (qadd (qvecm q (qinv sLV)) (ivec j))).
  { intros q e j E. eapply qeq_trans; [apply qeq_sym, (qinv_ok2 sLV e Hd)|]. unfold qvecm in *.
    eapply qeq_trans; [apply qmvec_morph; exact E|]. eapply qeq_trans; [apply qmvec_add|]. apply qadd_morph; [apply qeq_refl|].
    apply (qinv_ok2 sLV (ivec j) Hd). }
  assert (Y : qeq (qvecm p' (qinv sLV)) (qadd (qvecm p (qinv sLV)) (ivec K))).
  { unfold qvecm in *. eapply qeq_trans; [apply qmvec_morph; exact HK|]. eapply qeq_trans; [apply qmvec_add|]. apply qadd_morph; [apply qeq_refl|].
    apply (qinv_ok2 sLV (ivec K) Hd). }
  apply X in H1, H2. destruct (qvecm p (qinv sLV)) as [[x y] z], (qvecm p' (qinv sLV)) as [[x' y'] z'], d as [[u v] w], d' as [[u' v'] w'], k as [[a b] c], k' as [[a' b'] c'], K as [[a0 b0] c0].
  cbn in *. destruct A as (A1 & A2 & A3), B as (B1 & B2 & B3), H1 as (? & ? & ?), H2 as (? & ? & ?), Y as (? & ? & ?).
  qsplit.
  - apply (int_between u u' eps (a - a0 - a')); try lra. unfold Zminus. rewrite !inject_Z_plus, !inject_Z_opp. lra.
  - apply (int_between v v' eps (b - b0 - b')); try lra. unfold Zminus. rewrite !inject_Z_plus, !inject_Z_opp. lra.
  - apply (int_between w w' eps (c - c0 - c')); try lra. unfold Zminus. rewrite !inject_Z_plus, !inject_Z_opp. lra.
Qed.
