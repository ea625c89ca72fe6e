(** The Smith normal form routine as a whole. *)
From Verif Require Import PyBase Mat3 LatSpec SNFModel SNFProofs SNFPass SNFMain.
Local Open Scope Z_scope.

(** What a Smith normal form of [H] with its transforms is. *)
Definition smith (H M A B : mat) : Prop :=
  mmul (mmul A H) B = M /\ unimodular A /\ unimodular B /\
  exists a b c, M = diagonal (a, b, c) /\ 0 < a /\ 0 < b /\ 0 < c /\ (a | b) /\ (b | c).

Lemma vgcd_det M j : (j < 3)%nat -> (vgcd (vcol M j) | mdet M).
Proof.
  intros Hj. assert (Hd : vdiv (vgcd (vcol M j)) (vcol M j)) by (apply vdiv_gcd, Z.divide_refl).
  set (g := vgcd (vcol M j)) in *. clearbody g.
  pose proof (Hd 0%nat ltac:(lia)) as [p Hp]. pose proof (Hd 1%nat ltac:(lia)) as [q Hq]. pose proof (Hd 2%nat ltac:(lia)) as [r Hr].
  clear Hd. unfold vcol in *. destruct M as [[[[a b] c] [[d e] f]] [[h i] k]]. c3 Hj; cbn [transpose mrow vget] in *; subst; unfold mdet.
  - exists (p * (e * k - f * i) - b * (q * k - f * r) + c * (q * i - e * r)). ring.
  - exists (a * (q * k - f * r) - p * (d * k - f * h) + c * (d * r - q * h)). ring.
  - exists (a * (e * r - q * i) - b * (d * r - q * h) + p * (d * i - e * h)). ring.
Qed.
Lemma Inv_det H j M A B : Inv H j M A B -> Z.abs (mdet M) = Z.abs (mdet H).
Proof.
  intros (<- & [HA|HA] & [HB|HB] & _); rewrite !mdet_mmul, HA, HB; lia.
Qed.
Lemma vgcd_le H j M A B : mdet H <> 0 -> Inv H j M A B -> 0 <= vgcd (vcol M j) <= Z.abs (mdet H).
Proof.
  intros Hd HI. assert (Hj : (j < 3)%nat) by (destruct HI as (_ & _ & _ & [->|[-> _]]); lia).
  split; [apply vgcd_nonneg|]. rewrite <- (Inv_det _ _ _ _ _ HI).
  apply Z.divide_pos_le; [pose proof (Inv_det _ _ _ _ _ HI); lia|]. apply Z.divide_abs_r. now apply vgcd_det.
Qed.

Lemma snf_loop_1 n : forall H M A B m, mdet H <> 0 -> Inv H 1 M A B -> bound 1 M m -> m <= Z.of_nat n ->
  exists M' A' B', snf_loop n H 1 M A B = Ok (M', A', B') /\ Inv H 1 M' A' B' /\ finished M'.
Proof.
  induction n as [|n IH]; intros H M A B m Hd HI Hb Hm.
  - assert (mdet M <> 0) by (pose proof (Inv_det _ _ _ _ _ HI); lia).
    apply (bound_pos 1 M m) in Hb; auto; lia.
  - cbn [snf_loop]. destruct (snf_pass_spec H 1 M A B m Hd HI Hb) as (p & -> & Hp). cbn [rbind].
    destruct p as [j' M' A' B'|M' A' B'].
    + destruct Hp as (HI' & [[-> Hb']|[K _]]); [|discriminate]. apply (IH H M' A' B' (m - 1)); auto. lia.
    + destruct Hp as (_ & HI' & Hf). eauto 10.
Qed.
Lemma snf_loop_0 n : forall H M A B m, mdet H <> 0 -> Inv H 0 M A B -> bound 0 M m ->
  m + 2 * Z.log2 (Z.abs (mdet H)) + 1 <= Z.of_nat n ->
  exists M' A' B', snf_loop n H 0 M A B = Ok (M', A', B') /\ Inv H 1 M' A' B' /\ finished M'.
Proof.
  induction n as [|n IH]; intros H M A B m Hd HI Hb Hm.
  - assert (mdet M <> 0) by (pose proof (Inv_det _ _ _ _ _ HI); lia).
    apply (bound_pos 0 M m) in Hb; auto; try lia. pose proof (Z.log2_nonneg (Z.abs (mdet H))). lia.
  - cbn [snf_loop]. destruct (snf_pass_spec H 0 M A B m Hd HI Hb) as (p & -> & Hp). cbn [rbind].
    assert (mdet M <> 0) by (pose proof (Inv_det _ _ _ _ _ HI); lia).
    apply (bound_pos 0 M m) in Hb as Hm1; auto; try lia.
    destruct p as [j' M' A' B'|M' A' B'].
    + destruct Hp as (HI' & [[-> Hb']|[_ ->]]).
      * apply (IH H M' A' B' (m - 1)); auto. lia.
      * apply (snf_loop_1 n H M' A' B' (2 * Z.log2 (Z.abs (mdet H)) + 1)); auto; [|lia].
        left. pose proof (vgcd_le _ _ _ _ _ Hd HI') as Hle.
        pose proof (Z.log2_le_mono (vgcd (vcol M' 1)) (Z.abs (mdet H))). lia.
    + destruct Hp as (K & _). discriminate.
Qed.
(** Whatever the number of passes allowed: finished or [RuntimeError]. *)
Lemma snf_loop_any n : forall H j M A B, mdet H <> 0 -> Inv H j M A B ->
  snf_loop n H j M A B = Err RuntimeError \/
  exists M' A' B', snf_loop n H j M A B = Ok (M', A', B') /\ Inv H 1 M' A' B' /\ finished M'.
Proof.
  induction n as [|n IH]; intros H j M A B Hd HI; [now left|].
  cbn [snf_loop]. destruct (snf_pass_spec H j M A B (2 * Z.log2 (vgcd (vcol M j)) + 1) Hd HI) as (p & -> & Hp).
  { left. lia. }
  cbn [rbind]. destruct p as [j' M' A' B'|M' A' B'].
  - destruct Hp as (HI' & _). apply IH; auto.
  - destruct Hp as (_ & HI' & Hf). right. eauto 10.
Qed.

Lemma Inv_start H : Inv H 0 H mid mid.
Proof. repeat split; auto using unimodular_id. now rewrite mmul_id_r, mmul_id_l. Qed.

Lemma mat_of_diag M : mget M 0 1 = 0 -> mget M 0 2 = 0 -> mget M 1 0 = 0 -> mget M 1 2 = 0 -> mget M 2 0 = 0 -> mget M 2 1 = 0 ->
  M = diagonal (mget M 0 0, mget M 1 1, mget M 2 2).
Proof.
  destruct M as [[[[a b] c] [[d e] f]] [[g h] i]]. cbn. intros. now subst.
Qed.

Lemma SmithNormalForm_end H M A B : mdet H <> 0 -> 1 <= mdet H -> snf_loop 99 H 0 H mid mid = Ok (M, A, B) ->
  Inv H 1 M A B -> finished M -> exists M' A' B', SmithNormalForm H = Ok (M', A', B') /\ smith H M' A' B'.
Proof.
  intros Hd H1 Hrun HI (Hsh & H11 & H12 & H21 & Hdiv). unfold SmithNormalForm.
  destruct (Z.ltb_spec (mdet H) 1); [lia|]. rewrite Hrun. cbn [rbind].
  pose proof HI as (Hinv & HA & HB & _). pose proof Hsh as (H00 & Hr & Hc & Hdv).
  assert (H01 : mget M 0 1 = 0) by (rewrite (mget_axis_row M 0 0 (mget M 0 0) 1); auto; lia).
  assert (H02 : mget M 0 2 = 0) by (rewrite (mget_axis_row M 0 0 (mget M 0 0) 2); auto; lia).
  assert (H10 : mget M 1 0 = 0) by (rewrite (mget_axis M 0 0 (mget M 0 0) 1); auto; lia).
  assert (H20 : mget M 2 0 = 0) by (rewrite (mget_axis M 0 0 (mget M 0 0) 2); auto; lia).
  assert (H22 : mget M 2 2 <> 0).
  { intros E. pose proof (Inv_det _ _ _ _ _ HI) as K.
    rewrite (mat_of_diag M) in K by auto. rewrite E in K. cbn [diagonal mdet] in K. lia. }
  pose proof (Hdv 1%nat 1%nat ltac:(lia) ltac:(lia)) as H0011.
  (* the sign of the last entry *)
  assert (Hfin : exists M' B', (if mget M 2 2 <? 0 then (col_neg M 2, col_neg B 2) else (M, B)) = (M', B') /\
     mmul (mmul A H) B' = M' /\ unimodular B' /\ M' = diagonal (mget M 0 0, mget M 1 1, Z.abs (mget M 2 2))).
  { destruct (Z.ltb_spec (mget M 2 2) 0).
    - exists (col_neg M 2), (col_neg B 2). split; [reflexivity|]. rewrite !col_neg_mul by lia. split; [|split].
      + rewrite <- Hinv, !mmul_assoc. reflexivity.
      + apply unimodular_mmul; auto. apply E_neg_det. lia.
      + rewrite <- col_neg_mul by lia. rewrite (mat_of_diag M) by auto. cbn -[Z.abs].
        rewrite Z.abs_neq by lia. reflexivity.
    - exists M, B. split; [reflexivity|]. split; [exact Hinv|]. split; [exact HB|].
      rewrite Z.abs_eq by lia. now apply mat_of_diag. }
  destruct Hfin as (M' & B' & -> & Hinv' & HB' & HM').
  rewrite (any_check_ok _ _ _ _ Hinv'). cbn [rbind].
  set (a := mget M 0 0) in *. set (b := mget M 1 1) in *. set (c := Z.abs (mget M 2 2)) in *.
  assert (Hc0 : 0 < c) by (unfold c; lia).
  assert (Hbc : (b | c)) by (unfold c; now apply Z.divide_abs_r).
  exists M', A, B'. split.
  - rewrite HM'. cbn [mget mrow diagonal vget Z.eqb andb negb].
    assert (Ea : a =? 0 = false) by (apply Z.eqb_neq; lia). assert (Eb : b =? 0 = false) by (apply Z.eqb_neq; lia).
    rewrite Ea, Eb. apply (mod0_div b a) in H0011; [|lia]. apply (mod0_div c b) in Hbc; [|lia].
    rewrite H0011, Hbc. reflexivity.
  - split; [exact Hinv'|]. split; [exact HA|]. split; [exact HB'|]. exists a, b, c. auto 10.
Qed.

Lemma SmithNormalForm_any H : 1 <= mdet H ->
  SmithNormalForm H = Err RuntimeError \/ exists M A B, SmithNormalForm H = Ok (M, A, B) /\ smith H M A B.
Proof.
  intros H1. assert (Hd : mdet H <> 0) by lia.
  destruct (snf_loop_any 99 H 0 H mid mid Hd (Inv_start H)) as [E|(M & A & B & E & HI & Hf)].
  - left. unfold SmithNormalForm. destruct (Z.ltb_spec (mdet H) 1); [lia|]. rewrite E. reflexivity.
  - right. eapply SmithNormalForm_end; eauto.
Qed.
Lemma SmithNormalForm_ok H : 1 <= mdet H < 2 ^ 25 ->
  exists M A B, SmithNormalForm H = Ok (M, A, B) /\ smith H M A B.
Proof.
  intros H1. assert (Hd : mdet H <> 0) by lia.
  destruct (snf_loop_0 99 H H mid mid (2 * Z.log2 (Z.abs (mdet H)) + 1) Hd (Inv_start H)) as (M & A & B & E & HI & Hf).
  - left. pose proof (vgcd_le _ _ _ _ _ Hd (Inv_start H)) as Hle.
    pose proof (Z.log2_le_mono (vgcd (vcol H 0)) (Z.abs (mdet H))). lia.
  - assert (Z.log2 (Z.abs (mdet H)) < 25) by (apply Z.log2_lt_pow2; lia). lia.
  - eapply SmithNormalForm_end; eauto. lia.
Qed.
