(** Correctness of the Smith normal form routine. *)
From Verif Require Import PyBase Mat3 SNFModel.
Local Open Scope Z_scope.

(** ** Vectors *)
Definition vdiv (d : Z) (v : vec) : Prop := forall i, (i < 3)%nat -> (d | vget v i).
Definition vgcd (v : vec) : Z := let '(x, y, z) := v in Z.gcd (Z.gcd x y) z.
Definition axis (m : nat) (x : Z) : vec := vset (0, 0, 0) m x.
Definition size (v : vec) : Z := let '(x, y, z) := v in Z.abs x + Z.abs y + Z.abs z.

Lemma case3 i : (i < 3)%nat -> i = 0%nat \/ i = 1%nat \/ i = 2%nat.
Proof. lia. Qed.
Ltac c3 H := apply case3 in H; destruct H as [->|[->| ->]].

Lemma vdiv_gcd d v : vdiv d v <-> (d | vgcd v).
Proof.
  destruct v as [[x y] z]. unfold vdiv, vgcd. split.
  - intros H. apply Z.gcd_greatest; [apply Z.gcd_greatest|].
    + apply (H 0%nat). lia.
    + apply (H 1%nat). lia.
    + apply (H 2%nat). lia.
  - intros H i Hi.
    assert (H1 : (d | Z.gcd x y)) by (eapply Z.divide_trans; [exact H|apply Z.gcd_divide_l]).
    c3 Hi; cbn [vget].
    + eapply Z.divide_trans; [exact H1|apply Z.gcd_divide_l].
    + eapply Z.divide_trans; [exact H1|apply Z.gcd_divide_r].
    + eapply Z.divide_trans; [exact H|apply Z.gcd_divide_r].
Qed.
Lemma vgcd_nonneg v : 0 <= vgcd v.
Proof. destruct v as [[x y] z]. apply Z.gcd_nonneg. Qed.

Lemma vdiv_mvec d E v : vdiv d v -> vdiv d (mvec E v).
Proof.
  intros H. pose proof (H 0%nat ltac:(lia)) as H0. pose proof (H 1%nat ltac:(lia)) as H1.
  pose proof (H 2%nat ltac:(lia)) as H2. clear H. mat_destruct. cbn [vget] in *.
  intros i Hi. c3 Hi; cbn [mvec vdot vget];
  repeat apply Z.divide_add_r; apply Z.divide_mul_r; assumption.
Qed.
Lemma vgcd_mvec E v : unimodular E -> vgcd (mvec E v) = vgcd v.
Proof.
  intros U. apply Z.divide_antisym_nonneg; try apply vgcd_nonneg.
  - apply vdiv_gcd. assert (Hv : v = mvec (minv E) (mvec E v)) by now rewrite <- mvec_mmul, minv_l, mvec_id.
    remember (mvec E v) as w. rewrite Hv. apply vdiv_mvec. apply vdiv_gcd. apply Z.divide_refl.
  - apply vdiv_gcd. apply vdiv_mvec. apply vdiv_gcd. apply Z.divide_refl.
Qed.
Lemma vgcd_axis m x : (m < 3)%nat -> vgcd (axis m x) = Z.abs x.
Proof. intros H. c3 H; cbn; rewrite ?Z.gcd_0_r, ?Z.gcd_0_l, ?Z.gcd_0_r, ?Z.abs_involutive; reflexivity. Qed.
Lemma vget_axis m x i : (m < 3)%nat -> (i < 3)%nat -> vget (axis m x) i = if (i =? m)%nat then x else 0.
Proof. intros H K. c3 H; c3 K; reflexivity. Qed.
Lemma vec_eq u v : (forall i, (i < 3)%nat -> vget u i = vget v i) -> u = v.
Proof.
  intros H. pose proof (H 0%nat ltac:(lia)) as H0. pose proof (H 1%nat ltac:(lia)) as H1.
  pose proof (H 2%nat ltac:(lia)) as H2. destruct u as [[x y] z], v as [[a b] c]. cbn in *. congruence.
Qed.

(** ** Searching for indices *)
Lemma nonzeros_le1 v : (nonzeros v <= 1)%nat <-> exists m x, (m < 3)%nat /\ v = axis m x.
Proof.
  destruct v as [[x y] z]. unfold nonzeros. cbn [vlist filter]. split.
  - destruct (Z.eqb_spec x 0), (Z.eqb_spec y 0), (Z.eqb_spec z 0); cbn [negb length]; intros H; try lia; subst.
    + exists 0%nat, 0. split; [lia|reflexivity].
    + exists 2%nat, z. split; [lia|reflexivity].
    + exists 1%nat, y. split; [lia|reflexivity].
    + exists 0%nat, x. split; [lia|reflexivity].
  - intros (m & a & Hm & E). c3 Hm; cbn in E; injection E as -> -> ->; cbn [Z.eqb negb].
    all: destruct (a =? 0); cbn; lia.
Qed.

Lemma find_minmax_spec v : v <> (0, 0, 0) ->
  exists a b, find_minmax v = Ok (a, b) /\ (a < 3)%nat /\ (b < 3)%nat /\ vget v a <> 0 /\
    (forall i, (i < 3)%nat -> vget v i <> 0 -> Z.abs (vget v a) <= Z.abs (vget v i)) /\
    (forall i, (i < a)%nat -> vget v i <> 0 -> Z.abs (vget v a) < Z.abs (vget v i)) /\
    (forall i, (i < 3)%nat -> Z.abs (vget v i) <= Z.abs (vget v b)) /\
    (forall i, (b < i)%nat -> (i < 3)%nat -> Z.abs (vget v i) < Z.abs (vget v b)).
Proof.
  destruct v as [[x y] z]. intros Hne.
  assert (Hne' : 0 < Z.abs x + Z.abs y + Z.abs z).
  { destruct (Z.eq_dec x 0), (Z.eq_dec y 0), (Z.eq_dec z 0); subst; try lia. congruence. }
  unfold find_minmax. cbn [vlist map filter].
  assert (Hmax : exists b, (b < 3)%nat /\
     (do mx <- py_max (rev [Z.abs x; Z.abs y; Z.abs z]); zindex mx (rev [Z.abs x; Z.abs y; Z.abs z])) = Ok (2 - b)%nat /\
    (forall i, (i < 3)%nat -> Z.abs (vget (x, y, z) i) <= Z.abs (vget (x, y, z) b)) /\
    (forall i, (b < i)%nat -> (i < 3)%nat -> Z.abs (vget (x, y, z) i) < Z.abs (vget (x, y, z) b))).
  { cbn [rev app py_max fold_left rbind]. unfold zindex. cbn [zindex_from].
    destruct (Z.eqb_spec (Z.abs z) (Z.max (Z.max (Z.abs z) (Z.abs y)) (Z.abs x))).
    { exists 2%nat. split; [lia|]. split; [reflexivity|]. split; intros i; [intros Hi; c3 Hi; cbn [vget]; lia|lia]. }
    destruct (Z.eqb_spec (Z.abs y) (Z.max (Z.max (Z.abs z) (Z.abs y)) (Z.abs x))).
    { exists 1%nat. split; [lia|]. split; [reflexivity|]. split; intros i; [intros Hi; c3 Hi; cbn [vget]; lia|].
      intros H1 Hi. c3 Hi; cbn [vget]; lia. }
    destruct (Z.eqb_spec (Z.abs x) (Z.max (Z.max (Z.abs z) (Z.abs y)) (Z.abs x))); [|lia].
    exists 0%nat. split; [lia|]. split; [reflexivity|]. split; intros i; [intros Hi; c3 Hi; cbn [vget]; lia|].
    intros H1 Hi. c3 Hi; cbn [vget]; lia. }
  assert (Hmin : exists a, (a < 3)%nat /\
     (do m <- py_min (filter (fun i => 0 <? i) [Z.abs x; Z.abs y; Z.abs z]); zindex m [Z.abs x; Z.abs y; Z.abs z]) = Ok a /\
     vget (x, y, z) a <> 0 /\
    (forall i, (i < 3)%nat -> vget (x, y, z) i <> 0 -> Z.abs (vget (x, y, z) a) <= Z.abs (vget (x, y, z) i)) /\
    (forall i, (i < a)%nat -> vget (x, y, z) i <> 0 -> Z.abs (vget (x, y, z) a) < Z.abs (vget (x, y, z) i))).
  { assert (Hm : exists m, py_min (filter (fun i => 0 <? i) [Z.abs x; Z.abs y; Z.abs z]) = Ok m /\ 0 < m /\
      (m = Z.abs x \/ m = Z.abs y \/ m = Z.abs z) /\ (x <> 0 -> m <= Z.abs x) /\ (y <> 0 -> m <= Z.abs y) /\ (z <> 0 -> m <= Z.abs z)).
    { cbn [filter]. destruct (Z.ltb_spec 0 (Z.abs x)), (Z.ltb_spec 0 (Z.abs y)), (Z.ltb_spec 0 (Z.abs z)); cbn [py_min fold_left];
      try (eexists; split; [reflexivity|]; repeat split; try lia). lia. }
    destruct Hm as (m & -> & Hm0 & Hmc & Hmx & Hmy & Hmz). cbn [rbind]. unfold zindex. cbn [zindex_from].
    destruct (Z.eqb_spec (Z.abs x) m).
    { exists 0%nat. split; [lia|]. split; [reflexivity|]. split; [cbn [vget]; lia|].
      split; intros i; [intros Hi; c3 Hi; cbn [vget]; lia|lia]. }
    destruct (Z.eqb_spec (Z.abs y) m).
    { exists 1%nat. split; [lia|]. split; [reflexivity|]. split; [cbn [vget]; lia|].
      split; intros i; [intros Hi; c3 Hi; cbn [vget]; lia|].
      intros Hi. assert (i = 0%nat) by lia. subst i. cbn [vget]. lia. }
    destruct (Z.eqb_spec (Z.abs z) m); [|lia].
    exists 2%nat. split; [lia|]. split; [reflexivity|]. split; [cbn [vget]; lia|].
    split; intros i; [intros Hi; c3 Hi; cbn [vget]; lia|].
    intros Hi. assert (i = 0%nat \/ i = 1%nat) as [-> | ->] by lia; cbn [vget]; lia. }
  destruct Hmax as (b & Hb & Eb & Hb1 & Hb2). destruct Hmin as (a & Ha & Ea & Ha0 & Ha1 & Ha2).
  exists a, b.
  destruct (py_min (filter (fun i => 0 <? i) [Z.abs x; Z.abs y; Z.abs z])) as [m|e] eqn:Em; [|discriminate].
  cbn [filter] in Em. rewrite Em. cbn [rbind] in Ea |- *. rewrite Ea. cbn [rbind].
  destruct (py_max (rev [Z.abs x; Z.abs y; Z.abs z])) as [mx|e] eqn:Ex; [|discriminate]. cbn [rbind] in Eb |- *.
  rewrite Eb. cbn [rbind]. split.
  - do 2 f_equal. lia.
  - auto 10.
Qed.

Lemma arg_max_spec v : exists m, arg_max v = Ok m /\ (m < 3)%nat /\
  (forall i, (i < 3)%nat -> Z.abs (vget v i) <= Z.abs (vget v m)).
Proof.
  destruct v as [[x y] z]. unfold arg_max. cbn [vlist map py_max fold_left rbind]. unfold zindex. cbn [zindex_from].
  destruct (Z.eqb_spec (Z.abs x) (Z.max (Z.max (Z.abs x) (Z.abs y)) (Z.abs z))).
  { exists 0%nat. split; [reflexivity|]. split; [lia|]. intros i Hi. c3 Hi; cbn [vget]; lia. }
  destruct (Z.eqb_spec (Z.abs y) (Z.max (Z.max (Z.abs x) (Z.abs y)) (Z.abs z))).
  { exists 1%nat. split; [reflexivity|]. split; [lia|]. intros i Hi. c3 Hi; cbn [vget]; lia. }
  destruct (Z.eqb_spec (Z.abs z) (Z.max (Z.max (Z.abs x) (Z.abs y)) (Z.abs z))); [|lia].
  exists 2%nat. split; [reflexivity|]. split; [lia|]. intros i Hi. c3 Hi; cbn [vget]; lia.
Qed.

(** ** Elementary operations are multiplications *)
Definition E_sub (a b : nat) (k : Z) : mat := row_sub mid a b k.
Definition E_swap (a b : nat) : mat := row_swap mid a b.
Definition E_neg (j : nat) : mat := col_neg mid j.

Ltac ops := cbv beta iota zeta delta [E_sub E_swap E_neg row_sub col_sub row_swap col_swap col_neg row_add set_row vset].
Lemma row_sub_mul M a b k : (a < 3)%nat -> (b < 3)%nat -> row_sub M a b k = mmul (E_sub a b k) M.
Proof. intros Ha Hb. c3 Ha; c3 Hb; ops; mat_ring. Qed.
Lemma row_swap_mul M a b : (a < 3)%nat -> (b < 3)%nat -> row_swap M a b = mmul (E_swap a b) M.
Proof. intros Ha Hb. c3 Ha; c3 Hb; ops; mat_ring. Qed.
Lemma row_add_mul M a b : (a < 3)%nat -> (b < 3)%nat -> row_add M a b = mmul (E_sub a b (-1)) M.
Proof. intros Ha Hb. c3 Ha; c3 Hb; ops; mat_ring. Qed.
Lemma col_neg_mul M j : (j < 3)%nat -> col_neg M j = mmul M (E_neg j).
Proof. intros Ha. c3 Ha; ops; mat_ring. Qed.
Lemma col_sub_transpose M a b k : (a < 3)%nat -> (b < 3)%nat -> col_sub M a b k = transpose (row_sub (transpose M) a b k).
Proof. intros Ha Hb. c3 Ha; c3 Hb; ops; mat_ring. Qed.
Lemma col_swap_transpose M a b : (a < 3)%nat -> (b < 3)%nat -> col_swap M a b = transpose (row_swap (transpose M) a b).
Proof. intros Ha Hb. c3 Ha; c3 Hb; ops; mat_ring. Qed.
Lemma mmul_transpose A B : transpose (mmul A B) = mmul (transpose B) (transpose A).
Proof. mat_ring. Qed.
Lemma mdet_transpose A : mdet (transpose A) = mdet A.
Proof. mat_ring. Qed.
Lemma unimodular_transpose A : unimodular A -> unimodular (transpose A).
Proof. unfold unimodular. now rewrite mdet_transpose. Qed.
Lemma unimodular_id : unimodular mid.
Proof. left. reflexivity. Qed.
Lemma E_sub_det a b k : (a < 3)%nat -> (b < 3)%nat -> a <> b -> unimodular (E_sub a b k).
Proof. intros Ha Hb. left. c3 Ha; c3 Hb; try congruence; ops; mat_ring. Qed.
Lemma E_swap_det a b : (a < 3)%nat -> (b < 3)%nat -> unimodular (E_swap a b).
Proof. intros Ha Hb. c3 Ha; c3 Hb; [left|right|right|right|left|right|right|right|left]; reflexivity. Qed.
Lemma E_neg_det j : (j < 3)%nat -> unimodular (E_neg j).
Proof. intros Ha. right. c3 Ha; reflexivity. Qed.

(** ** Clearing a column *)
Lemma vcol_eta M j : (j < 3)%nat -> (mget M 0 j, mget M 1 j, mget M 2 j) = vcol M j.
Proof. intros H. unfold vcol. c3 H; mat_ring. Qed.
Lemma vget_vcol M i j : (i < 3)%nat -> (j < 3)%nat -> vget (vcol M j) i = mget M i j.
Proof. intros Hi H. unfold vcol. c3 H; c3 Hi; mat_ring. Qed.
Lemma vcol_mmul E M j : (j < 3)%nat -> vcol (mmul E M) j = mvec E (vcol M j).
Proof. intros H. unfold vcol. c3 H; mat_ring. Qed.
Lemma vcol_transpose M j : vcol (transpose M) j = mrow M j.
Proof. unfold vcol. now rewrite transpose_involutive. Qed.

Lemma any_check_ok H M A B : mmul (mmul A H) B = M -> any_check H M A B = Ok tt.
Proof. intros <-. unfold any_check. now rewrite Bool.eqb_reflx. Qed.

Definition vsub_at (v : vec) (b a : nat) (k : Z) : vec := vset v b (vget v b - k * vget v a).
Lemma vcol_row_sub M b a k j : (j < 3)%nat -> (a < 3)%nat -> (b < 3)%nat ->
  vcol (row_sub M b a k) j = vsub_at (vcol M j) b a k.
Proof. intros H Ha Hb. unfold vcol, vsub_at. c3 H; c3 Ha; c3 Hb; ops; mat_ring. Qed.
Lemma vget_sub_at v b a k i : (i < 3)%nat -> (b < 3)%nat ->
  vget (vsub_at v b a k) i = if (i =? b)%nat then vget v b - k * vget v a else vget v i.
Proof. intros Hi Hb. unfold vsub_at. destruct v as [[x y] z]. c3 Hi; c3 Hb; reflexivity. Qed.
Lemma size_vget v : size v = Z.abs (vget v 0) + Z.abs (vget v 1) + Z.abs (vget v 2).
Proof. now destruct v as [[x y] z]. Qed.
Lemma div_step x y : x <> 0 -> Z.abs (y - y / x * x) < Z.abs x.
Proof. intros H. pose proof (Z.mod_eq y x H). pose proof (Z.mod_bound_or y x H). nia. Qed.
Lemma size_step v a b : (a < 3)%nat -> (b < 3)%nat -> vget v a <> 0 -> a <> b -> Z.abs (vget v a) <= Z.abs (vget v b) ->
  size (vsub_at v b a (vget v b / vget v a)) < size v.
Proof.
  intros Ha Hb H0 Hab Hle. pose proof (div_step (vget v a) (vget v b) H0) as Hd.
  rewrite !size_vget, !vget_sub_at by lia. c3 Ha; c3 Hb; cbn [Nat.eqb]; lia.
Qed.
Lemma nonzero_vec v i : (i < 3)%nat -> vget v i <> 0 -> v <> (0, 0, 0).
Proof. intros Hi H ->. c3 Hi; now apply H. Qed.
Lemma nonzeros_pos v : (1 < nonzeros v)%nat -> exists i k, (i < 3)%nat /\ (k < 3)%nat /\ i <> k /\ vget v i <> 0 /\ vget v k <> 0.
Proof.
  destruct v as [[x y] z]. unfold nonzeros. cbn [vlist filter].
  destruct (Z.eqb_spec x 0), (Z.eqb_spec y 0), (Z.eqb_spec z 0); cbn [negb length]; intros H; try lia.
  - exists 1%nat, 2%nat. cbn. lia.
  - exists 0%nat, 2%nat. cbn. lia.
  - exists 0%nat, 1%nat. cbn. lia.
  - exists 0%nat, 1%nat. cbn. lia.
Qed.
(** With two non-zero entries the pair of indices is a proper one. *)
Lemma find_minmax_two v : (1 < nonzeros v)%nat ->
  exists a b, find_minmax v = Ok (a, b) /\ (a < 3)%nat /\ (b < 3)%nat /\ a <> b /\ vget v a <> 0 /\ vget v b <> 0 /\
    Z.abs (vget v a) <= Z.abs (vget v b) /\
    (forall i, (i < 3)%nat -> vget v i <> 0 -> Z.abs (vget v a) <= Z.abs (vget v i)) /\
    (forall i, (i < a)%nat -> vget v i <> 0 -> Z.abs (vget v a) < Z.abs (vget v i)).
Proof.
  intros Hn. destruct (nonzeros_pos v Hn) as (i & k & Hi & Hk & Hik & Hvi & Hvk).
  destruct (find_minmax_spec v (nonzero_vec v i Hi Hvi)) as (a & b & E & Ha & Hb & H0 & Hmin & Hmin' & Hmax & Hmax').
  exists a, b. split; [exact E|]. split; [exact Ha|]. split; [exact Hb|].
  assert (Hb0 : vget v b <> 0) by (specialize (Hmax i Hi); lia).
  split.
  - intros <-. assert (Hi' : Z.abs (vget v i) = Z.abs (vget v a)) by (specialize (Hmin i Hi Hvi); specialize (Hmax i Hi); lia).
    assert (Hk' : Z.abs (vget v k) = Z.abs (vget v a)) by (specialize (Hmin k Hk Hvk); specialize (Hmax k Hk); lia).
    assert (i = a).
    { destruct (Nat.lt_trichotomy i a) as [L|[L|L]]; auto; exfalso.
      - specialize (Hmin' i L Hvi); lia. - specialize (Hmax' i L Hi); lia. }
    assert (k = a).
    { destruct (Nat.lt_trichotomy k a) as [L|[L|L]]; auto; exfalso.
      - specialize (Hmin' k L Hvk); lia. - specialize (Hmax' k L Hk); lia. }
    congruence.
  - repeat split; auto.
Qed.

Lemma mrow_mmul_fixed E M i : (i < 3)%nat -> mrow E i = mrow mid i -> mrow (mmul E M) i = mrow M i.
Proof.
  intros Hi H. destruct E as [[r s] t]. c3 Hi; cbn [mrow mid] in H; subst; mat_ring.
Qed.
Lemma vcol_mmul_fixed E F i : (i < 3)%nat -> vcol E i = vcol mid i -> vcol F i = vcol mid i -> vcol (mmul E F) i = vcol mid i.
Proof. intros Hi HE HF. rewrite vcol_mmul, HF by exact Hi. rewrite (vcol_mvec mid i Hi), mvec_id, <- (vcol_mvec E i Hi), HE, (vcol_mvec mid i Hi), mvec_id. reflexivity. Qed.
Lemma E_sub_row b a k i : (a < 3)%nat -> (b < 3)%nat -> (i < 3)%nat -> i <> b -> mrow (E_sub b a k) i = mrow mid i.
Proof. intros Ha Hb Hi. c3 Ha; c3 Hb; c3 Hi; intros; try congruence; reflexivity. Qed.
Lemma E_sub_col b a k i : (a < 3)%nat -> (b < 3)%nat -> (i < 3)%nat -> i <> a -> a <> b -> vcol (E_sub b a k) i = vcol mid i.
Proof. intros Ha Hb Hi. c3 Ha; c3 Hb; c3 Hi; intros; try congruence; unfold vcol; ops; cbn -[Z.mul Z.add Z.opp]; repeat f_equal; ring. Qed.

(** What one run of the loop on column [j] does. *)
Lemma col_loop_spec fuel : forall H B j M A, (j < 3)%nat -> mmul (mmul A H) B = M ->
  (Z.to_nat (size (vcol M j)) < fuel)%nat ->
  exists E, unimodular E /\ col_loop fuel H B j M A = Ok (mmul E M, mmul E A) /\
    (nonzeros (vcol (mmul E M) j) <= 1)%nat /\
    (forall i, (i < 3)%nat -> mget M i j = 0 -> mrow E i = mrow mid i /\ vcol E i = vcol mid i) /\
    (mget M j j <> 0 -> vdiv (mget M j j) (vcol M j) -> (forall i, (i < j)%nat -> mget M i j = 0) -> mrow E j = mrow mid j) /\
    ((nonzeros (vcol M j) <= 1)%nat -> E = mid).
Proof.
  induction fuel as [|fuel IH]; intros H B j M A Hj Hinv Hf; [lia|].
  cbn [col_loop]. rewrite (vcol_eta M j Hj). destruct (Nat.ltb_spec 1 (nonzeros (vcol M j))) as [Hn|Hn].
  2:{ exists mid. rewrite !mmul_id_l. split; [apply unimodular_id|]. split; [reflexivity|]. split; [exact Hn|]. auto. }
  destruct (find_minmax_two _ Hn) as (a & b & -> & Ha & Hb & Hab & H0a & H0b & Hle & Hmin & Hmin'). cbn [rbind].
  rewrite !vget_vcol in * by auto.
  set (k := mget M b j / mget M a j) in *.
  assert (Hk : k = vget (vcol M j) b / vget (vcol M j) a) by (unfold k; now rewrite !vget_vcol by auto).
  set (S := E_sub b a k).
  assert (HS : unimodular S) by (apply E_sub_det; auto).
  rewrite !row_sub_mul by auto. fold S.
  assert (Hinv' : mmul (mmul (mmul S A) H) B = mmul S M).
  { rewrite <- Hinv, !mmul_assoc. reflexivity. }
  rewrite (any_check_ok _ _ _ _ Hinv'). cbn [rbind].
  assert (HcolS : vcol (mmul S M) j = vsub_at (vcol M j) b a k).
  { unfold S. rewrite <- row_sub_mul, vcol_row_sub by auto. reflexivity. }
  destruct (IH H B j (mmul S M) (mmul S A) Hj Hinv') as (E & HE & Erun & Hone & Hzero & Hfix & _).
  { rewrite HcolS, Hk. pose proof (size_step (vcol M j) a b Ha Hb) as Hs. rewrite !vget_vcol in Hs by auto.
    specialize (Hs H0a Hab Hle). rewrite !vget_vcol by auto.
    assert (0 <= size (vsub_at (vcol M j) b a (mget M b j / mget M a j))) by (rewrite size_vget; lia). lia. }
  assert (Hget : forall i, (i < 3)%nat -> mget (mmul S M) i j = if (i =? b)%nat then mget M b j - k * mget M a j else mget M i j).
  { intros i Hi. rewrite <- !vget_vcol, HcolS, vget_sub_at by auto. now rewrite !vget_vcol by auto. }
  exists (mmul E S). split; [now apply unimodular_mmul|]. rewrite !mmul_assoc.
  split; [exact Erun|]. split; [exact Hone|]. split; [|split; [|intros; lia]].
  - intros i Hi Hz. assert (i <> a) by congruence. assert (Hib : i <> b) by congruence.
    destruct (Hzero i Hi) as [HrE HcE].
    { rewrite Hget by auto. apply Nat.eqb_neq in Hib. now rewrite Hib. }
    split.
    + rewrite mrow_mmul_fixed by auto. unfold S. now apply E_sub_row.
    + apply vcol_mmul_fixed; auto. unfold S. now apply E_sub_col.
  - intros Hd Hdiv Hbefore.
    assert (Hja : a = j).
    { destruct (Nat.lt_trichotomy a j) as [L|[L|L]]; auto; exfalso.
      - specialize (Hbefore a L). congruence.
      - specialize (Hmin' j L). rewrite !vget_vcol in Hmin' by auto. specialize (Hmin' Hd).
        specialize (Hdiv a Ha). rewrite vget_vcol in Hdiv by auto. apply Z.divide_abs_l, Z.divide_abs_r, Z.divide_pos_le in Hdiv; lia. }
    subst a. rewrite mrow_mmul_fixed; auto.
    + unfold S. now apply E_sub_row.
    + assert (Hjj : mget (mmul S M) j j = mget M j j).
      { rewrite Hget by auto. apply Nat.eqb_neq in Hab. now rewrite Hab. }
      apply Hfix.
      * now rewrite Hjj.
      * intros i Hi. rewrite Hjj, vget_vcol, Hget by auto. specialize (Hdiv i Hi) as Hdi. rewrite vget_vcol in Hdi by auto.
        destruct (i =? b)%nat eqn:Eb; [|exact Hdi]. apply Nat.eqb_eq in Eb. subst i.
        apply Z.divide_sub_r; [exact Hdi|]. apply Z.divide_mul_r, Z.divide_refl.
      * intros i Hi. assert (i < 3)%nat by lia. rewrite Hget by auto. specialize (Hbefore i Hi).
        destruct (i =? b)%nat eqn:Eb; [|exact Hbefore]. apply Nat.eqb_eq in Eb. subst i. congruence.
Qed.
