(** One pass of the main loop of the Smith normal form routine. *)
From Coq Require Znumtheory.
From Verif Require Import PyBase Mat3 SNFModel SNFProofs.
Local Open Scope Z_scope.

Lemma mdet_unimod_l E M : unimodular E -> mdet M <> 0 -> mdet (mmul E M) <> 0.
Proof. intros [H|H]; rewrite mdet_mmul, H; lia. Qed.
Lemma mdet_unimod_r E M : unimodular E -> mdet M <> 0 -> mdet (mmul M E) <> 0.
Proof. intros [H|H]; rewrite mdet_mmul, H; lia. Qed.
Lemma vcol_nonzero M j : (j < 3)%nat -> mdet M <> 0 -> vcol M j <> (0, 0, 0).
Proof. intros Hj Hd E. apply Hd. unfold vcol in E. c3 Hj; mat_destruct; cbn in E; injection E as -> -> ->; mat_unfold; ring. Qed.
Lemma axis_zero m : (m < 3)%nat -> axis m 0 = (0, 0, 0).
Proof. intros H. c3 H; reflexivity. Qed.
Lemma mget_axis M j m x i : (j < 3)%nat -> (m < 3)%nat -> (i < 3)%nat -> vcol M j = axis m x -> mget M i j = if (i =? m)%nat then x else 0.
Proof. intros Hj Hm Hi E. rewrite <- vget_vcol, E, vget_axis; auto. Qed.
Lemma mget_axis_row M j m x i : (m < 3)%nat -> (i < 3)%nat -> mrow M j = axis m x -> mget M j i = if (i =? m)%nat then x else 0.
Proof. intros Hm Hi E. unfold mget. rewrite E, vget_axis; auto. Qed.
Lemma loop_fuel_size v : (Z.to_nat (size v) < loop_fuel v)%nat.
Proof. destruct v as [[x y] z]. cbn. lia. Qed.

Lemma E_swap_row a b i : (a < 3)%nat -> (b < 3)%nat -> (i < 3)%nat -> i <> a -> i <> b -> mrow (E_swap a b) i = mrow mid i.
Proof. intros Ha Hb Hi. c3 Ha; c3 Hb; c3 Hi; intros; try congruence; reflexivity. Qed.
Lemma E_swap_col a b i : (a < 3)%nat -> (b < 3)%nat -> (i < 3)%nat -> i <> a -> i <> b -> vcol (E_swap a b) i = vcol mid i.
Proof. intros Ha Hb Hi. c3 Ha; c3 Hb; c3 Hi; intros; try congruence; reflexivity. Qed.
Lemma E_swap_axis a b x : (a < 3)%nat -> (b < 3)%nat -> mvec (E_swap a b) (axis b x) = axis a x.
Proof. intros Ha Hb. c3 Ha; c3 Hb; ops; unfold axis; ops; mat_ring. Qed.
Lemma arg_max_axis m x : (m < 3)%nat -> x <> 0 -> arg_max (axis m x) = Ok m.
Proof.
  intros Hm Hx. destruct (arg_max_spec (axis m x)) as (k & -> & Hk & H). f_equal.
  specialize (H m Hm). rewrite !vget_axis, Nat.eqb_refl in H by auto.
  destruct (k =? m)%nat eqn:E; [now apply Nat.eqb_eq in E|lia].
Qed.

(** ** Clearing column [j] and moving its entry to row [j] *)
Definition phase1 (H B : mat) (j : nat) (M A : mat) : res (mat * mat) :=
  do MA <- col_loop (loop_fuel (mget M 0 j, mget M 1 j, mget M 2 j)) H B j M A;
  let '(M, A) := MA in row_fix H B j M A.

Lemma phase1_spec H B j M A : (j < 3)%nat -> mmul (mmul A H) B = M -> mdet M <> 0 ->
  exists E x, unimodular E /\ phase1 H B j M A = Ok (mmul E M, mmul E A) /\
    x <> 0 /\ vcol (mmul E M) j = axis j x /\ Z.abs x = vgcd (vcol M j) /\
    (forall i, (i < 3)%nat -> i <> j -> mget M i j = 0 -> mrow E i = mrow mid i /\ vcol E i = vcol mid i) /\
    ((exists z, vcol M j = axis j z) -> E = mid).
Proof.
  intros Hj Hinv Hdet. unfold phase1. rewrite (vcol_eta M j Hj).
  destruct (col_loop_spec (loop_fuel (vcol M j)) H B j M A Hj Hinv (loop_fuel_size _)) as (E & HE & -> & Hone & Hzero & _ & Hid).
  cbn [rbind]. pose proof (mdet_unimod_l E M HE Hdet) as Hdet'.
  assert (Hinv' : mmul (mmul (mmul E A) H) B = mmul E M) by (rewrite <- Hinv, !mmul_assoc; reflexivity).
  apply nonzeros_le1 in Hone. destruct Hone as (m & x & Hm & Hcol).
  assert (Hx : x <> 0).
  { intros ->. apply (vcol_nonzero _ j Hj Hdet'). now rewrite Hcol, axis_zero. }
  assert (Hg : Z.abs x = vgcd (vcol M j)).
  { rewrite <- (vgcd_axis m x Hm), <- Hcol, vcol_mmul by auto. now apply vgcd_mvec. }
  unfold row_fix. rewrite (vcol_eta _ j Hj), (mget_axis _ _ _ _ _ Hj Hm Hj Hcol), Hcol.
  destruct (Nat.eqb_spec j m) as [->|Hjm].
  - apply Z.eqb_neq in Hx as Hx'. rewrite Hx'. cbn [rbind]. rewrite (any_check_ok _ _ _ _ Hinv'). cbn [rbind].
    exists E, x. split; [exact HE|]. split; [reflexivity|]. split; [exact Hx|]. split; [exact Hcol|]. split; [exact Hg|].
    split; [auto|]. intros (z & Hz). apply Hid. apply nonzeros_le1. eauto.
  - cbn [Z.eqb]. rewrite (arg_max_axis m x Hm Hx). cbn [rbind].
    rewrite !row_swap_mul by auto. set (S := E_swap j m).
    assert (Hinv'' : mmul (mmul (mmul S (mmul E A)) H) B = mmul S (mmul E M)) by (rewrite <- Hinv', !mmul_assoc; reflexivity).
    rewrite (any_check_ok _ _ _ _ Hinv''). cbn [rbind].
    exists (mmul S E), x. rewrite !mmul_assoc.
    split; [apply unimodular_mmul; auto; now apply E_swap_det|]. split; [reflexivity|]. split; [exact Hx|].
    split; [|split; [exact Hg|split]].
    + rewrite vcol_mmul, Hcol by auto. now apply E_swap_axis.
    + intros i Hi Hij Hz. destruct (Hzero i Hi Hz) as [Hr Hc].
      assert (Him : i <> m).
      { intros ->. pose proof (mget_axis _ j m x m Hj Hm Hm Hcol) as Hmm. rewrite Nat.eqb_refl in Hmm.
        unfold mget in Hmm. rewrite mrow_mmul_fixed in Hmm by auto. fold (mget M m j) in Hmm. congruence. }
      split.
      * rewrite mrow_mmul_fixed; auto. now apply E_swap_row.
      * apply vcol_mmul_fixed; auto. now apply E_swap_col.
    + intros (z & Hz). exfalso. apply Hjm.
      assert (E = mid) by (apply Hid; apply nonzeros_le1; eauto). subst E. rewrite mmul_id_l in Hcol.
      assert (mget M m j = x) by (rewrite (mget_axis M j m x m), Nat.eqb_refl; auto).
      rewrite (mget_axis M j j z m) in H0 by auto. destruct (Nat.eqb_spec m j); congruence.
Qed.

(** ** The same for rows, by transposition *)
Lemma mat_any_transpose M : mat_any (transpose M) = mat_any M.
Proof.
  destruct M as [[[[a b] c] [[d e] f]] [[g h] i]]. unfold mat_any. cbn [transpose vlist app existsb].
  repeat match goal with |- context [negb (?x =? 0)] => destruct (x =? 0) end; reflexivity.
Qed.
Lemma any_check_dual H M A B : any_check (transpose H) (transpose M) (transpose B) (transpose A) = any_check H M A B.
Proof. unfold any_check. rewrite <- !mmul_transpose, !mat_any_transpose, mmul_assoc. reflexivity. Qed.

Lemma row_loop_dual fuel : forall H A j M B, (j < 3)%nat ->
  row_loop fuel H A j M B =
  do MA <- col_loop fuel (transpose H) (transpose A) j (transpose M) (transpose B);
  let '(M', B') := MA in Ok (transpose M', transpose B').
Proof.
  induction fuel as [|fuel IH]; intros H A j M B Hj; [reflexivity|].
  cbn [row_loop col_loop]. rewrite (vcol_eta _ j Hj), vcol_transpose.
  destruct (Nat.ltb_spec 1 (nonzeros (mrow M j))) as [Hn|Hn].
  - destruct (find_minmax_two _ Hn) as (a & b & -> & Ha & Hb & Hab & _). cbn [rbind].
    assert (Hg : forall i, (i < 3)%nat -> mget (transpose M) i j = mget M j i).
    { intros i Hi. rewrite <- vget_vcol by auto. now rewrite vcol_transpose. }
    rewrite !Hg by auto. rewrite !col_sub_transpose by auto.
    set (M1 := row_sub (transpose M) b a _). set (B1 := row_sub (transpose B) b a _).
    rewrite <- any_check_dual, !transpose_involutive.
    destruct (any_check (transpose H) M1 B1 (transpose A)); [|reflexivity]. cbn [rbind].
    rewrite IH by auto. now rewrite !transpose_involutive.
  - cbn [rbind]. now rewrite !transpose_involutive.
Qed.

Lemma row_loop_spec fuel H A j M B : (j < 3)%nat -> mmul (mmul A H) B = M ->
  (Z.to_nat (size (mrow M j)) < fuel)%nat ->
  exists F, unimodular F /\ row_loop fuel H A j M B = Ok (mmul M F, mmul B F) /\
    (nonzeros (mrow (mmul M F) j) <= 1)%nat /\
    (forall i, (i < 3)%nat -> mget M j i = 0 -> mrow F i = mrow mid i /\ vcol F i = vcol mid i) /\
    (mget M j j <> 0 -> vdiv (mget M j j) (mrow M j) -> (forall i, (i < j)%nat -> mget M j i = 0) -> vcol F j = vcol mid j) /\
    ((nonzeros (mrow M j) <= 1)%nat -> F = mid).
Proof.
  intros Hj Hinv Hf. rewrite row_loop_dual by auto.
  assert (Hg : forall i, (i < 3)%nat -> mget (transpose M) i j = mget M j i).
  { intros i Hi. rewrite <- vget_vcol by auto. now rewrite vcol_transpose. }
  destruct (col_loop_spec fuel (transpose H) (transpose A) j (transpose M) (transpose B)) as (E & HE & -> & Hone & Hzero & Hfix & Hid); auto.
  { rewrite <- !mmul_transpose, <- mmul_assoc. now rewrite Hinv. }
  { now rewrite vcol_transpose. }
  cbn [rbind]. exists (transpose E). split; [now apply unimodular_transpose|].
  rewrite !mmul_transpose, !transpose_involutive. split; [reflexivity|].
  split; [|split; [|split]].
  - rewrite <- vcol_transpose, mmul_transpose, transpose_involutive. exact Hone.
  - intros i Hi Hz. rewrite vcol_transpose. destruct (Hzero i Hi) as [Hr Hc]; [now rewrite Hg|].
    split; [exact Hc|]. rewrite Hr. c3 Hi; reflexivity.
  - rewrite vcol_transpose. intros H0 H1 H2. rewrite Hfix.
    + c3 Hj; reflexivity.
    + now rewrite Hg.
    + now rewrite Hg, vcol_transpose.
    + intros i Hi. rewrite Hg by lia. auto.
  - intros Hn. rewrite Hid; [reflexivity|]. now rewrite vcol_transpose.
Qed.

(** ** Clearing row [j] *)
Lemma mrow_mmul M F j : mrow (mmul M F) j = mvec (transpose F) (mrow M j).
Proof. rewrite <- (vcol_transpose (mmul M F)), mmul_transpose. destruct j as [|[|]]; mat_ring. Qed.
Lemma vgcd_mrow M F j : unimodular F -> vgcd (mrow (mmul M F) j) = vgcd (mrow M j).
Proof. intros H. rewrite mrow_mmul. apply vgcd_mvec. now apply unimodular_transpose. Qed.
Lemma axis_scale j x : (j < 3)%nat -> axis j x = vscale x (axis j 1).
Proof. intros H. c3 H; cbn -[Z.mul]; repeat f_equal; ring. Qed.
Lemma vscale_axis k j x : (j < 3)%nat -> vscale k (axis j x) = axis j (k * x).
Proof. intros H. c3 H; unfold axis; cbn [vset vscale]; rewrite !Z.mul_0_r; reflexivity. Qed.
Lemma vcol_mid j : (j < 3)%nat -> vcol mid j = axis j 1.
Proof. intros H. c3 H; reflexivity. Qed.
Lemma mrow_mid j : (j < 3)%nat -> mrow mid j = axis j 1.
Proof. intros H. c3 H; reflexivity. Qed.
Lemma E_neg_row j i : (j < 3)%nat -> (i < 3)%nat -> i <> j -> mrow (E_neg j) i = mrow mid i.
Proof. intros Hj Hi. c3 Hj; c3 Hi; intros; try congruence; reflexivity. Qed.
Lemma E_neg_col j i : (j < 3)%nat -> (i < 3)%nat -> i <> j -> vcol (E_neg j) i = vcol mid i.
Proof. intros Hj Hi. c3 Hj; c3 Hi; intros; try congruence; reflexivity. Qed.
Lemma E_neg_axis j x : (j < 3)%nat -> mvec (transpose (E_neg j)) (axis j x) = axis j (- x).
Proof. intros Hj. c3 Hj; ops; unfold axis; ops; mat_ring. Qed.
Lemma col_E_neg_axis j : (j < 3)%nat -> vcol (E_neg j) j = axis j (-1).
Proof. intros Hj. c3 Hj; reflexivity. Qed.
Lemma col_swap_mul M a b : (a < 3)%nat -> (b < 3)%nat -> col_swap M a b = mmul M (E_swap a b).
Proof. intros Ha Hb. c3 Ha; c3 Hb; ops; mat_ring. Qed.
Lemma E_swap_axis_t a b x : (a < 3)%nat -> (b < 3)%nat -> mvec (transpose (E_swap a b)) (axis b x) = axis a x.
Proof. intros Ha Hb. c3 Ha; c3 Hb; ops; unfold axis; ops; mat_ring. Qed.
Lemma vcol_fixed M F i : (i < 3)%nat -> vcol F i = vcol mid i -> vcol (mmul M F) i = vcol M i.
Proof. intros Hi H. rewrite vcol_mmul, H, <- vcol_mmul, mmul_id_r by auto. reflexivity. Qed.

Definition phase2 (H A : mat) (j : nat) (M B : mat) : res (mat * mat) :=
  do MB <- row_loop (loop_fuel (mrow M j)) H A j M B;
  let '(M, B) := MB in col_fix j M B.

Lemma phase2_spec H A j M B x : (j < 3)%nat -> mmul (mmul A H) B = M -> mdet M <> 0 ->
  x <> 0 -> vcol M j = axis j x -> (forall i, (i < j)%nat -> mget M j i = 0) ->
  exists F y, unimodular F /\ phase2 H A j M B = Ok (mmul M F, mmul B F) /\
    y <> 0 /\ mrow (mmul M F) j = axis j y /\ Z.abs y = vgcd (mrow M j) /\
    (forall i, (i < 3)%nat -> i <> j -> mget M j i = 0 -> mrow F i = mrow mid i /\ vcol F i = vcol mid i) /\
    ((vdiv x (mrow M j) /\ vcol (mmul M F) j = axis j y /\ y = Z.abs x) \/
     (~ vdiv x (mrow M j) /\ (1 < nonzeros (vcol (mmul M F) j))%nat /\ 2 * Z.abs y <= Z.abs x)).
Proof.
  intros Hj Hinv Hdet Hx Hcol Hbefore. unfold phase2.
  destruct (row_loop_spec (loop_fuel (mrow M j)) H A j M B Hj Hinv (loop_fuel_size _)) as (F & HF & -> & Hone & Hzero & Hfix & _).
  cbn [rbind]. pose proof (mdet_unimod_r F M HF Hdet) as Hdet'.
  apply nonzeros_le1 in Hone. destruct Hone as (m & y & Hm & Hrow).
  assert (Hy : y <> 0).
  { intros ->. rewrite axis_zero in Hrow by auto. rewrite <- mdet_transpose in Hdet'.
    apply (vcol_nonzero _ j Hj Hdet'). now rewrite vcol_transpose. }
  assert (Hxjj : mget M j j = x) by (rewrite (mget_axis M j j x j), Nat.eqb_refl; auto).
  assert (Hdec : vdiv x (mrow M j) \/ ~ vdiv x (mrow M j)).
  { rewrite vdiv_gcd. destruct (Znumtheory.Zdivide_dec x (vgcd (mrow M j))); auto. }
  (* everything follows from the existence of [F'] which brings the entry to column j *)
  assert (Hfin : exists S y', unimodular S /\ col_fix j (mmul M F) (mmul B F) = Ok (mmul (mmul M F) S, mmul (mmul B F) S) /\
     mrow (mmul M (mmul F S)) j = axis j y' /\ Z.abs y' = Z.abs y /\
     (vdiv x (mrow M j) -> vcol (mmul F S) j = axis j (Z.sgn x) /\ y' = Z.abs x) /\
     (forall i, (i < 3)%nat -> i <> j -> mget M j i = 0 -> mrow S i = mrow mid i /\ vcol S i = vcol mid i)).
  { assert (Hd : vdiv x (mrow M j) -> vcol F j = vcol mid j).
    { intros Hd. apply Hfix; rewrite ?Hxjj; auto. }
    assert (Hmy : vdiv x (mrow M j) -> j = m /\ y = x).
    { intros Hdv. specialize (Hd Hdv). assert (Hcc : vcol (mmul M F) j = axis j x) by (rewrite vcol_fixed; auto).
      assert (H1 : mget (mmul M F) j j = x) by (rewrite (mget_axis _ j j x j), Nat.eqb_refl; auto).
      rewrite (mget_axis_row _ j m y j) in H1 by auto. destruct (Nat.eqb_spec j m); [auto|congruence]. }
    unfold col_fix. rewrite (mget_axis_row _ j m y j) by auto.
    destruct (Nat.eqb_spec j m) as [<-|Hjm].
    - destruct (Z.ltb_spec y 0) as [Hneg|Hpos].
      + rewrite !col_neg_mul by auto. exists (E_neg j), (- y).
        split; [now apply E_neg_det|]. split; [reflexivity|]. rewrite <- mmul_assoc. split; [|split; [|split]].
        * rewrite mrow_mmul, Hrow. now apply E_neg_axis.
        * apply Z.abs_opp.
        * intros Hdv. destruct (Hmy Hdv) as [_ ->]. split; [|lia]. rewrite vcol_mmul, col_E_neg_axis by auto.
          rewrite axis_scale, mvec_vscale, <- vcol_mid, <- vcol_mmul, mmul_id_r, (Hd Hdv), vcol_mid, <- axis_scale by auto.
          f_equal. lia.
        * intros i Hi Hij _. split; [now apply E_neg_row|now apply E_neg_col].
      + apply Z.eqb_neq in Hy as Hy'. rewrite Hy'. exists mid, y. rewrite !mmul_id_r.
        split; [apply unimodular_id|]. split; [reflexivity|]. split; [exact Hrow|]. split; [reflexivity|].
        split; [|auto]. intros Hdv. destruct (Hmy Hdv) as [_ ->]. split; [|lia]. rewrite (Hd Hdv), vcol_mid by auto. f_equal. lia.
    - cbn [Z.ltb Z.compare Z.eqb]. rewrite Hrow, arg_max_axis by auto. cbn [rbind].
      rewrite !col_swap_mul by auto. exists (E_swap j m), y.
      split; [now apply E_swap_det|]. split; [reflexivity|]. rewrite <- mmul_assoc.
      split; [rewrite mrow_mmul, Hrow; now apply E_swap_axis_t|]. split; [reflexivity|]. split.
      + intros Hdv. destruct (Hmy Hdv). congruence.
      + intros i Hi Hij Hz. assert (Him : i <> m).
        { intros ->. destruct (Hzero m Hi Hz) as [_ Hc]. pose proof (vcol_fixed M F m Hi Hc) as Hcc.
          assert (H1 : mget (mmul M F) j m = mget M j m) by (rewrite <- !vget_vcol by auto; now rewrite Hcc).
          rewrite (mget_axis_row _ j m y m) in H1 by auto. rewrite Nat.eqb_refl in H1. congruence. }
        split; [now apply E_swap_row|now apply E_swap_col]. }
  destruct Hfin as (S & y' & HS & -> & Hrow' & Hyy & Hdv & Hz').
  assert (HFS : unimodular (mmul F S)) by now apply unimodular_mmul.
  exists (mmul F S), y'. rewrite !mmul_assoc. split; [exact HFS|]. split; [reflexivity|].
  assert (Hy' : y' <> 0) by lia. split; [exact Hy'|]. split; [exact Hrow'|].
  assert (Hg : Z.abs y' = vgcd (mrow M j)).
  { rewrite <- (vgcd_axis j y' Hj), <- Hrow'. now apply vgcd_mrow. }
  split; [exact Hg|]. split.
  { intros i Hi Hij Hz. destruct (Hzero i Hi Hz) as [Hr Hc]. destruct (Hz' i Hi Hij Hz) as [Hr' Hc']. split.
    - rewrite mrow_mmul_fixed; auto.
    - now apply vcol_mmul_fixed. }
  destruct Hdec as [Hdec|Hdec]; [left|right]; (split; [exact Hdec|]).
  - destruct (Hdv Hdec) as [Hc Hya]. split; [|exact Hya].
    rewrite vcol_mmul, Hc, axis_scale, mvec_vscale, <- vcol_mid, <- vcol_mmul, mmul_id_r, Hcol by auto.
    rewrite Hya, vscale_axis by auto. f_equal. destruct x; cbn; lia.
  - (* y' divides x properly *)
    assert (Hyx : (y' | x)).
    { apply Z.divide_abs_l. rewrite Hg. rewrite <- Hxjj. unfold mget.
      apply (proj2 (vdiv_gcd (vgcd (mrow M j)) (mrow M j))); [apply Z.divide_refl|exact Hj]. }
    assert (Hnd : ~ (x | y')).
    { intros Hd. apply Hdec. apply vdiv_gcd. rewrite <- Hg. now apply Z.divide_abs_r. }
    split.
    + destruct (Nat.le_gt_cases (nonzeros (vcol (mmul M (mmul F S)) j)) 1) as [Hle|Hgt]; [exfalso|exact Hgt].
      apply nonzeros_le1 in Hle. destruct Hle as (k & w & Hk & Hcw).
      assert (Hw : mget (mmul M (mmul F S)) j j = y') by (rewrite (mget_axis_row _ j j y' j), Nat.eqb_refl; auto).
      rewrite (mget_axis _ j k w j) in Hw by auto. destruct (Nat.eqb_spec j k) as [<-|]; [subst w|congruence].
      apply Hnd.
      (* M (x FS e_j) = x y' e_j = M (y' e_j) *)
      assert (E : vscale x (vcol (mmul F S) j) = axis j y').
      { apply (mvec_cancel M); [exact Hdet|]. rewrite mvec_vscale, <- vcol_mmul, Hcw by auto.
        rewrite (axis_scale j y'), !mvec_vscale by auto. rewrite <- vcol_mid at 2 by auto. rewrite <- vcol_mmul, mmul_id_r, Hcol by auto.
        rewrite !vscale_axis by auto. f_equal. ring. }
      exists (vget (vcol (mmul F S) j) j).
      assert (E' : vget (vscale x (vcol (mmul F S) j)) j = y') by (rewrite E, vget_axis, Nat.eqb_refl; auto).
      rewrite <- E'. destruct (vcol (mmul F S) j) as [[p q] r]. c3 Hj; cbn -[Z.mul]; ring.
    + destruct Hyx as [q Hq]. assert (Hq1 : q <> 1 /\ q <> -1 /\ q <> 0).
      { split; [|split]; intros ->; try lia; apply Hnd; subst x; [exists 1|exists (-1)]; lia. }
      rewrite Hq, Z.abs_mul. nia.
Qed.
