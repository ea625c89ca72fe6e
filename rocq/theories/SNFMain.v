(** The main loop of the Smith normal form routine. *)
From Verif Require Import PyBase Mat3 SNFModel SNFProofs SNFPass.
Local Open Scope Z_scope.

(** The first row and column are finished. *)
Definition shape (M : mat) : Prop :=
  0 < mget M 0 0 /\ mrow M 0 = axis 0 (mget M 0 0) /\ vcol M 0 = axis 0 (mget M 0 0) /\
  forall i k, (i < 3)%nat -> (k < 3)%nat -> (mget M 0 0 | mget M i k).

Definition Inv (H : mat) (j : nat) (M A B : mat) : Prop :=
  mmul (mmul A H) B = M /\ unimodular A /\ unimodular B /\ (j = 0%nat \/ (j = 1%nat /\ shape M)).

(** At most [n] more passes with this [j]. *)
Definition bound (j : nat) (M : mat) (n : Z) : Prop :=
  2 * Z.log2 (vgcd (vcol M j)) + 1 <= n \/
  (2 * Z.log2 (vgcd (vcol M j)) <= n /\ exists x, vcol M j = axis j x /\ ~ vdiv x (mrow M j)).

Lemma shape_l E M : shape M -> mrow E 0 = mrow mid 0 -> vcol E 0 = vcol mid 0 -> shape (mmul E M).
Proof.
  intros (H0 & Hr & Hc & Hd) HEr HEc.
  assert (Hr' : mrow (mmul E M) 0 = mrow M 0) by (apply mrow_mmul_fixed; [lia|exact HEr]).
  assert (H00 : mget (mmul E M) 0 0 = mget M 0 0) by (unfold mget; now rewrite Hr').
  unfold shape. rewrite H00. split; [exact H0|]. split; [congruence|]. split.
  - rewrite vcol_mmul, Hc by lia. rewrite axis_scale, mvec_vscale, <- vcol_mid, <- vcol_mmul, mmul_id_r, HEc by lia. reflexivity.
  - intros i k Hi Hk. rewrite <- (vget_vcol (mmul E M) i k), vcol_mmul by auto. apply vdiv_mvec; auto.
    intros i' Hi'. rewrite vget_vcol by auto. auto.
Qed.
Lemma shape_transpose M : shape M -> shape (transpose M).
Proof.
  intros (H0 & Hr & Hc & Hd). assert (Hg : forall i k, (i < 3)%nat -> (k < 3)%nat -> mget (transpose M) i k = mget M k i).
  { intros i k Hi Hk. rewrite <- vget_vcol, vcol_transpose by auto. reflexivity. }
  unfold shape. rewrite vcol_transpose, Hg by lia. split; [exact H0|]. split; [exact Hc|]. split; [exact Hr|].
  intros i k Hi Hk. rewrite Hg by auto. auto.
Qed.
Lemma shape_r F M : shape M -> mrow F 0 = mrow mid 0 -> vcol F 0 = vcol mid 0 -> shape (mmul M F).
Proof.
  intros HM Hr Hc. rewrite <- (transpose_involutive (mmul M F)), mmul_transpose. apply shape_transpose.
  apply shape_l; [now apply shape_transpose|exact Hc|]. now rewrite vcol_transpose, Hr.
Qed.

Lemma bound_pos j M n : (j < 3)%nat -> mdet M <> 0 -> bound j M n -> 1 <= n.
Proof.
  intros Hj Hdet [H|[H (x & Hx & Hnd)]].
  - pose proof (Z.log2_nonneg (vgcd (vcol M j))). lia.
  - assert (Hx0 : x <> 0). { intros ->. apply (vcol_nonzero M j Hj Hdet). now rewrite Hx, axis_zero. }
    rewrite Hx, vgcd_axis in H by auto.
    assert (Z.abs x <> 1).
    { intros E. apply Hnd. intros i Hi. assert (x = 1 \/ x = -1) as [-> | ->] by lia.
      - apply Z.divide_1_l. - exists (- vget (mrow M j) i). lia. }
    assert (2 <= Z.abs x) by lia. pose proof (Z.log2_le_mono 2 (Z.abs x) H1). cbn in H2. lia.
Qed.

Lemma bound_half j M M' n y : (j < 3)%nat -> mget M' j j = y -> y <> 0 -> 2 * Z.abs y <= vgcd (vcol M j) ->
  bound j M n -> bound j M' (n - 1).
Proof.
  intros Hj Hy Hy0 Hle Hb. left.
  assert (Hd : (vgcd (vcol M' j) | y)).
  { rewrite <- Hy, <- vget_vcol by auto. apply (proj2 (vdiv_gcd _ _)); [apply Z.divide_refl|exact Hj]. }
  assert (Hpos : 0 < vgcd (vcol M' j)).
  { pose proof (vgcd_nonneg (vcol M' j)). destruct (Z.eq_dec (vgcd (vcol M' j)) 0) as [E|E]; [|lia].
    rewrite E in Hd. apply Z.divide_0_l in Hd. congruence. }
  apply Z.divide_abs_r in Hd. apply Z.divide_pos_le in Hd; [|lia].
  pose proof (Z.log2_double (vgcd (vcol M' j)) Hpos) as H2.
  assert (Hlog : Z.log2 (2 * vgcd (vcol M' j)) <= Z.log2 (vgcd (vcol M j))) by (apply Z.log2_le_mono; lia).
  destruct Hb as [Hb|[Hb _]]; lia.
Qed.

Definition finished (M : mat) : Prop :=
  shape M /\ 0 < mget M 1 1 /\ mget M 1 2 = 0 /\ mget M 2 1 = 0 /\ (mget M 1 1 | mget M 2 2).

Lemma mod0_div a b : b <> 0 -> ((a mod b =? 0) = true <-> (b | a)).
Proof. intros H. rewrite Z.eqb_eq. apply Z.mod_divide. exact H. Qed.

Lemma mget_row_add M a b i k : (a < 3)%nat -> (b < 3)%nat -> (i < 3)%nat -> (k < 3)%nat ->
  mget (row_add M a b) i k = if (i =? a)%nat then mget M a k + mget M b k else mget M i k.
Proof.
  intros Ha Hb Hi Hk. destruct M as [[[[m0 m1] m2] [[m3 m4] m5]] [[m6 m7] m8]].
  c3 Ha; c3 Hb; c3 Hi; c3 Hk; reflexivity.
Qed.
Lemma vcol_row_add M a b j : (a < 3)%nat -> (b < 3)%nat -> (j < 3)%nat -> mget M b j = 0 -> vcol (row_add M a b) j = vcol M j.
Proof.
  intros Ha Hb Hj H0. apply vec_eq. intros i Hi. rewrite !vget_vcol, mget_row_add by auto.
  destruct (Nat.eqb_spec i a); subst; lia.
Qed.

Lemma pick_row_spec p q : 0 <= fst p -> 0 <= snd p -> 0 <= fst q -> 0 <= snd q ->
  ~ (fst p = 0 /\ snd p = 0 /\ fst q = 0 /\ snd q = 0) ->
  (pick_row p q = 0%nat /\ (fst p <> 0 \/ snd p <> 0)) \/ (pick_row p q = 1%nat /\ (fst q <> 0 \/ snd q <> 0)).
Proof.
  destruct p as [a b], q as [c d]. unfold pick_row. cbn [fst snd]. intros.
  destruct (Z.ltb_spec a c), (Z.eqb_spec a c), (Z.ltb_spec b d); cbn [orb andb]; lia.
Qed.

Lemma snf_pass_spec H j M A B n : mdet H <> 0 -> Inv H j M A B -> bound j M n ->
  exists p, snf_pass H j M A B = Ok p /\
    match p with
    | Stop M' A' B' => j = 1%nat /\ Inv H 1 M' A' B' /\ finished M'
    | Continue j' M' A' B' => Inv H j' M' A' B' /\ ((j' = j /\ bound j M' (n - 1)) \/ (j = 0%nat /\ j' = 1%nat))
    end.
Proof.
  intros HdetH (Hinv & HA & HB & Hsh) Hb.
  assert (Hj : (j < 3)%nat) by (destruct Hsh as [->|[-> _]]; lia).
  assert (Hdet : mdet M <> 0).
  { rewrite <- Hinv. apply mdet_unimod_r; auto. now apply mdet_unimod_l. }
  destruct (phase1_spec H B j M A Hj Hinv Hdet) as (E & x & HE & Hp1 & Hx & Hcol1 & Hg & HzE & HidE).
  pose proof (mdet_unimod_l E M HE Hdet) as Hdet1.
  assert (Hinv1 : mmul (mmul (mmul E A) H) B = mmul E M) by (rewrite <- Hinv, !mmul_assoc; reflexivity).
  assert (Hsh1 : j = 0%nat \/ (j = 1%nat /\ shape (mmul E M))).
  { destruct Hsh as [->|[-> Hs]]; [now left|right]. split; [reflexivity|].
    destruct (HzE 0%nat) as [Hr Hc]; [lia|lia| |].
    { destruct Hs as (_ & Hr & _). rewrite (mget_axis_row M 0 0 (mget M 0 0) 1); auto; lia. }
    now apply shape_l. }
  assert (Hbef : forall i, (i < j)%nat -> mget (mmul E M) j i = 0).
  { intros i Hi. destruct Hsh1 as [->|[-> Hs]]; [lia|]. assert (i = 0%nat) by lia. subst i.
    destruct Hs as (_ & _ & Hc & _). rewrite (mget_axis _ 0 0 (mget (mmul E M) 0 0) 1%nat); auto; lia. }
  destruct (phase2_spec H (mmul E A) j (mmul E M) B x Hj Hinv1 Hdet1 Hx Hcol1 Hbef)
    as (F & y & HF & Hp2 & Hy & Hrow2 & Hgy & HzF & Hcase).
  set (M2 := mmul (mmul E M) F) in *. set (A2 := mmul E A) in *. set (B2 := mmul B F) in *.
  assert (Hinv2 : mmul (mmul A2 H) B2 = M2) by (unfold M2, A2, B2; rewrite <- Hinv, !mmul_assoc; reflexivity).
  assert (HA2 : unimodular A2) by now apply unimodular_mmul.
  assert (HB2 : unimodular B2) by now apply unimodular_mmul.
  assert (Hsh2 : j = 0%nat \/ (j = 1%nat /\ shape M2)).
  { destruct Hsh1 as [->|[-> Hs]]; [now left|right]. split; [reflexivity|].
    destruct (HzF 0%nat) as [Hr Hc]; [lia|lia|apply Hbef; lia|]. now apply shape_r. }
  unfold snf_pass. unfold phase1 in Hp1. unfold phase2 in Hp2.
  destruct (col_loop _ _ _ _ _ _) as [[M' A']|]; [|discriminate]. cbn [rbind] in Hp1 |- *. rewrite Hp1. cbn [rbind].
  destruct (row_loop _ _ _ _ _ _) as [[M'' B'']|]; [|discriminate]. cbn [rbind] in Hp2 |- *. rewrite Hp2. cbn [rbind].
  clear Hp1 Hp2 M' A' M'' B''. rewrite (vcol_eta M2 j Hj).
  assert (Hjj : mget M2 j j = y) by (rewrite (mget_axis_row _ j j y j), Nat.eqb_refl; auto).
  destruct Hcase as [(Hdv & Hcol2 & Hyx)|(Hnd & Hgt & Hle)].
  2:{ apply Nat.ltb_lt in Hgt. rewrite Hgt, Bool.orb_true_r. eexists. split; [reflexivity|]. cbv beta iota.
      split; [repeat split; auto|]. left. split; [reflexivity|].
      apply (bound_half j M M2 n y); auto. lia. }
  (* row and column j are finished *)
  assert (Hn1 : (1 <? nonzeros (mrow M2 j))%nat = false).
  { apply Nat.ltb_ge. apply nonzeros_le1. eauto. }
  assert (Hn2 : (1 <? nonzeros (vcol M2 j))%nat = false).
  { apply Nat.ltb_ge. apply nonzeros_le1. eauto. }
  rewrite Hn1, Hn2. cbn [orb]. rewrite (any_check_ok _ _ _ _ Hinv2). cbn [rbind].
  assert (Hb1 : 2 * Z.log2 (vgcd (vcol M j)) + 1 <= n).
  { destruct Hb as [Hb|[_ (z & Hz & Hndz)]]; [exact Hb|exfalso].
    rewrite HidE, mmul_id_l in Hcol1 by eauto. rewrite HidE, mmul_id_l in Hdv by eauto.
    apply Hndz. assert (z = x); [|now subst z].
    rewrite Hcol1 in Hz. apply (f_equal (fun v => vget v j)) in Hz. rewrite !vget_axis, Nat.eqb_refl in Hz by auto. auto. }
  assert (H00 : 0 < mget M2 0 0).
  { destruct Hsh2 as [->|[-> (Hs & _)]]; [lia|exact Hs]. }
  assert (H00' : mget M2 0 0 =? 0 = false) by (apply Z.eqb_neq; lia). rewrite H00'.
  destruct Hsh2 as [->|[-> Hs2]]; cbn [Nat.eqb andb].
  - (* j = 0 *)
    set (r := fun i k => mget M2 i k mod mget M2 0 0).
    change (mget M2 1 1 mod mget M2 0 0) with (r 1%nat 1%nat). change (mget M2 1 2 mod mget M2 0 0) with (r 1%nat 2%nat).
    change (mget M2 2 1 mod mget M2 0 0) with (r 2%nat 1%nat). change (mget M2 2 2 mod mget M2 0 0) with (r 2%nat 2%nat).
    destruct (negb _) eqn:En.
    + (* some entry is not divisible *)
      set (d := pick_row _ _). eexists. split; [reflexivity|]. cbv beta iota.
      assert (Hr0 : forall i k, 0 <= r i k) by (intros i k; apply Z.mod_pos_bound; lia).
      assert (Hd : (d = 0%nat /\ (Z.abs (r 1 1)%nat <> 0 \/ Z.abs (r 1 2)%nat <> 0)) \/ (d = 1%nat /\ (Z.abs (r 2 1)%nat <> 0 \/ Z.abs (r 2 2)%nat <> 0))).
      { apply (pick_row_spec (Z.abs (r 1 1)%nat, Z.abs (r 1 2)%nat) (Z.abs (r 2 1)%nat, Z.abs (r 2 2)%nat)); cbn [fst snd]; lia. }
      assert (Hd' : (d + 1 < 3)%nat /\ (d + 1 <> 0)%nat /\ exists k, (k = 1 \/ k = 2)%nat /\ r (d + 1)%nat k <> 0).
      { destruct Hd as [[-> [K|K]]|[-> [K|K]]]; (split; [lia|split; [lia|]]).
        - exists 1%nat. split; [now left|]. cbn. lia.
        - exists 2%nat. split; [now right|]. cbn. lia.
        - exists 1%nat. split; [now left|]. cbn. lia.
        - exists 2%nat. split; [now right|]. cbn. lia. }
      destruct Hd' as (Hd3 & Hd0 & k & Hk & Hrk). clearbody d. clear Hd.
      assert (Hk3 : (k < 3)%nat) by lia.
      assert (Hz0 : mget M2 (d + 1) 0 = 0).
      { rewrite (mget_axis M2 0 0 y (d + 1)) by (auto; lia). apply Nat.eqb_neq in Hd0. now rewrite Hd0. }
      split.
      * rewrite !row_add_mul by lia. set (S := E_sub 0 (d + 1) (-1)).
        split; [rewrite <- Hinv2, !mmul_assoc; reflexivity|]. split; [|split; [exact HB2|now left]].
        apply unimodular_mmul; auto. apply E_sub_det; lia.
      * left. split; [reflexivity|]. right.
        assert (Hc' : vcol (row_add M2 0 (d + 1)) 0 = axis 0 y) by (rewrite vcol_row_add; auto; lia).
        split.
        -- rewrite Hc', vgcd_axis by lia. replace (Z.abs y) with (vgcd (vcol M 0)) by lia. lia.
        -- exists y. split; [exact Hc'|]. intros Hdv'. specialize (Hdv' k Hk3).
           fold (mget (row_add M2 0 (d + 1)) 0 k) in Hdv'. rewrite mget_row_add in Hdv' by lia. cbn [Nat.eqb] in Hdv'.
           assert (K0 : mget M2 0 k = 0) by (rewrite (mget_axis_row M2 0 0 y k) by (auto; lia); destruct Hk as [-> | ->]; reflexivity).
           rewrite K0, Z.add_0_l in Hdv'. apply Hrk. unfold r. rewrite Hjj. apply Z.mod_divide; auto.
    + (* the first row and column are finished *)
      eexists. split; [reflexivity|]. cbv beta iota. split; [|right; auto].
      apply negb_false_iff in En. rewrite !andb_true_iff in En. destruct En as [[[E1 E2] E3] E4]. unfold r in *.
      rewrite mod0_div in E1, E2, E3, E4 by lia.
      split; [exact Hinv2|]. split; [exact HA2|]. split; [exact HB2|]. right. split; [reflexivity|].
      split; [lia|]. rewrite Hjj in *. split; [exact Hrow2|]. split; [exact Hcol2|].
      intros i k Hi Hk. c3 Hi; c3 Hk; try (exact E1 || exact E2 || exact E3 || exact E4).
      * rewrite Hjj. apply Z.divide_refl.
      * rewrite (mget_axis_row M2 0 0 y 1) by (auto; lia). apply Z.divide_0_r.
      * rewrite (mget_axis_row M2 0 0 y 2) by (auto; lia). apply Z.divide_0_r.
      * rewrite (mget_axis M2 0 0 y 1) by (auto; lia). apply Z.divide_0_r.
      * rewrite (mget_axis M2 0 0 y 2) by (auto; lia). apply Z.divide_0_r.
  - (* j = 1 *)
    assert (Hy0 : 0 < y) by lia.
    assert (H11 : mget M2 1 1 =? 0 = false) by (apply Z.eqb_neq; lia). rewrite H11.
    assert (H21 : mget M2 2 1 = 0) by (rewrite (mget_axis M2 1 1 y 2) by (auto; lia); reflexivity).
    assert (H12 : mget M2 1 2 = 0) by (rewrite (mget_axis_row M2 1 1 y 2) by (auto; lia); reflexivity).
    destruct (negb (mget M2 2 2 mod mget M2 1 1 =? 0)) eqn:En.
    + eexists. split; [reflexivity|]. cbv beta iota. split.
      * rewrite !row_add_mul by lia. set (S := E_sub 1 2 (-1)).
        split; [rewrite <- Hinv2, !mmul_assoc; reflexivity|].
        split; [apply unimodular_mmul; auto; apply E_sub_det; lia|]. split; [exact HB2|]. right. split; [reflexivity|].
        apply shape_l; [exact Hs2|reflexivity|reflexivity].
      * left. split; [reflexivity|]. right.
        assert (Hc' : vcol (row_add M2 1 2) 1 = axis 1 y) by (rewrite vcol_row_add; auto; lia).
        split.
        -- rewrite Hc', vgcd_axis by lia. replace (Z.abs y) with (vgcd (vcol M 1)) by lia. lia.
        -- exists y. split; [exact Hc'|]. intros Hdv'. specialize (Hdv' 2%nat ltac:(lia)).
           fold (mget (row_add M2 1 2) 1 2) in Hdv'. rewrite mget_row_add in Hdv' by lia. cbn [Nat.eqb] in Hdv'.
           rewrite H12, Z.add_0_l in Hdv'. apply negb_true_iff in En. apply Z.eqb_neq in En. apply En.
           apply Z.mod_divide; [lia|]. now rewrite Hjj.
    + rewrite H21, H12. cbn [Z.eqb negb orb]. eexists. split; [reflexivity|]. cbv beta iota.
      split; [reflexivity|]. split; [repeat split; auto; right; auto|].
      split; [exact Hs2|]. split; [lia|]. split; [exact H12|]. split; [exact H21|].
      apply negb_false_iff in En. now apply mod0_div in En; [|lia].
Qed.
