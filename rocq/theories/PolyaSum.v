(** The sums formed by [Product.coeff] are the weighted colour choices, exactly, while everything stays below 2^53. *)
From Coq Require Import Permutation.
From Verif Require Import PyBase Spec ListFacts PermFacts PhononsModel HashProofs MultiProofs PolyaModel PolyaSpec Burnside CycleProofs PolyaCount
  FloatProofs ChooseProofs PolyaCoeff PolyaTerm.

Lemma Forall2_weaken {A B} (P Q : A -> B -> Prop) l l' : (forall a b, P a b -> Q a b) -> Forall2 P l l' -> Forall2 Q l l'.
Proof. intros H. induction 1; constructor; auto. Qed.

(** ** Adding up *)
Lemma fold_nadd_val {A} (cond : A -> bool) (f : A -> num) (g : A -> nat) l : forall acc a,
  val acc (Z.of_nat a) -> (forall x, In x l -> cond x = true -> val (f x) (Z.of_nat (g x))) ->
  (Z.of_nat (a + sumf (fun x => if cond x then g x else 0%nat) l) < 2 ^ 53)%Z ->
  val (fold_left (fun c x => if cond x then nadd c (f x) else c) l acc)
      (Z.of_nat (a + sumf (fun x => if cond x then g x else 0%nat) l)).
Proof.
  induction l as [|x l IH]; intros acc a Ha Hf HB; cbn [fold_left].
  - change (sumf _ []) with 0%nat. rewrite Nat.add_0_r. auto.
  - rewrite sumf_cons in *. destruct (cond x) eqn:E.
    + replace (a + (g x + sumf (fun x => if cond x then g x else 0) l))%nat
        with ((a + g x) + sumf (fun x => if cond x then g x else 0) l)%nat in * by lia.
      apply IH; auto; [|intros; apply Hf; cbn; auto].
      rewrite Nat2Z.inj_add. apply nadd_val; auto; try lia. apply Hf; cbn; auto.
    + cbn [Nat.add] in *. apply IH; auto. intros; apply Hf; cbn; auto.
Qed.
Lemma fold_nadd_val' {A} (f : A -> num) (g : A -> nat) l acc a :
  val acc (Z.of_nat a) -> (forall x, In x l -> val (f x) (Z.of_nat (g x))) ->
  (Z.of_nat (a + sumf g l) < 2 ^ 53)%Z -> val (fold_left (fun c x => nadd c (f x)) l acc) (Z.of_nat (a + sumf g l)).
Proof. intros. apply (fold_nadd_val (fun _ => true) f g); auto. Qed.

Lemma mult_pos ns : 1 <= mult ns.
Proof.
  unfold mult. pose proof (asc_mult ns) as H. pose proof (prod_ge1 (map (asc_factor ns) (seq 0 (length ns)))).
  rewrite H in H0. assert (0 < Z.of_nat (length (labelings ns)))%Z; [|lia]. apply H0. apply Forall_forall. intros x Hx.
  apply in_map_iff in Hx. destruct Hx as [i [<- Hi]]. apply in_seq in Hi. apply asc_factor_pos. lia.
Qed.
Lemma wt_pos c flags ns : 1 <= c -> 1 <= wt c flags ns.
Proof.
  intros Hc. revert ns. induction flags as [|f fl IH]; intros [|n ns]; cbn; try lia.
  specialize (IH ns). destruct f; [|lia]. assert (c ^ n <> 0) by (apply Nat.pow_nonzero; lia). nia.
Qed.
Lemma wt_mono c c' flags ns : c <= c' -> wt c flags ns <= wt c' flags ns.
Proof.
  intros Hc. revert ns. induction flags as [|f fl IH]; intros [|n ns]; cbn; try lia.
  apply Nat.mul_le_mono; auto. destruct f; auto. apply Nat.pow_le_mono_l. auto.
Qed.

Section Sum.
  Variables (v : pyversion) (flags : list bool) (concs : list nat).
  Let k := length concs.
  Let targets := map Z.of_nat concs.
  Hypothesis Hk : 0 < k.
  Hypothesis Hflags : length flags = k.

  (** The weight of one choice of exponent sequences (in units of the cycle lengths). *)
  Fixpoint WW (ms : list mm) (sq : list (list nat)) : nat :=
    match ms, sq with
    | (L, c, e) :: ms', ns :: sq' => mult ns * wt c flags ns * WW ms' sq'
    | _, _ => 1
    end.
  Fixpoint sc (ms : list mm) (sq : list (list nat)) : list (list Z) :=
    match ms, sq with
    | (L, c, e) :: ms', ns :: sq' => scale L ns :: sc ms' sq'
    | _, _ => []
    end.
  Fixpoint rem (t : list Z) (ms : list mm) (sq : list (list nat)) : list Z :=
    match ms, sq with
    | (L, c, e) :: ms', ns :: sq' => rem (vsub t L ns) ms' sq'
    | _, _ => t
    end.
  Definition units (m : mm) : list (list nat) := let '(L, c, e) := m in unit_seqs L e (tl targets).

  Lemma tsum_lproduct ms : forall t,
    tsum flags concs ms t = sumf (fun sq => if forallb (Z.eqb 0) (rem t ms sq) then WW ms sq else 0) (lproduct (map units ms)).
  Proof.
    induction ms as [|[[L c] e] ms IH]; intros t.
    - cbn [map lproduct tsum]. unfold sumf. cbn [map rem WW sum_nat fold_right]. unfold b2n. destruct (forallb _ t); auto.
    - cbn [map lproduct tsum units]. rewrite sumf_flat_map. apply sumf_ext. intros ns Hns. rewrite sumf_map, IH.
      rewrite <- sumf_mul_l. apply sumf_ext. intros sq Hsq. cbn [rem WW]. destruct (forallb _ _); lia.
  Qed.

  Lemma vsub_zero t L ns : length ns = length t -> forallb (Z.eqb 0) (vsub t L ns) = zlist_eqb (scale L ns) t.
  Proof.
    revert ns. induction t as [|a t IH]; intros [|n ns] Hl; cbn in Hl; try lia; auto.
    unfold vsub, scale, zlist_eqb in *. cbn [combine map forallb list_eqb]. rewrite IH by lia. f_equal.
    apply eq_true_iff_eq. rewrite !Z.eqb_eq. lia.
  Qed.
  Lemma zlist_sub s : forall z t, length s = length t -> length z = length t ->
    zlist_eqb (map (fun '(a, b) => (a + b)%Z) (combine s z)) t = zlist_eqb z (map (fun '(a, b) => (a - b)%Z) (combine t s)).
  Proof.
    unfold zlist_eqb. induction s as [|a s IH]; intros [|b z] [|x t] H1 H2; cbn in H1, H2; try lia; auto.
    cbn [combine map list_eqb]. rewrite IH by lia. f_equal. apply eq_true_iff_eq. rewrite !Z.eqb_eq. lia.
  Qed.
  Lemma vsub_scale t L ns : length ns = length t -> vsub t L ns = map (fun '(a, b) => (a - b)%Z) (combine t (scale L ns)).
  Proof.
    unfold vsub, scale. revert ns. induction t as [|a t IH]; intros [|n ns] Hl; cbn in Hl; try lia; auto.
    cbn [combine map]. rewrite <- IH by lia. auto.
  Qed.
  Lemma zip_sum_length ms : forall sq, ms <> [] -> Forall2 (fun (m : mm) ns => length ns = k) ms sq -> length (zip_sum (sc ms sq)) = k.
  Proof.
    induction ms as [|[[L c] e] ms IH]; intros sq Hne H; [congruence|]. inversion H; subst.
    destruct ms as [|m ms].
    - inversion H4; subst. cbn. unfold scale. rewrite map_length. auto.
    - assert (m :: ms <> []) as Hne' by discriminate. specialize (IH l' Hne' H4). inversion H4; subst.
      destruct m as [[L' c'] e']. cbn [sc] in *.
      change (zip_sum (scale L y :: scale L' y0 :: sc ms l'0)) with (map (fun '(a, b) => (a + b)%Z) (combine (scale L y) (zip_sum (scale L' y0 :: sc ms l'0)))).
      rewrite map_length, combine_length, IH. unfold scale. rewrite map_length, H2. lia.
  Qed.
  Lemma rem_zip ms : forall sq t, ms <> [] -> length t = k -> Forall2 (fun (m : mm) ns => length ns = k) ms sq ->
    forallb (Z.eqb 0) (rem t ms sq) = zlist_eqb (zip_sum (sc ms sq)) t.
  Proof.
    induction ms as [|[[L c] e] ms IH]; intros sq t Hne Ht H; [congruence|]. inversion H; subst.
    destruct ms as [|m ms].
    - inversion H4; subst. cbn [rem sc zip_sum]. apply vsub_zero. lia.
    - assert (m :: ms <> []) as Hne' by discriminate.
      change (rem t ((L, c, e) :: m :: ms) (y :: l')) with (rem (vsub t L y) (m :: ms) l').
      change (sc ((L, c, e) :: m :: ms) (y :: l')) with (scale L y :: sc (m :: ms) l'). rewrite IH; auto; [|rewrite vsub_length; lia].
      pose proof (zip_sum_length _ l' Hne' H4) as Hl.
      inversion H4; subst.  destruct m as [[L' c'] e']. cbn [sc] in *.
      change (zip_sum (scale L y :: scale L' y0 :: sc ms l'0)) with (map (fun '(a, b) => (a + b)%Z) (combine (scale L y) (zip_sum (scale L' y0 :: sc ms l'0)))).
      rewrite zlist_sub; [|unfold scale; rewrite map_length; lia|lia]. rewrite vsub_scale by lia. auto.
  Qed.

  Lemma in_units ms sq : Forall mm_pos ms -> In sq (lproduct (map units ms)) ->
    Forall2 (fun (m : mm) ns => length ns = k /\ sum_nat ns <= snd m) ms sq.
  Proof.
    intros Hpos. revert sq. induction Hpos as [|[[L c] e] ms [HL He] H IH]; intros sq Hsq; cbn [map lproduct] in Hsq.
    - destruct Hsq as [<-|[]]. constructor.
    - apply in_flat_map in Hsq. destruct Hsq as [ns [Hns Hsq]]. apply in_map_iff in Hsq. destruct Hsq as [sq' [<- Hsq]].
      constructor; auto. split.
      + apply (unit_length flags concs) with (L := L) (e := e); auto.
      + cbn [units] in Hns. apply in_unit_seqs in Hns; auto using (rest_nonneg flags concs Hk Hflags). cbn. tauto.
  Qed.

  (** *** The sequences of the code *)
  Definition expand1 (m : mm) (r : Z) : list (list Z) :=
    sequence_expand (tl targets) r r (possible_powers (mk flags m)) (powersum (mk flags m)).
  Lemma sum_expand ms (h : list (list Z) -> nat) : 
    sumf (fun r => sumf h (lproduct (map (fun '(r, m) => sequence_expand (tl targets) r r (possible_powers m) (powersum m)) (combine r (map (mk flags) ms)))))
         (lproduct (map possible_powers (map (mk flags) ms)))
    = sumf h (lproduct (map (fun m => flat_map (expand1 m) (possible_powers (mk flags m))) ms)).
  Proof.
    revert h. induction ms as [|m ms IH]; intros h.
    - cbn [map lproduct]. unfold sumf at 1. cbn [map combine lproduct]. unfold sum_nat at 1. cbn [fold_right]. lia.
    - cbn [map lproduct]. rewrite !sumf_flat_map. apply sumf_ext. intros a Ha. rewrite sumf_map.
      cbn [combine map lproduct]. 
      rewrite (sumf_ext _ (fun r => sumf (fun s => sumf (fun sq => h (s :: sq))
         (lproduct (map (fun '(r, m) => sequence_expand (tl targets) r r (possible_powers m) (powersum m)) (combine r (map (mk flags) ms)))))
          (expand1 m a))).
      + rewrite sumf_swap. apply sumf_ext. intros s Hs. rewrite sumf_map. apply (IH (fun sq => h (s :: sq))).
      + intros r Hr. rewrite sumf_flat_map. apply sumf_ext. intros s Hs. rewrite sumf_map. auto.
  Qed.
  Lemma sum_units ms (h : list (list Z) -> nat) : Forall mm_pos ms ->
    sumf h (lproduct (map (fun m => flat_map (expand1 m) (possible_powers (mk flags m))) ms)) =
    sumf (fun sq => h (sc ms sq)) (lproduct (map units ms)).
  Proof.
    intros Hpos. revert h. induction Hpos as [|[[L c] e] ms [HL He] H IH]; intros h; [reflexivity|].
    cbn [map lproduct].
    assert (flat_map (expand1 (L, c, e)) (possible_powers (mk flags (L, c, e))) = all_seqs L e (tl targets)) as ->.
    { unfold expand1, all_seqs. rewrite possible_powers_mk, powersum_mk by auto. auto. }
    rewrite (sumf_flat_map _ h), sumf_all_seqs; auto using (rest_nonneg flags concs Hk Hflags).
    rewrite (sumf_flat_map (fun a => map (cons a) (lproduct (map units ms)))). cbn [units].
    apply sumf_ext. intros ns Hns. rewrite !sumf_map. rewrite (IH (fun sq => h (scale L ns :: sq))). auto.
  Qed.
  (** What the first entries of the sequences sum up to. *)
  Lemma expand_first ms : forall r sq, ms <> [] -> length r = length ms ->
    In sq (lproduct (map (fun '(r, m) => sequence_expand (tl targets) r r (possible_powers m) (powersum m)) (combine r ms))) ->
    hd 0%Z (zip_sum sq) = sum_Z r /\ zip_sum sq <> [].
  Proof.
    induction ms as [|m ms IH]; intros r sq Hne Hl Hsq; [congruence|]. destruct r as [|a r]; [cbn in Hl; lia|].
    cbn [combine map lproduct] in Hsq. apply in_flat_map in Hsq. destruct Hsq as [s [Hs Hsq]]. apply in_map_iff in Hsq. destruct Hsq as [sq' [<- Hsq]].
    assert (hd 0%Z s = a /\ s <> []) as [Hs1 Hs2].
    { revert Hs. generalize (possible_powers m) (powersum m). intros ps su. clear. destruct (tl targets) as [|t rest]; cbn [sequence_expand].
      - intros [<-|[]]. split; auto; discriminate.
      - destruct (filter _ ps).
        + intros [<-|[]]. split; auto; discriminate.
        + intros H. apply in_flat_map in H. destruct H as [p [_ H]]. apply in_map_iff in H. destruct H as [x [<- _]]. split; auto; discriminate. }
    destruct ms as [|m' ms].
    - destruct r; [|cbn in Hl; lia]. cbn in Hsq. destruct Hsq as [<-|[]]. cbn. split; auto. cbn. lia.
    - destruct (IH r sq') as [E1 E2]; auto; [discriminate|]. destruct sq' as [|s' sq']; [cbn in E2; congruence|].
      change (zip_sum (s :: s' :: sq')) with (map (fun '(a, b) => (a + b)%Z) (combine s (zip_sum (s' :: sq')))).
      destruct s as [|s0 s]; [congruence|]. destruct (zip_sum (s' :: sq')) as [|z0 z]; [congruence|]. cbn in *. split; [|discriminate].
      unfold sum_Z in *. cbn. lia.
  Qed.

  (** *** Values *)
  Lemma WW_pos ms : forall sq, 1 <= WW (map cmax ms) sq.
  Proof.
    induction ms as [|[[L c] e] ms IH]; intros [|ns sq]; cbn; try lia. specialize (IH sq). pose proof (mult_pos ns).
    assert (1 <= wt (max c 1) flags ns) by (apply wt_pos; lia). nia.
  Qed.
  Lemma WW_le ms : forall sq, WW ms sq <= WW (map cmax ms) sq.
  Proof.
    induction ms as [|[[L c] e] ms IH]; intros [|ns sq]; cbn; try lia. specialize (IH sq).
    assert (wt c flags ns <= wt (max c 1) flags ns) by (apply wt_mono; lia). apply Nat.mul_le_mono; auto. apply Nat.mul_le_mono; auto.
  Qed.

  Lemma one_val m ns (B : Z) : mm_pos m -> length ns = k ->
    (Z.of_nat (fst (fst m) * sum_nat ns) * B < 2 ^ 53)%Z -> (B < 2 ^ 53)%Z ->
    (Z.of_nat (mult ns * wt (max (snd (fst m)) 1) flags ns) <= B)%Z -> (0 < B)%Z ->
    val (nchoosekm v (mk flags m) (scale (fst (fst m)) ns)) (Z.of_nat (mult ns * wt (snd (fst m)) flags ns)).
  Proof.
    destruct m as [[L c] e]. cbn [fst snd mm_pos]. intros [HL He] Hl H1 H2 H3 H0. unfold scale.
    assert (1 <= wt (max c 1) flags ns) by (apply wt_pos; lia). pose proof (mult_pos ns).
    apply (nchoosekm_val v (mk flags (L, c, e)) ns L c); auto; cbn [mk m_arrowings]; try lia; nia.
  Qed.

  Lemma fold_vals (Q : nat) ms : (Z.of_nat Q < 2 ^ 53)%Z -> Forall mm_pos ms -> forall sq p pz pm,
    val p (Z.of_nat pz) -> pz <= pm -> 1 <= pm -> pm * WW (map cmax ms) sq <= Q ->
    Forall2 (fun (m : mm) ns => length ns = k /\ (Z.of_nat (fst (fst m) * sum_nat ns) * Z.of_nat Q < 2 ^ 53)%Z) ms sq ->
    val (fold_left nmul (map (fun '(m, s) => nchoosekm v m s) (combine (map (mk flags) ms) (sc ms sq))) p) (Z.of_nat (pz * WW ms sq)).
  Proof.
    intros HQ. induction 1 as [|[[L c] e] ms Hp Hpos IH]; intros sq p pz pm Hv Hle H1 HB HF; inversion HF; subst; cbn [fold_left map combine sc WW].
    - rewrite Nat.mul_1_r. auto.
    - destruct H2 as [H2 H3]. cbn [fst snd] in *. cbn [map cmax WW] in *.
      set (x := mult y * wt (max c 1) flags y) in *. set (z := mult y * wt c flags y).
      assert (z <= x) as Hzx by (apply Nat.mul_le_mono; auto; apply wt_mono; lia).
      assert (1 <= x) as Hx. { unfold x. assert (1 <= wt (max c 1) flags y) by (apply wt_pos; lia). pose proof (mult_pos y). nia. }
      pose proof (WW_pos ms l') as Hw.
      replace (pz * (z * WW ms l')) with ((pz * z) * WW ms l') by lia.
      assert (pm * x <= pm * x * WW (map cmax ms) l') by nia.
      assert (pz * z <= pm * x) by nia.
      assert (x <= pm * x) by nia. assert (pm <= pm * x) by nia.
      apply IH with (pm := pm * x); auto; try nia.
      rewrite Nat2Z.inj_mul. 
      apply nmul_val; auto; try nia.
      pose proof (one_val (L, c, e) y (Z.of_nat Q) Hp H2) as Hone. cbn [fst snd] in Hone.
      apply Hone; auto; lia.
  Qed.

  Lemma reduce_val (Q : nat) ms sq : (Z.of_nat Q < 2 ^ 53)%Z -> Forall mm_pos ms -> WW (map cmax ms) sq <= Q ->
    Forall2 (fun (m : mm) ns => length ns = k /\ (Z.of_nat (fst (fst m) * sum_nat ns) * Z.of_nat Q < 2 ^ 53)%Z) ms sq ->
    val (reduce_mul (map (fun '(m, s) => nchoosekm v m s) (combine (map (mk flags) ms) (sc ms sq)))) (Z.of_nat (WW ms sq)).
  Proof.
    intros HQ Hpos HW HF. destruct Hpos as [|[[L c] e] ms Hp Hpos]; inversion HF; subst; cbn [map combine sc WW reduce_mul].
    - apply val_I.
    - destruct H1 as [H2 H3']. cbn [fst snd map cmax WW] in *.
      set (x := mult y * wt (max c 1) flags y) in *. set (z := mult y * wt c flags y).
      assert (1 <= x) as Hx. { unfold x. assert (1 <= wt (max c 1) flags y) by (apply wt_pos; lia). pose proof (mult_pos y). nia. }
      pose proof (WW_pos ms l') as Hw.
      apply fold_vals with (Q := Q) (pm := x); auto; try lia.
      + pose proof (one_val (L, c, e) y (Z.of_nat Q) Hp H2) as Hone. cbn [fst snd] in Hone. apply Hone; auto; try nia.
      + apply Nat.mul_le_mono; auto. apply wt_mono. lia.
  Qed.

  (** The bound: the number of arrangements of the whole set, all sites being free to carry d arrows. *)
  Variable d : nat.
  Let n := sum_nat concs.
  Let B := mult concs * wt d flags concs.
  Hypothesis Hd : 1 <= d.
  Hypothesis HB : (Z.of_nat n * Z.of_nat B < 2 ^ 53)%Z.
  Hypothesis HBB : (Z.of_nat B < 2 ^ 53)%Z.

  Definition good (ms : list mm) : Prop := Forall mm_pos ms /\ Forall (fun m : mm => snd (fst m) <= d) ms /\ total ms = n.

  Lemma targets_sum : sum_Z targets = Z.of_nat n.
  Proof. unfold targets, n. clear. induction concs as [|a l IH]; auto. cbn [map]. rewrite sum_Z_cons, sum_nat_cons, IH. lia. Qed.
  Lemma ex_sum ms : sum_nat (map fst (flat_map ex ms)) = total ms.
  Proof.
    unfold total. induction ms as [|[[L c] e] ms IH]; auto. cbn [flat_map ex map mm_sum]. rewrite map_app, sum_nat_app, IH, sum_nat_cons. f_equal.
    clear. induction e; cbn [repeat map]; rewrite ?sum_nat_cons; cbn; try lia.
  Qed.
  Lemma good_cw ms : good ms -> cw flags (flat_map ex ms) targets <= B.
  Proof.
    intros [H1 [H2 H3]]. unfold B. rewrite <- cw_identity by auto. 
    pose proof (cw_bound flags d (flat_map ex ms) Hd) as Hb.
    rewrite (ex_sum ms) in Hb. rewrite H3 in Hb. apply Hb. apply Forall_forall. intros [L c] Hin.
    apply in_flat_map in Hin. destruct Hin as [[[L' c'] e'] [Hm Hin]]. apply repeat_spec in Hin. inversion Hin; subst.
    rewrite Forall_forall in H1, H2. specialize (H1 _ Hm). specialize (H2 _ Hm). cbn in *. lia.
  Qed.
  Lemma good_cmax ms : good ms -> good (map cmax ms).
  Proof.
    intros [H1 [H2 H3]]. repeat split.
    - apply Forall_map. eapply Forall_impl; [|exact H1]. intros [[L c] e]; auto.
    - apply Forall_map. eapply Forall_impl; [|exact H2]. intros [[L c] e]; cbn. lia.
    - rewrite <- H3. unfold total. rewrite map_map. f_equal. apply map_ext. intros [[L c] e]; auto.
  Qed.
  Lemma good_tsum ms : good ms -> tsum flags concs ms targets = cw flags (flat_map ex ms) targets.
  Proof.
    intros H. apply tsum_cw; auto; [apply H|apply targets_length|intros; apply Z.le_refl|]. destruct H as [_ [_ H]]. rewrite H. apply targets_sum.
  Qed.
  Lemma WW_bound ms sq : good ms -> In sq (lproduct (map units ms)) -> forallb (Z.eqb 0) (rem targets ms sq) = true -> WW (map cmax ms) sq <= B.
  Proof.
    intros Hg Hin Hr. etransitivity; [|apply (good_cw _ (good_cmax _ Hg))]. rewrite <- (good_tsum _ (good_cmax _ Hg)), tsum_lproduct.
    assert (In sq (lproduct (map units (map cmax ms)))) as Hin'.
    { rewrite map_map. rewrite (map_ext (fun x => units (cmax x)) units); auto. intros [[L c] e]; auto. }
    pose proof (sumf_In_le (fun sq => if forallb (Z.eqb 0) (rem targets (map cmax ms) sq) then WW (map cmax ms) sq else 0) _ sq Hin') as Hle.
    cbn beta in Hle. replace (rem targets (map cmax ms) sq) with (rem targets ms sq) in Hle; [rewrite Hr in Hle; auto|].
    clear. revert sq. generalize targets. induction ms as [|[[L c] e] ms IH]; intros t [|ns sq]; cbn; auto.
  Qed.

  Lemma member_sum ms sq : good ms -> In sq (lproduct (map units ms)) ->
    Forall2 (fun (m : mm) ns => length ns = k /\ (Z.of_nat (fst (fst m) * sum_nat ns) * Z.of_nat B < 2 ^ 53)%Z) ms sq.
  Proof.
    intros [Hp [_ Ht]] Hin. pose proof (in_units ms sq Hp Hin) as H.
    assert (forall m, In m ms -> fst (fst m) * snd m <= n) as Hm.
    { intros [[L c] e] Hm. rewrite <- Ht. unfold total. clear - Hm. induction ms as [|a ms IH]; [destruct Hm|]. cbn [map]. rewrite sum_nat_cons.
      destruct Hm as [->|Hm]; cbn in *; [lia|]. specialize (IH Hm). lia. }
    clear Hin Ht Hp. induction H as [|m ns ms sq [H1 H2] H IH]; constructor.
    - split; auto. specialize (Hm m (or_introl eq_refl)). assert (fst (fst m) * sum_nat ns <= n) by nia. nia.
    - apply IH. intros; apply Hm; cbn; auto.
  Qed.

  Definition ZW (ms : list mm) (sq : list (list Z)) : nat :=
    WW ms (map (fun '(m, s) => map (fun z => Z.to_nat (z / Z.of_nat (fst (fst m)))) s) (combine ms sq)).
  Lemma ZW_sc ms : Forall mm_pos ms -> forall sq, ZW ms (sc ms sq) = WW ms sq.
  Proof.
    unfold ZW. induction 1 as [|[[L c] e] ms [HL He] H IH]; intros [|ns sq]; cbn [sc combine map WW]; auto. cbn [fst]. rewrite (unscale L e) by auto. rewrite IH. auto.
  Qed.

  (** [Product.coeff] without the multiplicity, when there are several multinomials. *)
  Definition code_sum (ms : list multinomial) : num :=
    fold_left (fun coeffs sq =>
            nadd coeffs (sum_sequences v ms targets (map (fun '(r, m) => sequence_expand (tl targets) r r (possible_powers m) (powersum m))
                             (combine sq ms))))
       (filter (fun s => (sum_Z s =? nth 0 targets 0)%Z) (lproduct (map possible_powers ms))) (I 0).

  Definition inner (ms : list mm) (r : list Z) : nat :=
    sumf (fun sq => if zlist_eqb (zip_sum sq) targets then ZW ms sq else 0)
      (lproduct (map (fun '(r, m) => sequence_expand (tl targets) r r (possible_powers m) (powersum m)) (combine r (map (mk flags) ms)))).

  Lemma all_inner ms : good ms -> ms <> [] -> sumf (inner ms) (lproduct (map possible_powers (map (mk flags) ms))) = cw flags (flat_map ex ms) targets.
  Proof.
    intros Hg Hne. unfold inner. rewrite sum_expand. rewrite sum_units by apply Hg. rewrite <- good_tsum, tsum_lproduct by auto.
    apply sumf_ext. intros sq Hsq. rewrite ZW_sc by apply Hg. rewrite rem_zip; auto; [apply targets_length|].
    pose proof (in_units ms sq (proj1 Hg) Hsq) as H. eapply Forall2_weaken; [|exact H]. cbn. tauto.
  Qed.

  Lemma in_code_sq ms r sq : Forall mm_pos ms -> In r (lproduct (map possible_powers (map (mk flags) ms))) ->
    In sq (lproduct (map (fun '(r, m) => sequence_expand (tl targets) r r (possible_powers m) (powersum m)) (combine r (map (mk flags) ms)))) ->
    exists u, sq = sc ms u /\ In u (lproduct (map units ms)).
  Proof.
    intros Hpos. revert r sq. induction Hpos as [|[[L c] e] ms [HL He] H IH]; intros r sq Hr Hsq; cbn [map lproduct] in *.
    - destruct Hr as [<-|[]]. cbn in Hsq. destruct Hsq as [<-|[]]. exists []. cbn. auto.
    - apply in_flat_map in Hr. destruct Hr as [a [Ha Hr]]. apply in_map_iff in Hr. destruct Hr as [r' [<- Hr]].
      cbn [combine map lproduct] in Hsq. apply in_flat_map in Hsq. destruct Hsq as [s [Hs Hsq]]. apply in_map_iff in Hsq. destruct Hsq as [sq' [<- Hsq]].
      destruct (IH r' sq' Hr Hsq) as [u [-> Hu]].
      assert (In s (all_seqs L e (tl targets))) as Hall.
      { unfold all_seqs. rewrite <- possible_powers_mk with (flags := flags) (c := c) by auto. rewrite <- powersum_mk with (flags := flags) (c := c). 
        apply in_flat_map. exists a. auto. }
      pose proof Hall as Hall'. apply in_all_seqs in Hall; auto using (rest_nonneg flags concs Hk Hflags). destruct Hall as [ns [-> _]].
      exists (ns :: u). split; auto. apply in_flat_map. exists ns. split; [|apply in_map; auto].
      cbn [units]. unfold unit_seqs. apply in_map_iff. exists (scale L ns). split; auto. apply (unscale L e); auto.
  Qed.

  Lemma code_sum_val ms : good ms -> ms <> [] -> val (code_sum (map (mk flags) ms)) (Z.of_nat (cw flags (flat_map ex ms) targets)).
  Proof.
    intros Hg Hne.
    set (F := filter (fun s => (sum_Z s =? nth 0 targets 0)%Z) (lproduct (map possible_powers (map (mk flags) ms)))).
    assert (sumf (inner ms) F = cw flags (flat_map ex ms) targets) as Hsum.
    { rewrite <- (all_inner ms Hg Hne). unfold F. rewrite sumf_filter. apply sumf_ext. intros r Hr.
      destruct (Z.eqb_spec (sum_Z r) (nth 0 targets 0%Z)); auto. unfold inner. symmetry.
      rewrite (sumf_ext _ (fun _ => 0)); [apply sumf_zero|]. intros sq Hsq. destruct (zlist_eqb (zip_sum sq) targets) eqn:E; auto.
      apply zlist_eqb_spec in E. exfalso.
      destruct (expand_first (map (mk flags) ms) r sq) as [E1 E2]; auto.
      - destruct ms; [congruence|discriminate].
      - apply in_lproduct in Hr. apply Forall2_length in Hr. rewrite map_length in Hr. auto.
      - rewrite E in E1. destruct targets; cbn in *; lia. }
    assert (Hcw := good_cw ms Hg).
    rewrite <- Hsum. unfold code_sum. fold F.
    apply (fold_nadd_val' _ (inner ms) F (I 0) 0); [apply (val_I 0)| |rewrite Hsum; cbn [Nat.add]; lia].
    intros r HrF. pose proof HrF as Hr. apply filter_In in Hr. destruct Hr as [Hr _].
    unfold sum_sequences, inner.
    apply (fold_nadd_val (fun sq => zlist_eqb (zip_sum sq) targets)
       (fun sq => reduce_mul (map (fun '(m, s) => nchoosekm v m s) (combine (map (mk flags) ms) sq))) (ZW ms) _ (I 0) 0); [apply (val_I 0)| |].
    - intros sq Hsq Hz. destruct (in_code_sq ms r sq (proj1 Hg) Hr Hsq) as [u [-> Hu]]. rewrite ZW_sc by apply Hg.
      apply reduce_val with (Q := B); auto; [apply Hg| |apply member_sum; auto].
      apply WW_bound; auto. rewrite rem_zip; auto; [apply targets_length|].
      pose proof (in_units ms u (proj1 Hg) Hu) as H. eapply Forall2_weaken; [|exact H]. cbn. tauto.
    - cbn [Nat.add]. pose proof (sumf_In_le (inner ms) F r HrF) as Hle. fold (inner ms r). lia.
  Qed.
End Sum.
