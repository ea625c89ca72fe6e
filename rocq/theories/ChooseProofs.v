(** [nchoosek] and [nchoosekm] are exact while the result times the number of sites stays below 2^53. *)
From Verif Require Import PyBase Spec ListFacts NumericsModel NumericsProofs HashProofs MultiProofs PolyaModel FloatProofs Burnside.
Local Open Scope Z_scope.

Lemma nchoosek_loop v n m : forall j t, (2 * (j + m) <= n)%nat -> Z.of_nat n * pascal n (j + m) < 2 ^ 53 ->
  val t (pascal n j) ->
  val (fold_left (fun t i => ndiv v (nmul t (I i)) (I (Z.of_nat n - i + 1)))
                 (map (fun q => Z.of_nat n - Z.of_nat q) (seq j m)) t) (pascal n (j + m)).
Proof.
  induction m as [|m IH]; intros j t H HB Hv; cbn [seq map fold_left].
  - rewrite Nat.add_0_r. auto.
  - replace (j + S m)%nat with (S j + m)%nat in * by lia. apply IH; auto.
    pose proof (pascal_mono_half n (S j) (S j + m) ltac:(lia) ltac:(lia)) as Hm1.
    pose proof (pascal_mono_half n j (S j + m) ltac:(lia) ltac:(lia)) as Hm2.
    pose proof (pascal_nonneg n j). pose proof (pascal_nonneg n (S j)). pose proof (pascal_absorb n j) as Ha.
    pose proof (pascal_pos n (S j + m) ltac:(lia)).
    replace (Z.of_nat n - (Z.of_nat n - Z.of_nat j) + 1) with (Z.of_nat (S j)) by lia.
    assert (pascal n (S j) * Z.of_nat (S j) < 2 ^ 53) by nia.
    apply ndiv_val with (b := Z.of_nat (S j)); [|apply val_I|lia| |auto].
    + rewrite Ha. apply nmul_val; [auto|apply val_I| | |]; nia.
    + nia.
Qed.

Lemma nchoosek_val v n k : (k <= n)%nat -> Z.of_nat n * pascal n k < 2 ^ 53 ->
  val (nchoosek v (Z.of_nat n) (Z.of_nat k)) (pascal n k).
Proof.
  intros Hk HB. unfold nchoosek.
  destruct (Z.ltb_spec (-1) (Z.of_nat k)); [|lia].
  destruct (Z.ltb_spec (Z.of_nat k) (Z.of_nat n + 1)); [|lia]. cbn [andb negb].
  destruct (binom_range_half n k Hk) as [m [H2 [Hp Hr]]].
  destruct ((Z.of_nat k =? 0) && (Z.of_nat n =? 0)) eqn:E0.
  { apply andb_true_iff in E0. destruct E0 as [E1 E2]. apply Z.eqb_eq in E1, E2.
    assert (n = 0%nat) by lia. assert (k = 0%nat) by lia. subst. apply val_I. }
  unfold binom_range in Hr. rewrite <- Hp in *.
  pose proof (nchoosek_loop v n m 0 (I 1) ltac:(lia) HB) as HL. rewrite pascal_0_r in HL. specialize (HL (val_I 1)).
  cbn [Nat.add] in HL. rewrite <- Hr in HL.
  destruct (Z.of_nat k <? Z.of_nat n - Z.of_nat k); exact HL.
Qed.

(** ** The multinomial coefficient as a product of binomials from the left *)
Definition asc_factor (ns : list nat) (i : nat) : Z := pascal (sum_nat (firstn (i + 1) ns)) (nth i ns 0%nat).

Lemma sum_nat_app a b : sum_nat (a ++ b) = (sum_nat a + sum_nat b)%nat.
Proof. induction a as [|x a IH]; cbn [app]; auto. rewrite !sum_nat_cons, IH. lia. Qed.
Lemma prod_Z_app a b : prod_Z (a ++ b) = prod_Z a * prod_Z b.
Proof. induction a as [|x a IH]; [unfold prod_Z at 2; cbn [app fold_right]; ring|]. cbn [app prod_Z fold_right]. fold (prod_Z (a ++ b)). fold (prod_Z a). rewrite IH. ring. Qed.

Lemma asc_fact (ns : list nat) : forall k, (k <= length ns)%nat ->
  prod_Z (map (asc_factor ns) (seq 0 k)) * prod_Z (map (fun a => Z.of_nat (fact a)) (firstn k ns)) =
  Z.of_nat (fact (sum_nat (firstn k ns))).
Proof.
  induction k as [|k IH]; intros Hk; [reflexivity|].
  rewrite seq_S, map_app, prod_Z_app. cbn [map Nat.add]. rewrite (firstn_nth_snoc 0%nat) by lia.
  rewrite map_app, prod_Z_app, sum_nat_app. cbn [map prod_Z fold_right sum_nat].
  specialize (IH ltac:(lia)). unfold asc_factor at 2. rewrite Nat.add_1_r, (firstn_nth_snoc 0%nat), sum_nat_app by lia.
  cbn [sum_nat fold_right]. rewrite Nat.add_0_r.
  set (s := sum_nat (firstn k ns)) in *. set (a := nth k ns 0%nat).
  rewrite <- (pascal_fact (s + a) a) by lia. replace (s + a - a)%nat with s by lia. rewrite <- IH. ring.
Qed.

Lemma asc_mult ns : prod_Z (map (asc_factor ns) (seq 0 (length ns))) = Z.of_nat (length (labelings ns)).
Proof.
  rewrite labelings_prod. pose proof (asc_fact ns (length ns) ltac:(lia)) as H1. rewrite firstn_all in H1.
  pose proof (coefficients_fact ns (sum_nat ns) eq_refl) as H2. rewrite <- H1 in H2.
  apply Z.mul_reg_r in H2; auto.
  assert (0 < prod_Z (map (fun a => Z.of_nat (fact a)) ns)); [|lia].
  apply prod_ge1. apply Forall_forall. intros x Hx. apply in_map_iff in Hx. destruct Hx as [a [<- _]].
  pose proof (lt_O_fact a). lia.
Qed.

Lemma asc_factor_pos ns i : (i < length ns)%nat -> 0 < asc_factor ns i.
Proof.
  intros Hi. apply pascal_pos. rewrite Nat.add_1_r, (firstn_nth_snoc 0%nat), sum_nat_app by lia. cbn. lia.
Qed.
Lemma sum_nat_firstn_le k ns : (sum_nat (firstn k ns) <= sum_nat ns)%nat.
Proof. rewrite <- (firstn_skipn k ns) at 2. rewrite sum_nat_app. lia. Qed.

Lemma prod_Z_pos_le l x : Forall (fun r => 0 < r) l -> In x l -> x <= prod_Z l.
Proof.
  induction 1 as [|a l Ha Hl IH]; intros Hin; [destruct Hin|]. cbn. fold (prod_Z l). pose proof (prod_ge1 l Hl).
  destruct Hin as [->|Hin]; [nia|]. specialize (IH Hin). nia.
Qed.

(** What [nchoosekm] should return for the normalised exponents [ns]. *)
Definition mult (ns : list nat) : nat := length (labelings ns).
Fixpoint wt (c : nat) (flags : list bool) (ns : list nat) : nat :=
  match flags, ns with
  | f :: fl, n :: ns' => ((if f : bool then c ^ n else 1) * wt c fl ns')%nat
  | _, _ => 1%nat
  end.

Lemma fold_nmul_val fs : forall zs p pz, Forall2 val fs zs -> Forall (fun z => 0 < z) zs -> val p pz -> 0 < pz ->
  pz * prod_Z zs < 2 ^ 53 -> val (fold_left nmul fs p) (pz * prod_Z zs).
Proof.
  induction fs as [|f fs IH]; intros zs p pz H Hpos Hp Hpz HB; inversion H; subst; cbn [fold_left prod_Z fold_right].
  - rewrite Z.mul_1_r. auto.
  - inversion Hpos; subst. fold (prod_Z l'). pose proof (prod_ge1 l' H5). cbn [prod_Z fold_right] in HB. fold (prod_Z l') in HB.
    rewrite Z.mul_assoc. apply IH; auto; [apply nmul_val; auto| |]; nia.
Qed.
Lemma fold_left_map {A B C} (g : A -> B) (f : C -> B -> C) l : forall c, fold_left f (map g l) c = fold_left (fun c a => f c (g a)) l c.
Proof. induction l; intros; cbn; auto. Qed.

Lemma nth_of_nat ns i : nth i (map Z.of_nat ns) 0 = Z.of_nat (nth i ns 0%nat).
Proof. change 0 with (Z.of_nat 0) at 1. apply map_nth. Qed.

Lemma nchoosekm_val v m ns L c (HL : (0 < L)%nat) :
  m_power m = Z.of_nat L -> m_coeff m = Z.of_nat c -> length (m_arrowings m) = length ns ->
  Z.of_nat (L * sum_nat ns) * Z.of_nat (mult ns) < 2 ^ 53 -> Z.of_nat (mult ns) * Z.of_nat (wt (max c 1) (m_arrowings m) ns) < 2 ^ 53 ->
  Z.of_nat (L * sum_nat ns) < 2 ^ 53 ->
  val (nchoosekm v m (map (fun a => Z.of_nat (L * a)) ns)) (Z.of_nat (mult ns * wt c (m_arrowings m) ns)).
Proof.
  intros Hp Hc Hlen HB1 HB2 HB3. unfold nchoosekm. rewrite Hp.
  assert (forallb (fun a => a mod Z.of_nat L =? 0) (map (fun a => Z.of_nat (L * a)) ns) = true) as ->.
  { apply forallb_forall. intros x Hx. apply in_map_iff in Hx. destruct Hx as [a [<- _]]. apply Z.eqb_eq.
    rewrite Nat2Z.inj_mul, Z.mul_comm. apply Z.mod_mul. lia. }
  cbn [negb].
  assert (normed_seq v m (map (fun a => Z.of_nat (L * a)) ns) = map Z.of_nat ns) as ->.
  { unfold normed_seq. rewrite map_map, Hp. apply map_ext_in. intros a Ha. apply nint_val.
    assert (a <= sum_nat ns)%nat as Hle.
    { clear - Ha. induction ns; [destruct Ha|]. unfold sum_nat in *. cbn. destruct Ha as [->|Ha]; [lia|]. specialize (IHns Ha). lia. }
    assert (0 < sum_nat ns \/ a = 0)%nat by lia.
    assert (Z.of_nat (L * a) < 2 ^ 53) by nia.
    destruct (Nat.eq_dec a 0) as [->|].
    - rewrite Nat.mul_0_r. destruct v; [apply val_I|]. apply round_val; lia.
    - apply ndiv_val with (b := Z.of_nat L); [|apply val_I|lia|nia|nia].
      replace (Z.of_nat a * Z.of_nat L) with (Z.of_nat (L * a)) by lia. apply val_I. }
  rewrite map_length.
  assert (Hprod : val (fold_left (fun prod i => nmul prod (nchoosek v (sum_Z (firstn (i + 1) (map Z.of_nat ns))) (nth i (map Z.of_nat ns) 0)))
             (seq 0 (length ns)) (I 1)) (Z.of_nat (mult ns))).
  { rewrite <- (fold_left_map (fun i => nchoosek v (sum_Z (firstn (i + 1) (map Z.of_nat ns))) (nth i (map Z.of_nat ns) 0)) nmul).
    unfold mult in *. rewrite <- asc_mult in *. rewrite <- (Z.mul_1_l (prod_Z _)).
    assert (Hpos : Forall (fun z => 0 < z) (map (asc_factor ns) (seq 0 (length ns)))).
    { apply Forall_forall. intros z Hz. apply in_map_iff in Hz. destruct Hz as [i [<- Hi]]. apply in_seq in Hi. apply asc_factor_pos. lia. }
    apply fold_nmul_val; auto; [|apply val_I|lia|].
    - assert (forall i, In i (seq 0 (length ns)) ->
        val (nchoosek v (sum_Z (firstn (i + 1) (map Z.of_nat ns))) (nth i (map Z.of_nat ns) 0)) (asc_factor ns i)) as Hi.
      { intros i Hin. apply in_seq in Hin. rewrite firstn_map, sum_Z_of_nat, nth_of_nat. apply nchoosek_val.
        - rewrite Nat.add_1_r, (firstn_nth_snoc 0%nat), sum_nat_app by lia. cbn. lia.
        - fold (asc_factor ns i). pose proof (asc_factor_pos ns i ltac:(lia)).
          assert (asc_factor ns i <= prod_Z (map (asc_factor ns) (seq 0 (length ns)))).
          { apply prod_Z_pos_le; auto. apply in_map_iff. exists i. split; auto. apply in_seq. lia. }
          pose proof (sum_nat_firstn_le (i + 1) ns).
          eapply Z.le_lt_trans; [|exact HB1]. apply Z.mul_le_mono_nonneg; try lia. apply Nat2Z.inj_le. nia. }
      revert Hi. generalize (seq 0 (length ns)). intros l Hi. induction l; cbn; constructor; [apply Hi; cbn; auto|].
      apply IHl. intros. apply Hi; cbn; auto.
    - pose proof (prod_ge1 _ Hpos). rewrite Z.mul_1_l. assert (1 <= wt (Nat.max c 1) (m_arrowings m) ns)%nat; [|nia].
      clear. revert ns. induction (m_arrowings m) as [|f l IH]; intros [|n ns]; cbn; auto. specialize (IH ns).
      assert (1 <= if f then Nat.max c 1 ^ n else 1)%nat; [|nia]. destruct f; auto. assert (Nat.max c 1 <> 0)%nat by lia.
      pose proof (Nat.pow_nonzero (Nat.max c 1) n H). lia. }
  assert (Hpc : forall fl ns k acc, length fl = length ns -> forall full, (forall i, (i < length ns)%nat -> nth (k + i) full 0 = Z.of_nat (nth i ns 0%nat)) ->
     fold_left (fun pc '(i, arrow) => if arrow : bool then pc * m_coeff m ^ nth i full 0 else pc)
               (combine (seq k (length fl)) fl) acc = acc * Z.of_nat (wt c fl ns)).
  { clear - Hc. induction fl as [|f fl IH]; intros [|n ns] k acc Hl full Hf; cbn in *; try lia.
    rewrite (IH ns);
      [|lia|intros i Hi; specialize (Hf (S i) ltac:(lia)); cbn in Hf; rewrite <- Hf; f_equal; lia].
    pose proof (Hf 0%nat ltac:(lia)) as H0. rewrite Nat.add_0_r in H0. cbn in H0. rewrite H0, Hc.
    destruct f; [|lia]. rewrite Nat2Z.inj_mul, <- Nat2Z.inj_pow. lia. }
  rewrite (Hpc (m_arrowings m) ns 0%nat 1 Hlen) by (intros; apply nth_of_nat).
  rewrite Nat2Z.inj_mul, Z.mul_1_l.
  assert (wt c (m_arrowings m) ns <= wt (Nat.max c 1) (m_arrowings m) ns)%nat as Hwt.
  { clear. revert ns. induction (m_arrowings m) as [|f l IH]; intros [|n ns]; cbn; auto. specialize (IH ns).
    assert ((if f then c ^ n else 1) <= if f then Nat.max c 1 ^ n else 1)%nat; [|nia].
    destruct f; auto. apply Nat.pow_le_mono_l. lia. }
  assert (1 <= mult ns)%nat as Hm1.
  { pose proof (asc_mult ns) as A. fold (mult ns) in A. assert (0 < Z.of_nat (mult ns)); [|lia]. rewrite <- A. apply prod_ge1.
    apply Forall_forall. intros z Hz. apply in_map_iff in Hz. destruct Hz as [i [<- Hi]]. apply in_seq in Hi. apply asc_factor_pos. lia. }
  assert (Z.of_nat (mult ns) < 2 ^ 53).
  { assert (1 <= wt (Nat.max c 1) (m_arrowings m) ns)%nat; [|nia].
    clear. revert ns. induction (m_arrowings m) as [|f l IH]; intros [|n ns]; cbn; auto. specialize (IH ns).
    assert (1 <= if f then Nat.max c 1 ^ n else 1)%nat; [|nia]. destruct f; auto. assert (Nat.max c 1 <> 0)%nat by lia.
    pose proof (Nat.pow_nonzero (Nat.max c 1) n H). lia. }
  apply nmul_val; auto; [apply val_I| | |]; nia.
Qed.
