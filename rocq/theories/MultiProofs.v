(** Proofs about [multinomial]. *)
From Coq Require Import Permutation.
From Verif Require Import PyBase Spec ListFacts NumericsModel NumericsProofs TreeModel HashProofs TreeSearch.
Local Open Scope Z_scope.

Lemma length_all_codes C : Forall (fun r => 0 < r) C -> Z.of_nat (length (all_codes C)) = prod_Z C.
Proof.
  induction C as [|r C IH]; intros H; auto. inversion H; subst. cbn [all_codes prod_Z fold_right].
  rewrite (length_flat_map_const _ _ (length (all_codes C))) by (intros; apply map_length).
  unfold range_up. rewrite map_length, seq_length. fold (prod_Z C). rewrite <- IH by auto. lia.
Qed.

(** the labelings are counted by the product of the radices *)
Lemma labelings_prod c : Z.of_nat (length (labelings c)) = prod_Z (coefficients c (Z.of_nat (sum_nat c))).
Proof.
  rewrite <- length_all_codes by (apply radix_pos_aux; lia). f_equal.
  rewrite <- (map_length (encode (length c)) (labelings c)).
  apply Permutation_length, NoDup_Permutation.
  - apply NoDup_map_inj; [|apply labelings_NoDup]. intros x y Hx Hy E.
    apply (encode_inj c); auto; apply labelings_spec; auto.
  - apply NoDup_all_codes.
  - intros d. rewrite in_map_iff, in_all_codes. split.
    + intros [x [<- Hx]]. apply encode_valid, labelings_spec; auto.
    + intros Hd. destruct (invhash_valid c d Hd) as [x [_ [Hx E]]]. exists x. rewrite labelings_spec. auto.
Qed.

Lemma multinomial_pairs_coeff c s :
  map (fun b => binomial_coefficient (fst b) (snd b)) (multinomial_pairs s (map Z.of_nat c)) = coefficients c s.
Proof. revert s; induction c as [|a c IH]; intros s; auto. cbn. rewrite IH. auto. Qed.

Lemma sum_Z_of_nat c : sum_Z (map Z.of_nat c) = Z.of_nat (sum_nat c).
Proof. induction c as [|a c IH]; auto. unfold sum_Z, sum_nat in *. cbn. rewrite IH. lia. Qed.

Lemma multinomial_exact_counts c : multinomial_exact (map Z.of_nat c) = Z.of_nat (length (labelings c)).
Proof. unfold multinomial_exact. rewrite multinomial_pairs_coeff, sum_Z_of_nat, labelings_prod. auto. Qed.

(** ** When the int64 arithmetic is exact *)
Lemma wrap64_id z : - 2 ^ 63 <= z < 2 ^ 63 -> wrap64 z = z.
Proof. intros H. unfold wrap64. rewrite Z.mod_small; lia. Qed.

Lemma pascal_mono_half n j k : (j <= k)%nat -> (2 * k <= n)%nat -> pascal n j <= pascal n k.
Proof.
  induction 1 as [|k Hk IH]; intros H; [lia|].
  assert (pascal n j <= pascal n k) by (apply IH; lia).
  pose proof (pascal_absorb n k). pose proof (pascal_nonneg n k). pose proof (pascal_nonneg n (S k)). nia.
Qed.

(** the range is at most half a row long *)
Lemma binom_range_half n k : (k <= n)%nat ->
  exists m, (2 * m <= n)%nat /\ pascal n m = pascal n k /\
  binom_range (Z.of_nat n) (Z.of_nat k) = map (fun q => Z.of_nat n - Z.of_nat q) (seq 0 m).
Proof.
  intros H. unfold binom_range. destruct (Z.ltb_spec (Z.of_nat k) (Z.of_nat n - Z.of_nat k)).
  - exists k. rewrite range_down_nat. repeat split; auto. lia.
  - exists (n - k)%nat. rewrite <- pascal_sym by auto. repeat split; try lia.
    rewrite <- range_down_nat. f_equal. lia.
Qed.

Lemma binom64_loop n m B j :
  (2 * (j + m) <= n)%nat -> Z.of_nat n * pascal n (j + m) < B -> B <= 2 ^ 63 ->
  fold_left (binom_step64 (Z.of_nat n))
            (map (fun q => Z.of_nat n - Z.of_nat q) (seq j m)) (pascal n j) = pascal n (j + m).
Proof.
  revert j; induction m as [|m IH]; intros j H HB HB'; cbn.
  - rewrite Nat.add_0_r; auto.
  - pose proof (pascal_absorb n j) as Ha.
    assert (pascal n (S j) <= pascal n (j + S m)) by (apply pascal_mono_half; lia).
    pose proof (pascal_nonneg n j) as Hn. pose proof (pascal_nonneg n (S j)).
    assert (wrap64 (pascal n j * (Z.of_nat n - Z.of_nat j)) = pascal n (S j) * Z.of_nat (S j)) as Hw.
    { rewrite Ha. apply wrap64_id. split; [nia|]. rewrite <- Ha.
      apply Z.le_lt_trans with (Z.of_nat n * pascal n (j + S m)); [|lia]. nia. }
    unfold binom_step64 at 2. rewrite Hw.
    replace (Z.of_nat n - (Z.of_nat n - Z.of_nat j) + 1) with (Z.of_nat (S j)) by lia.
    rewrite Z.div_mul by lia. replace (j + S m)%nat with (S j + m)%nat by lia. apply IH; try lia.
    replace (S j + m)%nat with (j + S m)%nat by lia. auto.
Qed.

Lemma binomial64_exact n k : (k <= n)%nat -> Z.of_nat n * pascal n k < 2 ^ 63 ->
  binomial_coefficient64 (Z.of_nat n) (Z.of_nat k) = pascal n k.
Proof.
  intros Hk HB. unfold binomial_coefficient64.
  destruct (Z.ltb_spec (-1) (Z.of_nat k)); [|lia].
  destruct (Z.ltb_spec (Z.of_nat k) (Z.of_nat n + 1)); [|lia]. cbn [andb negb].
  destruct ((Z.of_nat k =? 0) && (Z.of_nat n =? 0)) eqn:E0.
  { apply andb_prop in E0. destruct E0 as [E1 E2]. assert (k = 0%nat) by lia. assert (n = 0%nat) by lia. subst; auto. }
  destruct (binom_range_half n k Hk) as [m [Hm [Ep ->]]]. rewrite <- Ep in *.
  destruct m as [|m]; [rewrite pascal_0_r; auto|].
  cbn [seq map]. unfold binom_step. rewrite Z.mul_1_l.
  replace (Z.of_nat n - Z.of_nat 0) with (Z.of_nat n) by lia.
  replace (Z.of_nat n - Z.of_nat n + 1) with 1 by lia. rewrite Z.div_1_r.
  rewrite <- (pascal_1 n) at 2. rewrite (binom64_loop n m (2 ^ 63) 1); auto; lia.
Qed.

Lemma fold_wrap_exact l B : Forall (fun b => 0 < b) l -> forall p, 0 < p -> p * prod_Z l < 2 ^ 63 -> B = p * prod_Z l ->
  fold_left (fun p b => wrap64 (p * b)) l p = B.
Proof.
  induction l as [|b l IH]; intros Hl p Hp Hlt ->; cbn [fold_left prod_Z fold_right] in *.
  - lia.
  - fold (prod_Z l) in *. inversion Hl; subst.
    assert (0 < prod_Z l) as Hpl.
    { clear - H2. induction H2; cbn; [lia|]. fold (prod_Z l). nia. }
    rewrite wrap64_id by nia. apply IH; auto; nia.
Qed.

Lemma prod_ge1 l : Forall (fun r => 0 < r) l -> 0 < prod_Z l.
Proof. induction 1; cbn; [lia|]. fold (prod_Z l). nia. Qed.

Lemma bins64_exact c n B :
  (sum_nat c <= n)%nat -> Z.of_nat n * prod_Z (coefficients c (Z.of_nat n)) <= B -> B < 2 ^ 63 ->
  map (fun b => binomial_coefficient64 (fst b) (snd b)) (multinomial_pairs (Z.of_nat n) (map Z.of_nat c)) =
  coefficients c (Z.of_nat n).
Proof.
  revert n. induction c as [|a c IH]; intros n Hs HB HB'; auto.
  rewrite sum_nat_cons in Hs. rewrite coefficients_nat in * by (rewrite sum_nat_cons; lia).
  cbn [prod_Z fold_right] in HB. fold (prod_Z (coefficients c (Z.of_nat (n - a)))) in HB.
  assert (0 < prod_Z (coefficients c (Z.of_nat (n - a)))) by (apply prod_ge1, radix_pos_aux; lia).
  assert (0 < pascal n a) by (apply pascal_pos; lia).
  cbn [multinomial_pairs map fst snd]. f_equal.
  - apply binomial64_exact; [lia|]. nia.
  - replace (Z.of_nat n - Z.of_nat a) with (Z.of_nat (n - a)) by lia. apply IH; [lia| |auto].
    set (P := prod_Z (coefficients c (Z.of_nat (n - a)))) in *. set (q := pascal n a) in *.
    assert (Z.of_nat (n - a) * P <= Z.of_nat n * P) by nia.
    assert (Z.of_nat n * P <= Z.of_nat n * (q * P)) by (apply Z.mul_le_mono_nonneg_l; nia). lia.
Qed.

Theorem multinomial_int64 c : c <> [] ->
  Z.of_nat (sum_nat c) * Z.of_nat (length (labelings c)) < 2 ^ 63 ->
  multinomial (map Z.of_nat c) = Ok (Z.of_nat (length (labelings c))).
Proof.
  intros Hne HB. rewrite labelings_prod in *. unfold multinomial.
  destruct (map Z.of_nat c) eqn:E; [destruct c; [tauto|discriminate]|]. rewrite <- E. f_equal.
  rewrite sum_Z_of_nat. rewrite (bins64_exact c (sum_nat c) _ (le_n _) (Z.le_refl _) HB).
  assert (Forall (fun r => 0 < r) (coefficients c (Z.of_nat (sum_nat c)))) as Hp by (apply radix_pos_aux; lia).
  pose proof (prod_ge1 _ Hp).
  apply fold_wrap_exact; auto; try lia.
  destruct (sum_nat c) eqn:Es.
  - assert (prod_Z (coefficients c (Z.of_nat 0)) = 1) as Hone; [|rewrite Hone; lia].
    clear - Es. revert Es. induction c as [|a c IH]; intros; auto. rewrite sum_nat_cons in Es.
    assert (a = 0%nat) by lia. subst. rewrite coefficients_nat by (rewrite sum_nat_cons; lia).
    change (1 * prod_Z (coefficients c (Z.of_nat 0)) = 1). rewrite IH by lia. auto.
  - nia.
Qed.

(** ** Factorials *)
From Coq Require Import Factorial.
Lemma factorial_fact n : factorial (Z.of_nat n) = Z.of_nat (fact n).
Proof.
  unfold factorial. destruct (Z.eqb_spec (Z.of_nat n) 0).
  { assert (n = 0%nat) by lia. subst. auto. }
  clear n0. unfold range_up. replace (Z.to_nat (Z.of_nat n + 1 - 1)) with n by lia.
  induction n as [|n IH]; auto. rewrite seq_S, map_app, fold_left_app, IH. cbn [fold_left map].
  change (fact (S n)) with (S n * fact n)%nat. lia.
Qed.
Lemma pascal_fact n k : (k <= n)%nat -> pascal n k * Z.of_nat (fact k) * Z.of_nat (fact (n - k)) = Z.of_nat (fact n).
Proof.
  induction k as [|k IH]; intros H.
  - rewrite pascal_0_r, Nat.sub_0_r. change (fact 0) with 1%nat. lia.
  - rewrite <- IH by lia. pose proof (pascal_absorb n k) as Ha.
    change (fact (S k)) with (S k * fact k)%nat. replace (n - k)%nat with (S (n - S k)) by lia.
    change (fact (S (n - S k))) with (S (n - S k) * fact (n - S k))%nat.
    rewrite !Nat2Z.inj_mul. replace (Z.of_nat (S (n - S k))) with (Z.of_nat n - Z.of_nat k) by lia.
    transitivity (pascal n (S k) * Z.of_nat (S k) * Z.of_nat (fact k) * Z.of_nat (fact (n - S k))); [lia|].
    rewrite Ha. lia.
Qed.
Lemma coefficients_fact c : forall n, sum_nat c = n ->
  prod_Z (coefficients c (Z.of_nat n)) * prod_Z (map (fun k => Z.of_nat (fact k)) c) = Z.of_nat (fact n).
Proof.
  induction c as [|a c IH]; intros n Hn.
  - cbn in Hn. subst. reflexivity.
  - rewrite sum_nat_cons in Hn. rewrite coefficients_nat by (rewrite sum_nat_cons; lia).
    cbn [map prod_Z fold_right]. fold (prod_Z (coefficients c (Z.of_nat (n - a)))).
    fold (prod_Z (map (fun k => Z.of_nat (fact k)) c)).
    rewrite <- (pascal_fact n a) by lia. rewrite <- (IH (n - a)%nat) by lia. ring.
Qed.
