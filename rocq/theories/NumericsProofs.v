(** Proofs about the numerics model. *)
From Verif Require Import PyBase Spec ListFacts NumericsModel.
Local Open Scope Z_scope.

(** Pascal's triangle, the bridge between the loop and the subsets. *)
Fixpoint pascal (n k : nat) : Z :=
  match n, k with
  | _, O => 1
  | O, S _ => 0
  | S n', S k' => pascal n' k' + pascal n' k
  end.

Lemma pascal_0_r n : pascal n 0 = 1.
Proof. destruct n; auto. Qed.
Lemma pascal_SS n k : pascal (S n) (S k) = pascal n k + pascal n (S k).
Proof. reflexivity. Qed.
Lemma pascal_nonneg n k : 0 <= pascal n k.
Proof. revert k; induction n as [|n IH]; intros [|k]; cbn; try lia.
       pose proof (IH k); pose proof (IH (S k)); lia. Qed.
Lemma pascal_gt n k : (n < k)%nat -> pascal n k = 0.
Proof. revert k; induction n as [|n IH]; intros [|k]; cbn; intros; try lia; auto.
       rewrite !IH by lia; auto. Qed.
Lemma pascal_diag n : pascal n n = 1.
Proof. induction n as [|n IH]; auto. rewrite pascal_SS, IH, pascal_gt; lia. Qed.
Lemma pascal_pos n k : (k <= n)%nat -> 0 < pascal n k.
Proof.
  revert k; induction n as [|n IH]; intros [|k]; cbn; intros; try lia.
  pose proof (IH k ltac:(lia)). pose proof (pascal_nonneg n (S k)). lia.
Qed.
Lemma pascal_1 n : pascal n 1 = Z.of_nat n.
Proof. induction n as [|n IH]; auto. rewrite pascal_SS, IH, pascal_0_r. lia. Qed.
Lemma pascal_ge2 n k : (0 < k)%nat -> (k < n)%nat -> 2 <= pascal n k.
Proof.
  destruct n, k; try lia. intros. rewrite pascal_SS.
  pose proof (pascal_pos n k ltac:(lia)). pose proof (pascal_pos n (S k) ltac:(lia)). lia.
Qed.

Lemma pascal_absorb n k : pascal n (S k) * Z.of_nat (S k) = pascal n k * (Z.of_nat n - Z.of_nat k).
Proof.
  revert k; induction n as [|n IH]; intros k.
  - destruct k; cbn; lia.
  - destruct k.
    + rewrite pascal_1, pascal_0_r. lia.
    + rewrite !pascal_SS. pose proof (IH k) as H1. pose proof (IH (S k)) as H2.
      replace (Z.of_nat (S (S k))) with (Z.of_nat (S k) + 1) in * by lia.
      replace (Z.of_nat (S n)) with (Z.of_nat n + 1) by lia.
      replace (Z.of_nat k) with (Z.of_nat (S k) - 1) in * by lia.
      nia.
Qed.

Lemma pascal_sym n k : (k <= n)%nat -> pascal n k = pascal n (n - k).
Proof.
  revert k; induction n as [|n IH]; intros [|k] H; auto.
  - lia.
  - rewrite pascal_0_r, Nat.sub_0_r, pascal_diag; auto.
  - replace (S n - S k)%nat with (n - k)%nat by lia.
    destruct (Nat.eq_dec k n) as [->|Hne].
    + rewrite Nat.sub_diag, pascal_0_r, pascal_diag; auto.
    + replace (n - k)%nat with (S (n - S k)) by lia.
      rewrite !pascal_SS, (IH k), (IH (S k)) by lia.
      replace (S (n - S k)) with (n - k)%nat by lia. lia.
Qed.

(** one pass of the loop multiplies up the row of Pascal's triangle, without remainder *)
Lemma binom_loop_aux n m j :
  (j + m <= n)%nat ->
  fold_left (binom_step (Z.of_nat n))
            (map (fun q => Z.of_nat n - Z.of_nat q) (seq j m)) (pascal n j) = pascal n (j + m).
Proof.
  revert j; induction m as [|m IH]; intros j H; cbn.
  - rewrite Nat.add_0_r; auto.
  - unfold binom_step at 2.
    replace (Z.of_nat n - (Z.of_nat n - Z.of_nat j) + 1) with (Z.of_nat (S j)) by lia.
    rewrite <- pascal_absorb, Z.div_mul by lia.
    rewrite IH by lia. f_equal; lia.
Qed.

Lemma range_down_nat n m :
  range_down (Z.of_nat n) (Z.of_nat n - Z.of_nat m) = map (fun q => Z.of_nat n - Z.of_nat q) (seq 0 m).
Proof. unfold range_down. do 2 f_equal. lia. Qed.

Lemma binom_range_nat n k : (k <= n)%nat ->
  exists m, (m <= n)%nat /\ pascal n m = pascal n k /\
  binom_range (Z.of_nat n) (Z.of_nat k) = map (fun q => Z.of_nat n - Z.of_nat q) (seq 0 m).
Proof.
  intros H. unfold binom_range. destruct (Z.ltb_spec (Z.of_nat k) (Z.of_nat n - Z.of_nat k)).
  - exists k. rewrite range_down_nat. auto.
  - exists (n - k)%nat. rewrite <- pascal_sym by auto. repeat split; try lia.
    rewrite <- range_down_nat. f_equal. lia.
Qed.

Lemma binomial_pascal n k : binomial_coefficient (Z.of_nat n) (Z.of_nat k) = pascal n k.
Proof.
  unfold binomial_coefficient.
  destruct (Z.ltb_spec (-1) (Z.of_nat k)); [|lia].
  destruct (Z.ltb_spec (Z.of_nat k) (Z.of_nat n + 1)); cbn [andb negb].
  - destruct (Z.eqb_spec (Z.of_nat k) 0) as [Hk|Hk]; cbn [andb].
    + assert (k = 0%nat) by lia; subst. destruct (Z.eqb_spec (Z.of_nat n) 0).
      { rewrite pascal_0_r; auto. }
      destruct (binom_range_nat n 0) as [m [Hm [Hp ->]]]; [lia|].
      change 1 with (pascal 0 0) at 1. rewrite <- Hp. rewrite <- (pascal_0_r n) at 1.
      rewrite (binom_loop_aux n m 0); auto.
    + destruct (binom_range_nat n k) as [m [Hm [Hp ->]]]; [lia|].
      rewrite <- Hp. rewrite <- (pascal_0_r n) at 1.
      rewrite (binom_loop_aux n m 0); auto.
  - rewrite pascal_gt; lia.
Qed.

Lemma binomial_out n k : k < 0 \/ n < k -> binomial_coefficient n k = 0.
Proof.
  intros H. unfold binomial_coefficient.
  destruct (Z.ltb_spec (-1) k); destruct (Z.ltb_spec k (n + 1)); cbn; auto. lia.
Qed.

(** counting subsets *)
Lemma subsets_length n k : Z.of_nat (length (subsets n k)) = pascal n k.
Proof.
  unfold subsets. revert k; induction n as [|n IH]; intros k.
  - destruct k; reflexivity.
  - cbn [words flat_map]. rewrite app_nil_r, filter_app, app_length, !filter_map, !map_length.
    rewrite (filter_ext (fun v => occ 1 (0%nat :: v) =? k)%nat (fun v => occ 1 v =? k)%nat)
      by (intros v; rewrite occ_cons; reflexivity).
    destruct k.
    + rewrite (filter_none (fun v => occ 1 (1%nat :: v) =? 0)%nat)
        by (intros v _; rewrite occ_cons; reflexivity).
      cbn [length]. rewrite Nat.add_0_r, IH, !pascal_0_r. auto.
    + rewrite (filter_ext (fun v => occ 1 (1%nat :: v) =? S k)%nat (fun v => occ 1 v =? k)%nat)
        by (intros v; rewrite occ_cons; reflexivity).
      rewrite Nat2Z.inj_add, !IH, pascal_SS. lia.
Qed.

Theorem binomial_counts_subsets : forall n k : nat,
  binomial_coefficient (Z.of_nat n) (Z.of_nat k) = Z.of_nat (length (subsets n k)).
Proof. intros. rewrite binomial_pascal, subsets_length; auto. Qed.

Theorem binomial_zero_outside : forall n k : Z,
  k < 0 \/ n < k -> binomial_coefficient n k = 0.
Proof. exact binomial_out. Qed.

Theorem binomial_no_remainder : forall (n k : Z) pre i post,
  0 <= k <= n -> binom_range n k = pre ++ i :: post ->
  n - i + 1 <> 0 /\ (fold_left (binom_step n) pre 1 * i) mod (n - i + 1) = 0.
Proof.
  intros n k pre i post Hk Hr.
  destruct (Z_of_nat_complete n) as [n' ->]; [lia|].
  destruct (Z_of_nat_complete k) as [k' ->]; [lia|].
  destruct (binom_range_nat n' k') as [m [Hm [_ E]]]; [lia|].
  rewrite E in Hr.
  assert (exists j, pre = map (fun q => Z.of_nat n' - Z.of_nat q) (seq 0 j) /\
                    i = Z.of_nat n' - Z.of_nat j /\ (j < m)%nat) as [j [-> [-> Hj]]].
  { exists (length pre).
    assert (length pre < m)%nat as Hlt.
    { apply (f_equal (@length Z)) in Hr. rewrite map_length, seq_length, app_length in Hr.
      cbn in Hr. lia. }
    replace m with (length pre + (1 + (m - length pre - 1)))%nat in Hr by lia.
    rewrite !seq_app, !map_app in Hr.
    apply (f_equal (fun l => (firstn (length pre) l, nth_error l (length pre)))) in Hr.
    rewrite !firstn_app, !map_length, !seq_length, Nat.sub_diag, !firstn_O, !app_nil_r in Hr.
    rewrite (nth_error_app2 pre) in Hr by lia.
    rewrite nth_error_app2 in Hr by (rewrite map_length, seq_length; lia).
    rewrite map_length, seq_length, Nat.sub_diag in Hr. cbn in Hr.
    rewrite !firstn_all2 in Hr by (rewrite ?map_length, ?seq_length; lia).
    injection Hr as H1 H2. repeat split; auto; lia. }
  split; [lia|].
  pose proof (binom_loop_aux n' j 0 ltac:(lia)) as Hloop. rewrite pascal_0_r in Hloop.
  rewrite Hloop. cbn [plus].
  replace (Z.of_nat n' - (Z.of_nat n' - Z.of_nat j) + 1) with (Z.of_nat (S j)) by lia.
  rewrite <- pascal_absorb. apply Z.mod_mul. lia.
Qed.
