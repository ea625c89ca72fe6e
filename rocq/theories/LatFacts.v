(** Arithmetic of Z_a x Z_b x Z_c, member lists (C24), matching of lists (C26). *)
From Coq Require Import Permutation.
From Verif Require Import PyBase Spec ListFacts PermFacts Mat3 HNFModel LatSpec LatGroupModel.
Local Open Scope Z_scope.

Definition dig (m : vec) (t : Z) : vec := let '(a, b, c) := m in ((t / c / b) mod a, (t / c) mod b, t mod c).

Lemma reduced_triple a b c i j k : reduced (a, b, c) (i, j, k) <-> 0 <= i < a /\ 0 <= j < b /\ 0 <= k < c.
Proof.
  unfold reduced. split.
  - intros H. pose proof (H 0%nat ltac:(lia)). pose proof (H 1%nat ltac:(lia)). pose proof (H 2%nat ltac:(lia)). cbn in *. auto.
  - intros [H1 [H2 H3]] [|[|[|n]]] Hn; cbn; auto; lia.
Qed.
Lemma congruent_triple a b c i j k x y z : congruent (a, b, c) (i, j, k) (x, y, z) <-> (a | i - x) /\ (b | j - y) /\ (c | k - z).
Proof.
  unfold congruent. split.
  - intros H. pose proof (H 0%nat ltac:(lia)). pose proof (H 1%nat ltac:(lia)). pose proof (H 2%nat ltac:(lia)). cbn in *. auto.
  - intros [H1 [H2 H3]] [|[|[|n]]] Hn; cbn; auto; lia.
Qed.
Lemma congruent_refl m x : congruent m x x.
Proof. intros i _. rewrite Z.sub_diag. apply Z.divide_0_r. Qed.
Lemma congruent_sym m x y : congruent m x y -> congruent m y x.
Proof. intros H i Hi. specialize (H i Hi). apply Z.divide_opp_r in H. replace (vget y i - vget x i) with (- (vget x i - vget y i)) by lia. auto. Qed.
Lemma congruent_trans m x y z : congruent m x y -> congruent m y z -> congruent m x z.
Proof. intros H1 H2 i Hi. specialize (H1 i Hi). specialize (H2 i Hi). replace (vget x i - vget z i) with ((vget x i - vget y i) + (vget y i - vget z i)) by lia. apply Z.divide_add_r; auto. Qed.
Lemma vget_vadd u v i : vget (vadd u v) i = vget u i + vget v i.
Proof. destruct u as [[a b] c], v as [[x y] z]. destruct i as [|[|[|i]]]; cbn; auto. Qed.
Lemma vget_vscale k v i : vget (vscale k v) i = k * vget v i.
Proof. destruct v as [[x y] z]. destruct i as [|[|[|i]]]; cbn; lia. Qed.
Lemma vget_vsub u v i : vget (vsub u v) i = vget u i - vget v i.
Proof. unfold vsub. rewrite vget_vadd, vget_vscale. lia. Qed.
Lemma congruent_add m x y u v : congruent m x y -> congruent m u v -> congruent m (vadd x u) (vadd y v).
Proof.
  intros H1 H2 i Hi. specialize (H1 i Hi). specialize (H2 i Hi). rewrite !vget_vadd.
  replace (vget x i + vget u i - (vget y i + vget v i)) with ((vget x i - vget y i) + (vget u i - vget v i)) by lia. apply Z.divide_add_r; auto.
Qed.
Lemma congruent_sub m x y u v : congruent m x y -> congruent m u v -> congruent m (vsub x u) (vsub y v).
Proof.
  intros H1 H2 i Hi. specialize (H1 i Hi). specialize (H2 i Hi). rewrite !vget_vsub.
  replace (vget x i - vget u i - (vget y i - vget v i)) with ((vget x i - vget y i) - (vget u i - vget v i)) by lia. apply Z.divide_sub_r; auto.
Qed.
Lemma reduced_unique m x y : reduced m x -> reduced m y -> congruent m x y -> x = y.
Proof.
  intros Hx Hy H. destruct x as [[i j] k], y as [[i' j'] k'], m as [[a b] c]. apply reduced_triple in Hx. apply reduced_triple in Hy. apply congruent_triple in H.
  assert (forall a x y, 0 <= x < a -> 0 <= y < a -> (a | x - y) -> x = y) as E.
  { intros a0 x y H1 H2 [q E]. assert (q = 0) by nia. nia. }
  f_equal; [f_equal|]; eapply E; try apply H; lia.
Qed.
Lemma vmod_reduced m x : positive m -> reduced m (vmod x m).
Proof. destruct m as [[a b] c], x as [[i j] k]. intros [H1 [H2 H3]]. apply reduced_triple. repeat split; try apply Z.mod_pos_bound; auto. Qed.
Lemma vmod_congruent m x : positive m -> congruent m x (vmod x m).
Proof.
  destruct m as [[a b] c], x as [[i j] k]. intros [H1 [H2 H3]]. apply congruent_triple.
  assert (forall z q, 0 < q -> (q | z - z mod q)) as E.
  { intros z q Hq. exists (z / q). pose proof (Z.div_mod z q). lia. }
  repeat split; apply E; auto.
Qed.
Lemma rank_bound m x : reduced m x -> 0 <= rank m x < volume m.
Proof.
  destruct m as [[a b] c], x as [[i j] k]. intros H. apply reduced_triple in H. cbn.
  assert (0 < b * c) by nia. assert (0 <= j * c) by nia. assert (0 <= i * (b * c)) by nia.
  split; [lia|]. assert (j * c + k < b * c) by nia. assert ((i + 1) * (b * c) <= a * (b * c)) by (apply Z.mul_le_mono_nonneg_r; lia). nia.
Qed.
Lemma dig_rank m x : reduced m x -> dig m (rank m x) = x.
Proof.
  destruct m as [[a b] c], x as [[i j] k]. intros H. apply reduced_triple in H. cbn.
  assert ((i * (b * c) + j * c + k) / c = i * b + j) as E1.
  { symmetry. apply Z.div_unique with k; [lia|]. nia. }
  rewrite E1. assert ((i * b + j) / b = i) as E2 by (symmetry; apply Z.div_unique with j; lia).
  rewrite E2. f_equal; [f_equal|].
  - apply Z.mod_small. lia.
  - symmetry. apply Z.mod_unique with i; lia.
  - symmetry. apply Z.mod_unique with (i * b + j); nia.
Qed.
Lemma dig_reduced m t : positive m -> reduced m (dig m t).
Proof. destruct m as [[a b] c]. intros [H1 [H2 H3]]. apply reduced_triple. repeat split; try apply Z.mod_pos_bound; auto. Qed.
Lemma rank_dig m t : positive m -> 0 <= t < volume m -> rank m (dig m t) = t.
Proof.
  destruct m as [[a b] c]. intros [H1 [H2 H3]] Ht. cbn in *.
  assert (t / c / b < a) as Ha.
  { apply Z.div_lt_upper_bound; auto. apply Z.div_lt_upper_bound; auto. nia. }
  assert (0 <= t / c) by (apply Z.div_pos; lia). assert (0 <= t / c / b) by (apply Z.div_pos; lia).
  rewrite (Z.mod_small (t / c / b)) by lia.
  pose proof (Z.div_mod t c). pose proof (Z.div_mod (t / c) b). nia.
Qed.
Lemma next_member_dig m t : positive m -> 0 <= t -> next_member m (dig m t) = dig m (t + 1).
Proof.
  destruct m as [[a b] c]. intros [H1 [H2 H3]] Ht. cbn [next_member dig].
  assert (forall x q, 0 < q -> (x mod q + 1) mod q = (x + 1) mod q) as E.
  { intros x q Hq. rewrite Zplus_mod_idemp_l. auto. }
  assert (forall x q, 0 < q -> 0 <= x -> ((x + 1) mod q = 0 -> (x + 1) / q = x / q + 1) /\ ((x + 1) mod q <> 0 -> (x + 1) / q = x / q)) as F.
  { intros x q Hq Hx. pose proof (Z.div_mod (x + 1) q). pose proof (Z.mod_pos_bound (x + 1) q Hq). pose proof (Z.div_mod x q). pose proof (Z.mod_pos_bound x q Hq).
    split; intros; nia. }
  rewrite (E t c) by auto. destruct (F t c H3 Ht) as [F1 F2]. assert (0 <= t / c) as Hc by (apply Z.div_pos; lia).
  destruct (Z.eqb_spec ((t + 1) mod c) 0) as [E1|E1].
  - rewrite (F1 E1), E1. rewrite (E (t / c) b) by auto. destruct (F (t / c) b H2 Hc) as [G1 G2].
    destruct (Z.eqb_spec ((t / c + 1) mod b) 0) as [E2|E2].
    + rewrite (G1 E2), E2, E; auto.
    + rewrite (G2 E2); auto.
  - rewrite (F2 E1); auto.
Qed.
Lemma members_from_dig m count t : positive m -> 0 <= t ->
  members_from count m (dig m t) = map (fun i => dig m (t + Z.of_nat i)) (seq 0 count).
Proof.
  intros Hm. revert t. induction count as [|count IH]; intros t Ht; [auto|]. cbn [members_from seq map]. rewrite Z.add_0_r. f_equal.
  rewrite next_member_dig by auto. rewrite IH by lia. rewrite <- seq_shift, map_map. apply map_ext. intros i. f_equal. lia.
Qed.
Lemma member_list_dig m : positive m -> make_member_list m = map (fun i => dig m (Z.of_nat i)) (seq 0 (Z.to_nat (volume m))).
Proof.
  intros Hm. destruct m as [[a b] c] eqn:E. unfold make_member_list, volume. rewrite <- E in *.
  replace (0, 0, 0) with (dig m 0); [rewrite members_from_dig by (auto; lia); auto|].
  rewrite E. unfold dig. rewrite !Zdiv_0_l, !Zmod_0_l. auto.
Qed.
Lemma volume_pos m : positive m -> 0 < volume m.
Proof. destruct m as [[a b] c]. cbn. nia. Qed.
Lemma member_length m : positive m -> length (make_member_list m) = Z.to_nat (volume m).
Proof. intros Hm. rewrite member_list_dig, map_length, seq_length; auto. Qed.
Lemma member_nth m i : positive m -> (i < Z.to_nat (volume m))%nat -> nth i (make_member_list m) (0, 0, 0) = dig m (Z.of_nat i).
Proof.
  intros Hm Hi. rewrite member_list_dig by auto. rewrite nth_indep with (d' := dig m (Z.of_nat 0)) by (rewrite map_length, seq_length; auto).
  rewrite (map_nth (fun i => dig m (Z.of_nat i))), seq_nth; auto.
Qed.
Lemma member_nth_rank m x : positive m -> reduced m x -> nth (Z.to_nat (rank m x)) (make_member_list m) (0, 0, 0) = x.
Proof.
  intros Hm Hx. pose proof (rank_bound m x Hx). rewrite member_nth by (auto; lia). rewrite Z2Nat.id by lia. apply dig_rank; auto.
Qed.
Lemma member_in m x : positive m -> In x (make_member_list m) <-> reduced m x.
Proof.
  intros Hm. rewrite member_list_dig by auto. rewrite in_map_iff. split.
  - intros [i [<- _]]. apply dig_reduced; auto.
  - intros Hx. pose proof (rank_bound m x Hx). exists (Z.to_nat (rank m x)). rewrite Z2Nat.id by lia. split; [apply dig_rank; auto|]. apply in_seq. lia.
Qed.
Lemma member_nodup m : positive m -> NoDup (make_member_list m).
Proof.
  intros Hm. rewrite member_list_dig by auto. apply NoDup_map_inj; [|apply seq_NoDup].
  intros i j Hi Hj E. apply in_seq in Hi. apply in_seq in Hj. apply (f_equal (rank m)) in E. rewrite !rank_dig in E by (auto; lia). lia.
Qed.

(** ** Matching *)
Lemma find_combine {A} (f : nat -> A -> bool) (d : A) (l : list A) k :
  (k < length l)%nat -> f k (nth k l d) = true -> (forall j, (j < k)%nat -> f j (nth j l d) = false) ->
  forall n, (length l <= n)%nat -> find (fun '(j, y) => f j y) (combine (seq 0 n) l) = Some (k, nth k l d).
Proof.
  assert (forall l k off, (k < length l)%nat -> f (off + k)%nat (nth k l d) = true -> (forall j, (j < k)%nat -> f (off + j)%nat (nth j l d) = false) ->
     forall n, (length l <= n)%nat -> find (fun '(j, y) => f j y) (combine (seq off n) l) = Some ((off + k)%nat, nth k l d)) as H.
  { clear. induction l as [|y l IH]; intros k off Hk Ht Hf n Hn; [cbn in Hk; lia|]. destruct n as [|n]; [cbn in Hn; lia|]. cbn [seq combine find].
    destruct k as [|k].
    - rewrite Nat.add_0_r in *. cbn in Ht. rewrite Ht. auto.
    - assert (f off y = false) as ->. { specialize (Hf 0%nat ltac:(lia)). rewrite Nat.add_0_r in Hf. auto. }
      rewrite (IH k (S off)).
      + cbn [nth]. do 2 f_equal. lia.
      + cbn in Hk. lia.
      + rewrite <- Ht. cbn [nth]. f_equal. lia.
      + intros j Hj. specialize (Hf (S j) ltac:(lia)). rewrite <- Hf. cbn [nth]. f_equal. lia.
      + cbn in Hn. lia. }
  intros H1 H2 H3 n Hn. rewrite (H l k 0%nat); auto.
Qed.

Section Match.
Context {A : Type} (close : A -> A -> bool) (d : A) (g gp : list A) (p : list nat).
Notation n := (length g).
Hypothesis Hlen : length gp = n.
Hypothesis Hp : is_perm n p.
Hypothesis Hclose : forall i j, (i < n)%nat -> (j < n)%nat -> close (nth j gp d) (nth i g d) = true <-> j = nth i p 0%nat.
Lemma match_find i used : (i < n)%nat -> ~ In (nth i p 0%nat) used ->
  find (fun '(jm, y) => negb (existsb (Nat.eqb jm) used) && close y (nth i g d)) (combine (seq 0 n) gp) = Some (nth i p 0%nat, nth (nth i p 0%nat) gp d).
Proof.
  intros Hi Hu. destruct Hp as [P1 [P2 P3]]. assert (nth i p 0%nat < n)%nat as Hb by (apply P3; apply nth_In; lia).
  apply (find_combine (fun jm y => negb (existsb (Nat.eqb jm) used) && close y (nth i g d)) d); try lia.
  - apply andb_true_iff. split.
    + apply negb_true_iff. destruct (existsb _ used) eqn:E; auto. apply existsb_exists in E. destruct E as [x [Hx E]]. apply Nat.eqb_eq in E. subst. contradiction.
    + apply Hclose; auto.
  - intros j Hj. apply andb_false_iff. right. destruct (close _ _) eqn:E; auto. apply Hclose in E; try lia.
Qed.
Lemma firstn_succ {B} (e : B) (l : list B) k : (k < length l)%nat -> firstn (S k) l = firstn k l ++ [nth k l e].
Proof. revert k; induction l as [|x l IH]; intros [|k] Hk; cbn in *; try lia; auto. rewrite IH by lia. auto. Qed.
Lemma nodup_nth_firstn (l : list nat) k : NoDup l -> (k < length l)%nat -> ~ In (nth k l 0%nat) (firstn k l).
Proof.
  intros Hn Hk Hin. apply In_nth with (d := 0%nat) in Hin. destruct Hin as [j [Hj E]]. rewrite firstn_length in Hj.
  assert (nth j (firstn k l) 0%nat = nth j l 0%nat) as E'. { rewrite <- (firstn_skipn k l) at 2. rewrite app_nth1; auto. rewrite firstn_length. lia. }
  rewrite E' in E. apply (proj1 (NoDup_nth l 0%nat) Hn) in E; lia.
Qed.
Lemma match_lists_ok : match_lists close g gp = p.
Proof.
  unfold match_lists. destruct Hp as [P1 [P2 P3]].
  assert (forall k, (k <= n)%nat -> fold_left (fun perm x => match find (fun '(jm, y) => negb (existsb (Nat.eqb jm) perm) && close y x) (combine (seq 0 n) gp) with Some (jm, _) => perm ++ [jm] | None => perm end) (firstn k g) [] = firstn k p) as H.
  { induction k as [|k IH]; intros Hk; [auto|]. rewrite (firstn_succ d) by lia. rewrite fold_left_app, IH by lia. cbn [fold_left].
    rewrite match_find by (try lia; apply nodup_nth_firstn; auto; lia). rewrite (firstn_succ 0%nat) by lia. auto. }
  specialize (H n (le_n _)). rewrite firstn_all in H. rewrite H. rewrite <- P1. apply firstn_all.
Qed.
Lemma match_table_ok off : match_table close g gp off = map (fun j => (j + off)%nat) p.
Proof.
  unfold match_table. destruct Hp as [P1 [P2 P3]].
  assert (forall k, (k <= n)%nat -> fold_left (fun '(out, used) x => match find (fun '(jm, y) => negb (existsb (Nat.eqb jm) used) && close y x) (combine (seq 0 n) gp) with Some (jm, _) => (out ++ [(jm + off)%nat], jm :: used) | None => (out ++ [0%nat], used) end) (firstn k g) ([], []) = (map (fun j => (j + off)%nat) (firstn k p), rev (firstn k p))) as H.
  { induction k as [|k IH]; intros Hk; [auto|]. rewrite (firstn_succ d) by lia. rewrite fold_left_app, IH by lia. cbn [fold_left].
    rewrite match_find.
    - rewrite (firstn_succ 0%nat) by lia. rewrite map_app, rev_app_distr. auto.
    - lia.
    - rewrite <- in_rev. apply nodup_nth_firstn; auto; lia. }
  specialize (H n (le_n _)). rewrite firstn_all in H. rewrite H. cbn [fst]. rewrite <- P1. rewrite firstn_all. auto.
Qed.
End Match.

(** Matching two lists with the same distinct entries. *)
Fixpoint index_of {A} (eqb : A -> A -> bool) (x : A) (l : list A) : nat :=
  match l with [] => 0%nat | y :: l' => if eqb y x then 0%nat else S (index_of eqb x l') end.
Lemma index_of_in {A} (eqb : A -> A -> bool) (d : A) x l : (forall a b, eqb a b = true <-> a = b) -> In x l ->
  (index_of eqb x l < length l)%nat /\ nth (index_of eqb x l) l d = x.
Proof.
  intros He. induction l as [|y l IH]; [intros []|]. intros H. cbn. destruct (eqb y x) eqn:E.
  - apply He in E. split; [lia|auto].
  - destruct H as [->|H]; [rewrite (proj2 (He x x) eq_refl) in E; discriminate|]. destruct (IH H). split; [lia|auto].
Qed.
Lemma same_lists_perm {A} (eqb : A -> A -> bool) (d : A) (g gp : list A) : (forall a b, eqb a b = true <-> a = b) ->
  NoDup g -> Permutation g gp -> exists p, is_perm (length g) p /\ (forall i j, (i < length g)%nat -> (j < length g)%nat ->
    nth j gp d = nth i g d <-> j = nth i p 0%nat).
Proof.
  intros He Hnd HP. pose proof (Permutation_length HP) as Hlen. assert (NoDup gp) as Hnd' by (eapply Permutation_NoDup; eauto).
  exists (map (fun x => index_of eqb x gp) g).
  assert (forall x, In x g -> (index_of eqb x gp < length gp)%nat /\ nth (index_of eqb x gp) gp d = x) as Hix.
  { intros x Hx. apply index_of_in; auto. eapply Permutation_in; eauto. }
  split.
  - split; [apply map_length|]. split.
    + apply NoDup_map_inj; auto. intros x y Hx Hy E. destruct (Hix x Hx) as [_ <-]. destruct (Hix y Hy) as [_ <-]. congruence.
    + intros i Hi. apply in_map_iff in Hi. destruct Hi as [x [<- Hx]]. destruct (Hix x Hx). lia.
  - intros i j Hi Hj. assert (In (nth i g d) g) as Hin by (apply nth_In; auto). destruct (Hix _ Hin) as [H1 H2].
    rewrite (nth_indep _ 0%nat (index_of eqb d gp)) by (rewrite map_length; auto). rewrite (map_nth (fun x => index_of eqb x gp)). split.
    + intros E. apply (proj1 (NoDup_nth gp d) Hnd'); try lia. congruence.
    + intros ->. auto.
Qed.
Lemma vec_eqb_spec u v : vec_eqb u v = true <-> u = v.
Proof.
  destruct u as [[a b] c], v as [[x y] z]. cbn. rewrite !andb_true_iff, !Z.eqb_eq. split; [intros [[-> ->] ->]; auto|]. intros E. inversion E; auto.
Qed.
(** The default tolerances are harmless on integers below 10^5. *)
Definition small (v : vec) : Prop := let '(a, b, c) := v in Z.abs a < 10 ^ 5 /\ Z.abs b < 10 ^ 5 /\ Z.abs c < 10 ^ 5.
Lemma close_int_exact x y : Z.abs y < 10 ^ 5 -> close_int x y = true <-> x = y.
Proof. intros H. unfold close_int. rewrite Z.leb_le. split; [|intros ->; rewrite Z.sub_diag; lia]. intros E. assert (Z.abs (x - y) < 1); lia. Qed.
Lemma allclose_exact u v : small v -> allclose u v = true <-> u = v.
Proof.
  destruct u as [[a b] c], v as [[x y] z]. intros [H1 [H2 H3]]. cbn [allclose]. rewrite !andb_true_iff, !close_int_exact by auto. split.
  - intros [[-> ->] ->]. auto.
  - intros E. inversion E; auto.
Qed.
