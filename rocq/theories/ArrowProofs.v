(** Arrow hashes and arrow arrangements on a fixed colouring. *)
From Coq Require Import Permutation.
From Verif Require Import PyBase Spec ListFacts PermFacts PhononsModel ColorProofs TreeSearch.
Local Open Scope Z_scope.

(** ** the hash *)
Fixpoint horner (l : list Z) (dim : Z) : Z :=
  match l with [] => 0 | a :: l' => a + dim * horner l' dim end.

Lemma sum_Z_map_mul (f : nat -> Z) d l : sum_Z (map (fun i => d * f i) l) = d * sum_Z (map f l).
Proof. unfold sum_Z. induction l as [|x l IH]; cbn; lia. Qed.

Lemma ahash_horner l dim : ahash l dim = horner l dim.
Proof.
  unfold ahash. induction l as [|a l IH]; [reflexivity|].
  cbn [length seq map horner]. unfold sum_Z in *. cbn [fold_right nth].
  rewrite Z.pow_0_r, Z.mul_1_r. f_equal. rewrite <- IH.
  rewrite <- seq_shift, map_map. fold (sum_Z (map (fun i => nth i l 0 * dim ^ Z.of_nat i) (seq 0 (length l)))).
  rewrite <- sum_Z_map_mul. unfold sum_Z. f_equal. apply map_ext. intros i. cbn [nth].
  rewrite Nat2Z.inj_succ, Z.pow_succ_r by lia. ring.
Qed.

Definition digits_ok (dim : Z) (l : list Z) : Prop := forall a, In a l -> 0 <= a < dim.

Lemma horner_range l dim : 0 < dim -> digits_ok dim l -> 0 <= horner l dim < dim ^ Z.of_nat (length l).
Proof.
  intros Hd. induction l as [|a l IH]; intros H; [cbn; lia|].
  cbn [horner length]. rewrite Nat2Z.inj_succ, Z.pow_succ_r by lia.
  assert (0 <= a < dim) by (apply H; cbn; auto).
  assert (0 <= horner l dim < dim ^ Z.of_nat (length l)) by (apply IH; intros b Hb; apply H; cbn; auto).
  nia.
Qed.

Lemma horner_app l1 l2 dim : horner (l1 ++ l2) dim = horner l1 dim + dim ^ Z.of_nat (length l1) * horner l2 dim.
Proof.
  induction l1 as [|a l IH]; [cbn [app horner length]; rewrite Z.pow_0_r; ring|].
  cbn [app horner length]. rewrite IH, Nat2Z.inj_succ, Z.pow_succ_r by lia. ring.
Qed.

(** the loop of [_ainvhash] on the positions below [n] *)
Lemma ainv_loop dim : 0 < dim -> forall m lo h, length lo = m -> 0 <= h < dim ^ Z.of_nat m ->
  forall hi N, N = (m + length hi)%nat ->
  exists l, length l = m /\ digits_ok dim l /\ horner l dim = h /\
    fold_left (fun st i =>
         let p := (N - 1 - i)%nat in
         let base := dim ^ Z.of_nat p in
         (fst st - base * (fst st / base), upd (snd st) p (fst st / base)))
       (seq (length hi) m) (h, lo ++ hi) = (0, l ++ hi).
Proof.
  intros Hd. induction m as [|m IH]; intros lo h Hlo Hh hi N HN.
  - exists []. destruct lo; [|discriminate]. cbn in *. split; auto. split; [intros a []|]. split; [lia|]. f_equal. lia.
  - destruct (exists_last (l := lo)) as [lo' [z Elo]]; [destruct lo; discriminate|]. subst lo.
    rewrite app_length in Hlo. cbn in Hlo.
    cbn [seq fold_left fst snd].
    replace (N - 1 - length hi)%nat with m by lia.
    set (q := h / dim ^ Z.of_nat m).
    assert (0 < dim ^ Z.of_nat m) as Hb by (apply Z.pow_pos_nonneg; lia).
    rewrite Nat2Z.inj_succ, Z.pow_succ_r in Hh by lia.
    assert (0 <= q < dim) as Hq.
    { unfold q. split; [apply Z.div_pos; lia|]. apply Z.div_lt_upper_bound; lia. }
    assert (h - dim ^ Z.of_nat m * q = h mod dim ^ Z.of_nat m) as Er.
    { unfold q. rewrite Z.mod_eq by lia. auto. }
    rewrite Er.
    replace (upd ((lo' ++ [z]) ++ hi) m q) with (lo' ++ q :: hi).
    2:{ rewrite <- app_assoc. cbn [app]. replace m with (length lo') by lia. clear.
        induction lo' as [|a l IHl]; cbn; congruence. }
    destruct (IH lo' (h mod dim ^ Z.of_nat m) ltac:(lia) ltac:(apply Z.mod_pos_bound; lia) (q :: hi) N ltac:(cbn; lia))
      as [l [Hl [Hdg [Hh' Hf]]]].
    exists (l ++ [q]). rewrite app_length. cbn [length]. split; [lia|]. split.
    { intros a Ha. apply in_app_iff in Ha as [Ha|[<-|[]]]; auto. }
    split.
    { rewrite horner_app, Hh', Hl. cbn [horner]. pose proof (Z.div_mod h (dim ^ Z.of_nat m) ltac:(lia)).
      fold q in H. lia. }
    cbn [length] in Hf. rewrite Hf, <- app_assoc. auto.
Qed.

Lemma ainvhash_spec h m dim : 0 < dim -> 0 <= h < dim ^ Z.of_nat m ->
  length (ainvhash h m dim) = m /\ digits_ok dim (ainvhash h m dim) /\ ahash (ainvhash h m dim) dim = h.
Proof.
  intros Hd Hh. destruct (ainv_loop dim Hd m (repeat 0 m) h (repeat_length _ _) Hh [] m) as [l [H1 [H2 [H3 H4]]]].
  { cbn; lia. }
  rewrite !app_nil_r in H4. cbn [length] in H4. unfold ainvhash. rewrite H4. cbn [snd].
  rewrite ahash_horner. auto.
Qed.

Lemma horner_inj dim l l' : 0 < dim -> digits_ok dim l -> digits_ok dim l' -> length l = length l' ->
  horner l dim = horner l' dim -> l = l'.
Proof.
  intros Hd. revert l'; induction l as [|a l IH]; intros [|b l'] H1 H2 Hl E; auto; try discriminate.
  cbn [horner] in E. assert (0 <= a < dim) by (apply H1; cbn; auto). assert (0 <= b < dim) by (apply H2; cbn; auto).
  assert (a = b /\ horner l dim = horner l' dim) as [-> E2].
  { assert (forall u x, 0 <= u < dim -> (u + dim * x) mod dim = u) as Hm.
    { intros u x Hu. rewrite Z.mul_comm, Z_mod_plus_full. apply Z.mod_small; auto. }
    assert (a = b) as ->.
    { rewrite <- (Hm a (horner l dim)), <- (Hm b (horner l' dim)) by auto. rewrite E. auto. }
    split; auto. nia. }
  f_equal. apply IH; auto.
  - intros z Hz. apply H1; cbn; auto.
  - intros z Hz. apply H2; cbn; auto.
Qed.

Lemma ainvhash_ahash l dim : 0 < dim -> digits_ok dim l ->
  ainvhash (ahash l dim) (length l) dim = l.
Proof.
  intros Hd Hl. rewrite ahash_horner. pose proof (horner_range l dim Hd Hl) as Hr.
  destruct (ainvhash_spec (horner l dim) (length l) dim Hd Hr) as [H1 [H2 H3]].
  rewrite ahash_horner in H3. apply (horner_inj dim); auto.
Qed.

Lemma ahash_max dim m : 0 < dim -> ahash (repeat (dim - 1) m) dim = dim ^ Z.of_nat m - 1.
Proof.
  intros Hd. rewrite ahash_horner. induction m as [|m IH]; [reflexivity|].
  cbn [repeat horner]. rewrite IH, Nat2Z.inj_succ, Z.pow_succ_r by lia. ring.
Qed.
