(** The coefficient computed for one operation is the weighted number of colour choices for its cycles. *)
From Coq Require Import Permutation.
From Verif Require Import PyBase Spec ListFacts PermFacts PhononsModel HashProofs MultiProofs PolyaModel PolyaSpec Burnside CycleProofs PolyaCount
  FloatProofs ChooseProofs.

Definition vsub (t : list Z) (L : nat) (ns : list nat) : list Z :=
  map (fun '(a, b) => (a - Z.of_nat (L * b))%Z) (combine t ns).
Definition counts (k : nat) (u : list nat) : list nat := map (fun i => occ (S i) u) (seq 0 k).

Lemma counts_length k u : length (counts k u) = k.
Proof. unfold counts. rewrite map_length, seq_length. auto. Qed.
Lemma counts_nth k u i : i < k -> nth i (counts k u) 0 = occ (S i) u.
Proof. intros. unfold counts. rewrite nth_map_lt with (d := 0) by (rewrite seq_length; auto). rewrite seq_nth; auto. Qed.
Lemma vsub_length t L ns : length ns = length t -> length (vsub t L ns) = length t.
Proof. intros. unfold vsub. rewrite map_length, combine_length. lia. Qed.
Lemma vsub_nth t L ns i : length ns = length t -> i < length t -> nth i (vsub t L ns) 0%Z = (nth i t 0 - Z.of_nat (L * nth i ns 0%nat))%Z.
Proof.
  intros Hl Hi. unfold vsub. rewrite nth_map_lt with (d := (0%Z, 0)) by (rewrite combine_length; lia).
  rewrite combine_nth by auto. auto.
Qed.

Lemma counts_cons k i u : i < k -> counts k (S i :: u) = upd (counts k u) i (S (nth i (counts k u) 0)).
Proof.
  intros Hi. apply nth_ext with (d := 0) (d' := 0); [rewrite upd_length, !counts_length; auto|].
  rewrite counts_length. intros j Hj. rewrite nth_upd by (rewrite counts_length; auto). rewrite !counts_nth by auto.
  rewrite occ_cons. destruct (Nat.eqb_spec (S i) (S j)), (Nat.eqb_spec j i); subst; try lia. 
Qed.
Lemma wt_incr c : forall flags ns i, i < length flags -> length ns = length flags ->
  wt c flags (upd ns i (S (nth i ns 0))) = (if nth i flags false then c else 1) * wt c flags ns.
Proof.
  induction flags as [|f fl IH]; intros [|n ns] [|i] Hi Hl; cbn [length] in *; try lia; cbn [upd nth wt].
  - destruct f; cbn [Nat.pow]; nia.
  - rewrite IH by lia. nia.
Qed.
Lemma vsub_incr t i L ns : length ns = length t -> i < length t ->
  vsub t L (upd ns i (S (nth i ns 0))) = vsub (sub_at t i (Z.of_nat L)) L ns.
Proof.
  intros Hl Hi. apply nth_ext with (d := 0%Z) (d' := 0%Z); rewrite !vsub_length; rewrite ?upd_length, ?sub_at_length; auto.
  intros j Hj. rewrite !vsub_nth by (rewrite ?upd_length, ?sub_at_length; auto).
  rewrite nth_upd by lia. rewrite nth_sub_at by auto. destruct (Nat.eqb_spec j i); subst; lia.
Qed.

Lemma cw_repeat flags L c e cs : forall t, length flags = length t ->
  cw flags (repeat (L, c) e ++ cs) t =
  sumf (fun u => wt c flags (counts (length t) u) * cw flags cs (vsub t L (counts (length t) u))) (words (seq 1 (length t)) e).
Proof.
  induction e as [|e IH]; intros t Hl.
  - cbn [repeat app words]. rewrite sumf_cons. unfold sumf. cbn [map sum_nat fold_right].
    assert (wt c flags (counts (length t) []) = 1) as ->.
    { rewrite <- Hl. unfold counts. cbn. clear. generalize 0 at 2. induction flags as [|f fl IH]; intros k; cbn; auto.
      rewrite IH. destruct f; auto. }
    assert (vsub t L (counts (length t) []) = t) as ->; [|lia].
    apply nth_ext with (d := 0%Z) (d' := 0%Z); rewrite vsub_length; rewrite ?counts_length; auto.
    intros i Hi. rewrite vsub_nth by (rewrite ?counts_length; auto). rewrite counts_nth by auto. rewrite occ_nil. lia.
  - cbn [repeat app cw words]. rewrite sumf_flat_map, <- seq_shift, sumf_map. apply sumf_ext. intros i Hi. apply in_seq in Hi.
    rewrite IH by (rewrite sub_at_length; auto). rewrite sub_at_length, <- sumf_mul_l, sumf_map, seq_shift.
    apply sumf_ext. intros u Hu. rewrite counts_cons, wt_incr, vsub_incr by (rewrite ?counts_length; lia). lia.
Qed.

Lemma sumf_group {A B} (eqb : B -> B -> bool) (Heq : forall a b, eqb a b = true <-> a = b) (f : A -> nat) (h : A -> B) U N :
  NoDup N -> (forall u, In u U -> ~ In (h u) N -> f u = 0) ->
  sumf f U = sumf (fun b => sumf (fun u => b2n (eqb b (h u)) * f u) U) N.
Proof.
  intros Hnd H. rewrite sumf_swap. apply sumf_ext. intros u Hu.
  rewrite (sumf_ext _ (fun b => f u * b2n (eqb b (h u)))) by (intros; lia). rewrite sumf_mul_l.
  destruct (existsb (fun b => eqb b (h u)) N) eqn:E.
  - rewrite (sumf_one eqb Heq); auto; [lia|]. apply existsb_exists in E. destruct E as [b [Hb Eb]]. apply Heq in Eb. subst. auto.
  - assert (~ In (h u) N) as Hn.
    { intros Hin. assert (existsb (fun b => eqb b (h u)) N = true); [|congruence]. apply existsb_exists. exists (h u). split; auto. apply Heq; auto. }
    rewrite (H u Hu Hn). lia.
Qed.

Lemma words_counts k e ns : length ns = k ->
  sumf (fun u => b2n (nlist_eqb ns (counts k u))) (words (seq 1 k) e) = if sum_nat ns =? e then mult ns else 0.
Proof.
  intros Hl. destruct (Nat.eqb_spec (sum_nat ns) e) as [He|He].
  - unfold mult, labelings. rewrite length_filter_sumf. fold (sum_nat ns). rewrite Hl, He. apply sumf_ext. intros u Hu.
    f_equal. apply eq_true_iff_eq. rewrite nlist_eqb_spec, has_concsb_spec. unfold has_concs. fold (sum_nat ns).
    apply in_words in Hu. destruct Hu as [Hul _]. split.
    + intros ->. split; [lia|]. intros i Hi. rewrite counts_length in Hi. rewrite counts_nth; auto.
    + intros [_ H]. apply nth_ext with (d := 0) (d' := 0); [rewrite counts_length; auto|]. intros i Hi. rewrite counts_nth by lia. symmetry. apply H. auto.
  - rewrite (sumf_ext _ (fun _ => 0)); [apply sumf_zero|]. intros u Hu. apply in_words in Hu. destruct Hu as [Hul Hua].
    destruct (nlist_eqb ns (counts k u)) eqn:E; auto. apply nlist_eqb_spec in E. exfalso. apply He. subst ns.
    rewrite <- Hul. clear - Hua. induction u as [|a u IH].
    + unfold counts. cbn. clear. generalize 0 at 2. induction k; intros; cbn; auto.
    + assert (In a (seq 1 k)) as Ha by (apply Hua; cbn; auto). apply in_seq in Ha. destruct a as [|i]; [lia|].
      rewrite counts_cons by lia. cbn [length]. rewrite <- IH by (intros; apply Hua; cbn; auto).
      assert (Hi : i < length (counts k u)) by (rewrite counts_length; lia). clear - Hi. revert i Hi. generalize (counts k u). intros l.
      induction l as [|x l IH]; intros [|i] Hi; cbn [length upd nth] in *; try lia; rewrite !sum_nat_cons; [lia|]. rewrite IH; lia.
Qed.

Lemma cw_group flags L c e cs t N : length flags = length t -> NoDup N -> (forall ns, In ns N -> length ns = length t) ->
  (forall u, In u (words (seq 1 (length t)) e) -> ~ In (counts (length t) u) N -> cw flags cs (vsub t L (counts (length t) u)) = 0) ->
  cw flags (repeat (L, c) e ++ cs) t =
  sumf (fun ns => (if sum_nat ns =? e then mult ns else 0) * wt c flags ns * cw flags cs (vsub t L ns)) N.
Proof.
  intros Hl Hnd HN H0. rewrite cw_repeat by auto.
  rewrite (sumf_group nlist_eqb nlist_eqb_spec _ (counts (length t)) _ N Hnd).
  - apply sumf_ext. intros ns Hns.
    rewrite (sumf_ext _ (fun u => (wt c flags ns * cw flags cs (vsub t L ns)) * b2n (nlist_eqb ns (counts (length t) u)))).
    + rewrite sumf_mul_l, words_counts by auto. lia.
    + intros u Hu. destruct (nlist_eqb ns (counts (length t) u)) eqn:E; cbn [b2n]; [|lia].
      apply nlist_eqb_spec in E. rewrite <- E. lia.
  - intros u Hu Hn. rewrite (H0 u Hu Hn). lia.
Qed.

(** ** When there is nothing to count *)
Lemma cw_neg flags cs : forall t i, i < length t -> (nth i t 0 < 0)%Z -> cw flags cs t = 0.
Proof.
  induction cs as [|[L c] cs IH]; intros t i Hi Hneg; cbn.
  - destruct (forallb (Z.eqb 0) t) eqn:E; auto. rewrite forallb_forall in E. specialize (E (nth i t 0%Z) (nth_In t 0%Z Hi)).
    apply Z.eqb_eq in E. lia.
  - rewrite (sumf_ext _ (fun _ => 0)); [apply sumf_zero|]. intros j Hj. apply in_seq in Hj.
    rewrite (IH _ i); [lia|rewrite sub_at_length; auto|]. rewrite nth_sub_at by lia. destruct (Nat.eqb_spec i j); subst; lia.
Qed.

(** ** Monotonicity *)
Lemma cw_mono_tail flags a cs cs' : (forall t, cw flags cs t <= cw flags cs' t) -> forall t, cw flags (a ++ cs) t <= cw flags (a ++ cs') t.
Proof.
  intros H. induction a as [|[L c] a IH]; intros t; cbn; auto. apply sumf_le. intros i _. specialize (IH (sub_at t i (Z.of_nat L))). nia.
Qed.
Lemma cw_mono_coef flags cs cs' : Forall2 (fun x y => fst x = fst y /\ snd x <= snd y) cs cs' -> forall t, cw flags cs t <= cw flags cs' t.
Proof.
  induction 1 as [|[L c] [L' c'] cs cs' [E Hc] H IH]; intros t; cbn; auto. cbn in *. subst L'. apply sumf_le. intros i _.
  specialize (IH (sub_at t i (Z.of_nat L))). destruct (nth i flags false); nia.
Qed.
Lemma sub_at_zero t i : sub_at t i 0 = t.
Proof.
  unfold sub_at. rewrite Z.sub_0_r. revert i. induction t as [|a t IH]; intros [|i]; cbn; auto. f_equal. auto.
Qed.
Lemma cw_one_letter flags c cs i : 1 <= c -> forall L t, i < length t ->
  cw flags cs (sub_at t i (Z.of_nat L)) <= cw flags (repeat (1, c) L ++ cs) t.
Proof.
  intros Hc. induction L as [|L IH]; intros t Hi.
  - cbn [repeat app Z.of_nat]. rewrite sub_at_zero. auto.
  - cbn [repeat app cw]. etransitivity; [|apply (sumf_In_le _ _ i); apply in_seq; lia]. cbn beta.
    specialize (IH (sub_at t i (Z.of_nat 1))). rewrite sub_at_length in IH. specialize (IH Hi).
    replace (sub_at (sub_at t i (Z.of_nat 1)) i (Z.of_nat L)) with (sub_at t i (Z.of_nat (S L))) in IH.
    + destruct (nth i flags false); nia.
    + apply nth_ext with (d := 0%Z) (d' := 0%Z); rewrite !sub_at_length; auto. intros j Hj.
      rewrite !nth_sub_at by (rewrite ?sub_at_length; auto). rewrite Nat.eqb_refl. destruct (j =? i); lia.
Qed.
Lemma cw_split flags L c cs : 1 <= L -> 1 <= c -> forall t, cw flags ((L, c) :: cs) t <= cw flags (repeat (1, c) L ++ cs) t.
Proof.
  intros HL Hc t. destruct L as [|L]; [lia|]. cbn [repeat app cw]. apply sumf_le. intros i Hi. apply in_seq in Hi.
  pose proof (cw_one_letter flags c cs i Hc L (sub_at t i (Z.of_nat 1))) as H. rewrite sub_at_length in H. specialize (H ltac:(lia)).
  replace (sub_at (sub_at t i (Z.of_nat 1)) i (Z.of_nat L)) with (sub_at t i (Z.of_nat (S L))) in H.
  - destruct (nth i flags false); nia.
  - apply nth_ext with (d := 0%Z) (d' := 0%Z); rewrite !sub_at_length; auto. intros j Hj.
    rewrite !nth_sub_at by (rewrite ?sub_at_length; lia). rewrite Nat.eqb_refl. destruct (j =? i); lia.
Qed.

(** Any operation has at most as many weighted choices as the identity. *)
Lemma cw_bound flags d cs : 1 <= d -> Forall (fun x => 1 <= fst x /\ snd x <= d) cs ->
  forall t, cw flags cs t <= cw flags (repeat (1, d) (sum_nat (map fst cs))) t.
Proof.
  intros Hd. induction 1 as [|[L c] cs [HL Hc] H IH]; intros t; auto.
  cbn [map fst]. rewrite sum_nat_cons, repeat_app. cbn in HL, Hc.
  transitivity (cw flags ((L, d) :: cs) t).
  - apply cw_mono_coef. constructor; [cbn; auto|]. clear. induction cs; constructor; auto.
  - etransitivity; [apply cw_split; auto|]. apply cw_mono_tail. auto.
Qed.

Definition zeros (k : nat) : list Z := repeat 0%Z k.
Lemma cw_identity flags d concs : length flags = length concs ->
  cw flags (repeat (1, d) (sum_nat concs)) (map Z.of_nat concs) = mult concs * wt d flags concs.
Proof.
  intros Hl. rewrite <- (app_nil_r (repeat _ _)). rewrite (cw_group _ _ _ _ _ _ [concs]).
  - rewrite sumf_cons. unfold sumf. cbn [map sum_nat fold_right]. fold (sum_nat concs). rewrite Nat.eqb_refl.
    assert (cw flags [] (vsub (map Z.of_nat concs) 1 concs) = 1) as ->; [|lia].
    cbn. assert (forallb (Z.eqb 0) (vsub (map Z.of_nat concs) 1 concs) = true) as ->; auto.
    apply forallb_forall. intros x Hx. apply In_nth with (d := 0%Z) in Hx. destruct Hx as [i [Hi <-]].
    rewrite vsub_length in Hi by (rewrite map_length; auto). rewrite vsub_nth by (rewrite ?map_length in *; auto).
    rewrite nth_of_nat. apply Z.eqb_eq. lia.
  - rewrite map_length. auto.
  - repeat constructor; auto.
  - intros ns [<-|[]]. rewrite map_length. auto.
  - intros u Hu Hn. cbn. destruct (forallb _ _) eqn:E; auto. exfalso. apply Hn. left.
    rewrite forallb_forall in E. rewrite map_length in *. apply nth_ext with (d := 0) (d' := 0); [rewrite counts_length; auto|].
    intros i Hi. specialize (E (nth i (vsub (map Z.of_nat concs) 1 (counts (length concs) u)) 0%Z)).
    rewrite vsub_nth in E by (rewrite ?map_length, ?counts_length; auto). rewrite nth_of_nat in E.
    rewrite Z.eqb_eq in E. 
    match type of E with _ -> ?Q => assert Q; [|lia] end. apply E.
    rewrite <- nth_of_nat. rewrite <- vsub_nth by (rewrite ?map_length, ?counts_length; auto). apply nth_In.
    rewrite vsub_length; rewrite ?map_length, ?counts_length; auto.
Qed.
