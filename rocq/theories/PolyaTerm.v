(** [Product.coeff] computes the weighted number of colour choices. *)
From Coq Require Import Permutation.
From Verif Require Import PyBase Spec ListFacts PermFacts PhononsModel HashProofs MultiProofs PolyaModel PolyaSpec Burnside CycleProofs PolyaCount
  FloatProofs ChooseProofs PolyaCoeff.

Definition scale (L : nat) (ns : list nat) : list Z := map (fun n => Z.of_nat (L * n)) ns.

Lemma scale_inj L a b : 0 < L -> scale L a = scale L b -> a = b.
Proof.
  intros HL. unfold scale. revert b. induction a as [|x a IH]; intros [|y b] E; cbn in *; try discriminate; auto.
  inversion E. f_equal; auto. nia.
Qed.

(** ** The exponent sequences *)
Section Seqs.
  Variables (L e : nat).
  Hypothesis HL : 0 < L.
  Hypothesis He : 0 < e.
  Let poss := map (fun j => Z.of_nat (L * j)) (seq 0 (S e)).
  Let psum := Z.of_nat (L * e).

  Definition kids (t : Z) (root used : Z) : list Z :=
    filter (fun p => ((0 <=? p - root) && (p - root <=? t) && (Z.abs (p - root) <=? psum - used) &&
                      (Z.abs (p - used) mod nth 1 poss 0 =? 0))%Z) poss.

  Lemma in_kids t r us p : r <= us -> us <= e -> (In p (kids t (Z.of_nat (L * r)) (Z.of_nat (L * us))) <->
    exists n, p = Z.of_nat (L * (r + n)) /\ us + n <= e /\ (Z.of_nat (L * n) <= t)%Z).
  Proof.
    intros Hr Hu. unfold kids. rewrite filter_In. unfold poss at 1. rewrite in_map_iff.
    rewrite !andb_true_iff, !Z.leb_le, Z.eqb_eq.
    assert (nth 1 poss 0%Z = Z.of_nat L) as En.
    { unfold poss. cbn [seq map]. destruct e; [lia|]. cbn [seq map nth]. f_equal. lia. }
    rewrite En. unfold psum. split.
    - intros [[j [<- Hj]] [[[H1 H2] H3] H4]]. apply in_seq in Hj. exists (j - r).
      assert (r <= j) by nia. replace (r + (j - r)) with j by lia. split; auto.
      replace (Z.of_nat (L * j) - Z.of_nat (L * r))%Z with (Z.of_nat (L * (j - r))) in * by nia.
      split; [|auto]. rewrite Z.abs_eq in H3 by lia. nia.
    - intros [n [-> [H1 H2]]]. split.
      + exists (r + n). split; auto. apply in_seq. lia.
      + replace (Z.of_nat (L * (r + n)) - Z.of_nat (L * r))%Z with (Z.of_nat (L * n)) by lia.
        rewrite Z.abs_eq by lia. repeat split; try lia; try nia.
        apply Znumtheory.Zdivide_mod. apply Z.divide_abs_r. exists (Z.of_nat (r + n) - Z.of_nat us)%Z. lia.
  Qed.

  Lemma expand_head rest : forall root used s, In s (sequence_expand rest root used poss psum) -> hd 0%Z s = root /\ s <> [].
  Proof.
    destruct rest as [|t rest]; intros root used s Hs; cbn [sequence_expand] in Hs.
    - destruct Hs as [<-|[]]. split; auto. discriminate.
    - fold (kids t root used) in Hs. destruct (kids t root used) as [|q qs].
      + destruct Hs as [<-|[]]. split; auto. discriminate.
      + apply in_flat_map in Hs. destruct Hs as [p [_ Hs]]. apply in_map_iff in Hs. destruct Hs as [s' [<- _]]. split; auto. discriminate.
  Qed.

  Lemma poss_nodup : NoDup poss.
  Proof. apply NoDup_map_inj; [|apply seq_NoDup]. intros. nia. Qed.

  Lemma expand_nodup rest : forall root used, NoDup (sequence_expand rest root used poss psum).
  Proof.
    induction rest as [|t rest IH]; intros root used; cbn [sequence_expand]; [repeat constructor; auto|].
    fold (kids t root used). assert (NoDup (kids t root used)) as Hk by (apply NoDup_filter, poss_nodup).
    destruct (kids t root used) as [|q qs]; [repeat constructor; auto|].
    apply NoDup_flat_map; auto.
    - intros p Hp. apply NoDup_map_inj; auto. intros x y _ _ E. congruence.
    - intros p p' z H1 H2 H3 H4. apply in_map_iff in H3, H4. destruct H3 as [x [<- Hx]], H4 as [y [E Hy]].
      inversion E; subst. apply expand_head in Hx, Hy. destruct Hx as [Hx _], Hy as [Hy _]. lia.
  Qed.

  Lemma in_expand rest : Forall (fun t => (0 <= t)%Z) rest -> forall r us s, r <= us -> us <= e ->
    In s (sequence_expand rest (Z.of_nat (L * r)) (Z.of_nat (L * us)) poss psum) <->
    exists ns, s = Z.of_nat (L * r) :: scale L ns /\ us + sum_nat ns <= e /\ Forall2 (fun n t => (Z.of_nat (L * n) <= t)%Z) ns rest.
  Proof.
    induction 1 as [|t rest Ht Hrest IH]; intros r us s Hr Hu; cbn [sequence_expand].
    - split.
      + intros [<-|[]]. exists []. cbn. repeat split; auto. lia.
      + intros [ns [-> [_ H]]]. inversion H. cbn. auto.
    - fold (kids t (Z.of_nat (L * r)) (Z.of_nat (L * us))). 
      assert (In (Z.of_nat (L * r)) (kids t (Z.of_nat (L * r)) (Z.of_nat (L * us)))) as Hin.
      { apply in_kids; auto. exists 0. rewrite Nat.add_0_r. repeat split; try lia. }
      pose proof (fun p => in_kids t r us p Hr Hu) as HK.
      destruct (kids t (Z.of_nat (L * r)) (Z.of_nat (L * us))) as [|q qs]; [destruct Hin|]. clear Hin.
      rewrite in_flat_map. split.
      + intros [p [Hp Hs]]. apply HK in Hp. destruct Hp as [n [-> [H1 H2]]]. apply in_map_iff in Hs. destruct Hs as [s' [<- Hs']].
        replace (Z.of_nat (L * (r + n)) - Z.of_nat (L * r))%Z with (Z.of_nat (L * n)) in Hs' by lia.
        replace (Z.of_nat (L * us) + Z.of_nat (L * n))%Z with (Z.of_nat (L * (us + n))) in Hs' by lia.
        apply IH in Hs'; [|lia|lia]. destruct Hs' as [ns [-> [H3 H4]]]. exists (n :: ns). split; auto. rewrite sum_nat_cons. split; [lia|].
        constructor; auto.
      + intros [ns [-> [H1 H2]]]. destruct ns as [|n ns]; [inversion H2|]. inversion H2; subst. rewrite sum_nat_cons in H1.
        exists (Z.of_nat (L * (r + n))). split; [apply HK; exists n; repeat split; auto; lia|].
        apply in_map_iff. exists (scale L (n :: ns)). split; auto.
        replace (Z.of_nat (L * (r + n)) - Z.of_nat (L * r))%Z with (Z.of_nat (L * n)) by lia.
        replace (Z.of_nat (L * us) + Z.of_nat (L * n))%Z with (Z.of_nat (L * (us + n))) by lia.
        apply IH; [lia|lia|]. exists ns. split; auto. split; [lia|auto].
  Qed.

  Definition all_seqs (rest : list Z) : list (list Z) := flat_map (fun r => sequence_expand rest r r poss psum) poss.
  Lemma all_seqs_nodup rest : NoDup (all_seqs rest).
  Proof.
    apply NoDup_flat_map; [apply poss_nodup|intros; apply expand_nodup|].
    intros x y z _ _ H1 H2. apply expand_head in H1, H2. destruct H1, H2. congruence.
  Qed.
  Lemma in_all_seqs rest s : Forall (fun t => (0 <= t)%Z) rest ->
    In s (all_seqs rest) <-> exists ns, s = scale L ns /\ sum_nat ns <= e /\ ns <> [] /\
                                Forall2 (fun n t => (Z.of_nat (L * n) <= t)%Z) (tl ns) rest.
  Proof.
    intros Hr. unfold all_seqs. rewrite in_flat_map. unfold poss at 1. split.
    - intros [r [Hr' Hs]]. apply in_map_iff in Hr'. destruct Hr' as [j [<- Hj]]. apply in_seq in Hj.
      apply in_expand in Hs; auto; [|lia]. destruct Hs as [ns [-> [H1 H2]]]. exists (j :: ns). split; auto. rewrite sum_nat_cons. cbn. repeat split; auto; try lia; try discriminate.
    - intros [[|j ns] [-> [H1 [H2 H3]]]]; [congruence|]. rewrite sum_nat_cons in H1. exists (Z.of_nat (L * j)). split.
      + apply in_map_iff. exists j. split; auto. apply in_seq. lia.
      + apply in_expand; auto; [lia|]. exists ns. auto.
  Qed.
  (** The same, in units of L. *)
  Definition unit_seqs (rest : list Z) : list (list nat) := map (map (fun z => Z.to_nat (z / Z.of_nat L))) (all_seqs rest).
  Lemma unscale ns : map (fun z => Z.to_nat (z / Z.of_nat L)) (scale L ns) = ns.
  Proof.
    unfold scale. rewrite map_map. rewrite <- (map_id ns) at 2. apply map_ext. intros n.
    replace (Z.of_nat (L * n)) with (Z.of_nat n * Z.of_nat L)%Z by lia. rewrite Z.div_mul by lia. lia.
  Qed.
  Lemma in_unit_seqs rest ns : Forall (fun t => (0 <= t)%Z) rest -> In ns (unit_seqs rest) <->
    sum_nat ns <= e /\ ns <> [] /\ Forall2 (fun n t => (Z.of_nat (L * n) <= t)%Z) (tl ns) rest.
  Proof.
    intros Hr. unfold unit_seqs. rewrite in_map_iff. split.
    - intros [s [<- Hs]]. apply in_all_seqs in Hs; auto. destruct Hs as [ns' [-> H]]. rewrite unscale. auto.
    - intros H. exists (scale L ns). split; [apply unscale|]. apply in_all_seqs; auto. exists ns. auto.
  Qed.
  Lemma unit_seqs_nodup rest : Forall (fun t => (0 <= t)%Z) rest -> NoDup (unit_seqs rest).
  Proof.
    intros Hr. apply NoDup_map_inj; [|apply all_seqs_nodup]. intros x y Hx Hy E. apply in_all_seqs in Hx, Hy; auto.
    destruct Hx as [a [-> _]], Hy as [b [-> _]]. rewrite !unscale in E. congruence.
  Qed.
  Lemma sumf_all_seqs rest f : Forall (fun t => (0 <= t)%Z) rest -> sumf f (all_seqs rest) = sumf (fun ns => f (scale L ns)) (unit_seqs rest).
  Proof.
    intros Hr. unfold unit_seqs. rewrite sumf_map. apply sumf_ext. intros s Hs. apply in_all_seqs in Hs; auto. destruct Hs as [ns [-> _]].
    rewrite unscale. auto.
  Qed.
End Seqs.

Lemma Forall2_nth {A B} (R : A -> B -> Prop) d d' (l : list A) (l' : list B) : length l = length l' ->
  (forall i, i < length l -> R (nth i l d) (nth i l' d')) -> Forall2 R l l'.
Proof.
  revert l'. induction l as [|a l IH]; intros [|b l'] Hl H; cbn in *; try lia; constructor.
  - apply (H 0). lia.
  - apply IH; [lia|]. intros i Hi. apply (H (S i)). lia.
Qed.

(** ** Products of multinomials *)
Notation mm := (nat * nat * nat)%type. (* cycle length, number of fixed directions, number of cycles *)
Definition ex (m : mm) : list (nat * nat) := let '(L, c, e) := m in repeat (L, c) e.
Definition mk (flags : list bool) (m : mm) : multinomial :=
  let '(L, c, e) := m in
  {| m_power := Z.of_nat L; m_coeff := Z.of_nat c; m_arrowings := flags; m_exponent := Z.of_nat e |}.
Definition mm_sum (m : mm) : nat := let '(L, c, e) := m in L * e.
Definition mm_pos (m : mm) : Prop := let '(L, c, e) := m in 0 < L /\ 0 < e.
Definition cmax (m : mm) : mm := let '(L, c, e) := m in (L, max c 1, e).

Lemma possible_powers_mk flags L c e : 0 < L -> possible_powers (mk flags (L, c, e)) = map (fun j => Z.of_nat (L * j)) (seq 0 (S e)).
Proof.
  intros HL. unfold possible_powers, powersum. cbn [mk m_power m_exponent].
  replace (Z.to_nat ((Z.of_nat L * Z.of_nat e + Z.of_nat L) / Z.of_nat L)) with (S e).
  - apply map_ext. intros. lia.
  - replace (Z.of_nat L * Z.of_nat e + Z.of_nat L)%Z with (Z.of_nat (S e) * Z.of_nat L)%Z by lia. rewrite Z.div_mul by lia. lia.
Qed.
Lemma powersum_mk flags L c e : powersum (mk flags (L, c, e)) = Z.of_nat (L * e).
Proof. unfold powersum. cbn. lia. Qed.

Lemma sum_Z_cons a l : sum_Z (a :: l) = (a + sum_Z l)%Z.
Proof. reflexivity. Qed.
Lemma sum_vsub t L ns : length ns = length t -> sum_Z (vsub t L ns) = (sum_Z t - Z.of_nat (L * sum_nat ns))%Z.
Proof.
  unfold vsub. revert ns. induction t as [|a t IH]; intros [|n ns] Hl; cbn in Hl; try lia; [cbn; lia|].
  cbn [combine map]. rewrite !sum_Z_cons, sum_nat_cons, IH by lia. lia.
Qed.

Section Product.
  Variables (flags : list bool) (concs : list nat).
  Let k := length concs.
  Let targets := map Z.of_nat concs.
  Hypothesis Hk : 0 < k.
  Hypothesis Hflags : length flags = k.

  Lemma rest_nonneg : Forall (fun t => (0 <= t)%Z) (tl targets).
  Proof.
    apply Forall_forall. intros x Hx. assert (In x targets) as H by (destruct targets; [destruct Hx|right; auto]).
    unfold targets in H. apply in_map_iff in H. destruct H as [n [<- _]]. lia.
  Qed.
  Lemma targets_length : length targets = k.
  Proof. unfold targets. rewrite map_length. auto. Qed.
  Lemma unit_length L e ns : 0 < L -> 0 < e -> In ns (unit_seqs L e (tl targets)) -> length ns = k.
  Proof.
    intros HL He H. apply in_unit_seqs in H; auto using rest_nonneg. destruct H as [_ [Hne H]]. apply Forall2_length in H.
    destruct ns as [|n ns]; [congruence|]. cbn in *. pose proof targets_length. destruct targets; cbn in *; [lia|]. lia.
  Qed.

  Fixpoint tsum (ms : list mm) (t : list Z) : nat :=
    match ms with
    | [] => b2n (forallb (Z.eqb 0) t)
    | (L, c, e) :: ms' => sumf (fun ns => mult ns * wt c flags ns * tsum ms' (vsub t L ns)) (unit_seqs L e (tl targets))
    end.

  Definition total (ms : list mm) : nat := sum_nat (map mm_sum ms).

  Lemma tsum_big ms : Forall mm_pos ms -> forall t, length t = k -> (Z.of_nat (total ms) < sum_Z t)%Z -> tsum ms t = 0.
  Proof.
    induction 1 as [|[[L c] e] ms [HL He] H IH]; intros t Hl Ht; cbn.
    - destruct (forallb (Z.eqb 0) t) eqn:E; auto. exfalso. assert (sum_Z t = 0)%Z; [|cbn in Ht; lia].
      clear - E. induction t as [|a t IH]; auto. cbn [forallb] in E. apply andb_true_iff in E. destruct E as [E1 E2]. rewrite sum_Z_cons, IH; auto. apply Z.eqb_eq in E1. lia.
    - rewrite (sumf_ext _ (fun _ => 0)); [apply sumf_zero|]. intros ns Hns. pose proof (unit_length L e ns HL He Hns) as Hln.
      apply in_unit_seqs in Hns; auto using rest_nonneg. rewrite IH; [lia|rewrite vsub_length; lia|].
      rewrite sum_vsub by lia. unfold total in *. cbn [map] in Ht. rewrite sum_nat_cons in Ht. cbn [mm_sum] in Ht. nia.
  Qed.

  Lemma tsum_cw ms : Forall mm_pos ms -> forall t, length t = k -> (forall i, i < k -> (nth i t 0 <= nth i targets 0)%Z) ->
    sum_Z t = Z.of_nat (total ms) -> tsum ms t = cw flags (flat_map ex ms) t.
  Proof.
    induction 1 as [|[[L c] e] ms [HL He] H IH]; intros t Hl Hle Ht; [reflexivity|].
    cbn [tsum flat_map ex].
    rewrite (cw_group flags L c e (flat_map ex ms) t (unit_seqs L e (tl targets))).
    - apply sumf_ext. intros ns Hns. pose proof (unit_length L e ns HL He Hns) as Hln.
      apply in_unit_seqs in Hns; auto using rest_nonneg. destruct Hns as [Hs _].
      unfold total in Ht. cbn [map] in Ht. rewrite sum_nat_cons in Ht. cbn [mm_sum] in Ht.
      destruct (Nat.eqb_spec (sum_nat ns) e) as [E|E].
      + rewrite IH; auto; [rewrite vsub_length; lia| |].
        * intros i Hi. rewrite vsub_nth by lia. specialize (Hle i Hi). lia.
        * rewrite sum_vsub by lia. unfold total. nia.
      + rewrite (tsum_big ms H (vsub t L ns)).
        * rewrite Nat.mul_0_r. reflexivity.
        * rewrite vsub_length; lia.
        * rewrite sum_vsub by lia. unfold total. nia.
    - lia.
    - apply unit_seqs_nodup; auto using rest_nonneg.
    - intros ns Hns. rewrite (unit_length L e ns HL He Hns). auto.
    - intros u Hu Hn. rewrite Hl in *.
      (* some component is too large *)
      assert (exists i, i < k /\ (nth i targets 0 < Z.of_nat (L * nth i (counts k u) 0%nat))%Z) as [i [Hi Hgt]].
      { destruct (existsb (fun i => (nth i targets 0 <? Z.of_nat (L * nth i (counts k u) 0%nat))%Z) (seq 0 k)) eqn:E.
        - apply existsb_exists in E. destruct E as [i [Hi E]]. apply in_seq in Hi. apply Z.ltb_lt in E. exists i. split; [lia|auto].
        - exfalso. apply Hn. apply in_unit_seqs; auto using rest_nonneg.
          assert (forall i, i < k -> (Z.of_nat (L * nth i (counts k u) 0%nat) <= nth i targets 0)%Z) as Hall.
          { intros i Hi. destruct (Z.le_gt_cases (Z.of_nat (L * nth i (counts k u) 0%nat)) (nth i targets 0)%Z); auto. exfalso.
            assert (existsb (fun i => (nth i targets 0 <? Z.of_nat (L * nth i (counts k u) 0%nat))%Z) (seq 0 k) = true); [|congruence].
            apply existsb_exists. exists i. split; [apply in_seq; lia|apply Z.ltb_lt; auto]. }
          split; [|split].
          + apply in_words in Hu. destruct Hu as [Hu1 Hu2].
            pose proof (words_counts k e (counts k u) (counts_length k u)) as Hw.
            destruct (Nat.eqb_spec (sum_nat (counts k u)) e); [lia|]. exfalso.
            assert (1 <= sumf (fun u' => b2n (nlist_eqb (counts k u) (counts k u'))) (words (seq 1 k) e)); [|lia].
            assert (In u (words (seq 1 k) e)) as Hin by (apply in_words; auto).
            pose proof (sumf_In_le (fun u' => b2n (nlist_eqb (counts k u) (counts k u'))) _ u Hin) as Hle'. cbn beta in Hle'.
            rewrite nlist_eqb_refl in Hle'. auto.
          + intros Hc. apply (f_equal (@length nat)) in Hc. rewrite counts_length in Hc. cbn in Hc. lia.
          + assert (Forall2 (fun n t => (Z.of_nat (L * n) <= t)%Z) (counts k u) targets) as HF.
            { apply (Forall2_nth _ 0%nat 0%Z); [rewrite counts_length, targets_length; auto|]. rewrite counts_length. auto. }
            destruct HF; cbn; auto. }
      apply (cw_neg flags _ _ i); [rewrite vsub_length; rewrite ?counts_length; lia|].
      rewrite vsub_nth by (rewrite ?counts_length; lia). specialize (Hle i Hi). lia.
  Qed.
End Product.
