(** The number of decorated structures fixed by a joint operation, cycle by cycle. *)
From Coq Require Import Permutation.
From Verif Require Import PyBase Spec ListFacts PermFacts PhononsModel DecoFacts PolyaModel PolyaSpec Burnside CycleProofs.

Lemma site_eqb_spec (a b : site) : site_eqb a b = true <-> a = b.
Proof.
  unfold site_eqb. rewrite andb_true_iff, !Z.eqb_eq. destruct a, b; cbn. split.
  - intros [-> ->]; auto.
  - intros E; inversion E; auto.
Qed.
Definition w_eqb : list site -> list site -> bool := list_eqb site_eqb.
Lemma w_eqb_spec a b : w_eqb a b = true <-> a = b.
Proof. apply list_eqb_spec. apply site_eqb_spec. Qed.

(** ** Weighted choices of a colour for every cycle *)
Definition sub_at (t : list Z) (i : nat) (L : Z) : list Z := upd t i (nth i t 0 - L)%Z.
Fixpoint cw (flags : list bool) (cycles : list (nat * nat)) (t : list Z) : nat :=
  match cycles with
  | [] => b2n (forallb (Z.eqb 0) t)
  | (L, c) :: cs => sumf (fun i => (if nth i flags false then c else 1) * cw flags cs (sub_at t i (Z.of_nat L)))
                         (seq 0 (length t))
  end.

Lemma sub_at_length t i L : length (sub_at t i L) = length t.
Proof. apply upd_length. Qed.
Lemma nth_sub_at t i j L : (i < length t)%nat -> nth j (sub_at t i L) 0%Z = if j =? i then (nth i t 0 - L)%Z else nth j t 0%Z.
Proof. intros. apply nth_upd. auto. Qed.
Lemma sub_at_comm t i j K L : i < length t -> j < length t ->
  sub_at (sub_at t i K) j L = sub_at (sub_at t j L) i K.
Proof.
  intros Hi Hj. apply nth_ext with (d := 0%Z) (d' := 0%Z); rewrite !sub_at_length; auto.
  intros k Hk. rewrite !nth_sub_at by (rewrite ?sub_at_length; auto).
  destruct (Nat.eqb_spec k j), (Nat.eqb_spec k i), (Nat.eqb_spec j i), (Nat.eqb_spec i j); subst; try congruence; lia.
Qed.

Lemma cw_perm flags cs1 cs2 : Permutation cs1 cs2 -> forall t, cw flags cs1 t = cw flags cs2 t.
Proof.
  induction 1 as [|[L c] cs1 cs2 H IH|[L c] [L' c'] cs|cs1 cs2 cs3 H1 IH1 H2 IH2]; intros t; auto.
  - cbn. apply sumf_ext. intros i Hi. rewrite IH. auto.
  - cbn. 
    rewrite (sumf_ext _ (fun i => sumf (fun j => (if nth i flags false then c' else 1) *
       ((if nth j flags false then c else 1) * cw flags cs (sub_at (sub_at t i (Z.of_nat L')) j (Z.of_nat L)))) (seq 0 (length t))))
      by (intros; rewrite sub_at_length, sumf_mul_l; auto).
    rewrite sumf_swap. apply sumf_ext. intros j Hj. rewrite sub_at_length, <- sumf_mul_l. apply sumf_ext. intros i Hi.
    apply in_seq in Hi, Hj. rewrite sub_at_comm by lia. lia.
  - rewrite IH1. auto.
Qed.

(** ** Values on a cycle *)
Definition spin (sigma : list nat) (L : nat) (y : site) : list site :=
  map (fun k => Nat.iter (L - 1 - k) (turn sigma) y) (seq 0 L).

Lemma spin_length sigma L y : length (spin sigma L y) = L.
Proof. unfold spin. rewrite map_length, seq_length. auto. Qed.
Lemma spin_nth sigma L y k d : k < L -> nth k (spin sigma L y) d = Nat.iter (L - 1 - k) (turn sigma) y.
Proof. intros. unfold spin. rewrite nth_map_lt with (d := 0) by (rewrite seq_length; auto). rewrite seq_nth; auto. Qed.
Lemma spin_inj sigma L y z : 0 < L -> spin sigma L y = spin sigma L z -> y = z.
Proof.
  intros HL E. apply (f_equal (fun l => nth (L - 1) l (0, 0)%Z)) in E. rewrite !spin_nth in E by lia.
  replace (L - 1 - (L - 1)) with 0 in E by lia. auto.
Qed.
Lemma iter_turn_skeleton sigma k y : skeleton (Nat.iter k (turn sigma) y) = skeleton y.
Proof. induction k; cbn; auto. unfold Nat.iter in *. rewrite turn_skeleton. auto. Qed.

Lemma spin_rule sigma L z d : length z = L -> 0 < L ->
  (forall k, k < L -> nth k z d = turn sigma (nth (S k mod L) z d)) ->
  z = spin sigma L (nth (L - 1) z d) /\ Nat.iter L (turn sigma) (nth (L - 1) z d) = nth (L - 1) z d.
Proof.
  intros Hl HL H.
  assert (forall m, m < L -> nth (L - 1 - m) z d = Nat.iter m (turn sigma) (nth (L - 1) z d)) as A.
  { induction m as [|m IH]; intros Hm; cbn; [f_equal; lia|].
    rewrite H by lia. rewrite Nat.mod_small by lia. replace (S (L - 1 - S m)) with (L - 1 - m) by lia.
    unfold Nat.iter in IH. rewrite IH by lia. auto. }
  split.
  - apply nth_ext with (d := d) (d' := d); [rewrite spin_length; auto|]. intros k Hk. rewrite spin_nth by lia.
    rewrite <- A by lia. f_equal. lia.
  - destruct L as [|L]; [lia|].
    change (turn sigma (Nat.iter L (turn sigma) (nth (S L - 1) z d)) = nth (S L - 1) z d). rewrite <- A by lia.
    rewrite (H (S L - 1)) by lia. replace (S (S L - 1)) with (S L) by lia. rewrite Nat.mod_same by lia. f_equal. f_equal. lia.
Qed.
Lemma spin_rule' sigma L y d : 0 < L -> Nat.iter L (turn sigma) y = y ->
  forall k, k < L -> nth k (spin sigma L y) d = turn sigma (nth (S k mod L) (spin sigma L y) d).
Proof.
  intros HL Hy k Hk. destruct (Nat.eq_dec (S k) L) as [E|E].
  - rewrite E, Nat.mod_same by lia. rewrite !spin_nth by lia. replace (L - 1 - k) with 0 by lia. cbn [Nat.iter].
    rewrite <- Hy at 1. destruct L as [|L]; [lia|]. cbn. replace (L - 0 - 0) with L by lia. auto.
  - rewrite Nat.mod_small by lia. rewrite !spin_nth by lia.
    replace (L - 1 - k) with (S (L - 1 - S k)) by lia. auto.
Qed.

(** Turning k times leaves an arrow where it was iff the direction is fixed by the k-th power. *)
Lemma iter_turn_arrow sigma k a s : is_perm (length sigma) sigma -> (a < length sigma)%nat ->
  Nat.iter k (turn sigma) (Z.of_nat a, s) = (Z.of_nat (Nat.iter k (fun b => nth b sigma 0) a), s) /\
  Nat.iter k (fun b => nth b sigma 0) a < length sigma.
Proof.
  intros Hs Ha. induction k as [|k [IH1 IH2]]; [cbn; auto|]. unfold Nat.iter in *. cbn. rewrite IH1.
  set (b := nat_rect (fun _ => nat) a _ k) in *. split.
  - unfold turn, has_arrow. cbn [fst snd]. destruct (Z.leb_spec 0 (Z.of_nat b)); [|lia]. rewrite Nat2Z.id. auto.
  - destruct Hs as [_ [_ Hr]]. apply Hr. apply nth_In. auto.
Qed.
Lemma iter_turn_plain sigma k s : has_arrow s = false -> Nat.iter k (turn sigma) s = s.
Proof. intros H. induction k; cbn; auto. unfold Nat.iter in *. rewrite IHk. unfold turn. rewrite H. auto. Qed.

(** ** Structures over a list of kinds of sites *)
Section Kinds.
  Variables (kinds : list site) (d : nat).
  Hypothesis kinds_nodup : NoDup kinds.
  Hypothesis kinds_skel : forall kd, In kd kinds -> skeleton kd = kd.

  Definition opt (dirs : list nat) (kd : site) : list site :=
    if has_arrow kd then map (fun a => (Z.of_nat a, snd kd)) dirs else [kd].
  Definition options (dirs : list nat) : list site := flat_map (opt dirs) kinds.

  Lemma opt_skel dirs kd y : In kd kinds -> In y (opt dirs kd) -> skeleton y = kd.
  Proof.
    intros Hk Hy. pose proof (kinds_skel kd Hk) as E. unfold opt in Hy. destruct (has_arrow kd) eqn:Ea.
    - apply in_map_iff in Hy. destruct Hy as [a [<- _]]. unfold skeleton in *. rewrite Ea in E. unfold has_arrow. cbn [fst snd].
      destruct (Z.leb_spec 0 (Z.of_nat a)); [auto|lia].
    - destruct Hy as [<-|[]]. auto.
  Qed.
  Lemma in_options dirs y : In y (options dirs) <->
    In (skeleton y) kinds /\ (has_arrow y = true -> exists a, In a dirs /\ fst y = Z.of_nat a).
  Proof.
    unfold options. rewrite in_flat_map. split.
    - intros [kd [Hk Hy]]. pose proof (opt_skel dirs kd y Hk Hy) as E. split; [rewrite E; auto|].
      intros Ha. unfold opt in Hy. destruct (has_arrow kd) eqn:Ek.
      + apply in_map_iff in Hy. destruct Hy as [a [<- Hin]]. exists a. auto.
      + destruct Hy as [<-|[]]. congruence.
    - intros [Hk Ha]. exists (skeleton y). split; auto. unfold opt.
      assert (has_arrow (skeleton y) = has_arrow y) as Es.
      { unfold skeleton, has_arrow. destruct (0 <=? fst y)%Z eqn:E; cbn; auto. }
      rewrite Es. destruct (has_arrow y) eqn:Ey.
      + destruct (Ha eq_refl) as [a [Hin E]]. apply in_map_iff. exists a. split; auto.
        destruct y as [y1 y2]. cbn in *. rewrite E. auto.
      + left. unfold skeleton. rewrite Ey. destruct y; auto.
  Qed.
  Lemma options_nodup dirs : NoDup dirs -> NoDup (options dirs).
  Proof.
    intros Hd. unfold options. apply NoDup_flat_map; auto.
    - intros kd Hk. unfold opt. destruct (has_arrow kd); [|repeat constructor; auto].
      apply NoDup_map_inj; auto. intros a b _ _ E. inversion E. lia.
    - intros k1 k2 y H1 H2 H3 H4. rewrite <- (opt_skel dirs k1 y), <- (opt_skel dirs k2 y); auto.
  Qed.

  Definition kcount (kd : site) (w : list site) : nat := length (filter (fun s => site_eqb kd (skeleton s)) w).
  Definition ok_counts (t : list Z) (w : list site) : bool :=
    forallb (fun '(kd, c) => (c =? Z.of_nat (kcount kd w))%Z) (combine kinds t).

  Lemma kcount_app kd v w : kcount kd (v ++ w) = kcount kd v + kcount kd w.
  Proof. unfold kcount. rewrite filter_app, app_length. auto. Qed.
  Lemma kcount_spin kd sigma L y : kcount kd (spin sigma L y) = if site_eqb kd (skeleton y) then L else 0.
  Proof.
    unfold kcount, spin. rewrite filter_map, map_length.
    destruct (site_eqb kd (skeleton y)) eqn:E.
    - rewrite filter_all; [apply seq_length|]. intros. rewrite iter_turn_skeleton. auto.
    - rewrite filter_none; auto. intros. rewrite iter_turn_skeleton. auto.
  Qed.

  Lemma ok_counts_spec t w : length t = length kinds ->
    ok_counts t w = true <-> forall i, i < length kinds -> nth i t 0%Z = Z.of_nat (kcount (nth i kinds (0, 0)%Z) w).
  Proof.
    intros Hl. unfold ok_counts. rewrite forallb_forall. split.
    - intros H i Hi. specialize (H (nth i kinds (0,0)%Z, nth i t 0%Z)). rewrite <- combine_nth in H by auto.
      assert (In (nth i (combine kinds t) (0%Z, 0%Z, 0%Z)) (combine kinds t)) as Hin.
      { apply nth_In. rewrite combine_length. lia. }
      apply H in Hin. rewrite combine_nth in Hin by auto. apply Z.eqb_eq in Hin. auto.
    - intros H [kd c] Hin. apply In_nth with (d := (0%Z, 0%Z, 0%Z)) in Hin. destruct Hin as [i [Hi E]].
      rewrite combine_length in Hi. rewrite combine_nth in E by auto. inversion E; subst. apply Z.eqb_eq. apply H. lia.
  Qed.

  Definition flags : list bool := map has_arrow kinds.

  (** The structures assembled from one value per cycle. *)
  Definition assemble (sigma : list nat) (Ls : list nat) (ys : list site) : list site :=
    concat (map (fun '(L, y) => spin sigma L y) (combine Ls ys)).
  Definition choices (sigma : list nat) (Ls : list nat) : list (list site) :=
    lproduct (map (fun L => options (fixed_directions sigma L)) Ls).

  Lemma opt_length dirs kd : length (opt dirs kd) = if has_arrow kd then length dirs else 1.
  Proof. unfold opt. destruct has_arrow; auto. apply map_length. Qed.

  Lemma sumf_index {A} (f : A -> nat) (l : list A) dflt : sumf f l = sumf (fun i => f (nth i l dflt)) (seq 0 (length l)).
  Proof.
    rewrite <- (sumf_map (fun i => nth i l dflt) f). f_equal.
    apply nth_ext with (d := dflt) (d' := dflt); [rewrite map_length, seq_length; auto|].
    intros i Hi. rewrite nth_map_lt with (d := 0) by (rewrite seq_length; auto). rewrite seq_nth; auto.
  Qed.

  Theorem count_choices sigma : forall Ls t, length t = length kinds ->
    length (filter (fun ys => ok_counts t (assemble sigma Ls ys)) (choices sigma Ls)) =
    cw flags (map (fun L => (L, length (fixed_directions sigma L))) Ls) t.
  Proof.
    induction Ls as [|L Ls IH]; intros t Ht.
    - cbn. assert (ok_counts t [] = forallb (Z.eqb 0) t) as ->.
      { unfold ok_counts. clear - Ht. revert t Ht. induction kinds as [|k ks IH]; intros [|a t] Ht; cbn in *; try lia; auto.
        rewrite IH by lia. rewrite Z.eqb_sym. auto. }
      destruct forallb; auto.
    - rewrite length_filter_sumf. unfold choices. cbn [map lproduct].
      rewrite sumf_flat_map. unfold options at 2. rewrite sumf_flat_map. cbn [cw].
      rewrite (sumf_index _ kinds (0, 0)%Z). rewrite Ht. apply sumf_ext. intros i Hi. apply in_seq in Hi.
      set (kd := nth i kinds (0, 0)%Z). assert (In kd kinds) as Hkd by (apply nth_In; lia).
      rewrite (sumf_ext _ (fun _ => cw flags (map (fun L => (L, length (fixed_directions sigma L))) Ls) (sub_at t i (Z.of_nat L)))).
      + rewrite sumf_const, opt_length. unfold flags. rewrite nth_map_lt with (d := (0,0)%Z) by lia. fold kd. auto.
      + intros y Hy. rewrite sumf_map. rewrite <- IH by (rewrite sub_at_length; auto).
        rewrite length_filter_sumf. apply sumf_ext. intros ys _. f_equal.
        apply eq_true_iff_eq. rewrite !ok_counts_spec by (rewrite ?sub_at_length; auto).
        pose proof (opt_skel _ kd y Hkd Hy) as Esk.
        unfold assemble. cbn [combine map concat].
        split; intros H j Hj; specialize (H j Hj).
        * rewrite nth_sub_at by lia. rewrite kcount_app, kcount_spin, Esk in H.
          destruct (Nat.eqb_spec j i) as [->|Hn].
          -- assert (site_eqb (nth i kinds (0, 0)%Z) kd = true) as E by (apply site_eqb_spec; auto). rewrite E in H. lia.
          -- destruct (site_eqb (nth j kinds (0, 0)%Z) kd) eqn:E; [|lia]. exfalso. apply site_eqb_spec in E.
             apply Hn. apply (proj1 (NoDup_nth kinds (0,0)%Z) kinds_nodup); auto; lia.
        * rewrite nth_sub_at in H by lia. rewrite kcount_app, kcount_spin, Esk.
          destruct (Nat.eqb_spec j i) as [Eji|Hn]; [rewrite Eji in *|].
          -- assert (site_eqb (nth i kinds (0, 0)%Z) kd = true) as E by (apply site_eqb_spec; auto). rewrite E. lia.
          -- destruct (site_eqb (nth j kinds (0, 0)%Z) kd) eqn:E; [|lia]. exfalso. apply site_eqb_spec in E.
             apply Hn. apply (proj1 (NoDup_nth kinds (0,0)%Z) kinds_nodup); auto; lia.
  Qed.
End Kinds.

Lemma app_eq_length {A} (a b c e : list A) : a ++ b = c ++ e -> length a = length c -> a = c /\ b = e.
Proof.
  revert c. induction a as [|x a IH]; intros [|y c] E H; cbn in *; try lia; auto.
  inversion E; subst. destruct (IH c H2); auto. subst. auto.
Qed.

Lemma in_lproduct {A} (ls : list (list A)) : forall x, In x (lproduct ls) <-> Forall2 (fun l a => In a l) ls x.
Proof.
  induction ls as [|l ls IH]; intros x; cbn.
  - split; [intros [<-|[]]; constructor|]. intros H. inversion H; auto.
  - rewrite in_flat_map. split.
    + intros [a [Ha Hx]]. apply in_map_iff in Hx. destruct Hx as [y [<- Hy]]. constructor; auto. apply IH; auto.
    + intros H. inversion H; subst. exists y. split; auto. apply in_map. apply IH; auto.
Qed.
Lemma NoDup_lproduct {A} (ls : list (list A)) : Forall (@NoDup A) ls -> NoDup (lproduct ls).
Proof.
  induction 1 as [|l ls Hl Hls IH]; cbn; [repeat constructor; auto|].
  apply NoDup_flat_map; auto.
  - intros a Ha. apply NoDup_map_inj; auto. intros x y _ _ E. congruence.
  - intros a b y Ha Hb H1 H2. apply in_map_iff in H1, H2. destruct H1 as [? [<- _]], H2 as [? [E _]]. congruence.
Qed.

Section Fixed.
  Variables (kinds : list site) (d n : nat).
  Hypothesis kinds_nodup : NoDup kinds.
  Hypothesis kinds_skel : forall kd, In kd kinds -> skeleton kd = kd.

  (** All structures with the given numbers of sites of each kind. *)
  Definition structs (t : list Z) : list (list site) :=
    filter (ok_counts kinds t) (words (options kinds (seq 0 d)) n).

  Lemma structs_nodup t : NoDup (structs t).
  Proof. apply NoDup_filter, NoDup_words, options_nodup; auto. apply seq_NoDup. Qed.

  Lemma in_structs t x : In x (structs t) <->
    length x = n /\ (forall s, In s x -> In (skeleton s) kinds /\ (fst s < Z.of_nat d)%Z) /\ ok_counts kinds t x = true.
  Proof.
    unfold structs. rewrite filter_In, in_words. split.
    - intros [[H1 H2] H3]. split; auto. split; auto. intros s Hs. apply H2 in Hs.
      apply in_options in Hs; auto. destruct Hs as [Hk Ha]. split; auto.
      unfold has_arrow in Ha. destruct (Z.leb_spec 0 (fst s)).
      + destruct (Ha eq_refl) as [a [Hin ->]]. apply in_seq in Hin. lia.
      + lia.
    - intros [H1 [H2 H3]]. repeat split; auto. intros s Hs. apply H2 in Hs. destruct Hs as [Hk Hd].
      apply in_options; auto. split; auto. unfold has_arrow. intros Ha. apply Z.leb_le in Ha.
      exists (Z.to_nat (fst s)). split; [apply in_seq; lia|lia].
  Qed.

  Lemma kcount_perm kd x y : Permutation x y -> kcount kd x = kcount kd y.
  Proof. intros H. unfold kcount. rewrite !length_filter_sumf. apply sumf_perm; auto. Qed.
  Lemma ok_counts_perm t x y : Permutation x y -> ok_counts kinds t x = ok_counts kinds t y.
  Proof.
    intros H. unfold ok_counts. induction (combine kinds t) as [|[kd c] l IH]; cbn; auto.
    rewrite IH, (kcount_perm kd x y); auto.
  Qed.

  Variables (p sigma : list nat).
  Hypothesis Hp : is_perm n p.
  Hypothesis Hs : is_perm d sigma.
  Variable cs : list (list nat).
  Hypothesis Hcs : cycle_decomposition p cs.
  Let D : site := (-1, 0)%Z.
  Let Ls := map (@length nat) cs.

  Lemma order_perm : is_perm n (concat cs).
  Proof. destruct Hcs as [H _], Hp as [Hl _]. rewrite Hl in H. apply is_perm_permutation. auto. Qed.

  Lemma act_concat x : act D (concat cs) x = concat (map (fun c => act D c x) cs).
  Proof. unfold act. rewrite concat_map. auto. Qed.

  Lemma fixed_iff x : length x = n -> (act_op (p, sigma) x = x <->
    forall c k, In c cs -> k < length c -> nth k (act D c x) D = turn sigma (nth (S k mod length c) (act D c x) D)).
  Proof.
    intros Hl. destruct Hcs as [Hperm Hcyc]. rewrite Forall_forall in Hcyc. pose proof Hp as [Hpl [_ Hpr]].
    assert (Hcn : forall c k, In c cs -> k < length c -> nth k c 0 < n).
    { intros c k Hc Hk. assert (In (nth k c 0) (concat cs)) as Hin by (apply in_concat; exists c; split; auto; apply nth_In; auto).
      apply (Permutation_in _ Hperm) in Hin. apply in_seq in Hin. lia. }
    assert (Hact : forall j, j < n -> nth j (act_op (p, sigma) x) D = turn sigma (nth (nth j p 0) x D)).
    { intros j Hj. unfold act_op. cbn [fst snd]. rewrite nth_map_lt with (d := D) by (rewrite act_length; lia).
      rewrite nth_act by lia. auto. }
    assert (Hnth : forall c k, In c cs -> k < length c ->
       nth k (act D c x) D = nth (nth k c 0) x D /\
       nth (S k mod length c) (act D c x) D = nth (nth (nth k c 0) p 0) x D).
    { intros c k Hc Hk. assert (length c <> 0) by lia. rewrite !nth_act by (auto; apply Nat.mod_upper_bound; auto).
      split; auto. destruct (Hcyc c Hc) as [_ [_ Hr]]. rewrite Hr; auto. }
    split.
    - intros E c k Hc Hk. destruct (Hnth c k Hc Hk) as [-> ->]. rewrite <- E at 1. apply Hact. auto.
    - intros H. apply nth_ext with (d := D) (d' := D).
      + rewrite act_op_length. cbn. lia.
      + rewrite act_op_length. cbn [fst]. rewrite Hpl. intros j Hj. rewrite Hact by auto.
        assert (In j (concat cs)) as Hin.
        { apply (Permutation_in _ (Permutation_sym Hperm)). apply in_seq. lia. }
        apply in_concat in Hin. destruct Hin as [c [Hc Hin]]. apply In_nth with (d := 0) in Hin. destruct Hin as [k [Hk Ek]].
        specialize (H c k Hc Hk). destruct (Hnth c k Hc Hk) as [E1 E2]. rewrite E1, E2, Ek in H. auto.
  Qed.

  (** A value is one of the options of a cycle of length L iff turning it L times changes nothing. *)
  Lemma options_fixed y L : In (skeleton y) kinds -> (fst y < Z.of_nat d)%Z ->
    In y (options kinds (fixed_directions sigma L)) <-> Nat.iter L (turn sigma) y = y.
  Proof.
    intros Hk Hd. pose proof Hs as [Hsl _]. rewrite in_options by auto.
    destruct (has_arrow y) eqn:Ea.
    - assert (exists a, y = (Z.of_nat a, snd y) /\ a < d) as [a [Ey Had]].
      { unfold has_arrow in Ea. apply Z.leb_le in Ea. exists (Z.to_nat (fst y)). destruct y; cbn in *. split; [f_equal|]; lia. }
      destruct (iter_turn_arrow sigma L a (snd y)) as [E1 E2]; [rewrite Hsl; auto|lia|].
      rewrite <- Ey in E1. rewrite E1. unfold fixed_directions. split.
      + intros [_ H]. destruct (H eq_refl) as [b [Hb Eb]]. rewrite Ey in Eb. cbn in Eb. apply Nat2Z.inj in Eb. subst b.
        apply filter_In in Hb. destruct Hb as [_ Hb]. apply Nat.eqb_eq in Hb. rewrite Hb. auto.
      + intros E. split; auto. intros _. exists a. split; [|rewrite Ey; auto].
        apply filter_In. split; [apply in_seq; lia|]. apply Nat.eqb_eq. rewrite Ey in E. inversion E. lia.
    - split; [intros _; apply iter_turn_plain; auto|]. intros _. split; auto. discriminate.
  Qed.
  Lemma options_ok y L : In y (options kinds (fixed_directions sigma L)) -> In (skeleton y) kinds /\ (fst y < Z.of_nat d)%Z.
  Proof.
    intros H. apply in_options in H; auto. destruct H as [H1 H2]. split; auto.
    unfold has_arrow in H2. destruct (Z.leb_spec 0 (fst y)); [|lia].
    destruct (H2 eq_refl) as [a [Ha ->]]. apply filter_In in Ha. destruct Ha as [Ha _]. apply in_seq in Ha.
    destruct Hs as [Hsl _]. lia.
  Qed.
  Lemma iter_turn_below y k : (fst y < Z.of_nat d)%Z -> (fst (Nat.iter k (turn sigma) y) < Z.of_nat d)%Z.
  Proof.
    intros H. destruct (has_arrow y) eqn:Ea.
    - assert (exists a, y = (Z.of_nat a, snd y) /\ a < d) as [a [Ey Had]].
      { unfold has_arrow in Ea. apply Z.leb_le in Ea. exists (Z.to_nat (fst y)). destruct y; cbn in *. split; [f_equal|]; lia. }
      pose proof Hs as [Hsl _].
      destruct (iter_turn_arrow sigma k a (snd y)) as [E1 E2]; [rewrite Hsl; auto|lia|].
      rewrite Ey, E1. cbn. lia.
    - rewrite iter_turn_plain; auto.
  Qed.

  Lemma blocks x ys : length ys = length cs ->
    concat (map (fun c => act D c x) cs) = assemble sigma Ls ys <->
    Forall2 (fun c y => act D c x = spin sigma (length c) y) cs ys.
  Proof.
    clear Hcs. unfold assemble, Ls. revert ys. induction cs as [|c cs' IH]; intros [|y ys] Hl; cbn in *; try lia.
    - split; auto.
    - split.
      + intros E. apply app_eq_length in E.
        * destruct E as [E1 E2]. constructor; auto. apply IH; auto.
        * rewrite act_length, spin_length. auto.
      + intros H. inversion H; subst. rewrite H3. f_equal. apply IH; auto.
  Qed.

  Theorem fixed_count t : length t = length kinds ->
    length (filter (fun x => w_eqb (act_op (p, sigma) x) x) (structs t)) =
    cw (flags kinds) (map (fun c => (length c, length (fixed_directions sigma (length c)))) cs) t.
  Proof.
    intros Ht. pose proof order_perm as Ho. pose proof Hcs as [Hperm Hcyc]. rewrite Forall_forall in Hcyc.
    rewrite <- (map_map (@length nat) (fun L => (L, length (fixed_directions sigma L)))). fold Ls.
    rewrite <- (count_choices kinds kinds_nodup kinds_skel sigma Ls t Ht).
    rewrite <- (map_length (act D (concat cs)) (filter (fun x => w_eqb (act_op (p, sigma) x) x) (structs t))).
    rewrite <- (map_length (assemble sigma Ls) (filter (fun ys => ok_counts kinds t (assemble sigma Ls ys)) (choices kinds sigma Ls))).
    assert (Hpos : forall c, In c cs -> 0 < length c).
    { intros c Hc. destruct (Hcyc c Hc) as [Hne _]. destruct c; [congruence|cbn; lia]. }
    apply Permutation_length. apply NoDup_Permutation.
    - apply NoDup_map_inj; [|apply NoDup_filter, structs_nodup].
      intros x y Hx Hy E. apply filter_In in Hx, Hy. destruct Hx as [Hx _], Hy as [Hy _]. apply in_structs in Hx, Hy.
      apply (act_inj D n (concat cs)); auto; tauto.
    - apply NoDup_map_inj; [|apply NoDup_filter].
      + intros y z Hy Hz E. apply filter_In in Hy, Hz. destruct Hy as [Hy _], Hz as [Hz _].
        unfold choices in Hy, Hz. apply in_lproduct in Hy, Hz.
        assert (length y = length cs) as L1.
        { apply Forall2_length in Hy. unfold Ls in Hy. rewrite !map_length in Hy. auto. }
        assert (length z = length cs) as L2.
        { apply Forall2_length in Hz. unfold Ls in Hz. rewrite !map_length in Hz. auto. }
        clear - E L1 L2 Hpos. unfold assemble, Ls in E. revert y z L1 L2 E.
        induction cs as [|c cs' IH]; intros [|a y] [|b z] L1 L2 E; cbn in *; try lia; auto.
        apply app_eq_length in E; [|rewrite !spin_length; auto]. destruct E as [E1 E2].
        apply spin_inj in E1; [|apply Hpos; auto]. subst. f_equal. apply IH; auto.
      + unfold choices. apply NoDup_lproduct. apply Forall_forall. intros l Hl. apply in_map_iff in Hl.
        destruct Hl as [L [<- _]]. apply options_nodup; auto. apply NoDup_filter, seq_NoDup.
    - intros z. rewrite !in_map_iff. split.
      + intros [x [<- Hx]]. apply filter_In in Hx. destruct Hx as [Hx Hf]. apply w_eqb_spec in Hf.
        apply in_structs in Hx. destruct Hx as [Hl [Hx Hok]].
        pose proof (proj1 (fixed_iff x Hl) Hf) as Hr.
        exists (map (fun c => nth (length c - 1) (act D c x) D) cs).
        assert (assemble sigma Ls (map (fun c => nth (length c - 1) (act D c x) D) cs) = act D (concat cs) x) as E.
        { rewrite act_concat. symmetry. apply blocks; [apply map_length|].
          clear - Hr Hpos. induction cs as [|c cs' IH]; cbn; constructor.
          - apply spin_rule; [apply act_length|apply Hpos; cbn; auto|]. intros k Hk. apply Hr; cbn; auto.
          - apply IH; intros; [apply Hpos|apply Hr]; cbn; auto. }
        split; auto. apply filter_In. split.
        * unfold choices. apply in_lproduct. unfold Ls. rewrite map_map.
          assert (forall c, In c cs -> In (nth (length c - 1) (act D c x) D) (options kinds (fixed_directions sigma (length c)))) as Hopt.
          { intros c Hc. specialize (Hpos c Hc).
            assert (In (nth (length c - 1) (act D c x) D) x) as Hin.
            { rewrite nth_act by lia. apply nth_In. rewrite Hl.
              assert (In (nth (length c - 1) c 0) (concat cs)) as H1 by (apply in_concat; exists c; split; auto; apply nth_In; lia).
              destruct Ho as [_ [_ Hor]]. auto. }
            apply options_fixed; [apply Hx; auto|apply Hx; auto|].
            apply spin_rule; [apply act_length|auto|]. intros k Hk. apply Hr; auto. }
          clear - Hopt. induction cs as [|c cs' IH]; cbn; constructor; auto.
          -- apply Hopt; cbn; auto.
          -- apply IH. intros; apply Hopt; cbn; auto.
        * rewrite E. rewrite (ok_counts_perm t _ x); auto. apply (act_permutation D n); auto.
      + intros [ys [<- Hys]]. apply filter_In in Hys. destruct Hys as [Hys Hok].
        unfold choices in Hys. apply in_lproduct in Hys.
        assert (length ys = length cs) as Hly.
        { apply Forall2_length in Hys. unfold Ls in Hys. rewrite !map_length in Hys. auto. }
        assert (Hz : length (assemble sigma Ls ys) = n).
        { rewrite <- (proj1 Ho). unfold assemble, Ls. clear - Hly. revert ys Hly.
          induction cs as [|c cs' IH]; intros [|y ys] Hl; cbn in *; try lia; auto.
          rewrite !app_length, spin_length, IH; auto. }
        set (z := assemble sigma Ls ys) in *.
        exists (act D (invp n (concat cs)) z).
        assert (Hl : length (act D (invp n (concat cs)) z) = n) by (rewrite act_length; apply invp_perm; auto).
        assert (Ez : act D (concat cs) (act D (invp n (concat cs)) z) = z).
        { rewrite <- (act_comp D n) by (auto; apply invp_perm; auto). rewrite comp_invp_r by auto.
          rewrite <- Hz. apply act_id. }
        split; auto. set (x := act D (invp n (concat cs)) z) in *.
        assert (Hbl : Forall2 (fun c y => act D c x = spin sigma (length c) y) cs ys).
        { apply blocks; auto. rewrite <- act_concat. auto. }
        assert (Hpxz : Permutation x z) by (apply (act_permutation D n); auto; apply invp_perm; auto).
        assert (Hyopt : forall c y, In (c, y) (combine cs ys) -> In y (options kinds (fixed_directions sigma (length c)))).
        { clear - Hys Hly. unfold Ls in Hys. rewrite map_map in Hys. revert ys Hys Hly.
          induction cs as [|c cs' IH]; intros [|y ys] H Hl c0 y0; cbn in *; try tauto; try lia.
          inversion H; subst. intros [E|Hin]; [inversion E; subst; auto|]. eapply IH; eauto. }
        apply filter_In. split.
        * apply in_structs. split; auto. split.
          -- intros s Hsx. apply (Permutation_in _ Hpxz) in Hsx. unfold z, assemble in Hsx.
             apply in_concat in Hsx. destruct Hsx as [l [Hl' Hsl]]. apply in_map_iff in Hl'. destruct Hl' as [[L y] [<- Hin]].
             unfold spin in Hsl. apply in_map_iff in Hsl. destruct Hsl as [k [<- _]].
             assert (exists c, In (c, y) (combine cs ys)) as [c Hc].
             { clear - Hin. unfold Ls in Hin. revert ys Hin. induction cs as [|c cs' IH]; intros [|y' ys] Hin; cbn in *; try tauto.
               destruct Hin as [E|Hin]; [inversion E; subst; eexists; left; reflexivity|]. destruct (IH ys Hin) as [c' ?]. exists c'. auto. }
             apply Hyopt in Hc. apply options_ok in Hc. rewrite iter_turn_skeleton. split; [tauto|]. apply iter_turn_below. tauto.
          -- rewrite (ok_counts_perm t x z); auto.
        * apply w_eqb_spec. apply fixed_iff; auto. intros c k Hc Hk.
          assert (exists y, In (c, y) (combine cs ys) /\ act D c x = spin sigma (length c) y) as [y [Hin E]].
          { revert Hbl Hc. clear. clearbody x. clear z. revert ys. induction cs as [|c' cs' IH]; intros ys H Hc; cbn in *; [tauto|].
            inversion H; subst. destruct Hc as [->|Hc]; [exists y; cbn; auto|].
            destruct (IH _ H4 Hc) as [y' [? ?]]. exists y'. cbn. auto. }
          rewrite E. apply spin_rule'; [apply Hpos; auto| |auto].
          apply Hyopt in Hin. apply options_fixed; auto; apply options_ok in Hin; tauto.
  Qed.
End Fixed.
