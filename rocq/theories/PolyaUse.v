(** From [polya_orbits] to the statements about decorated structures and the enumeration. *)
From Coq Require Import Permutation.
From Verif Require Import PyBase Spec ListFacts PermFacts PhononsModel HashProofs ColorProofs DecoFacts MultiProofs TransFacts PolyaModel PolyaSpec Burnside CycleProofs PolyaCount
  FloatProofs ChooseProofs PolyaCoeff PolyaTerm PolyaSum PolyaMain PolyaThm.

Lemma transversal_iff {A} (P Q : A -> Prop) R reps : (forall x, P x <-> Q x) -> transversal P R reps -> transversal Q R reps.
Proof. intros H [H1 [H2 H3]]. split; [|split]; auto; intros; [apply H; auto|apply H2; apply H; auto]. Qed.
Lemma transversal_eqv {A} (P : A -> Prop) (R S : A -> A -> Prop) reps : (forall x y, P x -> P y -> R x y <-> S x y) ->
  transversal P R reps -> transversal P S reps.
Proof.
  intros H [H1 [H2 H3]]. split; [|split]; auto.
  - intros x Hx. destruct (H2 x Hx) as [r [Hr E]]. exists r. split; auto. apply H; auto.
  - eapply FOP_impl; [|exact H3]. cbn. intros a b Ha Hb Hn HS. apply Hn. apply H; auto.
Qed.

(** Every finite set has a transversal for a decidable relation. *)
Lemma greedy_transversal {A} (R : A -> A -> Prop) (rb : A -> A -> bool) (l : list A) : (forall x y, rb x y = true <-> R x y) ->
  (forall x, In x l -> R x x) -> (forall x y, In x l -> In y l -> R x y -> R y x) -> exists reps, transversal (fun x => In x l) R reps.
Proof.
  intros Hrb. induction l as [|a l IH]; intros Hr Hs.
  - exists []. split; [|split]; [intros ? []|intros ? []|constructor].
  - destruct IH as [reps [H1 [H2 H3]]]; [intros; apply Hr; cbn; auto|intros; apply Hs; cbn; auto|].
    destruct (existsb (rb a) reps) eqn:E.
    + exists reps. apply existsb_exists in E. destruct E as [r [Hrr E]]. apply Hrb in E.
      split; [|split]; auto; [intros; cbn; auto|]. intros x [<-|Hx]; [exists r; auto|auto].
    + exists (a :: reps). split; [|split].
      * intros r [<-|Hrr]; cbn; auto.
      * intros x [<-|Hx]; [exists a; split; cbn; auto; apply Hr; cbn; auto|]. destruct (H2 x Hx) as [r [Hrr HR]]. exists r. cbn; auto.
      * constructor; auto. apply Forall_forall. intros r Hrr HR. assert (existsb (rb a) reps = true); [|congruence].
        apply existsb_exists. exists r. split; auto. apply Hrb; auto.
Qed.

Definition site_dec : forall a b : site, {a = b} + {a <> b}.
Proof. decide equality; apply Z.eq_dec. Defined.
Lemma site_eqb_sym' a b : site_eqb a b = site_eqb b a.
Proof. apply eq_true_iff_eq. rewrite !site_eqb_spec. split; auto. Qed.
Lemma count_filter (l : list site) a : count_occ site_dec l a = length (filter (site_eqb a) l).
Proof.
  induction l as [|x l IH]; auto. cbn. destruct (site_dec x a) as [->|Hne].
  - assert (site_eqb a a = true) as -> by (apply site_eqb_spec; auto). cbn. auto.
  - destruct (site_eqb a x) eqn:E; auto. apply site_eqb_spec in E. congruence.
Qed.
Lemma kcount_count kd w : kcount kd w = count_occ site_dec (map skeleton w) kd.
Proof. unfold kcount. rewrite count_filter, filter_map, map_length. auto. Qed.

Lemma structs_perm kinds d n t base x : NoDup kinds -> (forall kd, In kd kinds -> skeleton kd = kd) ->
  (forall s, In s base -> In s kinds) -> length base = n -> length t = length kinds ->
  (forall i, i < length kinds -> nth i t 0%Z = Z.of_nat (count_occ site_dec base (nth i kinds (0, 0)%Z))) ->
  In x (structs kinds d n t) <-> Permutation (map skeleton x) base /\ directions_below (Z.of_nat d) x.
Proof.
  intros Hnd Hsk Hb Hl Ht Hc. rewrite in_structs by auto. split.
  - intros [H1 [H2 H3]]. split; [|intros s Hs; apply H2; auto].
    apply (Permutation_count_occ site_dec). intros kd. destruct (in_dec site_dec kd kinds) as [Hin|Hn].
    + apply In_nth with (d := (0,0)%Z) in Hin. destruct Hin as [i [Hi <-]]. pose proof (proj1 (ok_counts_spec kinds t x Ht) H3 i Hi) as E.
      rewrite Hc in E by auto. rewrite kcount_count in E. lia.
    + rewrite (proj1 (count_occ_not_In site_dec base kd)) by (intros H; apply Hn, Hb; auto). apply count_occ_not_In.
      intros H. apply in_map_iff in H. destruct H as [s [<- Hs]]. apply Hn. apply H2; auto.
  - intros [H1 H2]. split; [apply Permutation_length in H1; rewrite map_length in H1; lia|]. split.
    + intros s Hs. split; [|apply H2; auto]. apply Hb. apply (Permutation_in _ H1), in_map; auto.
    + apply ok_counts_spec; auto. intros i Hi. rewrite Hc by auto. rewrite kcount_count. f_equal.
      symmetry. apply Permutation_count_occ. auto.
Qed.

(** ** The bound *)
Lemma wt_count d : forall fl concs, length fl = length concs -> wt d fl concs = d ^ arrow_sites concs fl.
Proof.
  unfold arrow_sites. induction fl as [|f fl IH]; intros [|c concs] H; cbn in *; try lia; auto.
  rewrite IH by lia. destruct f; rewrite ?Nat.pow_add_r; cbn; lia.
Qed.
Lemma bound_split n g N : (Z.of_nat (max n g) * Z.of_nat N < 2 ^ 53)%Z -> (Z.of_nat n * Z.of_nat N < 2 ^ 53)%Z /\ (Z.of_nat g * Z.of_nat N < 2 ^ 53)%Z.
Proof. intros H. split; nia. Qed.

Lemma map_const {A B} (b : B) (l : list A) : map (fun _ => b) l = repeat b (length l).
Proof. induction l; cbn; congruence. Qed.
Lemma map_nth_seq (l : list nat) : map (fun i => nth i l 0) (seq 0 (length l)) = l.
Proof.
  apply nth_ext with (d := 0) (d' := 0); [rewrite map_length, seq_length; auto|]. rewrite map_length, seq_length. intros i Hi.
  rewrite nth_map_lt with (d := 0) by (rewrite seq_length; auto). rewrite seq_nth; auto.
Qed.
Lemma arrow_flags_last k a : a <= k -> arrow_flags k a = last_ones k a.
Proof.
  intros H. unfold arrow_flags, last_ones. replace (seq 0 k) with (seq 0 (k - a) ++ seq (k - a) a) by (rewrite <- seq_app; f_equal; lia).
  rewrite map_app. f_equal.
  - rewrite (map_ext_in _ (fun _ => false)).
    + rewrite map_const, seq_length. auto.
    + intros i Hi. apply in_seq in Hi. apply Nat.leb_gt. lia.
  - rewrite (map_ext_in _ (fun _ => true)).
    + rewrite map_const, seq_length. auto.
    + intros i Hi. apply in_seq in Hi. apply Nat.leb_le. lia.
Qed.

(** ** Species numbered 1, 2, ... *)
Section Standard.
  Variables (concs : list nat) (fl : list bool) (d : nat).
  Let k := length concs.
  Definition std_kind (i : nat) : site := (if nth i fl false then 0 else -1, Z.of_nat (S i))%Z.
  Definition std_kinds : list site := map std_kind (seq 0 k).

  Lemma std_nodup : NoDup std_kinds.
  Proof. apply NoDup_map_inj; [|apply seq_NoDup]. intros x y _ _ E. inversion E. lia. Qed.
  Lemma std_skel kd : In kd std_kinds -> skeleton kd = kd.
  Proof.
    intros H. apply in_map_iff in H. destruct H as [i [<- _]]. unfold std_kind, skeleton, has_arrow. cbn.
    destruct (nth i fl false); auto.
  Qed.
  Lemma std_length : length std_kinds = k.
  Proof. unfold std_kinds. rewrite map_length, seq_length. auto. Qed.
  Lemma std_flags : length fl = k -> map has_arrow std_kinds = fl.
  Proof.
    intros Hl. apply nth_ext with (d := false) (d' := false); [rewrite map_length, std_length; auto|].
    rewrite map_length, std_length. intros i Hi. rewrite nth_map_lt with (d := std_kind 0) by (rewrite std_length; auto).
    unfold std_kinds. rewrite nth_map_lt with (d := 0) by (rewrite seq_length; auto). rewrite seq_nth by auto.
    unfold std_kind, has_arrow. cbn. destruct (nth i fl false); auto.
  Qed.
  Lemma std_nth i : i < k -> nth i std_kinds (0, 0)%Z = std_kind i.
  Proof. intros Hi. unfold std_kinds. rewrite nth_map_lt with (d := 0) by (rewrite seq_length; auto). rewrite seq_nth; auto. Qed.

  Lemma std_structs x : In x (structs std_kinds d (sum_nat concs) (map Z.of_nat concs)) <-> decorated concs fl d x.
  Proof.
    rewrite in_structs by (auto using std_nodup, std_skel).
    assert (Hin : forall s, In (skeleton s) std_kinds /\ (fst s < Z.of_nat d)%Z <->
              exists i, i < k /\ snd s = Z.of_nat (S i) /\ if nth i fl false then (0 <= fst s < Z.of_nat d)%Z else fst s = (-1)%Z /\ (-1 < Z.of_nat d)%Z).
    { intros s. split.
      - intros [H Hd]. apply in_map_iff in H. destruct H as [i [E Hi]]. apply in_seq in Hi. exists i. split; [lia|].
        unfold std_kind, skeleton in E. injection E as E1 E2. split; auto. destruct (nth i fl false).
        + unfold has_arrow in E1. destruct (Z.leb_spec 0 (fst s)); lia.
        + unfold has_arrow in E1. destruct (Z.leb_spec 0 (fst s)); lia.
      - intros [i [Hi [E1 E2]]]. split.
        + apply in_map_iff. exists i. split; [|apply in_seq; lia]. unfold std_kind, skeleton, has_arrow. rewrite E1.
          destruct (nth i fl false); destruct (Z.leb_spec 0 (fst s)); try lia; f_equal; lia.
        + destruct (nth i fl false); lia. }
    assert (Hcount : forall i, i < k -> (forall s, In s x -> In (skeleton s) std_kinds) ->
       kcount (nth i std_kinds (0,0)%Z) x = length (filter (fun s => Z.eqb (snd s) (Z.of_nat (S i))) x)).
    { intros i Hi Hall. rewrite std_nth by auto. unfold kcount. f_equal. apply filter_ext_in. intros s Hs.
      specialize (Hall s Hs). apply in_map_iff in Hall. destruct Hall as [j [E Hj]]. rewrite <- E. apply eq_true_iff_eq.
      rewrite site_eqb_spec, Z.eqb_eq. unfold std_kind, skeleton in *. inversion E. split.
      - intros E'. inversion E'. lia.
      - intros E'. assert (i = j) as -> by lia. auto. }
    split.
    - intros [H1 [H2 H3]]. split.
      + intros i Hi. rewrite <- Hcount; auto; [|intros; apply H2; auto].
        assert (length (map Z.of_nat concs) = length std_kinds) as Hlt by (rewrite map_length, std_length; auto).
        pose proof (proj1 (ok_counts_spec std_kinds _ x Hlt) H3 i) as E.
        rewrite std_length in E. specialize (E Hi). rewrite nth_of_nat in E. lia.
      + intros s Hs. specialize (H2 s Hs). apply Hin in H2. destruct H2 as [i [Hi [E1 E2]]]. exists i. split; auto. split; auto. destruct (nth i fl false); tauto.
    - intros [H1 H2]. assert (forall s, In s x -> In (skeleton s) std_kinds /\ (fst s < Z.of_nat d)%Z) as H3.
      { intros s Hs. apply Hin. destruct (H2 s Hs) as [i [Hi [E1 E2]]]. exists i. split; auto. split; auto. destruct (nth i fl false); auto. split; auto. lia. }
      split; [|split; auto].
      + (* the length *)
        assert (length x = sumf (fun i => length (filter (fun s => Z.eqb (snd s) (Z.of_nat (S i))) x)) (seq 0 k)) as ->.
        { rewrite (sumf_ext _ (fun i => sumf (fun s => b2n (Z.eqb (snd s) (Z.of_nat (S i)))) x)) by (intros; apply length_filter_sumf).
          rewrite sumf_swap. rewrite (sumf_ext _ (fun _ => 1)); [rewrite sumf_const; lia|]. intros s Hs.
          destruct (H2 s Hs) as [i [Hi [E _]]]. rewrite (sumf_ext _ (fun j => b2n (Nat.eqb j i))).
          - apply (sumf_one Nat.eqb Nat.eqb_eq); [apply seq_NoDup|apply in_seq; lia].
          - intros j _. f_equal. apply eq_true_iff_eq. rewrite Z.eqb_eq, Nat.eqb_eq. lia. }
        rewrite (sumf_ext _ (fun i => nth i concs 0)) by (intros i Hi; apply in_seq in Hi; apply H1; unfold k in *; lia).
        unfold sumf. rewrite map_nth_seq. auto.
      + apply ok_counts_spec; [rewrite map_length, std_length; auto|]. rewrite std_length. intros i Hi.
        rewrite Hcount; auto; [|intros; apply H3; auto]. rewrite H1 by auto. rewrite nth_of_nat. auto.
  Qed.
End Standard.

(** ** The composition of a decorated list *)
Lemma first_occ_split p q : Forall (fun s => has_arrow s = false) p -> Forall (fun s => has_arrow s = true) q ->
  exists P Q, first_occurrences site_eqb (p ++ q) = P ++ Q /\ Forall (fun s => has_arrow s = false) P /\ Forall (fun s => has_arrow s = true) Q.
Proof.
  intros Hp. induction q as [|s q IH] using rev_ind; intros Hq.
  - rewrite app_nil_r. exists (first_occurrences site_eqb p), []. rewrite app_nil_r. repeat split; auto.
    apply Forall_forall. intros s Hs. apply first_occ_In in Hs; [|apply site_eqb_spec]. rewrite Forall_forall in Hp. auto.
  - apply Forall_app in Hq. destruct Hq as [Hq Hs]. destruct (IH Hq) as [P [Q [E [HP HQ]]]].
    rewrite app_assoc, first_occ_snoc. unfold fo_step. destruct (existsb _ _); [exists P, Q; auto|].
    exists P, (Q ++ [s]). rewrite E, app_assoc. repeat split; auto. apply Forall_app. auto.
Qed.
Lemma sorted_by_In {A} (key : A -> nat) l x : In x (sorted_by key l) -> In x l.
Proof.
  induction l as [|a l IH]; cbn; auto. intros H.
  assert (forall m, In x (insert_by key a m) -> x = a \/ In x m) as Hins.
  { clear. induction m as [|y m IH]; cbn; [intuition|]. destruct (_ <=? _); cbn; intuition. }
  apply Hins in H. destruct H as [->|H]; auto.
Qed.
Lemma col_sort_split l : exists p q, col_sort l = p ++ q /\ Forall (fun s => has_arrow s = false) p /\ Forall (fun s => has_arrow s = true) q.
Proof.
  unfold col_sort. eexists _, _. split; [reflexivity|]. split; apply Forall_forall; intros s Hs; apply sorted_by_In in Hs;
    apply filter_In in Hs; destruct Hs as [_ Hs]; unfold has_arrow.
  - apply Z.ltb_lt in Hs. apply Z.leb_gt. auto.
  - apply andb_true_iff in Hs. apply Hs.
Qed.

Section Composition.
  Variable cwa : list site.
  Hypothesis Hcons : forall s t, In s cwa -> In t cwa -> skeleton s = skeleton t -> s = t.
  Let F := first_occurrences site_eqb cwa.
  Definition cwa_kinds : list site := map skeleton F.
  Definition cwa_concs : list nat := map (multiplicity site_eqb cwa) F.

  Lemma skel_skel s : skeleton (skeleton s) = skeleton s.
  Proof. unfold skeleton, has_arrow. destruct (Z.leb_spec 0 (fst s)); cbn; auto. destruct (Z.leb_spec 0 (fst s)); auto; lia. Qed.
  Lemma skel_arrow s : has_arrow (skeleton s) = has_arrow s.
  Proof. unfold skeleton, has_arrow. destruct (Z.leb_spec 0 (fst s)); cbn; auto. destruct (Z.leb_spec 0 (fst s)); auto; lia. Qed.
  Lemma F_in s : In s F <-> In s cwa.
  Proof. apply first_occ_In. apply site_eqb_spec. Qed.
  Lemma F_nodup : NoDup F.
  Proof. apply first_occ_NoDup. apply site_eqb_spec. Qed.
  Lemma cwa_kinds_nodup : NoDup cwa_kinds.
  Proof. apply NoDup_map_inj; [|apply F_nodup]. intros x y Hx Hy. apply Hcons; apply F_in; auto. Qed.
  Lemma cwa_kinds_skel kd : In kd cwa_kinds -> skeleton kd = kd.
  Proof. intros H. apply in_map_iff in H. destruct H as [s [<- _]]. apply skel_skel. Qed.

  Lemma cwa_count s : In s cwa -> multiplicity site_eqb cwa s = count_occ site_dec (map skeleton cwa) (skeleton s).
  Proof.
    intros Hs. rewrite count_filter, filter_map, map_length. unfold multiplicity. f_equal. apply filter_ext_in. intros t Ht.
    apply eq_true_iff_eq. rewrite !site_eqb_spec. split; [congruence|]. apply Hcons; auto.
  Qed.
  Lemma cwa_structs d x : In x (structs cwa_kinds d (length cwa) (map Z.of_nat cwa_concs)) <->
    Permutation (map skeleton x) (map skeleton cwa) /\ directions_below (Z.of_nat d) x.
  Proof.
    apply structs_perm.
    - apply cwa_kinds_nodup.
    - apply cwa_kinds_skel.
    - intros s Hs. apply in_map_iff in Hs. destruct Hs as [t [<- Ht]]. apply in_map. apply F_in. auto.
    - apply map_length.
    - unfold cwa_concs, cwa_kinds. rewrite !map_length. auto.
    - unfold cwa_kinds. rewrite map_length. intros i Hi. rewrite nth_of_nat. f_equal. unfold cwa_concs.
      rewrite nth_map_lt with (d := (0,0)%Z) by auto. rewrite nth_map_lt with (d := (0,0)%Z) by auto. apply cwa_count.
      apply F_in. apply nth_In. auto.
  Qed.
  Lemma cwa_sum : sum_nat cwa_concs = length cwa.
  Proof.
    unfold cwa_concs. change (sumf (multiplicity site_eqb cwa) F = length cwa). unfold multiplicity.
    rewrite (sumf_ext _ (fun s => sumf (fun t => b2n (site_eqb s t)) cwa)) by (intros; apply length_filter_sumf).
    rewrite sumf_swap. rewrite (sumf_ext _ (fun _ => 1)); [rewrite sumf_const; lia|]. intros t Ht.
    apply (sumf_one site_eqb site_eqb_spec F t); [apply F_nodup|apply F_in; auto].
  Qed.

  (** The number of arrowed species. *)
  Lemma species_fold (l : list site) : forall n sp,
    fold_left (fun st (i : site) => if arrowed i then
                (S (fst st), if existsb (Z.eqb (snd i)) (snd st) then snd st else snd st ++ [snd i]) else st) l (n, sp) =
    (n + length (filter has_arrow l), fold_left (fun seen a => if existsb (Z.eqb a) seen then seen else seen ++ [a]) (map snd (filter has_arrow l)) sp).
  Proof.
    induction l as [|s l IH]; intros n sp; cbn; [f_equal; lia|]. change (arrowed s) with (has_arrow s).
    destruct (has_arrow s); rewrite IH; cbn; f_equal; lia.
  Qed.
  Lemma arrow_types_count : snd (fst (how_many_arrows cwa)) = length (filter has_arrow F).
  Proof.
    unfold how_many_arrows. rewrite species_fold. cbn [fst snd].
    change (fold_left _ (map snd (filter has_arrow cwa)) []) with (first_occurrences Z.eqb (map snd (filter has_arrow cwa))).
    rewrite <- (map_length snd (filter has_arrow F)). apply Permutation_length. apply NoDup_Permutation.
    - apply first_occ_NoDup. apply Z.eqb_eq.
    - apply NoDup_map_inj; [|apply NoDup_filter, F_nodup]. intros s t Hs Ht E. apply filter_In in Hs, Ht.
      destruct Hs as [Hs As], Ht as [Ht At]. apply Hcons; try (apply F_in; auto). unfold skeleton. rewrite As, At, E. auto.
    - intros z. rewrite first_occ_In by apply Z.eqb_eq. rewrite !in_map_iff. split; intros [s [E Hs]]; exists s; split; auto;
        apply filter_In in Hs; apply filter_In; rewrite F_in in *; auto.
  Qed.
  Lemma cwa_how_many : how_many_arrows cwa = (length (filter has_arrow cwa), length (filter has_arrow F), cwa_concs).
  Proof.
    rewrite (surjective_pairing (how_many_arrows cwa)), (surjective_pairing (fst (how_many_arrows cwa))), arrow_types_count. f_equal.
    - f_equal. unfold how_many_arrows. rewrite species_fold. auto.
    - unfold how_many_arrows. cbn [snd]. rewrite find_concentrations_spec by apply site_eqb_spec.
      replace (somes (map Some cwa)) with cwa; auto. clear. unfold somes. induction cwa as [|x l IH]; cbn; [auto|]. rewrite <- IH. auto.
  Qed.

  Variables (p q : list site).
  Hypothesis Hpq : cwa = p ++ q.
  Hypothesis Hp : Forall (fun s => has_arrow s = false) p.
  Hypothesis Hq : Forall (fun s => has_arrow s = true) q.
  Lemma cwa_flags : map has_arrow cwa_kinds = arrow_flags (length cwa_concs) (length (filter has_arrow F)).
  Proof.
    unfold cwa_kinds, cwa_concs. rewrite map_map, !map_length. rewrite (map_ext (fun x => has_arrow (skeleton x)) has_arrow) by apply skel_arrow.
    unfold F. rewrite Hpq. destruct (first_occ_split p q Hp Hq) as [P [Q [-> [HP HQ]]]].
    rewrite filter_app, map_app, !app_length. rewrite (filter_none has_arrow P) by (rewrite Forall_forall in HP; auto).
    rewrite (filter_all has_arrow Q) by (rewrite Forall_forall in HQ; auto). cbn [length Nat.add]. unfold arrow_flags.
    replace (length P + length Q - length Q) with (length P) by lia. f_equal.
    - clear - HP. induction HP; cbn; congruence.
    - clear - HQ. induction HQ; cbn; congruence.
  Qed.
  Lemma arrow_sites_count : arrow_sites cwa_concs (map has_arrow cwa_kinds) = length (filter has_arrow cwa).
  Proof.
    unfold arrow_sites, cwa_concs, cwa_kinds. rewrite map_map. rewrite (map_ext (fun x => has_arrow (skeleton x)) has_arrow) by apply skel_arrow.
    transitivity (sumf (fun s => if has_arrow s then multiplicity site_eqb cwa s else 0) F).
    - unfold sumf, sum_nat. clear. induction F; cbn; auto.
    - rewrite (sumf_ext _ (fun s => sumf (fun t => if has_arrow t then b2n (site_eqb s t) else 0) cwa)).
      + rewrite sumf_swap, length_filter_sumf. apply sumf_ext. intros t Ht. destruct (has_arrow t); cbn [b2n]; [|apply sumf_zero].
        apply (sumf_one site_eqb site_eqb_spec F t); [apply F_nodup|apply F_in; auto].
      + intros s Hs. unfold multiplicity. rewrite length_filter_sumf. destruct (has_arrow s) eqn:E.
        * apply sumf_ext. intros t Ht. destruct (site_eqb s t) eqn:Est; [apply site_eqb_spec in Est; subst; rewrite E; auto|]. destruct (has_arrow t); auto.
        * symmetry. rewrite (sumf_ext _ (fun _ => 0)); [apply sumf_zero|]. intros t Ht. destruct (site_eqb s t) eqn:Est; [apply site_eqb_spec in Est; subst; rewrite E; auto|]. destruct (has_arrow t); auto.
  Qed.
End Composition.

(** ** Counting theorems *)
Theorem polya_decorated v concs G a n d reps : 0 < n -> 0 < d -> a <= length concs -> sum_nat concs = n -> op_group n d G -> NoDup G ->
  transversal (decorated concs (last_ones (length concs) a) d) (op_equiv G) reps ->
  (Z.of_nat (max n (length G)) * Z.of_nat (structure_count concs (last_ones (length concs) a) d) < 2 ^ 53)%Z ->
  polya v concs G a = Ok (Z.of_nat (length reps), G).
Proof.
  intros Hn Hd Ha Hs HG Hnd Hr HB. rewrite <- arrow_flags_last in * by auto.
  set (fl := arrow_flags (length concs) a) in *.
  assert (length fl = length concs) as Hfl by (unfold fl, arrow_flags; rewrite app_length, !repeat_length; lia).
  assert (structure_count concs fl d = mult concs * wt (max d 1) fl concs) as E.
  { unfold structure_count, mult. rewrite wt_count by auto. do 2 f_equal. lia. }
  rewrite E in HB. apply bound_split in HB. destruct HB as [HB1 HB2].
  apply (polya_orbits v (std_kinds concs fl) d n concs G a); auto.
  - apply std_nodup.
  - apply std_skel.
  - apply std_length.
  - apply std_flags; auto.
  - subst n. eapply transversal_iff; [|exact Hr]. intros x. symmetry. apply std_structs.
Qed.

Theorem transversal_exists concs G a n d : sum_nat concs = n -> op_group n d G ->
  exists reps, transversal (decorated concs (last_ones (length concs) a) d) (op_equiv G) reps.
Proof.
  intros Hs HG. set (fl := last_ones (length concs) a).
  destruct (greedy_transversal (op_equiv G) (fun x y => existsb (fun g => w_eqb y (act_op g x)) G)
      (structs (std_kinds concs fl) d n (map Z.of_nat concs))) as [reps Hr].
  - intros x y. rewrite existsb_exists. unfold op_equiv. split; intros [g [Hg E]]; exists g; split; auto; apply w_eqb_spec; auto.
  - intros x Hx. apply (op_equiv_refl n d (Z.of_nat d) G eq_refl HG).
    apply in_structs in Hx; [|apply std_skel]. destruct Hx as [H1 [H2 _]]. split; auto. intros s Hss. apply H2; auto.
  - intros x y Hx _. apply (op_equiv_sym n d (Z.of_nat d) G eq_refl HG).
    apply in_structs in Hx; [|apply std_skel]. destruct Hx as [H1 [H2 _]]. split; auto. intros s Hss. apply H2; auto.
  - exists reps. eapply transversal_iff; [|exact Hr]. intros x. subst n. apply std_structs.
Qed.

(** The composition as [how_many_arrows] reports it. *)
Theorem polya_cwa v cwa l G d reps : cwa = col_sort l -> cwa <> [] -> 0 < d -> op_group (length cwa) d G -> NoDup G ->
  (forall s t, In s cwa -> In t cwa -> skeleton s = skeleton t -> s = t) ->
  transversal (fun w => Permutation (map skeleton w) (map skeleton cwa) /\ directions_below (Z.of_nat d) w) (op_equiv G) reps ->
  (let '(n_arrows, arrow_types, concs) := how_many_arrows cwa in
   (Z.of_nat (max (length cwa) (length G)) * Z.of_nat (length (labelings concs) * d ^ n_arrows) < 2 ^ 53)%Z ->
   polya v concs G arrow_types = Ok (Z.of_nat (length reps), G)).
Proof.
  intros Hl Hne Hd HG Hnd Hcons Hr. rewrite cwa_how_many by auto. intros HB.
  destruct (col_sort_split l) as [p [q [E [Hp Hq]]]]. rewrite <- Hl in E.
  pose proof (cwa_flags cwa p q E Hp Hq) as Hfl.
  assert (0 < length cwa) as Hn by (destruct cwa; [congruence|cbn; lia]).
  rewrite <- (arrow_sites_count cwa Hcons p q E) in HB. rewrite <- wt_count in HB by (rewrite map_length; unfold cwa_concs, cwa_kinds; rewrite !map_length; auto).
  rewrite Hfl in HB. apply bound_split in HB. destruct HB as [HB1 HB2]. fold (mult (cwa_concs cwa)) in HB1, HB2.
  apply (polya_orbits v (cwa_kinds cwa) d (length cwa) (cwa_concs cwa) G); auto.
  - apply cwa_kinds_nodup; auto.
  - apply cwa_kinds_skel; auto.
  - unfold cwa_kinds, cwa_concs. rewrite !map_length. auto.
  - apply cwa_sum.
  - replace (max d 1) with d by lia. auto.
  - replace (max d 1) with d by lia. auto.
  - eapply transversal_iff; [|exact Hr]. intros x. symmetry. apply cwa_structs; auto.
Qed.

(** Without arrows, for the concentrations in any order and with absent species. *)
Theorem polya_plain v concs cwa G d reps : Permutation cwa (plain_sites concs) -> cwa <> [] -> 0 < d -> op_group (length cwa) d G -> NoDup G ->
  transversal (fun w => Permutation w cwa) (site_equiv G) reps ->
  (Z.of_nat (max (length cwa) (length G)) * Z.of_nat (length (labelings concs)) < 2 ^ 53)%Z ->
  polya v concs G 0 = Ok (Z.of_nat (length reps), G).
Proof.
  intros Hperm Hne Hd HG Hnd Hr HB.
  assert (Hno : forall s, In s cwa -> has_arrow s = false).
  { intros s Hs. apply (Permutation_in _ Hperm) in Hs. unfold plain_sites in Hs. apply in_flat_map in Hs.
    destruct Hs as [[i c] [_ Hs]]. apply repeat_spec in Hs. subst. auto. }
  assert (length cwa = sum_nat concs) as Hlen.
  { rewrite (Permutation_length Hperm). unfold plain_sites. clear. generalize 1. induction concs as [|c cs IH]; intros m; auto.
    cbn [length seq combine flat_map]. rewrite app_length, repeat_length, IH, sum_nat_cons. auto. }
  assert (Hfl : forall i, nth i (last_ones (length concs) 0) false = false).
  { intros i. destruct (nth_in_or_default i (last_ones (length concs) 0) false) as [H| ->]; auto.
    apply in_map_iff in H. destruct H as [j [<- Hj]]. apply in_seq in Hj. apply Nat.leb_gt. lia. }
  assert (Hiff : forall x, Permutation x cwa <-> decorated concs (last_ones (length concs) 0) d x).
  { intros x.
    assert (Hcnt : forall i, i < length concs -> length (filter (fun s => Z.eqb (snd s) (Z.of_nat (S i))) (plain_sites concs)) = nth i concs 0).
    { unfold plain_sites. assert (forall m i, i < length concs -> length (filter (fun s : site => Z.eqb (snd s) (Z.of_nat (m + i)))
          (flat_map (fun '(j, c) => repeat ((-1)%Z, Z.of_nat j) c) (combine (seq m (length concs)) concs))) = nth i concs 0) as H.
      { clear. assert (forall m cs i, i < m -> filter (fun s : site => Z.eqb (snd s) (Z.of_nat i))
          (flat_map (fun '(j, c) => repeat ((-1)%Z, Z.of_nat j) c) (combine (seq m (length cs)) cs)) = []) as Hz.
        { intros m cs i Hi. apply filter_none. intros s Hs. apply in_flat_map in Hs. destruct Hs as [[j c] [H1 H2]].
          apply repeat_spec in H2. subst. cbn. apply in_combine_l in H1. apply in_seq in H1. apply Z.eqb_neq. lia. }
        induction concs as [|c cs IH]; intros m i Hi; cbn [length] in Hi; [lia|]. cbn [length seq combine flat_map]. rewrite filter_app, app_length.
        destruct i as [|i].
        - rewrite Nat.add_0_r. rewrite (filter_all _ (repeat _ _)).
          + rewrite Hz by lia. rewrite repeat_length. cbn. lia.
          + intros s Hs. apply repeat_spec in Hs. subst. cbn. apply Z.eqb_refl.
        - rewrite (filter_none _ (repeat _ _)).
          + cbn [length Nat.add nth]. replace (m + S i) with (S m + i) by lia. apply IH. lia.
          + intros s Hs. apply repeat_spec in Hs. subst. cbn. apply Z.eqb_neq. lia. }
      intros i Hi. rewrite <- (H 1 i Hi). auto. }
    split.
    - intros Hx. pose proof (Permutation_trans Hx Hperm) as Hx'. split.
      + intros i Hi. rewrite <- Hcnt by auto. rewrite !length_filter_sumf. apply sumf_perm. auto.
      + intros s Hs. apply (Permutation_in _ Hx') in Hs. unfold plain_sites in Hs. apply in_flat_map in Hs. destruct Hs as [[j c] [H1 H2]].
        apply repeat_spec in H2. subst. apply in_combine_l in H1. apply in_seq in H1. exists (j - 1). rewrite Hfl. cbn. repeat split; lia.
    - intros [H1 H2]. etransitivity; [|symmetry; exact Hperm]. apply (Permutation_count_occ site_dec). intros s.
      rewrite !count_filter.
      assert (Hgen : forall l i, (forall s, In s l -> fst s = (-1)%Z) -> length (filter (site_eqb ((-1)%Z, i)) l) = length (filter (fun s => Z.eqb (snd s) i) l)).
      { intros l i Hall. f_equal. apply filter_ext_in. intros t Ht. apply eq_true_iff_eq. rewrite site_eqb_spec, Z.eqb_eq. specialize (Hall t Ht).
        destruct t; cbn in *. split; [congruence|]. intros ->. congruence. }
      assert (Hx1 : forall s, In s x -> fst s = (-1)%Z) by (intros t Ht; destruct (H2 t Ht) as [i [_ [_ E]]]; rewrite Hfl in E; auto).
      assert (Hc1 : forall s, In s (plain_sites concs) -> fst s = (-1)%Z).
      { intros t Ht. unfold plain_sites in Ht. apply in_flat_map in Ht. destruct Ht as [[j c] [_ Ht]]. apply repeat_spec in Ht. subst. auto. }
      assert (Hc2 : forall s, In s (plain_sites concs) -> exists i, i < length concs /\ snd s = Z.of_nat (S i)).
      { intros t Ht. unfold plain_sites in Ht. apply in_flat_map in Ht. destruct Ht as [[j c] [G1 G2]]. apply repeat_spec in G2. subst.
        apply in_combine_l in G1. apply in_seq in G1. exists (j - 1). cbn. split; lia. }
      destruct (in_dec site_dec s (x ++ plain_sites concs)) as [Hin|Hn].
      + assert (fst s = (-1)%Z /\ exists i, i < length concs /\ snd s = Z.of_nat (S i)) as [E1 [i [Hi E2]]].
        { apply in_app_iff in Hin. destruct Hin as [Hin|Hin]; [|auto]. split; auto. destruct (H2 s Hin) as [i [Hi [E _]]]. eauto. }
        destruct s as [s1 s2]. cbn [fst snd] in E1, E2. subst. rewrite !Hgen by auto. rewrite H1, Hcnt; auto.
      + rewrite !filter_none; auto.
        * intros t Ht. destruct (site_eqb s t) eqn:E; auto. apply site_eqb_spec in E. subst. exfalso. apply Hn, in_app_iff. auto.
        * intros t Ht. destruct (site_eqb s t) eqn:E; auto. apply site_eqb_spec in E. subst. exfalso. apply Hn, in_app_iff. auto. }
  apply (polya_decorated v concs G 0 (length cwa) d); auto; try lia.
  - destruct cwa; [congruence|cbn; lia].
  - eapply transversal_iff; [exact Hiff|]. eapply transversal_eqv; [|exact Hr].
    intros x y Hx Hy. unfold site_equiv, op_equiv.
    assert (forall g, In g G -> act_op g x = act (-1, 0)%Z (fst g) x) as E.
    { intros g Hg. unfold act_op. rewrite <- map_id. apply map_ext_in. intros s Hs.
      assert (In s x) as Hsx.
      { destruct HG as [Hp _]. destruct (Hp g Hg) as [P1 _]. apply (act_In (-1, 0)%Z (length cwa) (fst g)); auto. apply Permutation_length in Hx. auto. }
      unfold turn. rewrite Hno; auto. apply (Permutation_in _ Hx). auto. }
    split; intros [g [Hg H]]; exists g; split; auto; rewrite H; [symmetry|]; apply E; auto.
  - unfold structure_count. replace (arrow_sites concs (last_ones (length concs) 0)) with 0; [rewrite Nat.pow_0_r, Nat.mul_1_r; auto|].
    unfold arrow_sites. clear - Hfl. assert (forall fl, (forall i, nth i fl false = false) -> 0 = fold_right Nat.add 0 (map (fun '(c, f) => if f : bool then c else 0) (combine concs fl))) as H; [|auto].
    clear Hfl. induction concs as [|c cs IH]; intros fl H; auto. destruct fl as [|f fl]; auto. cbn. pose proof (H 0) as H0. cbn in H0. subst f. cbn. apply IH. intros i. apply (H (S i)).
Qed.
