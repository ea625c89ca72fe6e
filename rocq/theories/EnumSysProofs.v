(** [enum_sys] and [guess_and_check_brancher] (C40, C41, C52). *)
From Coq Require Import Permutation Sorted.
From Verif Require Import PyBase Spec ListFacts PermFacts NumericsModel PhononsModel TreeModel HashProofs CanonProofs TreeSearch BranchRun ColorProofs ArrowProofs DecoFacts ArrowEnum DecoBij
  BranchProofs BranchTheorems TransFacts PolyaModel PolyaSpec PolyaUse EnumSysModel DecoProofs SmallProofs.
Local Open Scope Z_scope.

Lemma multinomial_ok concs : concs <> [] -> exists m, NumericsModel.multinomial (map Z.of_nat concs) = Ok m.
Proof. destruct concs; [congruence|]. intros _. unfold NumericsModel.multinomial. cbn [map]. eauto. Qed.

(** ** Sampling *)
Lemma at_positions_sub {A} (S : list Z) (l : list A) : forall i, subseq (at_positions S i l) l.
Proof. induction l as [|a l IH]; intros i; cbn; [constructor|]. destruct (existsb _ S); cbn; [apply sub_keep|apply sub_skip]; auto. Qed.
Lemma subseq_In {A} (l m : list A) : subseq l m -> forall x, In x l -> In x m.
Proof. induction 1; cbn; auto; intros y Hy. destruct Hy; auto. Qed.
Lemma subseq_refl {A} (l : list A) : subseq l l.
Proof. induction l; [constructor|apply sub_keep; auto]. Qed.
Lemma subseq_FOP {A} (R : A -> A -> Prop) l m : subseq l m -> ForallOrdPairs R m -> ForallOrdPairs R l.
Proof.
  induction 1; intros HF; auto; inversion HF; subst; auto. constructor; auto.
  rewrite Forall_forall in *. intros y Hy. apply H2. eapply subseq_In; eauto.
Qed.
Lemma firstn_in {A} k (l : list A) x : In x (firstn k l) -> In x l.
Proof. revert l. induction k; intros [|a l]; cbn; try tauto. intros [<-|H]; auto. Qed.
Lemma firstn_nodup {A} k (l : list A) : NoDup l -> NoDup (firstn k l).
Proof.
  revert l. induction k; intros [|a l] H; cbn; try constructor; inversion H; subst; auto.
  intros Hin. apply firstn_in in Hin. auto.
Qed.

Section Core.
  Variables (v : pyversion) (draw : nat -> Z -> Z) (rnd : nat -> bool) (shuffled : list Z -> list Z).
  Hypothesis Hshuffle : forall l, Permutation (shuffled l) l.

  Lemma sample_spec num total : (1 <= num)%nat -> Z.of_nat num <= total ->
    let S := firstn num (shuffled (range_up 1 (total + 1))) in
    S <> [] /\ NoDup S /\ length S = num /\ forall s, In s S -> 1 <= s <= total.
  Proof.
    intros H1 H2 S. assert (length (shuffled (range_up 1 (total + 1))) = Z.to_nat total) as Hl.
    { rewrite (Permutation_length (Hshuffle _)). unfold range_up. rewrite map_length, seq_length. lia. }
    assert (length S = num) as Hn by (unfold S; rewrite firstn_length, Hl; lia).
    split; [intros E; rewrite E in Hn; cbn in Hn; lia|]. split; [|split; auto].
    - apply firstn_nodup. eapply Permutation_NoDup; [symmetry; apply Hshuffle|apply NoDup_range_up].
    - intros s Hs. apply firstn_in in Hs. apply (Permutation_in _ (Hshuffle _)) in Hs. apply in_range_up in Hs. lia.
  Qed.

  Lemma enum_core G nbasis concs na num D k t sc m L :
    (0 < nbasis)%nat -> arrow_concs concs na = Ok D -> how_many_arrows D = (k, t, sc) -> length concs <> 1%nat ->
    NumericsModel.multinomial (map Z.of_nat concs) = Ok m -> skip_count m t (sum_nat concs) num = false ->
    (if negb (t =? 0)%nat then polya v sc G t else polya v concs G 0) = Ok (Z.of_nat (length L), G) ->
    (forall s, use_subset false s = false -> exists fuel0, forall fuel, (fuel0 <= fuel)%nat ->
        brancher sc G D 6 true (sum_nat concs / nbasis) false rnd fuel s = Ok L) ->
    (forall S, S <> [] -> exists fuel0, forall fuel, (fuel0 <= fuel)%nat ->
        brancher sc G D 6 true (sum_nat concs / nbasis) false rnd fuel (SList S) = Ok (at_positions S 1 L)) ->
    (1 <= num <= length L)%nat -> Z.of_nat (length L) < 1000000 ->
    exists L' fuel0, (forall fuel, (fuel0 <= fuel)%nat -> enum_sys v draw rnd shuffled fuel G nbasis concs na num true false = Ok L') /\
      length L' = num /\ subseq L' L.
  Proof.
    intros Hnb HD Hhm Hlen Hm Hskip Hpolya Hevery Hsub Hnum Hbig.
    assert (forall fuel, enum_sys v draw rnd shuffled fuel G nbasis concs na num true false =
      brancher sc G D 6 true (sum_nat concs / nbasis) false rnd fuel
        (if Z.of_nat num <? Z.of_nat (length L) then SList (firstn num (shuffled (range_up 1 (Z.of_nat (length L) + 1)))) else SList [])) as E.
    { intros fuel. unfold enum_sys. destruct (Nat.eqb_spec nbasis 0); [lia|]. rewrite HD. cbn [rbind]. rewrite Hhm.
      unfold plan. rewrite Hm. cbn [rbind]. rewrite Hskip. rewrite Hpolya. cbn [rbind].
      destruct (Nat.eqb_spec (length concs) 1); [congruence|].
      assert (((100000 <? m) || (negb (t =? 0)%nat && (12 <=? sum_nat concs)%nat)) && (num <=? 100)%nat = false) as Eg.
      { unfold skip_count in Hskip. destruct (100000 <? m), (num <=? 100)%nat, (negb (t =? 0)%nat), (12 <=? sum_nat concs)%nat; cbn in *; auto. }
      rewrite Eg. cbn [andb]. destruct (Z.ltb_spec (Z.of_nat (length L)) 1000000); [|lia]. auto. }
    destruct (Z.ltb_spec (Z.of_nat num) (Z.of_nat (length L))) as [Hlt|Hge].
    - destruct (sample_spec num (Z.of_nat (length L))) as [S1 [S2 [S3 S4]]]; [lia|lia|].
      destruct (Hsub _ S1) as [f Hf]. eexists _, f. split; [intros fuel Hfu; rewrite E; apply Hf; auto|]. split.
      + rewrite at_positions_length; auto.
      + apply at_positions_sub.
    - destruct (Hevery (SList []) eq_refl) as [f Hf]. exists L, f. split; [intros fuel Hfu; rewrite E; apply Hf; auto|]. split; [lia|apply subseq_refl].
  Qed.
End Core.

(** ** Facts about the decorations *)
Section Decorations.
  Variables (concs : list nat) (na : list Z) (D : list site).
  Hypothesis Hna : nonneg_at_most concs na.
  Hypothesis HD : arrow_concs concs na = Ok D.

  Lemma D_shape : exists l, D = runs l /\ Permutation l (filter (fun b : site * nat => (0 <? snd b)%nat) (deco_runs concs na)).
  Proof. destruct (arrow_concs_shape concs na Hna) as [u [a [E [Hp _]]]]. rewrite HD in E. inversion E. eauto. Qed.
  Lemma D_cons s t : In s D -> In t D -> skeleton s = skeleton t -> s = t.
  Proof. destruct D_shape as [l [-> Hp]]. apply (shape_cons concs na); auto. Qed.
  Lemma D_sorted : exists l, D = col_sort l.
  Proof. pose proof HD as E. rewrite arrow_concs_runs in E by auto. inversion E. eauto. Qed.
  Lemma D_counts : how_many_arrows D = (Z.to_nat (fold_right Z.add 0 na), length (filter (fun a => 0 <? a) na),
     map (multiplicity site_eqb D) (first_occurrences site_eqb D)).
  Proof. destruct D_shape as [l [-> Hp]]. apply (shape_counts concs na); auto. Qed.
  Lemma D_length : length D = sum_nat concs.
  Proof.
    destruct D_shape as [l [-> Hp]]. unfold runs. rewrite (flat_map_length_perm _ _ _ Hp).
    change (flat_map (fun b : site * nat => repeat (fst b) (snd b))) with (@runs site). rewrite <- runs_pos.
    unfold deco_runs. destruct Hna as [Hlen Hle].
    assert (forall i, In i (seq 0 (length concs)) -> 0 <= nth i na 0 <= Z.of_nat (nth i concs 0%nat)) as H by (intros i Hi; apply in_seq in Hi; apply Hle; lia).
    transitivity (sum_nat (map (fun i => nth i concs 0%nat) (seq 0 (length concs)))).
    - revert H. generalize (seq 0 (length concs)). clear. induction l as [|i l IH]; intros H; auto. cbn [flat_map map]. rewrite runs_app, app_length.
      rewrite IH by (intros; apply H; right; auto). unfold runs. cbn [flat_map fst snd]. rewrite app_nil_r, app_length, !repeat_length.
      specialize (H i (or_introl eq_refl)). cbn [sum_nat fold_right]. unfold sum_nat. lia.
    - rewrite map_nth_seq. auto.
  Qed.
  Lemma D_arrow : (exists s, In s D /\ has_arrow s = true) <-> 0 < fold_right Z.add 0 na.
  Proof.
    pose proof (how_many_arrows_count D) as Hc. rewrite D_counts in Hc. cbn [fst] in Hc. split.
    - intros [s [Hs Ha]]. assert (In s (filter arrowed D)) as Hin by (apply filter_In; auto). destruct (filter arrowed D); [destruct Hin|]. cbn in Hc. lia.
    - intros H. destruct (filter arrowed D) as [|s l] eqn:E; [cbn in Hc; lia|]. exists s. assert (In s (filter arrowed D)) as Hs by (rewrite E; left; auto).
      apply filter_In in Hs. auto.
  Qed.
  Lemma na_nonneg : forall a, In a na -> 0 <= a.
  Proof. intros a Ha. destruct Hna as [Hl Hle]. apply In_nth with (d := 0) in Ha. destruct Ha as [i [Hi <-]]. apply Hle. lia. Qed.
  Lemma na_sum_nonneg : 0 <= fold_right Z.add 0 na.
  Proof. pose proof na_nonneg as H. revert H. generalize na. induction na0; cbn; [lia|]. intros H. assert (0 <= a) by auto. assert (0 <= fold_right Z.add 0 na0) by auto. lia. Qed.
  Lemma na_types : Nat.eqb (length (filter (fun a => 0 <? a) na)) 0 = true <-> fold_right Z.add 0 na = 0.
  Proof.
    rewrite Nat.eqb_eq. pose proof na_nonneg as H. revert H. generalize na. clear. induction na as [|a r IH]; cbn; [tauto|]. intros H.
    assert (0 <= a) by auto. assert (0 <= fold_right Z.add 0 r).
    { assert (forall x, In x r -> 0 <= x) as Hr by auto. revert Hr. clear. induction r; cbn; [lia|]. intros H. assert (0 <= a) by auto. assert (0 <= fold_right Z.add 0 r) by auto. lia. }
    destruct (Z.ltb_spec 0 a); cbn; [lia|]. rewrite IH by auto. lia.
  Qed.
  Lemma D_plain : fold_right Z.add 0 na = 0 -> Permutation D (plain_sites concs).
  Proof.
    intros H0. destruct D_shape as [l [-> Hp]].
    assert (forall a, In a na -> a = 0) as Hz.
    { pose proof na_nonneg as H. revert H H0. generalize na. clear. induction na as [|a r IH]; cbn; [tauto|]. intros H H0.
      assert (0 <= a) by auto. assert (0 <= fold_right Z.add 0 r).
      { assert (forall x, In x r -> 0 <= x) as Hr by auto. revert Hr. clear. induction r; cbn; [lia|]. intros H. assert (0 <= a) by auto. assert (0 <= fold_right Z.add 0 r) by auto. lia. }
      intros x [<-|Hx]; [lia|]. apply IH; auto. lia. }
    assert (forall i, nth i na 0 = 0) as Hz'.
    { intros i. destruct (Nat.lt_ge_cases i (length na)); [apply Hz, nth_In; auto|apply nth_overflow; auto]. }
    transitivity (runs (deco_runs concs na)).
    - rewrite (runs_pos (deco_runs concs na)). unfold runs. apply Permutation_flat_map. auto.
    - assert (runs (deco_runs concs na) = plain_sites concs) as ->; [|auto]. unfold deco_runs, plain_sites.
      assert (forall m, runs (flat_map (fun i => [((1, Z.of_nat (S (i + m))), Z.to_nat (nth (i + m) na 0)); ((-1, Z.of_nat (S (i + m))), (nth i concs 0 - Z.to_nat (nth (i + m) na 0%Z))%nat)]) (seq 0 (length concs))) =
        flat_map (fun '(i, c) => repeat (-1, Z.of_nat i) c) (combine (seq (S m) (length concs)) concs)) as H.
      { clear - Hz'. induction concs as [|c r IH]; intros m; auto. cbn [length seq flat_map combine]. rewrite runs_app. rewrite Hz'. unfold runs at 1. cbn [flat_map Z.to_nat repeat app fst snd].
        rewrite app_nil_r. cbn [Nat.add nth]. rewrite Nat.sub_0_r. f_equal. rewrite <- IH, <- seq_shift, !flat_map_concat_map, map_map. f_equal. f_equal. apply map_ext.
        intros i. cbn [nth]. rewrite !Nat.add_succ_r. reflexivity. }
      rewrite <- H. f_equal. apply flat_map_ext. intros i. rewrite Nat.add_0_r. auto.
  Qed.
End Decorations.

Lemma site_equiv_sym n G x y : perm_group n (map fst G) -> length x = n -> site_equiv G x y -> site_equiv G y x.
Proof.
  intros HG Hx [g [Hg ->]]. assert (is_perm n (fst g)) as Hp by (apply HG, in_map; auto).
  assert (In (invp n (fst g)) (map fst G)) as Hi by (apply group_inv; auto; apply in_map; auto).
  apply in_map_iff in Hi as [h [Eh Hh]]. exists h. split; auto. rewrite Eh.
  rewrite <- (act_comp (-1, 0) n) by (auto using invp_perm). rewrite comp_invp_l by auto. rewrite <- Hx. symmetry. apply act_id.
Qed.
Lemma site_equiv_trans n G x y z : perm_group n (map fst G) -> site_equiv G x y -> site_equiv G y z -> site_equiv G x z.
Proof.
  intros HG [g [Hg ->]] [h [Hh ->]]. assert (forall g, In g G -> is_perm n (fst g)) as Hp by (intros k Hk; apply HG, in_map; auto).
  destruct HG as [_ [_ Hc]]. specialize (Hc (fst h) (fst g) (in_map _ _ _ Hh) (in_map _ _ _ Hg)).
  apply in_map_iff in Hc as [f [Ef Hf]]. exists f. split; auto. rewrite Ef. symmetry. apply (act_comp (-1, 0) n); auto.
Qed.

(** ** A sample of the number wanted *)
Section Sample.
  Variables (v : pyversion) (draw : nat -> Z -> Z) (rnd : nat -> bool) (shuffled : list Z -> list Z).
  Hypothesis Hshuffle : forall l, Permutation (shuffled l) l.
  Variables (G : list op) (nbasis : nat) (concs : list nat) (na : list Z) (num : nat) (D : list site) (m : Z).
  Hypothesis Hnb : (0 < nbasis)%nat.
  Hypothesis Hlen : (2 <= length concs)%nat.
  Hypothesis Hna : nonneg_at_most concs na.
  Hypothesis HD : arrow_concs concs na = Ok D.
  Hypothesis Hne : D <> [].
  Hypothesis Hm : NumericsModel.multinomial (map Z.of_nat concs) = Ok m.
  Hypothesis HGnd : NoDup G.
  Notation structure := (fun w => Permutation (map skeleton w) (map skeleton D) /\ directions_below 6 w).

  Theorem enum_arrows reps :
    0 < fold_right Z.add 0 na -> op_group (length D) 6 G ->
    (100 < num)%nat \/ (m <= 100000 /\ (sum_nat concs < 12)%nat) ->
    Z.of_nat (max (length D) (length G)) *
      Z.of_nat (length (labelings (map (multiplicity site_eqb D) (first_occurrences site_eqb D))) * 6 ^ Z.to_nat (fold_right Z.add 0 na)) < 2 ^ 53 ->
    transversal structure (op_equiv G) reps -> (1 <= num <= length reps)%nat -> Z.of_nat (length reps) < 1000000 ->
    exists L fuel0, (forall fuel, (fuel0 <= fuel)%nat -> enum_sys v draw rnd shuffled fuel G nbasis concs na num true false = Ok L) /\
      length L = num /\ (forall w, In w L -> structure w) /\ ForallOrdPairs (fun r s => ~ op_equiv G r s) L.
  Proof.
    intros Hpos HG Hskip HB Hreps Hnum Hmil.
    pose proof (D_counts concs na D Hna HD) as Hc. pose proof (proj2 (D_arrow concs na D Hna HD) Hpos) as Harr.
    destruct (D_sorted concs na D Hna HD) as [l0 El0].
    assert (0 < br_narrows D)%nat as Hnar by (unfold br_narrows; rewrite Hc; cbn [fst]; lia).
    pose proof (all_structures_transversal D G 6 6 eq_refl ltac:(lia) HG (D_cons concs na D Hna HD)) as Htr.
    assert (length (all_structures D G 6) = length reps) as Elen.
    { assert (forall w, structure w -> okw (length D) 6 w) as Hok.
      { intros w [H1 H2]. split; auto. apply Permutation_length in H1. rewrite !map_length in H1. auto. }
      eapply transversal_length; [| |exact Htr|exact Hreps].
      - intros x y Hx _. apply (op_equiv_sym (length D) 6 6 G eq_refl HG). auto.
      - intros x y z Hx _ _. apply (op_equiv_trans (length D) 6 6 G eq_refl HG). auto. }
    set (t := length (filter (fun a => 0 <? a) na)) in *.
    assert ((t =? 0)%nat = false) as Ht.
    { destruct (t =? 0)%nat eqn:E; auto. apply (na_types concs na Hna) in E. lia. }
    destruct (enum_core v draw rnd shuffled Hshuffle G nbasis concs na num D _ _ _ m (all_structures D G 6) Hnb HD Hc) as [L [f [H1 [H2 H3]]]].
    - lia.
    - auto.
    - unfold skip_count. destruct Hskip as [Hs|[Hs1 Hs2]].
      + destruct (Nat.leb_spec num 100); [lia|]. rewrite !andb_false_r. auto.
      + destruct (Z.ltb_spec 100000 m); [lia|]. destruct (Nat.leb_spec 12 (sum_nat concs)); [lia|]. rewrite andb_false_r. auto.
    - fold t. rewrite Ht. cbn [negb].
      pose proof (polya_cwa v D l0 G 6 (all_structures D G 6) El0 Hne ltac:(lia) HG HGnd (D_cons concs na D Hna HD) Htr) as Hp.
      rewrite Hc in Hp. fold t in Hp. apply Hp. exact HB.
    - intros s Hs. rewrite <- (structures_supers D G 6 true (sum_nat concs / nbasis)) by auto. apply (arrows_every D G 6); auto; lia || discriminate.
    - intros S HS. rewrite <- (structures_supers D G 6 true (sum_nat concs / nbasis)) by auto. apply (arrows_sub D G 6); auto; lia || discriminate.
    - lia.
    - lia.
    - exists L, f. split; auto. split; auto. split.
      + intros w Hw. apply (proj1 Htr). eapply subseq_In; eauto.
      + eapply subseq_FOP; eauto. apply Htr.
  Qed.

  Theorem enum_plain d reps :
    fold_right Z.add 0 na = 0 -> (0 < d)%nat -> op_group (length D) d G ->
    (100 < num)%nat \/ m <= 100000 ->
    Z.of_nat (max (length D) (length G)) * Z.of_nat (length (labelings concs)) < 2 ^ 53 ->
    transversal (fun w => Permutation w D) (site_equiv G) reps -> (1 <= num <= length reps)%nat -> Z.of_nat (length reps) < 1000000 ->
    exists L fuel0, (forall fuel, (fuel0 <= fuel)%nat -> enum_sys v draw rnd shuffled fuel G nbasis concs na num true false = Ok L) /\
      length L = num /\ (forall w, In w L -> Permutation w D) /\ ForallOrdPairs (fun r s => ~ site_equiv G r s) L.
  Proof.
    intros Hzero Hd HG Hskip HB Hreps Hnum Hmil.
    pose proof (D_counts concs na D Hna HD) as Hc. pose proof (D_plain concs na D Hna HD Hzero) as Hperm.
    assert (Forall (fun s => fst s = -1) D) as Hno.
    { apply Forall_forall. intros s Hs. apply (Permutation_in _ Hperm) in Hs. unfold plain_sites in Hs. apply in_flat_map in Hs.
      destruct Hs as [[i c] [_ Hs]]. apply repeat_spec in Hs. subst. auto. }
    assert (perm_group (length D) (map fst G)) as HGp by (eapply op_group_perm_group; eauto).
    pose proof (colourings_transversal D G HGp) as Htr.
    assert (length (colourings D G) = length reps) as Elen.
    { eapply transversal_length; [| |exact Htr|exact Hreps].
      - intros x y Hx _. apply (site_equiv_sym (length D)); auto. apply (Permutation_length Hx).
      - intros x y z Hx _ _. apply (site_equiv_trans (length D)); auto. }
    set (t := length (filter (fun a => 0 <? a) na)) in *.
    assert ((t =? 0)%nat = true) as Ht by (apply (na_types concs na Hna); auto).
    destruct (enum_core v draw rnd shuffled Hshuffle G nbasis concs na num D _ _ _ m (colourings D G) Hnb HD Hc) as [L [f [H1 [H2 H3]]]].
    - lia.
    - auto.
    - unfold skip_count. fold t. rewrite Ht. cbn [negb andb]. rewrite orb_false_r. destruct Hskip as [Hs|Hs].
      + destruct (Nat.leb_spec num 100); [lia|]. rewrite andb_false_r. auto.
      + destruct (Z.ltb_spec 100000 m); [lia|]. auto.
    - fold t. rewrite Ht. cbn [negb]. eapply polya_plain; eauto.
    - intros s Hs. apply plain_every; auto.
    - intros S HS. apply plain_sub; auto.
    - lia.
    - lia.
    - exists L, f. split; auto. split; auto. split.
      + intros w Hw. apply (proj1 Htr). eapply subseq_In; eauto.
      + eapply subseq_FOP; eauto. apply Htr.
  Qed.
End Sample.
