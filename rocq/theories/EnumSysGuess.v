(** [enum_sys]: what guess-and-check returns; results of the wrong length; one species (C40, C41, C52). *)
From Coq Require Import Permutation Sorted.
From Verif Require Import PyBase Spec ListFacts PermFacts NumericsModel PhononsModel TreeModel HashProofs CanonProofs TreeSearch BranchRun ColorProofs ArrowProofs DecoFacts ArrowEnum DecoBij
  BranchProofs BranchTheorems TransFacts PolyaModel PolyaSpec PolyaUse EnumSysModel DecoProofs SmallProofs EnumSysProofs EnumSysFail.
Local Open Scope Z_scope.

Definition leafy (x : list nat) : list site := map (fun leaf => (-1, Z.of_nat leaf)) x.

Section GuessPlain.
  Variable draw : nat -> Z -> Z.
  Hypothesis Hdraw : forall k b, 0 < b -> 0 <= draw k b < b.
  Variable D : list site.
  Notation c := (map (multiplicity site_eqb D) (first_occurrences site_eqb D)).
  Variables (G : list op) (dim : Z) (supers : bool) (cellsize num : nat).
  Hypothesis Hplain : br_narrows D = 0%nat.

  Definition from (V : list (list Z)) (w : list site) : Prop :=
    exists cand x, In cand V /\ digits_below (br_C c) cand /\ has_concs c x /\ encode (length c) x = cand /\ w = leafy x.

  Lemma leafy_inj x y : leafy x = leafy y -> x = y.
  Proof.
    unfold leafy. revert y. induction x as [|a x IH]; intros [|b y] H; cbn in H; try discriminate; auto.
    inversion H as [[E1 E2]]. apply Nat2Z.inj in E1. subst. f_equal. auto.
  Qed.

  Lemma guess_plain_inv : forall fuel V surv k L, (length surv <= num)%nat -> NoDup surv -> (forall w, In w surv -> from V w) ->
    guess_loop draw c G D dim supers cellsize num fuel surv (map PList V) k = Ok L ->
    length L = num /\ NoDup L /\ forall w, In w L -> exists x, has_concs c x /\ w = leafy x.
  Proof.
    assert (forall V surv, NoDup surv -> (length surv <= num)%nat -> (forall w, In w surv -> from V w) -> (length surv <? num)%nat = false ->
      length surv = num /\ NoDup surv /\ forall w, In w surv -> exists x, has_concs c x /\ w = leafy x) as Hend.
    { intros V surv H1 H2 H3 H4. apply Nat.ltb_ge in H4. split; [lia|]. split; auto. intros w Hw. destruct (H3 w Hw) as [cand [x H]]. exists x. tauto. }
    induction fuel as [|fuel IH]; intros V surv k L Hle Hnd Hfrom; cbn [guess_loop];
      (destruct (length surv <? num)%nat eqn:El; [|intros H; inversion H; subst; eapply Hend; eauto]); [discriminate|].
    destruct (draw_candidate draw (br_C c) k) as [[c0 k0]|] eqn:E0; cbn [rbind]; [|discriminate].
    destruct (redraw_candidate draw c fuel c0 (map PList V) k0) as [[c1 k1]|] eqn:E1; cbn [rbind]; [|discriminate].
    apply draw_candidate_spec in E0; auto. apply redraw_candidate_spec in E1; auto. destruct E1 as [E1 Hnew].
    assert (~ In c1 V) as Hnew' by (intros H; apply Hnew, in_map; auto).
    destruct (invhash_valid c c1 E1) as [x [Ex [Hx Ec]]]. rewrite Ex. cbn [rbind].
    destruct (guess_unseen G x c1 (map PList V ++ [PList c1])) as [b|]; cbn [rbind]; [|discriminate].
    rewrite Hplain. cbn [Nat.eqb Nat.ltb Nat.leb].
    change (map PList V ++ [PList c1]) with (map PList V ++ map PList [c1]). rewrite <- map_app.
    assert (forall w, In w surv -> from (V ++ [c1]) w) as Hfrom'.
    { intros w Hw. destruct (Hfrom w Hw) as [cd [y [H1 H2]]]. exists cd, y. split; auto. apply in_or_app; auto. }
    match goal with |- context [rbind ?m _] => destruct m as [u|] end; cbn [rbind]; [|discriminate].
    apply Nat.ltb_lt in El.
    destruct u; apply IH; auto.
    - rewrite app_length. cbn. lia.
    - apply (Permutation_NoDup (Permutation_cons_append surv (leafy x))). constructor; auto.
      intros Hin. destruct (Hfrom _ Hin) as [cd [y [H1 [H2 [H3 [H4 H5]]]]]]. apply leafy_inj in H5. subst y. congruence.
    - intros w Hw. apply in_app_or in Hw. destruct Hw as [Hw|[<-|[]]]; auto.
      exists c1, x. split; [apply in_or_app; right; left; auto|]. auto.
  Qed.
  Theorem guess_plain_sound fuel L : guess_and_check_brancher draw c G D dim supers cellsize num fuel = Ok L ->
    length L = num /\ NoDup L /\ forall w, In w L -> exists x, has_concs c x /\ w = leafy x.
  Proof. intros H. eapply (guess_plain_inv fuel [] [] 0 L); auto; [cbn; lia|constructor|intros w []]. Qed.
End GuessPlain.

(** Every entry of the result comes from one call of [add_arrows]: one colouring. *)
Section GuessArrowsSound.
  Variable draw : nat -> Z -> Z.
  Hypothesis Hdraw : forall k b, 0 < b -> 0 <= draw k b < b.
  Variable D : list site.
  Notation c := (map (multiplicity site_eqb D) (first_occurrences site_eqb D)).
  Variables (G : list op) (supers : bool) (cellsize num : nat).
  Hypothesis HG : op_group (length D) 6 G.
  Notation k := (length (filter arrowed D)).
  Hypothesis Hk : (0 < k)%nat.

  Theorem guess_arrows_sound : forall fuel visited j L, (0 < num)%nat -> guess_loop draw c G D 6 supers cellsize num fuel [] visited j = Ok L ->
    length L = num /\ ForallOrdPairs (fun r s => ~ op_equiv G r s) L /\
    exists x, has_concs c x /\ forall w, In w L -> map skeleton w = map skeleton (deco D x) /\ directions_below 6 w.
  Proof.
    assert (0 < 6 ^ Z.of_nat k - 1) as Hmax.
    { assert (6 ^ 1 <= 6 ^ Z.of_nat k) by (apply Z.pow_le_mono_r; lia). lia. }
    induction fuel as [|fuel IH]; intros vis j L Hn; cbn [guess_loop length]; (destruct (Nat.ltb_spec 0 num); [|lia]); [discriminate|].
    destruct (draw_candidate draw (br_C c) j) as [[c0 k0]|] eqn:E0; cbn [rbind]; [|discriminate].
    destruct (redraw_candidate draw c fuel c0 vis k0) as [[c1 k1]|] eqn:E1; cbn [rbind]; [|discriminate].
    apply draw_candidate_spec in E0; auto. apply redraw_candidate_spec in E1; auto. destruct E1 as [E1 _].
    destruct (invhash_valid c c1 E1) as [x [Ex [Hx _]]]. rewrite Ex. cbn [rbind].
    destruct (guess_unseen G x c1 (vis ++ [PList c1])) as [b|]; cbn [rbind]; [|discriminate].
    assert ((br_narrows D =? 0)%nat = false) as En by (unfold br_narrows; rewrite how_many_arrows_count; apply Nat.eqb_neq; lia).
    rewrite En, andb_false_r. cbn [andb rbind]. destruct b; [|apply IH; auto].
    destruct (Nat.ltb_spec 0 (br_narrows D)); [|apply Nat.eqb_neq in En; lia]. rewrite out_deco_eq by auto. cbn [rbind].
    assert (length (filter arrowed (deco D x)) = k) as Ek.
    { apply Permutation_length, filter_perm, deco_perm; auto. }
    assert (length (deco D x) = length D) as El by (apply Permutation_length, deco_perm; auto).
    match goal with |- context [add_arrows_small ?dr ?f ?col ?A ?dm ?nw ?kk] => destruct (add_arrows_small dr f col A dm nw kk) as [[rr k2]|] eqn:Ea end; cbn [rbind]; [|discriminate].
    revert Ea. rewrite ahash_max by lia. rewrite Ek. intros Ea.
    apply (small_sound (length D) 6 6 (deco D x) G eq_refl ltac:(lia) El (proj1 HG)) in Ea; auto; [|rewrite Ek; intros; apply Hdraw; auto].
    destruct Ea as [H1 [H2 H3]]. cbn [app]. destruct fuel; cbn [guess_loop]; rewrite H1, Nat.ltb_irrefl; intros E; inversion E; subst;
      (split; auto; split; auto; exists x; split; auto; intros w Hw; apply H2; auto).
  Qed.
End GuessArrowsSound.

(** ** Dispatch of large systems *)
Section Dispatch.
  Variables (v : pyversion) (draw : nat -> Z -> Z) (rnd : nat -> bool) (shuffled : list Z -> list Z).
  Hypothesis Hdraw : forall k b, 0 < b -> 0 <= draw k b < b.
  Variables (G : list op) (nbasis : nat) (concs : list nat) (na : list Z) (num : nat) (supers accept : bool) (D : list site).
  Hypothesis Hnb : (0 < nbasis)%nat.
  Hypothesis Hlen : (2 <= length concs)%nat.
  Hypothesis Hna : nonneg_at_most concs na.
  Hypothesis HD : arrow_concs concs na = Ok D.
  Hypothesis Hnum : (num <= 100)%nat.
  Notation c := (map (multiplicity site_eqb D) (first_occurrences site_eqb D)).

  Lemma enum_guess fuel m : NumericsModel.multinomial (map Z.of_nat concs) = Ok m ->
    100000 < m \/ (0 < fold_right Z.add 0 na /\ (12 <= sum_nat concs)%nat) ->
    enum_sys v draw rnd shuffled fuel G nbasis concs na num supers accept =
    guess_and_check_brancher draw c G D 6 supers (sum_nat concs / nbasis) num fuel.
  Proof.
    intros Hm Hbig. unfold enum_sys. destruct (Nat.eqb_spec nbasis 0); [lia|]. rewrite HD. cbn [rbind].
    rewrite (D_counts concs na D Hna HD). unfold plan. rewrite Hm. cbn [rbind].
    set (t := length (filter (fun a => 0 <? a) na)).
    assert (((100000 <? m) || (negb (t =? 0)%nat && (12 <=? sum_nat concs)%nat)) = true) as Hb.
    { destruct Hbig as [H|[H1 H2]].
      - apply Z.ltb_lt in H. rewrite H. auto.
      - assert ((t =? 0)%nat = false) as ->.
        { destruct (t =? 0)%nat eqn:E; auto. apply (na_types concs na Hna) in E. lia. }
        apply Nat.leb_le in H2. rewrite H2. apply orb_true_r. }
    assert ((num <=? 100)%nat = true) as Hn by (apply Nat.leb_le; auto).
    assert (skip_count m t (sum_nat concs) num = true) as ->.
    { unfold skip_count. rewrite Hn, !andb_true_r. auto. }
    cbn [rbind]. destruct (Nat.eqb_spec (length concs) 1); [lia|]. rewrite Hb, Hn. cbn [andb].
    destruct (Z.ltb_spec (Z.of_nat num) 10000000000); [auto|lia].
  Qed.

  Lemma arrowed_total : Z.of_nat (length (filter arrowed D)) = fold_right Z.add 0 na.
  Proof. rewrite <- how_many_arrows_count, (D_counts concs na D Hna HD). cbn [fst]. pose proof (na_sum_nonneg concs na Hna). lia. Qed.

  Theorem enum_guess_never fuel r : (12 <= sum_nat concs)%nat -> 0 < fold_right Z.add 0 na ->
    (forall g, In g G -> is_perm (length D) (fst g) /\ is_perm 6 (snd g)) -> 6 ^ fold_right Z.add 0 na <= Z.of_nat num ->
    enum_sys v draw rnd shuffled fuel G nbasis concs na num supers accept <> Ok r.
  Proof.
    intros H12 Hpos HG Hbig. destruct (multinomial_ok concs) as [m Hm]; [intros ->; cbn in Hlen; lia|].
    rewrite (enum_guess fuel m Hm) by auto. unfold guess_and_check_brancher. pose proof arrowed_total as Ht.
    apply guess_arrows_never; auto; [lia|]. rewrite Ht. lia.
  Qed.
  Theorem enum_guess_arrows fuel L : (1 <= num)%nat -> (12 <= sum_nat concs)%nat -> 0 < fold_right Z.add 0 na -> op_group (length D) 6 G ->
    enum_sys v draw rnd shuffled fuel G nbasis concs na num supers accept = Ok L ->
    length L = num /\ (forall w, In w L -> Permutation (map skeleton w) (map skeleton D) /\ directions_below 6 w) /\
    ForallOrdPairs (fun r s => ~ op_equiv G r s) L /\ forall w u, In w L -> In u L -> map skeleton w = map skeleton u.
  Proof.
    intros H1 H12 Hpos HG. destruct (multinomial_ok concs) as [m Hm]; [intros ->; cbn in Hlen; lia|].
    rewrite (enum_guess fuel m Hm) by auto. unfold guess_and_check_brancher. pose proof arrowed_total as Ht. intros HL.
    apply guess_arrows_sound in HL; auto; try lia. destruct HL as [E1 [E2 [x [Hx E3]]]].
    split; auto. split; [|split; auto].
    - intros w Hw. destruct (E3 w Hw) as [F1 F2]. split; auto. rewrite F1. apply Permutation_map, deco_perm; auto.
    - intros w u Hw Hu. destruct (E3 w Hw) as [-> _], (E3 u Hu) as [-> _]. auto.
  Qed.

  (** In the counts of the sorted decoration, colours are numbered by increasing count. *)
  Lemma plain_concs_sorted : fold_right Z.add 0 na = 0 -> StronglySorted le c /\ Permutation c (filter (fun a => (0 <? a)%nat) concs).
  Proof.
    intros H0. destruct (arrow_concs_shape concs na Hna) as [u [a [E [Hp [Hu [Ha [Su Sa]]]]]]]. assert (D = runs (u ++ a)) as ED by congruence. clear E.
    assert (a = []) as ->.
    { destruct a as [|b a]; auto. exfalso. pose proof (Forall_inv Ha) as Hb.
      assert (In (fst b) D) as Hin.
      { rewrite ED. unfold runs. apply in_flat_map. exists b. split; [apply in_or_app; right; left; auto|].
        assert (0 < snd b)%nat as Hpos.
        { assert (In b (filter (fun b => (0 <? snd b)%nat) (deco_runs concs na))) as Hb' by (apply (Permutation_in _ Hp); apply in_or_app; right; left; auto).
          apply filter_In in Hb'. apply Nat.ltb_lt. tauto. }
        destruct (snd b); [lia|left; auto]. }
      assert (0 < fold_right Z.add 0 na); [|lia]. apply (D_arrow concs na D Hna HD). exists (fst b). auto. }
    rewrite app_nil_r in *. destruct (shape_nodup concs na u Hp) as [Hnd Hpos].
    assert (c = map snd u) as Ec.
    { rewrite ED. rewrite (first_occ_runs site_eqb site_eqb_spec) by auto. rewrite map_map. apply map_ext_in. intros [x k] Hin. cbn.
      apply mult_runs; auto using site_eqb_spec. }
    rewrite Ec. split.
    - clear - Su. induction Su as [|b l Hl IH Hf]; cbn; constructor; auto. apply Forall_forall. intros k Hk. apply in_map_iff in Hk. destruct Hk as [b' [<- Hb']].
      rewrite Forall_forall in Hf. auto.
    - rewrite (Permutation_map snd Hp).
      assert (forall i, nth i na 0 = 0) as Hz.
      { assert (forall a, In a na -> a = 0) as Hz.
        { pose proof (na_nonneg concs na Hna) as H. revert H H0. generalize na. clear. induction na as [|a r IH]; cbn; [tauto|]. intros H H0.
          assert (0 <= a) by auto. assert (0 <= fold_right Z.add 0 r).
          { assert (forall x, In x r -> 0 <= x) as Hr by auto. revert Hr. clear. induction r; cbn; [lia|]. intros H. assert (0 <= a) by auto. assert (0 <= fold_right Z.add 0 r) by auto. lia. }
          intros x [<-|Hx]; [lia|]. apply IH; auto. lia. }
        intros i. destruct (Nat.lt_ge_cases i (length na)); [apply Hz, nth_In; auto|apply nth_overflow; auto]. }
      unfold deco_runs. rewrite <- (map_nth_seq concs) at 2. generalize (seq 0 (length concs)). intros l. clear - Hz.
      induction l as [|i l IH]; cbn [flat_map map filter]; auto. rewrite Hz. cbn [app filter snd Z.to_nat Nat.ltb Nat.leb].
      rewrite Nat.sub_0_r. destruct (nth i concs 0%nat); cbn [map snd]; [|apply perm_skip]; apply IH.
  Qed.

  Lemma leafy_mult x i : multiplicity site_eqb (leafy x) (-1, Z.of_nat i) = occ i x.
  Proof.
    unfold multiplicity, leafy, occ. induction x as [|a x IH]; auto. cbn [map filter count_occ].
    destruct (site_eqb (-1, Z.of_nat i) (-1, Z.of_nat a)) eqn:E.
    - apply site_eqb_spec in E. inversion E as [E']. apply Nat2Z.inj in E'. subst. destruct (Nat.eq_dec a a); [|congruence]. cbn. f_equal; auto.
    - destruct (Nat.eq_dec a i); auto. subst. assert (site_eqb (-1, Z.of_nat i) (-1, Z.of_nat i) = true) by (apply site_eqb_spec; auto). congruence.
  Qed.
  Lemma leafy_perm x : has_concs concs x -> Permutation (leafy x) (plain_sites concs).
  Proof.
    intros Hx. apply (permutation_multiplicity _ site_eqb_spec). intros s.
    destruct (Z.eq_dec (fst s) (-1)) as [E1|E1].
    - destruct s as [s1 s2]. cbn in E1. subst s1. destruct (Z.le_gt_cases 0 s2) as [H0|H0].
      + rewrite <- (Z2Nat.id s2) by auto. rewrite leafy_mult. generalize (Z.to_nat s2). intros i. symmetry.
        pose proof (has_concs_range concs x Hx) as Hr. destruct Hx as [_ Hx].
        transitivity (if existsb (Nat.eqb i) (seq 1 (length concs)) then nth (i - 1) concs 0%nat else 0%nat).
        * clear. unfold plain_sites. rewrite flat_map_concat_map.
          assert (forall m, multiplicity site_eqb (concat (map (fun '(i0, c) => repeat (-1, Z.of_nat i0) c) (combine (seq (S m) (length concs)) concs))) (-1, Z.of_nat i) =
            if existsb (Nat.eqb i) (seq (S m) (length concs)) then nth (i - S m) concs 0%nat else 0%nat) as H; [|apply H].
          induction concs as [|a r IH]; intros m; auto. cbn [length seq combine map concat existsb]. unfold multiplicity. rewrite filter_app, app_length.
          specialize (IH (S m)). unfold multiplicity in IH. rewrite IH.
          assert (length (filter (site_eqb (-1, Z.of_nat i)) (repeat (-1, Z.of_nat (S m)) a)) = if Nat.eqb i (S m) then a else 0%nat) as ->.
          { destruct (Nat.eqb_spec i (S m)) as [->|Hne].
            - induction a; auto. cbn. assert (site_eqb (-1, Z.of_nat (S m)) (-1, Z.of_nat (S m)) = true) as E by (apply site_eqb_spec; auto). cbn in E. rewrite E. cbn. f_equal. auto.
            - induction a; auto. cbn [repeat filter]. destruct (site_eqb (-1, Z.of_nat i) (-1, Z.of_nat (S m))) eqn:E; auto. apply site_eqb_spec in E. inversion E. lia. }
          destruct (Nat.eqb_spec i (S m)) as [->|Hne].
          -- assert (existsb (Nat.eqb (S m)) (seq (S (S m)) (length r)) = false) as ->.
             { apply not_true_is_false. intros E. apply existsb_exists in E. destruct E as [y [Hy E]]. apply in_seq in Hy. apply Nat.eqb_eq in E. lia. }
             cbn [orb]. rewrite Nat.sub_diag. cbn. lia.
          -- cbn [orb]. destruct (existsb (Nat.eqb i) (seq (S (S m)) (length r))) eqn:E; auto.
             apply existsb_exists in E. destruct E as [y [Hy E]]. apply in_seq in Hy. apply Nat.eqb_eq in E. subst y.
             replace (i - S m)%nat with (S (i - S (S m))) by lia. auto.
        * destruct (existsb (Nat.eqb i) (seq 1 (length concs))) eqn:E.
          -- apply existsb_exists in E. destruct E as [y [Hy E]]. apply in_seq in Hy. apply Nat.eqb_eq in E. subst y.
             specialize (Hx (i - 1)%nat ltac:(lia)). replace (S (i - 1)) with i in Hx by lia. auto.
          -- symmetry. apply count_occ_not_In. intros Hin. apply Hr in Hin.
             assert (existsb (Nat.eqb i) (seq 1 (length concs)) = true); [|congruence]. apply existsb_exists. exists i. split; [apply in_seq; lia|apply Nat.eqb_refl].
      + assert (forall l : list site, (forall t, In t l -> 0 <= snd t) -> multiplicity site_eqb l (-1, s2) = 0%nat) as Hzero.
        { intros l Hl. unfold multiplicity. rewrite filter_none; auto. intros t Ht. destruct (site_eqb (-1, s2) t) eqn:E; auto. apply site_eqb_spec in E. subst. specialize (Hl _ Ht). cbn in Hl. lia. }
        rewrite !Hzero; auto.
        * intros t Ht. unfold plain_sites in Ht. apply in_flat_map in Ht. destruct Ht as [[i k] [_ Ht]]. apply repeat_spec in Ht. subst. cbn. lia.
        * intros t Ht. apply in_map_iff in Ht. destruct Ht as [a [<- _]]. cbn. lia.
    - assert (forall l : list site, (forall t, In t l -> fst t = -1) -> multiplicity site_eqb l s = 0%nat) as Hzero.
      { intros l Hl. unfold multiplicity. rewrite filter_none; auto. intros t Ht. destruct (site_eqb s t) eqn:E; auto. apply site_eqb_spec in E. subst. specialize (Hl _ Ht). congruence. }
      rewrite !Hzero; auto.
      + intros t Ht. unfold plain_sites in Ht. apply in_flat_map in Ht. destruct Ht as [[i k] [_ Ht]]. apply repeat_spec in Ht. subst. auto.
      + intros t Ht. apply in_map_iff in Ht. destruct Ht as [a [<- _]]. auto.
  Qed.

  (** The structures have the requested composition only if the concentrations were given in increasing order. *)
  Theorem enum_guess_plain fuel m L : fold_right Z.add 0 na = 0 -> Forall (fun a => (0 < a)%nat) concs ->
    NumericsModel.multinomial (map Z.of_nat concs) = Ok m -> 100000 < m ->
    enum_sys v draw rnd shuffled fuel G nbasis concs na num supers accept = Ok L ->
    length L = num /\ NoDup L /\ exists s, Permutation s concs /\ StronglySorted le s /\
      forall w, In w L -> forall i, (i < length concs)%nat -> multiplicity site_eqb w (-1, Z.of_nat (S i)) = nth i s 0%nat.
  Proof.
    intros H0 Hpos Hm Hbig HL. rewrite (enum_guess fuel m Hm) in HL by auto.
    assert (br_narrows D = 0%nat) as Hnar by (unfold br_narrows; rewrite (D_counts concs na D Hna HD); cbn [fst]; lia).
    apply guess_plain_sound in HL; auto. destruct HL as [H1 [H2 H3]]. split; auto. split; auto.
    destruct (plain_concs_sorted H0) as [Hs Hp]. rewrite filter_all in Hp by (intros a Ha; rewrite Forall_forall in Hpos; apply Nat.ltb_lt; auto).
    exists c. split; auto. split; auto. intros w Hw i Hi. destruct (H3 w Hw) as [x [[_ Hx] ->]]. rewrite leafy_mult. apply Hx.
    rewrite (Permutation_length Hp). auto.
  Qed.
  Theorem enum_guess_plain_ordered fuel m L : fold_right Z.add 0 na = 0 -> Forall (fun a => (0 < a)%nat) concs -> StronglySorted le concs ->
    NumericsModel.multinomial (map Z.of_nat concs) = Ok m -> 100000 < m ->
    enum_sys v draw rnd shuffled fuel G nbasis concs na num supers accept = Ok L ->
    length L = num /\ NoDup L /\ forall w, In w L -> Permutation w D.
  Proof.
    intros H0 Hpos Hsort Hm Hbig HL. rewrite (enum_guess fuel m Hm) in HL by auto.
    assert (br_narrows D = 0%nat) as Hnar by (unfold br_narrows; rewrite (D_counts concs na D Hna HD); cbn [fst]; lia).
    apply guess_plain_sound in HL; auto. destruct HL as [H1 [H2 H3]]. split; auto. split; auto.
    destruct (plain_concs_sorted H0) as [Hs Hp]. rewrite filter_all in Hp by (intros a Ha; rewrite Forall_forall in Hpos; apply Nat.ltb_lt; auto).
    assert (c = concs) as Ec.
    { revert Hs Hsort Hp. generalize c. clear. intros l. revert l. induction concs as [|a r IH]; intros l Hl Hr Hp.
      - apply Permutation_sym, Permutation_nil in Hp. auto.
      - inversion Hr as [|? ? Hr1 Hr2]; subst. destruct l as [|b l]; [apply Permutation_nil in Hp; discriminate|]. inversion Hl as [|? ? Hl1 Hl2]; subst.
        rewrite Forall_forall in *. assert (a = b) as ->.
        { assert (In b (a :: r)) as Hb by (apply (Permutation_in _ Hp); left; auto). assert (In a (b :: l)) as Ha by (apply (Permutation_in _ (Permutation_sym Hp)); left; auto).
          destruct Hb as [Hb|Hb]; auto. destruct Ha as [Ha|Ha]; auto. apply Hr2 in Hb. apply Hl2 in Ha. lia. }
        f_equal. apply IH; auto. eapply Permutation_cons_inv; eauto. }
    rewrite Ec in H3. intros w Hw. destruct (H3 w Hw) as [x [Hx ->]]. rewrite (leafy_perm x Hx). symmetry. apply (D_plain concs na D); auto.
  Qed.
End Dispatch.
