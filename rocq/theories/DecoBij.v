(** Colour numbers versus decorated sites: the bijection behind [brancher]'s output. *)
From Coq Require Import Permutation.
From Verif Require Import PyBase Spec ListFacts PermFacts NumericsModel NumericsProofs PhononsModel
  TreeModel HashProofs CanonProofs ColorProofs BranchRun DecoFacts ArrowEnum.
Local Open Scope Z_scope.

Section Deco.
  Variable cwa : list site.
  Notation cols := (first_occurrences site_eqb cwa).
  Notation c := (map (multiplicity site_eqb cwa) cols).

  Definition deco (x : list nat) : list site := map (fun a => nth (a - 1) cols (-1, 0)) x.

  Lemma cols_NoDup : NoDup cols.
  Proof. apply (first_occ_NoDup _ site_eqb_spec). Qed.
  Lemma cols_In s : In s cols <-> In s cwa.
  Proof. apply (first_occ_In _ site_eqb_spec). Qed.
  Lemma concs_sum : sum_nat c = length cwa.
  Proof. apply (multiplicity_sum _ site_eqb_spec); [apply cols_NoDup|]. intros; apply cols_In; auto. Qed.
  Lemma concs_pos : Forall (fun a => (0 < a)%nat) c.
  Proof.
    apply Forall_forall. intros a Ha. apply in_map_iff in Ha as [s [<- Hs]].
    apply (multiplicity_pos _ site_eqb_spec), cols_In, Hs.
  Qed.
  Lemma concs_nonempty : cwa <> [] -> c <> [].
  Proof.
    intros H E. destruct cwa as [|s l] eqn:Ec; [congruence|].
    apply map_eq_nil in E. assert (In s (first_occurrences site_eqb (s :: l))) as Hs by (rewrite <- Ec; apply cols_In; rewrite Ec; cbn; auto).
    rewrite E in Hs. destruct Hs.
  Qed.

  Lemma how_many_concs : snd (how_many_arrows cwa) = c.
  Proof.
    unfold how_many_arrows. cbn [snd]. rewrite (find_concentrations_spec _ site_eqb_spec), somes_Some. auto.
  Qed.
  Lemma br_colors_eq : br_colors cwa = cols.
  Proof. unfold br_colors. rewrite color_list_spec, somes_Some. auto. Qed.

  Lemma label_range x : has_concs c x -> forall a, In a x -> (1 <= a <= length cols)%nat.
  Proof. intros H a Ha. pose proof (has_concs_range c x H a Ha) as Hr. rewrite map_length in Hr. auto. Qed.

  Lemma zget_label {A} (d : A) l a : (1 <= a <= length l)%nat -> zget l (Z.of_nat a - 1) = Ok (nth (a - 1) l d).
  Proof.
    intros H. unfold zget. destruct (Z.ltb_spec (Z.of_nat a - 1) 0); [lia|].
    destruct (Z.ltb_spec (Z.of_nat a - 1) 0); [lia|].
    replace (Z.to_nat (Z.of_nat a - 1)) with (a - 1)%nat by lia. apply get_nth. lia.
  Qed.

  Lemma out_deco_eq x : has_concs c x -> out_deco cwa x = Ok (deco x).
  Proof.
    intros H. pose proof (label_range x H) as Hr. unfold out_deco, deco. rewrite br_colors_eq. clear H.
    induction x as [|a x IH]; auto. cbn [rmap map].
    rewrite (zget_label (-1, 0)) by (apply Hr; cbn; auto). cbn [rbind].
    rewrite IH by (intros; apply Hr; cbn; auto). auto.
  Qed.
  Lemma deco_In x s : has_concs c x -> In s (deco x) -> In s cwa.
  Proof.
    intros H Hs. unfold deco in Hs. apply in_map_iff in Hs as [a [<- Ha]].
    apply cols_In, nth_In. pose proof (label_range x H a Ha). lia.
  Qed.
  Lemma out_plain_eq x : Forall (fun s => fst s = -1) cwa -> has_concs c x -> out_plain cwa x = Ok (deco x).
  Proof.
    intros Hno H. pose proof (label_range x H) as Hr. unfold out_plain, deco. rewrite br_colors_eq. clear H.
    rewrite Forall_forall in Hno.
    induction x as [|a x IH]; auto. cbn [rmap map].
    assert (1 <= a <= length cols)%nat as Ha by (apply Hr; cbn; auto).
    rewrite (zget_label (-1, 0)) by auto. cbn [rbind].
    rewrite IH by (intros; apply Hr; cbn; auto). cbn [rbind]. do 2 f_equal.
    assert (In (nth (a - 1) cols (-1, 0)) cwa) as Hi by (apply cols_In, nth_In; lia).
    apply Hno in Hi. destruct (nth (a - 1) cols (-1, 0)); cbn in *. congruence.
  Qed.

  (** multiplicity of a decorated site = number of occurrences of its colour number *)
  Lemma mult_deco x i : (forall a, In a x -> (1 <= a <= length cols)%nat) -> (i < length cols)%nat ->
    multiplicity site_eqb (deco x) (nth i cols (-1, 0)) = occ (S i) x.
  Proof.
    intros Hr Hi. induction x as [|a x IH]; auto.
    unfold deco. cbn [map]. rewrite multiplicity_cons. fold (deco x). rewrite occ_cons.
    rewrite IH by (intros; apply Hr; cbn; auto). f_equal.
    assert (1 <= a <= length cols)%nat as Ha by (apply Hr; cbn; auto).
    destruct (site_eqb (nth i cols (-1, 0)) (nth (a - 1) cols (-1, 0))) eqn:E.
    - apply site_eqb_spec in E. apply (proj1 (NoDup_nth cols (-1, 0)) cols_NoDup) in E; try lia.
      destruct (Nat.eqb_spec a (S i)); lia.
    - destruct (Nat.eqb_spec a (S i)) as [->|]; auto. exfalso.
      replace (S i - 1)%nat with i in E by lia.
      assert (site_eqb (nth i cols (-1, 0)) (nth i cols (-1, 0)) = true) by (apply site_eqb_spec; auto). congruence.
  Qed.

  Lemma deco_perm x : has_concs c x -> Permutation (deco x) cwa.
  Proof.
    intros H. apply (permutation_multiplicity _ site_eqb_spec). intros s.
    destruct (existsb (site_eqb s) cols) eqn:E.
    - apply (existsb_mem _ site_eqb_spec) in E. apply (In_nth _ _ (-1, 0)) in E as [i [Hi <-]].
      rewrite mult_deco by (auto; apply label_range; auto). destruct H as [_ H]. rewrite H by (rewrite map_length; auto).
      rewrite nth_map_lt with (d := (-1, 0)) by auto. auto.
    - assert (~ In s cols) as Hn by (intros Hs; apply (existsb_mem _ site_eqb_spec) in Hs; congruence).
      assert (forall l, ~ In s l -> multiplicity site_eqb l s = 0%nat) as F.
      { intros l Hl. destruct (multiplicity site_eqb l s) eqn:Em; auto. exfalso. apply Hl.
        apply (multiplicity_pos _ site_eqb_spec). lia. }
      rewrite !F; auto.
      + rewrite <- cols_In; auto.
      + intros Hs. apply Hn, cols_In. eapply deco_In; eauto.
  Qed.

  Lemma deco_surj w : Permutation w cwa -> exists x, has_concs c x /\ deco x = w.
  Proof.
    intros H.
    assert (forall l, (forall s, In s l -> In s cols) ->
              exists x, deco x = l /\ forall a, In a x -> (1 <= a <= length cols)%nat) as F.
    { induction l as [|s l IH]; intros Hl.
      - exists []. split; auto. intros a [].
      - destruct IH as [x [Ex Hx]]; [intros; apply Hl; cbn; auto|].
        destruct (In_nth _ _ (-1, 0) (Hl s (or_introl eq_refl))) as [i [Hi Ei]].
        exists (S i :: x). split.
        + unfold deco in *. cbn [map]. replace (S i - 1)%nat with i by lia. congruence.
        + intros a [<-|Ha]; [lia|auto]. }
    destruct (F w) as [x [Ex Hx]].
    { intros s Hs. apply cols_In. eapply Permutation_in; eauto. }
    exists x. split; auto. split.
    - fold (sum_nat c). rewrite concs_sum. rewrite <- (Permutation_length H), <- Ex. unfold deco. rewrite map_length. auto.
    - intros i Hi. rewrite map_length in Hi. rewrite <- mult_deco by auto. rewrite Ex.
      rewrite (multiplicity_permutation _ w cwa) by auto. rewrite nth_map_lt with (d := (-1, 0)) by auto. auto.
  Qed.

  Lemma deco_inj x y : has_concs c x -> has_concs c y -> deco x = deco y -> x = y.
  Proof.
    intros Hx Hy. pose proof (label_range x Hx) as Rx. pose proof (label_range y Hy) as Ry. clear Hx Hy.
    revert y Ry. induction x as [|a x IH]; intros [|b y] Ry E; try discriminate; auto.
    unfold deco in E. cbn [map] in E. injection E as E1 E2.
    assert (1 <= a <= length cols)%nat by (apply Rx; cbn; auto).
    assert (1 <= b <= length cols)%nat by (apply Ry; cbn; auto).
    f_equal.
    - apply (proj1 (NoDup_nth cols (-1, 0)) cols_NoDup) in E1; lia.
    - apply IH; auto.
      + intros; apply Rx; cbn; auto.
      + intros; apply Ry; cbn; auto.
  Qed.

  Lemma deco_gx g x : is_perm (length cwa) (fst g) -> has_concs c x ->
    deco (gx g x) = act (-1, 0) (fst g) (deco x).
  Proof.
    intros Hp H. unfold gx, deco. symmetry. apply (act_map _ 0%nat).
    intros j Hj. destruct H as [Hl _]. fold (sum_nat c) in Hl. rewrite Hl, concs_sum. apply Hp; auto.
  Qed.
  Lemma deco_length x : has_concs c x -> length (deco x) = length cwa.
  Proof. intros H. apply Permutation_length, deco_perm; auto. Qed.
End Deco.
