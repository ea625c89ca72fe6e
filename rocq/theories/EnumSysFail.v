(** [enum_sys]: one species, and the sampling of large systems (C40, C41, C52). *)
From Coq Require Import Permutation.
From Verif Require Import PyBase Spec ListFacts PermFacts NumericsModel PhononsModel TreeModel HashProofs CanonProofs TreeSearch BranchRun ColorProofs ArrowProofs DecoFacts ArrowEnum DecoBij
  BranchProofs BranchTheorems TransFacts PolyaModel PolyaSpec PolyaUse EnumSysModel DecoProofs SmallProofs EnumSysProofs.
Local Open Scope Z_scope.

(** ** [add_arrows ... small=True] either gives the number wanted or does not end *)
Section SmallErrors.
  Variables (n m : nat) (dim : Z) (col : list site) (A : list op).
  Hypothesis Hm : Z.of_nat m = dim.
  Hypothesis Hdim : 1 < dim.
  Hypothesis Hn : length col = n.
  Hypothesis HAp : forall g, In g A -> is_perm n (fst g) /\ is_perm m (snd g).
  Notation mm := (length (filter arrowed col)).
  Hypothesis Hmm : (0 < mm)%nat.
  Notation maxp := (dim ^ Z.of_nat mm - 1).
  Variable draw : nat -> Z.
  Hypothesis Hdraw : forall k, 0 <= draw k < maxp.

  Lemma redraw_err fuel : forall h visited k e, redraw draw fuel h visited k = Err e -> e = OutOfFuel.
  Proof. induction fuel; intros h vis k e; cbn [redraw]; destruct (existsb (Z.eqb h) vis); intros H; inversion H; eauto. Qed.
  Lemma small_loop_err num fuel : forall h visited ars k e, 0 <= h < maxp ->
    add_arrows_small_loop draw fuel col A dim num h visited ars k = Err e -> e = OutOfFuel.
  Proof.
    induction fuel as [|fuel IH]; intros h vis ars k e Hh; cbn [add_arrows_small_loop]; destruct (length ars <? num)%nat; try discriminate.
    - intros H. inversion H. auto.
    - destruct (redraw draw fuel h vis k) as [[h' k1]|e'] eqn:Er; cbn [rbind].
      + destruct (redraw_spec n m dim col A Hm ltac:(lia) Hn HAp draw Hdraw fuel h vis k h' k1 Hh Er) as [Hnew Hr'].
        destruct (wof_spec n m dim col ltac:(lia) Hn h') as [E1 [E2 [E3 E4]]]; [lia|]. rewrite E1. cbn [rbind].
        destruct (unseen_spec n m dim col A Hm Hn HAp (wof dim col h') h' (vis ++ [h']) E2 A (incl_refl _)) as [b [Eb _]].
        rewrite Eb. cbn [rbind]. intros H. eapply IH; [|exact H]. auto.
      + intros H. inversion H; subst. eapply redraw_err; eauto.
  Qed.
  Lemma maxp_pos : 0 < maxp.
  Proof. assert (dim ^ 1 <= dim ^ Z.of_nat mm) by (apply Z.pow_le_mono_r; lia). lia. Qed.
  Lemma small_outcome num fuel k :
    (exists L k', add_arrows_small draw fuel col A dim num k = Ok (L, k') /\ length L = num) \/
    add_arrows_small draw fuel col A dim num k = Err OutOfFuel.
  Proof.
    unfold add_arrows_small. rewrite how_many_arrows_count, ahash_max by lia. pose proof maxp_pos.
    destruct (Z.leb_spec maxp 0); [lia|].
    destruct (add_arrows_small_loop draw fuel col A dim num (draw k) [] [] (S k)) as [[L k']|e] eqn:E.
    - left. exists L, k'. split; auto.
      destruct (small_loop_inv n m dim col A Hm ltac:(lia) Hn HAp draw Hdraw (fun _ _ => True) num ltac:(auto) fuel (draw k) [] [] (S k) L k') as [H1 _]; auto. cbn. lia.
    - right. f_equal. eapply small_loop_err; [|exact E]. auto.
  Qed.
  Lemma small_one fuel k : (0 < fuel)%nat -> exists L k', add_arrows_small draw fuel col A dim 1 k = Ok (L, k').
  Proof.
    intros Hf. unfold add_arrows_small. rewrite how_many_arrows_count, ahash_max by lia. pose proof maxp_pos.
    destruct (Z.leb_spec maxp 0); [lia|]. destruct fuel as [|fuel]; [lia|]. cbn [add_arrows_small_loop length Nat.ltb Nat.leb].
    assert (redraw draw fuel (draw k) [] (S k) = Ok (draw k, S k)) as -> by (destruct fuel; auto). cbn [rbind].
    destruct (wof_spec n m dim col ltac:(lia) Hn (draw k)) as [E1 [E2 [E3 E4]]]; [specialize (Hdraw k); lia|]. rewrite E1. cbn [rbind].
    destruct (unseen_spec n m dim col A Hm Hn HAp (wof dim col (draw k)) (draw k) ([] ++ [draw k]) E2 A (incl_refl _)) as [b [Eb Hb]].
    assert (forall A', incl A' A -> arrow_unseen A' (wof dim col (draw k)) (draw k) dim [draw k] = Ok true) as Hu.
    { induction A' as [|g A' IH]; intros Hi; auto. cbn [arrow_unseen]. destruct (HAp g) as [Hp1 Hp2]; [apply Hi; left; auto|].
      rewrite (permuted_arrows_spec n m dim) by (auto; try apply E2; apply (arr_length n dim col); auto). cbn [rbind existsb].
      rewrite orb_false_r. destruct (_ =? draw k); cbn; apply IH; intros x Hx; apply Hi; right; auto. }
    cbn [app]. rewrite Hu by apply incl_refl. cbn [rbind]. destruct fuel; cbn; eauto.
  Qed.
End SmallErrors.

(** ** One arrowed species, twelve atoms or more *)
Lemma one_species_counts c a D : (0 < a <= Z.of_nat c) -> arrow_concs [c] [a] = Ok D ->
  length D = c /\ length (filter arrowed D) = Z.to_nat a /\ fst (how_many_arrows D) = (Z.to_nat a, 1%nat).
Proof.
  intros Ha HD. assert (nonneg_at_most [c] [a]) as Hna.
  { split; auto. intros [|i] Hi; cbn in *; lia. }
  pose proof (D_counts [c] [a] D Hna HD) as Hc. pose proof (D_length [c] [a] D Hna HD) as Hl. cbn in Hl. split; [lia|].
  rewrite <- how_many_arrows_count, Hc. cbn [fst fold_right]. rewrite Z.add_0_r. split; auto. cbn. destruct (Z.ltb_spec 0 a); [|lia]. auto.
Qed.

Section OneSpecies.
  Variables (v : pyversion) (draw : nat -> Z -> Z) (rnd : nat -> bool) (shuffled : list Z -> list Z).
  Hypothesis Hdraw : forall k b, 0 < b -> 0 <= draw k b < b.
  Variables (G : list op) (nbasis c : nat) (a : Z) (num : nat) (supers : bool).
  Hypothesis Hnb : (0 < nbasis)%nat.
  Hypothesis Ha : 0 < a <= Z.of_nat c.
  Hypothesis HG : forall g, In g G -> is_perm c (fst g) /\ is_perm 6 (snd g).
  Hypothesis Hc : (12 <= c)%nat.
  Hypothesis Hnum : (1 <= num <= 100)%nat.

  Lemma one_species_reduce fuel : exists D, arrow_concs [c] [a] = Ok D /\
    enum_sys v draw rnd shuffled fuel G nbasis [c] [a] num supers false =
    do (a_configs, _) <- add_arrows_small (fun j => draw j (6 ^ Z.of_nat (length (filter arrowed D)) - 1)) fuel D G 6 num 0;
    match a_configs with _ :: _ => Err NameError | [] => Ok a_configs end.
  Proof.
    assert (nonneg_at_most [c] [a]) as Hna by (split; auto; intros [|i] Hi; cbn in *; lia).
    destruct (arrow_concs_shape [c] [a] Hna) as [u [w [HD _]]]. eexists. split; [exact HD|].
    destruct (one_species_counts c a _ Ha HD) as [Hl [Hf Hh]].
    unfold enum_sys. destruct (Nat.eqb_spec nbasis 0); [lia|]. rewrite HD. cbn [rbind].
    destruct (how_many_arrows (runs (u ++ w))) as [[k t] sc] eqn:E. cbn [fst] in Hh. inversion Hh; subst k t.
    unfold plan. destruct (multinomial_ok [c]) as [m Hm]; [congruence|]. rewrite Hm. cbn [rbind].
    assert (skip_count m 1 (sum_nat [c]) num = true) as ->.
    { unfold skip_count. cbn [Nat.eqb negb andb]. destruct (Nat.leb_spec 12 (sum_nat [c])); [|cbn in *; lia]. destruct (Nat.leb_spec num 100); [|lia]. cbn. apply orb_true_r. }
    cbn [rbind length Nat.eqb]. change (10000000000 =? 0) with false. cbn iota.
    destruct (Z.ltb_spec (1000 * Z.of_nat num) 10000000000); [|lia]. cbn [andb negb].
    rewrite ahash_max by lia. rewrite Hf. reflexivity.
  Qed.

  Theorem one_species_fails fuel :
    enum_sys v draw rnd shuffled fuel G nbasis [c] [a] num supers false = Err NameError \/
    enum_sys v draw rnd shuffled fuel G nbasis [c] [a] num supers false = Err OutOfFuel.
  Proof.
    destruct (one_species_reduce fuel) as [D [HD E]]. destruct (one_species_counts c a D Ha HD) as [Hl [Hf Hh]].
    rewrite E.
    assert (0 < length (filter arrowed D))%nat as Hpos by lia.
    assert (0 < 6 ^ Z.of_nat (length (filter arrowed D)) - 1) as Hmax.
    { assert (6 ^ 1 <= 6 ^ Z.of_nat (length (filter arrowed D))) by (apply Z.pow_le_mono_r; lia). lia. }
    destruct (small_outcome c 6 6 D G eq_refl ltac:(lia) Hl HG Hpos (fun j => draw j (6 ^ Z.of_nat (length (filter arrowed D)) - 1)) (fun k => Hdraw k _ Hmax) num fuel 0) as [[L [k' [E' HL]]]|E'];
      rewrite E'; cbn [rbind]; auto. destruct L; [cbn in HL; lia|auto].
  Qed.
  Theorem one_species_one fuel : num = 1%nat -> (0 < fuel)%nat -> enum_sys v draw rnd shuffled fuel G nbasis [c] [a] num supers false = Err NameError.
  Proof.
    intros E1 Hfu. destruct (one_species_reduce fuel) as [D [HD E]]. destruct (one_species_counts c a D Ha HD) as [Hl [Hf Hh]].
    rewrite E.
    assert (0 < length (filter arrowed D))%nat as Hpos by lia.
    assert (0 < 6 ^ Z.of_nat (length (filter arrowed D)) - 1) as Hmax.
    { assert (6 ^ 1 <= 6 ^ Z.of_nat (length (filter arrowed D))) by (apply Z.pow_le_mono_r; lia). lia. }
    pose proof (small_one c 6 6 D G eq_refl ltac:(lia) Hl HG Hpos (fun j => draw j (6 ^ Z.of_nat (length (filter arrowed D)) - 1)) (fun k => Hdraw k _ Hmax) fuel 0 Hfu) as H.
    rewrite <- E1 in H. destruct H as [L [k' E']].
    destruct (small_outcome c 6 6 D G eq_refl ltac:(lia) Hl HG Hpos (fun j => draw j (6 ^ Z.of_nat (length (filter arrowed D)) - 1)) (fun k => Hdraw k _ Hmax) num fuel 0) as [[L' [k'' [E'' HL]]]|E''];
      [|congruence].
    rewrite E''; cbn [rbind]; auto. destruct L'; [cbn in HL; lia|auto].
  Qed.
End OneSpecies.

(** ** Guess and check *)
Section GuessFacts.
  Variable draw : nat -> Z -> Z.
  Hypothesis Hdraw : forall k b, 0 < b -> 0 <= draw k b < b.
  Variable D : list site.
  Notation c := (map (multiplicity site_eqb D) (first_occurrences site_eqb D)).

  Lemma draw_candidate_spec : forall C k cand k', draw_candidate draw C k = Ok (cand, k') -> digits_below C cand.
  Proof.
    induction C as [|b C IH]; intros k cand k'; cbn [draw_candidate]; [intros H; inversion H; constructor|].
    destruct (Z.leb_spec b 0); [discriminate|]. destruct (draw_candidate draw C (S k)) as [[r k1]|] eqn:E; cbn [rbind]; [|discriminate].
    intros H'. inversion H'; subst. constructor; [apply Hdraw; auto|eapply IH; eauto].
  Qed.
  Lemma zlist_eqb_eq a b : zlist_eqb a b = true <-> a = b.
  Proof.
    revert b. unfold zlist_eqb. induction a as [|x a IH]; intros [|y b]; cbn; split; intros H; try discriminate; auto.
    - apply andb_true_iff in H. destruct H as [H1 H2]. apply Z.eqb_eq in H1. apply IH in H2. congruence.
    - inversion H; subst. apply andb_true_iff. split; [apply Z.eqb_refl|apply IH; auto].
  Qed.
  Lemma redraw_candidate_spec concs : forall fuel cand vis k cand' k', digits_below (br_C concs) cand ->
    redraw_candidate draw concs fuel cand vis k = Ok (cand', k') -> digits_below (br_C concs) cand' /\ ~ In (PList cand') vis.
  Proof.
    assert (forall cand vis, existsb (pyval_eqb (PList cand)) vis = false -> ~ In (PList cand) vis) as Hno.
    { intros cand vis E Hin. assert (existsb (pyval_eqb (PList cand)) vis = true); [|congruence]. apply existsb_exists. eexists. split; eauto. cbn. apply zlist_eqb_eq. auto. }
    induction fuel as [|fuel IH]; intros cand vis k cand' k' Hc; cbn [redraw_candidate]; destruct (existsb (pyval_eqb (PList cand)) vis) eqn:E; intros H; try discriminate.
    - inversion H; subst. auto.
    - destruct (draw_candidate draw (br_C concs) k) as [[c1 k1]|] eqn:E1; cbn [rbind] in H; [|discriminate]. eapply IH; [|exact H]. eapply draw_candidate_spec; eauto.
    - inversion H; subst. auto.
  Qed.
  Lemma br_C_eq concs : br_C concs = coefficients concs (Z.of_nat (sum_nat concs)).
  Proof. reflexivity. Qed.

  (** A full labeling has no zero: its "hash" is 0. *)
  Lemma hash_no_zero x : ~ In 0%nat x -> In 1%nat x -> hash x = Ok 0.
  Proof.
    intros H0 H1. unfold hash.
    assert (exists ix, py_index (rev x) 1 = Ok ix) as [ix ->].
    { unfold py_index. assert (forall l k, In 1%nat l -> exists ix, py_index_from (Nat.eqb 1) l k = Ok ix) as H.
      { induction l as [|y l IH]; intros k Hr; [destruct Hr|]. cbn [py_index_from]. destruct (Nat.eqb_spec 1 y); [eauto|]. destruct Hr as [Hr|Hr]; [congruence|]. apply IH; auto. }
      apply H. apply in_rev in H1. auto. }
    cbn [rbind]. assert (py_count (firstn (length x - ix) x) 0 = 0%nat) as ->; auto.
    unfold py_count. rewrite filter_none; auto. intros y Hy. apply firstn_in in Hy. destruct y; auto. contradiction.
  Qed.
  Lemma concs_no_zero cc x : cc <> [] -> Forall (fun a => (0 < a)%nat) cc -> has_concs cc x -> ~ In 0%nat x /\ In 1%nat x.
  Proof.
    intros Hne Hpos Hx. split.
    - intros H. apply (has_concs_range cc x Hx) in H. lia.
    - destruct Hx as [_ Hx]. destruct cc as [|a cc]; [congruence|]. inversion Hpos; subst. specialize (Hx 0%nat ltac:(cbn; lia)). cbn in Hx. unfold occ in Hx.
      apply (count_occ_In Nat.eq_dec). lia.
  Qed.
  (** The comparison with earlier configurations never finds anything. *)
  Lemma guess_unseen_true gs config cand vis : D <> [] -> has_concs c config -> (forall g, In g gs -> is_perm (length D) (fst g)) ->
    (forall p, In p vis -> exists l, p = PList l) -> guess_unseen gs config cand vis = Ok true.
  Proof.
    intros Hne Hx Hg Hv. assert (length config = length D) as Hl by (destruct Hx as [E _]; rewrite E; apply concs_sum).
    destruct (concs_no_zero c config (concs_nonempty D Hne) (concs_pos D) Hx) as [H0 H1].
    induction gs as [|g gs IH]; auto. cbn [guess_unseen]. pose proof (Hg g (or_introl eq_refl)) as Hp.
    rewrite (rmap_get 0%nat) by (intros j Hj; rewrite Hl; apply Hp; auto). cbn [rbind].
    assert (forall y, In y (act 0%nat (fst g) config) <-> In y config) as Hin by (intros y; apply (act_In 0%nat (length D)); auto).
    rewrite hash_no_zero by (rewrite Hin; auto). cbn [rbind].
    assert (existsb (pyval_eqb (PInt 0)) vis = false) as ->.
    { apply not_true_is_false. intros E. apply existsb_exists in E. destruct E as [p [Hp' E]]. destruct (Hv p Hp') as [l ->]. discriminate. }
    cbn [andb]. apply IH. intros; apply Hg; right; auto.
  Qed.
End GuessFacts.

Section GuessArrows.
  Variable draw : nat -> Z -> Z.
  Hypothesis Hdraw : forall k b, 0 < b -> 0 <= draw k b < b.
  Variable D : list site.
  Notation c := (map (multiplicity site_eqb D) (first_occurrences site_eqb D)).
  Variables (G : list op) (supers : bool) (cellsize num : nat).
  Hypothesis HG : forall g, In g G -> is_perm (length D) (fst g) /\ is_perm 6 (snd g).
  Notation k := (length (filter arrowed D)).
  Hypothesis Hk : (0 < k)%nat.
  Hypothesis Hnum : 6 ^ Z.of_nat k - 1 < Z.of_nat num.

  Theorem guess_arrows_never : forall fuel visited j r, guess_loop draw c G D 6 supers cellsize num fuel [] visited j <> Ok r.
  Proof.
    assert (0 < 6 ^ Z.of_nat k) as Hp by (apply Z.pow_pos_nonneg; lia).
    induction fuel as [|fuel IH]; intros vis j r; cbn [guess_loop length]; (destruct (Nat.ltb_spec 0 num); [|lia]); [discriminate|].
    destruct (draw_candidate draw (br_C c) j) as [[c0 k0]|] eqn:E0; cbn [rbind]; [|discriminate].
    destruct (redraw_candidate draw c fuel c0 vis k0) as [[c1 k1]|] eqn:E1; cbn [rbind]; [|discriminate].
    apply draw_candidate_spec in E0; auto. apply redraw_candidate_spec in E1; auto. destruct E1 as [E1 _].
    destruct (invhash_valid c c1 E1) as [x [Ex [Hx _]]]. rewrite Ex. cbn [rbind].
    destruct (guess_unseen G x c1 (vis ++ [PList c1])) as [b|]; cbn [rbind]; [|discriminate].
    assert ((br_narrows D =? 0)%nat = false) as En by (unfold br_narrows; rewrite how_many_arrows_count; apply Nat.eqb_neq; lia).
    rewrite En, andb_false_r. cbn [andb rbind]. destruct b; [|apply IH].
    destruct (Nat.ltb_spec 0 (br_narrows D)); [|apply Nat.eqb_neq in En; lia]. rewrite out_deco_eq by auto. cbn [rbind].
    assert (length (filter arrowed (deco D x)) = k) as Ek.
    { apply Permutation_length, filter_perm, deco_perm; auto. }
    assert (length (deco D x) = length D) as El by (apply Permutation_length, deco_perm; auto).
    match goal with |- context [add_arrows_small ?dr ?f ?col ?A ?dm ?nw ?kk] => destruct (add_arrows_small dr f col A dm nw kk) as [rr|] eqn:Ea end; cbn [rbind]; [|discriminate].
    exfalso. revert Ea. rewrite ahash_max by lia. rewrite Ek.
    assert (0 < 6 ^ Z.of_nat k - 1) as Hmax.
    { assert (6 ^ 1 <= 6 ^ Z.of_nat k) by (apply Z.pow_le_mono_r; lia). lia. }
    apply (small_never (length D) 6 6 (deco D x) G eq_refl ltac:(lia) El HG); rewrite Ek; [intros; apply Hdraw; auto|lia].
  Qed.
End GuessArrows.
