(** [enum_sys]: results of another length than wanted (C40), one species with arrows (C52). *)
From Coq Require Import Permutation Sorted.
From Verif Require Import PyBase Spec ListFacts PermFacts NumericsModel PhononsModel TreeModel HashProofs CanonProofs TreeSearch BranchRun ColorProofs ArrowProofs DecoFacts ArrowEnum DecoBij
  BranchProofs BranchTheorems TransFacts PolyaModel PolyaSpec PolyaUse MultiProofs EnumSysModel DecoProofs SmallProofs EnumSysProofs EnumSysFail EnumSysGuess.
Local Open Scope Z_scope.

(** ** No sample drawn: everything is returned *)
Section Whole.
  Variables (v : pyversion) (draw : nat -> Z -> Z) (rnd : nat -> bool) (shuffled : list Z -> list Z).
  Lemma enum_core_whole G nbasis concs na num D k t sc m L :
    (0 < nbasis)%nat -> arrow_concs concs na = Ok D -> how_many_arrows D = (k, t, sc) -> length concs <> 1%nat ->
    NumericsModel.multinomial (map Z.of_nat concs) = Ok m -> skip_count m t (sum_nat concs) num = false ->
    (if negb (t =? 0)%nat then polya v sc G t else polya v concs G 0) = Ok (Z.of_nat (length L), G) ->
    (forall s, use_subset false s = false -> exists fuel0, forall fuel, (fuel0 <= fuel)%nat ->
        brancher sc G D 6 true (sum_nat concs / nbasis) false rnd fuel s = Ok L) ->
    num = 0%nat \/ (length L <= num)%nat \/ 1000000 <= Z.of_nat (length L) ->
    exists fuel0, (forall fuel, (fuel0 <= fuel)%nat -> enum_sys v draw rnd shuffled fuel G nbasis concs na num true false = Ok L).
  Proof.
    intros Hnb HD Hhm Hlen Hm Hskip Hpolya Hevery Hcase.
    set (s := if Z.of_nat num <? Z.of_nat (length L) then
                if Z.of_nat (length L) <? 1000000 then SList (firstn num (shuffled (range_up 1 (Z.of_nat (length L) + 1)))) else SInt (Z.of_nat num)
              else SList []).
    assert (use_subset false s = false) as Hs.
    { unfold s. destruct (Z.ltb_spec (Z.of_nat num) (Z.of_nat (length L))); auto. destruct (Z.ltb_spec (Z.of_nat (length L)) 1000000); auto.
      destruct Hcase as [->|[H1|H1]]; auto; lia. }
    destruct (Hevery s Hs) as [f Hf]. exists f. intros fuel Hfu. rewrite <- (Hf fuel Hfu).
    unfold enum_sys. destruct (Nat.eqb_spec nbasis 0); [lia|]. rewrite HD. cbn [rbind]. rewrite Hhm.
    unfold plan. rewrite Hm. cbn [rbind]. rewrite Hskip. rewrite Hpolya. cbn [rbind].
    destruct (Nat.eqb_spec (length concs) 1); [congruence|].
    assert (((100000 <? m) || (negb (t =? 0)%nat && (12 <=? sum_nat concs)%nat)) && (num <=? 100)%nat = false) as Eg.
    { unfold skip_count in Hskip. destruct (100000 <? m), (num <=? 100)%nat, (negb (t =? 0)%nat), (12 <=? sum_nat concs)%nat; cbn in *; auto. }
    rewrite Eg. cbn [andb]. reflexivity.
  Qed.

  Variables (G : list op) (nbasis : nat) (concs : list nat) (na : list Z) (num : nat) (D : list site) (m : Z).
  Hypothesis Hnb : (0 < nbasis)%nat.
  Hypothesis Hlen : (2 <= length concs)%nat.
  Hypothesis Hna : nonneg_at_most concs na.
  Hypothesis HD : arrow_concs concs na = Ok D.
  Hypothesis Hne : D <> [].
  Hypothesis Hm : NumericsModel.multinomial (map Z.of_nat concs) = Ok m.
  Hypothesis HGnd : NoDup G.

  Theorem enum_plain_whole d reps :
    fold_right Z.add 0 na = 0 -> (0 < d)%nat -> op_group (length D) d G ->
    (100 < num)%nat \/ m <= 100000 ->
    Z.of_nat (max (length D) (length G)) * Z.of_nat (length (labelings concs)) < 2 ^ 53 ->
    transversal (fun w => Permutation w D) (site_equiv G) reps -> num = 0%nat \/ (length reps <= num)%nat \/ 1000000 <= Z.of_nat (length reps) ->
    exists L fuel0, (forall fuel, (fuel0 <= fuel)%nat -> enum_sys v draw rnd shuffled fuel G nbasis concs na num true false = Ok L) /\
      length L = length reps /\ transversal (fun w => Permutation w D) (site_equiv G) L.
  Proof.
    intros Hzero Hd HG Hskip HB Hreps Hnum.
    pose proof (D_counts concs na D Hna HD) as Hc. pose proof (D_plain concs na D Hna HD Hzero) as Hperm.
    assert (Forall (fun s => fst s = -1) D) as Hno.
    { apply Forall_forall. intros s Hs. apply (Permutation_in _ Hperm) in Hs. unfold plain_sites in Hs. apply in_flat_map in Hs.
      destruct Hs as [[i c] [_ Hs]]. apply repeat_spec in Hs. subst. auto. }
    assert (perm_group (length D) (map fst G)) as HGp by (eapply op_group_perm_group; eauto).
    pose proof (colourings_transversal D G HGp) as Htr.
    assert (length (colourings D G) = length reps) as Elen.
    { eapply transversal_length; [| |exact Htr|exact Hreps].
      - intros x y Hx _. apply (site_equiv_sym (length D)); auto. apply (Permutation_length Hx).
      - intros x y z Hx _ _. apply (site_equiv_trans (length D)); auto. }
    set (t := length (filter (fun a => 0 <? a) na)) in *.
    assert ((t =? 0)%nat = true) as Ht by (apply (na_types concs na Hna); auto).
    destruct (enum_core_whole G nbasis concs na num D _ _ _ m (colourings D G) Hnb HD Hc) as [f H1].
    - lia.
    - auto.
    - unfold skip_count. fold t. rewrite Ht. cbn [negb andb]. rewrite orb_false_r. destruct Hskip as [Hs|Hs].
      + destruct (Nat.leb_spec num 100); [lia|]. rewrite andb_false_r. auto.
      + destruct (Z.ltb_spec 100000 m); [lia|]. auto.
    - fold t. rewrite Ht. cbn [negb]. eapply polya_plain; eauto.
    - intros s Hs. apply plain_every; auto.
    - lia.
    - exists (colourings D G), f. auto.
  Qed.
End Whole.

(** ** One species *)
(** [add_arrows] with a number wanted keeps the first ones. *)
Section AddSome.
  Variables (n m : nat) (dim : Z) (col : list site) (A : list op).
  Hypothesis Hm : Z.of_nat m = dim.
  Hypothesis Hdim : 0 < dim.
  Hypothesis Hn : length col = n.
  Hypothesis HAp : forall g, In g A -> is_perm n (fst g) /\ is_perm m (snd g).
  Notation mm := (length (filter arrowed col)).
  Notation wof := (wof dim col).
  Notation arr := (arr dim col).
  Variable tr : list op.

  Lemma loop_some rnd k w : forall hs acc, (length acc < w)%nat -> (forall h, In h hs -> 0 <= h < dim ^ Z.of_nat mm) ->
    add_arrows_loop rnd hs col A dim tr false (Some w) true acc k = Ok (firstn w (acc ++ filter (uniqA dim A) (map wof hs)), k).
  Proof.
    induction hs as [|h hs IH]; intros acc Hacc Hr; cbn [add_arrows_loop map filter].
    - rewrite app_nil_r, firstn_all2 by lia. auto.
    - destruct (wof_spec n m dim col Hdim Hn h) as [E1 [E2 [E3 E4]]]; [apply Hr; left; auto|]. rewrite E1. cbn [rbind].
      pose proof (arrow_unique_spec n m dim col A Hm Hn HAp (wof h) E2 A (incl_refl _)) as Eu. rewrite E4 in Eu at 1. rewrite Eu. cbn [rbind].
      fold (uniqA dim A (wof h)).
      destruct (uniqA dim A (wof h)) eqn:Ew; cbn [rbind andb negb].
      + destruct (Nat.eqb_spec (length (acc ++ [wof h])) w) as [El|El].
        * f_equal. f_equal. transitivity (firstn w ((acc ++ [wof h]) ++ filter (uniqA dim A) (map wof hs))); [|rewrite <- app_assoc; auto].
          rewrite firstn_app, El, Nat.sub_diag. cbn [firstn]. rewrite app_nil_r, firstn_all2 by lia. auto.
        * rewrite IH; [|rewrite app_length in *; cbn in *; lia|intros; apply Hr; right; auto]. rewrite <- app_assoc. auto.
      + apply IH; auto. intros; apply Hr; right; auto.
  Qed.
  Lemma add_arrows_some rnd k w : (0 < w)%nat -> add_arrows rnd col A dim tr false (Some w) true k = Ok (firstn w (all_min dim col A), k).
  Proof.
    intros Hw. unfold add_arrows. rewrite how_many_arrows_count, ahash_max by auto. rewrite loop_some; auto.
    - cbn [app]. unfold all_min. replace (dim ^ Z.of_nat mm - 1 + 1) with (dim ^ Z.of_nat mm) by lia. auto.
    - intros h Hh. apply in_range_up in Hh. lia.
  Qed.
End AddSome.

Section OneSpeciesAll.
  Variables (v : pyversion) (draw : nat -> Z -> Z) (rnd : nat -> bool) (shuffled : list Z -> list Z).
  Hypothesis Hdraw : forall k b, 0 < b -> 0 <= draw k b < b.
  Variables (G : list op) (nbasis c num : nat).
  Hypothesis Hnb : (0 < nbasis)%nat.
  Hypothesis Hc : (0 < c)%nat.
  Hypothesis HG : op_group c 6 G.
  Hypothesis HGnd : NoDup G.
  Notation D := (repeat ((1, 1) : site) c).

  Lemma all_arrowed_D : arrow_concs [c] [Z.of_nat c] = Ok D.
  Proof.
    clear HG. assert (nonneg_at_most [c] [Z.of_nat c]) as Hna by (split; auto; intros [|i] Hi; cbn in *; lia).
    destruct (arrow_concs_shape [c] [Z.of_nat c] Hna) as [u [a [E [Hp _]]]]. rewrite E. f_equal.
    unfold deco_runs in Hp. cbn in Hp. rewrite Nat2Z.id in Hp. rewrite Nat.sub_diag in Hp. destruct c as [|c']; [lia|]. cbn in Hp.
    apply Permutation_sym, Permutation_length_1_inv in Hp. rewrite Hp. unfold runs. cbn. rewrite app_nil_r. auto.
  Qed.
  Lemma skel_D : map skeleton D = repeat (0, 1) c.
  Proof. clear. induction c; cbn; auto. f_equal. auto. Qed.
  Lemma fix_D g : In g G -> act (-1, 0) (fst g) (map skeleton D) = map skeleton D.
  Proof.
    intros Hg. rewrite skel_D. destruct HG as [Hp _]. destruct (Hp g Hg) as [[Hl [_ Hr]] _]. unfold act.
    assert (forall p, (forall i, In i p -> (i < c)%nat) -> map (fun j => nth j (repeat (0, 1) c) (-1, 0)) p = repeat (0, 1) (length p)) as H.
    { clear. induction p as [|i p IH]; intros H; cbn [map length repeat]; auto. rewrite IH by (intros; apply H; right; auto). f_equal.
      apply (repeat_spec c). apply nth_In. rewrite repeat_length. apply H. left; auto. }
    rewrite H by auto. congruence.
  Qed.
  Lemma perm_repeat {A} (x : A) k l : Permutation l (repeat x k) -> l = repeat x k.
  Proof.
    revert l. induction k; intros l H; cbn in *; [apply Permutation_sym, Permutation_nil in H; auto|].
    assert (forall y, In y l -> y = x) as Hx by (intros y Hy; apply (Permutation_in _ H) in Hy; destruct Hy as [<-|Hy]; auto; apply repeat_spec in Hy; auto).
    destruct l as [|y l]; [apply Permutation_nil in H; discriminate|]. rewrite (Hx y) in * by (left; auto). f_equal. apply IHk. eapply Permutation_cons_inv; eauto.
  Qed.

  Lemma all_arrowed_sorted : D = col_sort D.
  Proof.
    assert (nonneg_at_most [c] [Z.of_nat c]) as Hna by (split; auto; intros [|i] Hi; cbn in *; lia).
    pose proof (arrow_concs_runs [c] [Z.of_nat c] Hna) as E. rewrite all_arrowed_D in E. inversion E as [E']. rewrite E' at 1.
    f_equal. unfold deco_runs, runs. cbn. rewrite Nat2Z.id, Nat.sub_diag. cbn. rewrite app_nil_r. auto.
  Qed.
  Lemma labelings_one : length (labelings [c]) = 1%nat.
  Proof.
    clear. assert (forall x, In x (labelings [c]) <-> x = repeat 1%nat c) as H.
    { intros x. rewrite labelings_spec. split.
      - intros Hx. pose proof (has_concs_range [c] x Hx) as Hr. destruct Hx as [Hl _]. cbn in Hl, Hr. rewrite Nat.add_0_r in Hl. rewrite <- Hl. clear Hl.
        induction x as [|a x IH]; auto. cbn. rewrite <- IH by (intros; apply Hr; right; auto). f_equal. specialize (Hr a (or_introl eq_refl)). lia.
      - intros ->. split; [rewrite repeat_length; cbn; lia|]. intros [|i] Hi; [|cbn in Hi; lia]. unfold occ. cbn. clear. induction c as [|k IH]; cbn; auto. }
    pose proof (labelings_NoDup [c]) as Hnd. destruct (labelings [c]) as [|x [|y l]]; auto.
    - exfalso. apply (proj2 (H _) eq_refl).
    - exfalso. assert (x = y) by (transitivity (repeat 1%nat c); [apply H; left; auto|symmetry; apply H; right; left; auto]). subst. inversion Hnd. apply H2. left; auto.
  Qed.
  Lemma subseq_nil_l {A} (l : list A) : subseq [] l.
  Proof. induction l; constructor; auto. Qed.

  Lemma subseq_firstn {A} k (l : list A) : subseq (firstn k l) l.
  Proof. revert l. induction k; intros [|x l]; cbn; try apply subseq_nil_l. apply sub_keep. auto. Qed.

  Theorem one_species_all reps :
    (c < 12)%nat \/ (100 < num)%nat ->
    transversal (fun w => length w = c /\ forall s, In s w -> 0 <= fst s < 6 /\ snd s = 1) (op_equiv G) reps ->
    (1 <= num <= length reps)%nat -> Z.of_nat (max c (length G)) * 6 ^ Z.of_nat c < 2 ^ 53 ->
    forall fuel,
    (exists L, enum_sys v draw rnd shuffled fuel G nbasis [c] [Z.of_nat c] num true false = Ok L /\ length L = num /\
      (forall w, In w L -> length w = c /\ forall s, In s w -> 0 <= fst s < 6 /\ snd s = 1) /\ ForallOrdPairs (fun r s => ~ op_equiv G r s) L) \/
    (1000 * Z.of_nat num < Z.of_nat (length reps) /\ enum_sys v draw rnd shuffled fuel G nbasis [c] [Z.of_nat c] num true false = Err OutOfFuel).
  Proof.
    intros Hsk Hreps Hnum HB fuel.
    assert (nonneg_at_most [c] [Z.of_nat c]) as Hna by (split; auto; intros [|i] Hi; cbn in *; lia).
    pose proof all_arrowed_D as HD. pose proof (D_counts [c] [Z.of_nat c] D Hna HD) as Hhm.
    assert (length D = c) as Hl by apply repeat_length.
    assert (filter arrowed D = D) as Hf.
    { apply filter_all. intros s Hs. apply repeat_spec in Hs. subst. auto. }
    assert (forall w, (map skeleton w = map skeleton D /\ directions_below 6 w) <-> (length w = c /\ forall s, In s w -> 0 <= fst s < 6 /\ snd s = 1)) as Hiff.
    { intros w. rewrite skel_D. split.
      - intros [E Hd]. split; [apply (f_equal (@length site)) in E; rewrite map_length, repeat_length in E; auto|]. intros s Hs. specialize (Hd s Hs).
        assert (In (skeleton s) (repeat (0, 1) c)) as H by (rewrite <- E; apply in_map; auto). apply repeat_spec in H. unfold skeleton, has_arrow in H.
        inversion H as [[E1 E2]]. destruct (Z.leb_spec 0 (fst s)); lia.
      - intros [<- Hs]. split; [|intros s H; apply Hs; auto].
        clear - Hs. induction w as [|s w IH]; cbn [map length repeat]; auto. rewrite IH by (intros; apply Hs; right; auto). f_equal.
        destruct (Hs s (or_introl eq_refl)) as [H1 H2]. unfold skeleton, has_arrow. destruct (Z.leb_spec 0 (fst s)); [|lia]. congruence. }
    assert (transversal (fun w => map skeleton w = map skeleton D /\ directions_below 6 w) (op_equiv G) reps) as Hr1.
    { destruct Hreps as [H1 [H2 H3]]. split; [intros r Hr; apply Hiff; auto|]. split; auto. intros x Hx. apply H2. apply Hiff; auto. }
    assert (transversal (fun w => Permutation (map skeleton w) (map skeleton D) /\ directions_below 6 w) (op_equiv G) reps) as Hr2.
    { destruct Hr1 as [H1 [H2 H3]]. split; [intros r Hr; destruct (H1 r Hr) as [-> ?]; auto|]. split; auto. intros x [Hx Hx']. apply H2. split; auto.
      rewrite skel_D in *. apply perm_repeat; auto. }
    assert (op_group (length D) 6 G) as HG' by (rewrite Hl; auto).
    pose proof (all_min_transversal c 6 6 D G eq_refl ltac:(lia) Hl (proj1 HG) HG fix_D) as Hmin.
    assert (length (all_min 6 D G) = length reps) as Elen.
    { assert (forall w, (map skeleton w = map skeleton D /\ directions_below 6 w) -> okw c 6 w) as Hok by (intros w Hw; split; [apply Hiff; auto|apply Hw]).
      eapply transversal_length; [| |exact Hmin|exact Hr1].
      - intros x y Hx _. apply (op_equiv_sym c 6 6 G eq_refl HG). auto.
      - intros x y z Hx _ _. apply (op_equiv_trans c 6 6 G eq_refl HG). auto. }
    assert (map (multiplicity site_eqb D) (first_occurrences site_eqb D) = [c]) as Econc.
    { assert (D = runs [((1, 1), c)]) as E by (unfold runs; cbn; rewrite app_nil_r; auto). rewrite E at 2.
      rewrite (first_occ_runs site_eqb site_eqb_spec); [|repeat constructor; intros []|repeat constructor; auto]. cbn [map fst]. rewrite E.
      rewrite (mult_runs site_eqb site_eqb_spec [((1, 1), c)] (1, 1) c); auto; [repeat constructor; intros []|left; auto]. }
    assert (length (labelings [c]) = 1%nat) as Elab by apply labelings_one.
    assert (0 < 6 ^ Z.of_nat c) as Hp6 by (apply Z.pow_pos_nonneg; lia).
    assert (NumericsModel.multinomial (map Z.of_nat [c]) = Ok 1) as Hmu.
    { rewrite (multinomial_int64 [c]); [rewrite Elab; auto|discriminate|]. rewrite Elab. cbn. nia. }
    rewrite Econc in Hhm.
    pose proof (polya_cwa v D (repeat (1, 1) c) G 6 reps ltac:(rewrite <- all_arrowed_sorted; auto) ltac:(destruct c; [lia|discriminate]) ltac:(lia) HG' HGnd) as Hpol.
    rewrite Hhm in Hpol.
    set (k := Z.to_nat (fold_right Z.add 0 [Z.of_nat c])) in *. assert (k = c) as Ek by (unfold k; cbn; lia).
    set (t := length (filter (fun a => 0 <? a) [Z.of_nat c])) in *. assert (t = 1%nat) as Et by (unfold t; cbn; destruct c; [lia|auto]).
    clearbody k t. subst k t.
    specialize (Hpol (D_cons [c] [Z.of_nat c] D Hna HD) Hr2). rewrite Hl, Elab, Nat.mul_1_l in Hpol.
    assert (Z.of_nat (6 ^ c) = 6 ^ Z.of_nat c) as E6 by (rewrite Nat2Z.inj_pow; auto). rewrite E6 in Hpol. specialize (Hpol HB).
    assert (length reps <> 0%nat) as Hr0 by lia.
    unfold enum_sys. destruct (Nat.eqb_spec nbasis 0); [lia|]. rewrite HD. cbn [rbind]. rewrite Hhm. unfold plan. rewrite Hmu. cbn [rbind].
    assert (skip_count 1 1 (sum_nat [c]) num = false) as ->.
    { unfold skip_count. cbn [Nat.eqb negb andb]. change (100000 <? 1) with false. cbn [andb orb]. unfold sum_nat. cbn [fold_right].
      destruct (Nat.leb_spec 12 (c + 0)); auto. destruct (Nat.leb_spec num 100); auto. lia. }
    cbn [Nat.eqb negb]. rewrite Hpol. cbn [rbind length Nat.eqb]. destruct (Z.eqb_spec (Z.of_nat (length reps)) 0); [lia|].
    rewrite ahash_max by lia. rewrite andb_true_r.
    destruct (Z.ltb_spec (1000 * Z.of_nat num) (Z.of_nat (length reps))) as [Hs|Hs].
    - assert (0 < length (filter arrowed D))%nat as Hpos by (rewrite Hf, Hl; auto).
      assert (0 < 6 ^ Z.of_nat c - 1) as Hmax.
      { assert (6 ^ 1 <= 6 ^ Z.of_nat c) by (apply Z.pow_le_mono_r; lia). lia. }
      assert (forall k, 0 <= draw k (6 ^ Z.of_nat c - 1) < 6 ^ Z.of_nat (length (filter arrowed D)) - 1) as Hd by (rewrite Hf, Hl; auto).
      destruct (small_outcome c 6 6 D G eq_refl ltac:(lia) Hl (proj1 HG) Hpos (fun j => draw j (6 ^ Z.of_nat c - 1)) Hd num fuel 0) as [[L [k' [E' HL]]]|E']; rewrite E'; cbn [rbind]; auto.
      left. exists L. apply (small_sound c 6 6 D G eq_refl ltac:(lia) Hl (proj1 HG) _ Hd HG) in E'. destruct E' as [H1 [H2 H3]].
      split; [destruct L; auto|]. split; auto. split; auto. intros w Hw. apply Hiff. apply H2; auto.
    - left. rewrite (add_arrows_some c 6 6 D G eq_refl ltac:(lia) Hl (proj1 HG)) by lia. cbn [rbind]. exists (firstn num (all_min 6 D G)).
      split; [destruct (firstn num (all_min 6 D G)); auto|]. split; [rewrite firstn_length; lia|]. split.
      + intros w Hw. apply Hiff. apply (proj1 Hmin). eapply firstn_in; eauto.
      + destruct Hmin as [_ [_ H]]. eapply subseq_FOP; [|exact H]. apply subseq_firstn.
  Qed.
End OneSpeciesAll.
