(** Counting and enumerating one system of a single, displaced species (C68). *)
From Coq Require Import Permutation.
From Verif Require Import TextModel PyBase Spec ListFacts PermFacts CanonProofs TransFacts NumericsModel PhononsModel TreeModel TreeSearch ColorProofs ArrowProofs DecoFacts ArrowEnum DecoBij BranchRun BranchProofs BranchTheorems SuperProofs MultiProofs Mat3 HNFModel HNFProofs.
From Verif Require Import PolyaModel PolyaSpec PolyaUse EnumSysModel DecoProofs EnumSysProofs EnumSysMore.
From Verif Require Import LatSpec LatGroupModel LatFacts LatSites LatProofs LatMain LatTop LatGroupThm LatNoDup LatFirst SNFModel SuperModel StructSpec StructProofs StructThm StructMain StructAll StructArrows ArrowSuper PropertiesGroup PropertiesArrowSuper.
From Verif Require Import RunModel RunProofs RunSystem RunSpec RunMain RunArrowDeco RunArrowSystem.
Local Open Scope Z_scope.
Lemma flen_le {A} (f : A -> bool) l : (length (filter f l) <= length l)%nat.
Proof. induction l as [|x l IH]; cbn; auto. destruct (f x); cbn; lia. Qed.

(** ** [add_arrows] with a number that is not reached *)
Section Reached.
  Variables (n m : nat) (dim : Z) (col : list site) (A : list op).
  Hypothesis Hm : Z.of_nat m = dim.
  Hypothesis Hdim : 0 < dim.
  Hypothesis Hn : length col = n.
  Hypothesis HAp : forall g, In g A -> is_perm n (fst g) /\ is_perm m (snd g).
  Variable tr : list op.
  Hypothesis Htr : forall g, In g tr -> is_perm n (fst g) /\ is_perm m (snd g).
  Notation mm := (length (filter arrowed col)).

  Lemma loop_some_none rnd k w : forall hs acc r, (length acc < w)%nat ->
    add_arrows_loop rnd hs col A dim tr false None false acc k = Ok (r, k) -> (length r <= w)%nat ->
    (exists t, r = acc ++ t) /\ add_arrows_loop rnd hs col A dim tr false (Some w) false acc k = Ok (r, k).
  Proof.
    assert (forall hs acc r, add_arrows_loop rnd hs col A dim tr false None false acc k = Ok (r, k) -> exists t, r = acc ++ t) as Hext.
    { induction hs as [|h hs IH]; intros acc r; cbn [add_arrows_loop].
      - intros E. exists []. rewrite app_nil_r. congruence.
      - destruct (place_arrows col (ainvhash h mm dim)) as [temp|]; cbn [rbind]; [|discriminate].
        destruct (arrow_unique A temp h dim) as [u|]; cbn [rbind]; [|discriminate]. destruct u; [|apply IH].
        destruct (arrow_superperiodic tr temp (ainvhash h mm dim)) as [sp|]; cbn [rbind]; [|discriminate]. destruct sp; cbn [andb negb]; [apply IH|].
        intros E. destruct (IH _ _ E) as [t ->]. exists ([temp] ++ t). rewrite app_assoc. auto. }
    induction hs as [|h hs IH]; intros acc r Hacc E Hr; (split; [eapply Hext; eauto|]); cbn [add_arrows_loop] in *; auto.
    destruct (place_arrows col (ainvhash h mm dim)) as [temp|]; cbn [rbind] in *; [|discriminate].
    destruct (arrow_unique A temp h dim) as [u|]; cbn [rbind] in *; [|discriminate]. destruct u; [|apply IH; auto].
    destruct (arrow_superperiodic tr temp (ainvhash h mm dim)) as [sp|]; cbn [rbind] in *; [|discriminate]. destruct sp; cbn [andb negb] in *; [apply IH; auto|].
    destruct (Nat.eqb_spec (length (acc ++ [temp])) w) as [El|El].
    - destruct (Hext _ _ _ E) as [t ->]. rewrite app_length, El in Hr. destruct t; [|cbn in Hr; lia]. rewrite app_nil_r. auto.
    - apply IH; auto. rewrite app_length in *. cbn [length] in *. lia.
  Qed.
  Lemma add_arrows_reached rnd k w : (0 < w)%nat -> (length (arrangements dim col A false tr) <= w)%nat ->
    add_arrows rnd col A dim tr false (Some w) false k = Ok (arrangements dim col A false tr, k).
  Proof.
    intros Hw Hl. pose proof (add_arrows_eq n m dim col A Hm Hdim Hn HAp false tr (fun _ => Htr) rnd k) as E. unfold add_arrows in *. eapply loop_some_none; eauto.
  Qed.
End Reached.

(** ** One species: a single colouring *)
Section OneColour.
  Variables (G : list op) (c cs : nat).
  Hypothesis Hc : (0 < c)%nat.
  Hypothesis HG : op_group c 6 G.
  Notation D := (repeat ((1, 1) : site) c).
  Notation x0 := (repeat 1%nat c).

  Lemma one_concs : map (multiplicity site_eqb D) (first_occurrences site_eqb D) = [c].
  Proof.
    assert (D = runs [((1, 1), c)]) as E by (unfold runs; cbn; rewrite app_nil_r; auto). rewrite E at 2.
    rewrite (first_occ_runs site_eqb site_eqb_spec); [|repeat constructor; intros []|repeat constructor; auto]. cbn [map fst]. rewrite E.
    rewrite (mult_runs site_eqb site_eqb_spec [((1, 1), c)] (1, 1) c); auto; [repeat constructor; intros []|left; auto].
  Qed.
  Lemma one_labeling x : has_concs [c] x <-> x = x0.
  Proof.
    split.
    - intros Hx. pose proof (has_concs_range [c] x Hx) as Hr. destruct Hx as [Hl _]. cbn in Hl, Hr. rewrite Nat.add_0_r in Hl. rewrite <- Hl. clear Hl.
      induction x as [|a x IH]; auto. cbn. rewrite <- IH by (intros; apply Hr; right; auto). f_equal. specialize (Hr a (or_introl eq_refl)). lia.
    - intros ->. split; [rewrite repeat_length; cbn; lia|]. intros [|i] Hi; [|cbn in Hi; lia]. unfold occ. cbn. clear. induction c as [|k IH]; cbn; auto.
  Qed.
  Lemma one_fixed g : In g G -> gx g x0 = x0.
  Proof.
    intros Hg. destruct HG as [Hp _]. destruct (Hp g Hg) as [[Hl [_ Hr]] _]. unfold gx, act.
    assert (forall p, (forall i, In i p -> (i < c)%nat) -> map (fun j => nth j x0 0%nat) p = repeat 1%nat (length p)) as H.
    { clear. induction p as [|i p IH]; intros H; cbn [map length repeat]; auto. rewrite IH by (intros; apply H; right; auto). f_equal.
      apply (repeat_spec c). apply nth_In. rewrite repeat_length. apply H. left; auto. }
    rewrite H by auto. congruence.
  Qed.
  Lemma one_canonical : canonicals D G = [x0].
  Proof.
    assert (forall x, In x (canonicals D G) <-> x = x0) as Hi.
    { intros x. rewrite canonicals_In, one_concs, one_labeling. split; [tauto|]. intros ->. split; auto. intros g Hg. rewrite one_fixed by auto. apply CanonProofs.lex_leb_refl. }
    pose proof (canonicals_NoDup D G) as Hnd. destruct (canonicals D G) as [|x [|y l]].
    - exfalso. apply (proj2 (Hi x0) eq_refl).
    - f_equal. apply Hi. left; auto.
    - exfalso. assert (x = y) by (transitivity (repeat 1%nat c); [apply Hi; left; auto|symmetry; apply Hi; right; left; auto]). subst. inversion Hnd. apply H1. left; auto.
  Qed.
  Lemma one_structures : structures D G 6 false cs = arrangements 6 D G false (firstn cs G) /\ all_structures D G 6 = all_min 6 D G.
  Proof.
    assert (has_concs (map (multiplicity site_eqb D) (first_occurrences site_eqb D)) x0) as Hx by (rewrite one_concs; apply one_labeling; auto).
    assert (deco D x0 = D) as E1 by (apply perm_repeat, (deco_perm D x0 Hx)).
    assert (stab_full G x0 = G) as E2.
    { unfold stab_full. apply filter_all. intros g Hg. rewrite one_fixed by auto. apply nlist_eqb_spec. auto. }
    unfold structures, all_structures, full_list. rewrite one_canonical. cbn [flat_map]. rewrite !app_nil_r. unfold dressed, mins. rewrite E1, E2. auto.
  Qed.
  Lemma one_fewer : (length (arrangements 6 D G false (firstn cs G)) <= length (all_min 6 D G))%nat.
  Proof. unfold arrangements, all_min. rewrite <- filter_filter. apply flen_le. Qed.
End OneColour.

(** ** One system *)
Section SystemOne.
Variables (pg : list (mat * mat)) (D : Z) (bas : list vec) (lo hi : Z).
Hypothesis HD : 0 < D.
Hypothesis Hpg : forall C R, In (C, R) pg -> unimodular C /\ orthogonal R.
Hypothesis Hgr : rotation_group pg.
Hypothesis Hdiff : NoDup (map snd pg).
Hypothesis Hgb : good_basis pg D bas lo hi.
Variables (n : Z).
Notation sites := (n * Z.of_nat (length bas)).
Hypothesis Hn : 1 <= n /\ lo <= n <= hi /\ sites <= 9.
Notation c := (Z.to_nat sites).
Notation cwa := (repeat ((1, 1) : site) c).

Lemma one_cwa : decosF [true] [c] = cwa.
Proof. pose proof (gb_pos pg D bas lo hi Hgb) as Hbp. assert (1 <= sites) as Hs1 by nia. assert (Ok (decosF [true] [c]) = Ok cwa) as E; [|congruence]. rewrite <- (decosF_ok [true] [c] eq_refl). unfold moved_counts. cbn [combine map fst snd]. apply (all_arrowed_D 1); lia. Qed.
Theorem one_systemOne H rnd : In H (find_all_HNFs n) -> systemA pg D bas [true] [c] H rnd.
Proof.
  intros Hin. assert (mdet H = n) as Hdet by (apply find_det; auto; lia). pose proof (gb_pos pg D bas lo hi Hgb) as Hbp. assert (lo <= mdet H <= hi) as Hlh by lia. assert (1 <= n <= sites) as Hns by nia. assert (c = length bas * Z.to_nat n)%nat as Ecb by lia.
  assert (length [true] = length [c]) as Hfl by auto. set (fl := [true]) in *.
  assert (length cwa = c) as Hcl by apply repeat_length. assert (0 < c)%nat as Hc0 by lia.
  pose proof (moved_ok fl [c] Hfl) as Hna. pose proof (decosF_ok fl [c] Hfl) as HDc.
  assert (moved_counts fl [c] = [Z.of_nat c]) as Emc by reflexivity.
  pose proof (decosF_cons fl [c]) as Hcons0. assert (forall s t, In s cwa -> In t cwa -> skeleton s = skeleton t -> s = t) as Hcons by (intros s t; rewrite <- one_cwa; apply Hcons0; auto).
  assert (decosF fl [c] = cwa) as Ecwa by apply one_cwa. unfold systemA, listA. rewrite Emc in *. rewrite Ecwa in HDc |- *. 
  assert (exists s, In s cwa /\ has_arrow s = true) as Harr by (apply (D_arrow [c] [Z.of_nat c] cwa Hna HDc); cbn; lia).
  destruct (some_arrow cwa Harr) as [Hne Hnar].
  destruct (basis_group pg D bas lo hi HD Hpg Hgr Hdiff Hgb H true ltac:(lia) Hlh) as [Gt [Et [Nt [Ot Lt]]]].
  destruct (basis_group pg D bas lo hi HD Hpg Hgr Hdiff Hgb H false ltac:(lia) Hlh) as [Gf [Ef _]].
  destruct (first_same pg D bas lo hi HD Hpg Hgr Hgb H Gt Gf ltac:(lia) Hlh Et Ef) as [_ Hcell].
  rewrite Hdet, <- Ecb in Ot, Lt. rewrite Hdet in Hcell. assert (op_group (length cwa) 6 Gt) as Ot' by (rewrite Hcl; auto).
  pose proof (all_structures_transversal cwa Gt 6 6 eq_refl ltac:(lia) Ot' Hcons) as Htr.
  destruct (one_structures Gt c (Z.to_nat n) Hc0 Ot) as [Es1 Es2].
  pose proof (one_fewer Gt c (Z.to_nat n)) as Hfew. rewrite Es2 in Htr.
  destruct (D_sorted [c] [Z.of_nat c] cwa Hna HDc) as [l0 El0].
  pose proof (D_counts [c] [Z.of_nat c] cwa Hna HDc) as Hc. rewrite one_concs in Hc by auto.
  assert (length (filter (fun a => 0 <? a) [Z.of_nat c]) = 1%nat) as Ety by (cbn [filter]; destruct (Z.ltb_spec 0 (Z.of_nat c)); [auto|lia]).
  rewrite Ety in Hc. assert (Z.to_nat (fold_right Z.add 0 [Z.of_nat c]) = c) as Ek by (cbn; lia). rewrite Ek in Hc.
  assert (6 ^ sites <= 10077696) as H6 by (change 10077696 with (6 ^ 9); apply Z.pow_le_mono_r; lia).
  assert (0 < 6 ^ sites) as H60 by (apply Z.pow_pos_nonneg; lia).
  assert (forall v, polya v [c] Gt 1 = Ok (Z.of_nat (length (all_min 6 cwa Gt)), Gt)) as Hp.
  { intros v. pose proof (polya_cwa v cwa l0 Gt 6 (all_min 6 cwa Gt) El0 Hne ltac:(lia) Ot' Nt Hcons Htr) as Hp.
    rewrite Hc in Hp. apply Hp. rewrite labelings_one, Nat.mul_1_l, Nat2Z.inj_pow, Hcl, Z2Nat.id by lia. change (Z.of_nat 6) with 6. assert (Z.of_nat (max c (length Gt)) <= 500) by lia.
    assert (2 ^ 53 = 9007199254740992) by reflexivity. nia. }
  set (num := length (all_min 6 cwa Gt)) in *.
  destruct (arrows_every cwa Gt 6 6 eq_refl ltac:(lia) Ot' false (Z.to_nat n) Hne (fun _ => Hcell) rnd SNone Hnar eq_refl) as [f1 Hf1].
  destruct (one_supercell_arrows pg D bas HD (gb_ne pg D bas lo hi Hgb) (gb_nd pg D bas lo hi Hgb) (gb_red pg D bas lo hi Hgb) Hpg Hgr n cwa ltac:(lia) ltac:(lia) Harr Hcons rnd H Hin (gb_self pg D bas lo hi Hgb H Hlh))
    as [l [f2 [Hrun [Hsound Hcomp]]]].
  set (ws := structures cwa Gt 6 false (Z.to_nat n)) in *.
  assert (l = map (fun w => (H, w)) ws) as ->.
  { specialize (Hrun (f1 + f2)%nat ltac:(lia)). rewrite Et in Hrun. cbn [rbind] in Hrun. rewrite Hf1 in Hrun by lia. cbn [rbind] in Hrun. congruence. }
  assert (forall w, In w ws -> Permutation (map skeleton w) (map skeleton cwa) /\ directions_below 6 w) as Hws.
  { intros w Hw. unfold ws in Hw. rewrite structures_reduced in Hw. apply filter_In in Hw. apply (proj1 Htr). rewrite <- Es2. apply Hw. }
  assert (0 < num)%nat as Hnum.
  { destruct (proj1 (proj2 Htr) cwa) as [r [Hr _]].
    - split; auto. intros s Hs. apply repeat_spec in Hs. subst s. cbn. lia.
    - unfold num. destruct (all_min 6 cwa Gt); [destruct Hr|cbn [length]; lia]. }
  exists Gt, num, ws, 0%nat. split; auto. split; [|split; [|split]].
  - intros v f Hf. unfold count_conc. rewrite (back_c [c]), Hf, HDc. cbn [rbind]. rewrite Hc. cbn [negb orb Nat.eqb]. apply Hp.
  - split; [lia|]. unfold num, all_min. transitivity (Z.of_nat (length (range_up 0 (6 ^ Z.of_nat (length (filter arrowed cwa)))))).
    + apply inj_le. etransitivity; [apply flen_le|]. rewrite map_length. auto.
    + rewrite filter_all by (intros s Hs; apply repeat_spec in Hs; subst; auto). rewrite Hcl. unfold range_up. rewrite map_length, seq_length, Z2Nat.id by lia. assert (10 ^ 8 = 100000000) by reflexivity. rewrite Z2Nat.id; lia.
  - intros v draw shuffled fuel _. unfold enum_sys. cbn [Nat.eqb]. rewrite HDc. cbn [rbind]. rewrite Hc. unfold plan.
    assert (NumericsModel.multinomial (map Z.of_nat [c]) = Ok 1) as ->.
    { rewrite (multinomial_int64 [c]); [rewrite labelings_one; auto|discriminate|]. rewrite labelings_one. cbn. lia. }
    cbn [rbind]. assert (skip_count 1 1 (sum_nat [c]) num = false) as ->.
    { unfold skip_count. cbn [Nat.eqb negb andb]. change (100000 <? 1) with false. cbn [andb orb]. unfold sum_nat. cbn [fold_right]. destruct (Nat.leb_spec 12 (c + 0)); [lia|]. auto. }
    cbn [Nat.eqb negb]. rewrite Hp. cbn [rbind length Nat.eqb]. destruct (Z.eqb_spec (Z.of_nat num) 0); [lia|].
    destruct (Z.ltb_spec (1000 * Z.of_nat num) (Z.of_nat num)); [lia|]. cbn [andb].
    destruct (Nat.eqb_spec (length bas) 0); [lia|]. replace (sum_nat [c] / length bas)%nat with (Z.to_nat n) by (unfold sum_nat; cbn [fold_right]; rewrite Nat.add_0_r, Ecb, (Nat.mul_comm (length bas)), Nat.div_mul; lia).
    rewrite (add_arrows_reached c 6 6 cwa Gt eq_refl ltac:(lia) Hcl (proj1 Ot)); auto.
    + cbn [rbind]. rewrite <- Es1. auto.
    + intros g Hg. apply Ot. rewrite <- (firstn_skipn (Z.to_nat n) Gt). apply in_app_iff. auto.
  - split; auto. split; auto. apply Hcomp. intros s t' Hs Ht _. apply repeat_spec in Hs, Ht. congruence.
Qed.
End SystemOne.
