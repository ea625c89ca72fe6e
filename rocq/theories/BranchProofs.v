(** What [brancher] returns: collecting the events of its run. *)
From Coq Require Import Permutation.
From Verif Require Import PyBase Spec ListFacts PermFacts NumericsModel NumericsProofs PhononsModel
  TreeModel HashProofs CanonProofs TreeSearch PermSpec BranchMachine BranchRun BranchTop ColorProofs
  ArrowProofs DecoFacts ArrowEnum DecoBij.
Local Open Scope Z_scope.

(** ** events and the search tree *)
Section Events.
  Variable c : list nat.
  Variable G : list op.
  Variable cwa : list site.
  Variable supers : bool.
  Variable cellsize : nat.
  Notation sup := (sup c G cwa supers cellsize).
  Definition evo (d : list Z) : event := EvOut d (stab_full G (dec c d)).

  Lemma ev_sub_tree : (forall d, sup d = false) -> forall Cs p,
    ev_sub c G cwa supers cellsize Cs p = map evo (tree_sub c G sup Cs p).
  Proof.
    intros Hs. induction Cs as [|r Cs IH]; intros p; auto.
    cbn [ev_sub tree_sub]. destruct Cs as [|r' Cs']; auto.
    rewrite map_app, map_flat_map, IH. f_equal. apply flat_map_ext_in. intros v _.
    destruct (uniqp c G (p ++ [v])); auto. rewrite Hs. cbn [map]. rewrite IH. auto.
  Qed.
  Lemma ev_all_tree : (forall d, sup d = false) ->
    ev_all c G cwa supers cellsize = map evo (tree_all c G sup).
  Proof.
    intros Hs. unfold ev_all, tree_all. rewrite map_flat_map. apply flat_map_ext_in. intros b _.
    unfold ev_top, tree_top. destruct (uniqp c G [b]); auto. unfold node. rewrite Hs.
    rewrite map_app, (ev_sub_tree Hs). auto.
  Qed.
End Events.

Section Collect.
  Variable cwa : list site.
  Variable G : list op.
  Variable dim : Z.
  Variable supers : bool.
  Variable cellsize : nat.
  Notation n := (length cwa).
  Notation cols := (first_occurrences site_eqb cwa).
  Notation c := (map (multiplicity site_eqb cwa) cols).
  Notation C := (radices c).
  Notation dec := (dec c).
  Notation deco := (deco cwa).
  Hypothesis HG : perm_group n (map fst G).
  Hypothesis Hne : cwa <> [].
  Hypothesis Hcell : supers = false -> (cellsize <= length G)%nat.

  Lemma HGc : perm_group (sum_nat c) (map fst G).
  Proof. rewrite concs_sum. auto. Qed.

  (** what one colouring gives *)
  Variable outx : list nat -> list (list site).
  Hypothesis Hout : forall x rnd k, has_concs c x ->
    if (0 <? br_narrows cwa)%nat then
      add_arrows rnd (deco x) (stab_full G x) dim (firstn cellsize G) false None supers k = Ok (outx x, k)
    else out_plain cwa x = Ok (deco x) /\ outx x = [deco x].

  Definition evout (e : event) : list (list site) :=
    match e with EvOut d _ => outx (dec d) | EvSup _ => [] end.
  Definition goode (e : event) : Prop :=
    match e with EvOut d ast => valid_code C d /\ ast = stab_full G (dec d) | EvSup _ => True end.

  Notation Apply rnd := (apply_ev c G cwa dim supers cellsize false rnd).
  Notation okp rnd := (okeep false rnd).

  Lemma okeep_eq rnd us o z : okp rnd us o z =
    Ost (if (if us then in_subset (osub o) (ocnt o) else true) then osurv o ++ [z] else osurv o)
        (ocnt o + 1) (osub o) (odraws o).
  Proof.
    unfold okeep, keep, oof, join. cbn [nav0 branch lvl b0 stabalizer order survivors count subset draws].
    destruct us; [destruct (in_subset (osub o) (ocnt o))|]; reflexivity.
  Qed.

  Lemma apply_out rnd us o d ast : goode (EvOut d ast) ->
    Apply rnd us o (EvOut d ast) = Ok (fold_left (okp rnd us) (outx (dec d)) o).
  Proof.
    intros [Hd ->]. destruct (dec_spec c d Hd) as [E1 [E2 E3]]. rewrite concs_sum in E1.
    unfold apply_ev, emit. cbn [join nav0 nbr branch draws odraws]. rewrite E1. cbn [rbind].
    pose proof (Hout (dec d) rnd (odraws o) E2) as Ho.
    destruct (0 <? br_narrows cwa)%nat.
    - rewrite out_deco_eq by auto. cbn [rbind]. rewrite Ho. cbn [rbind].
      change (Ok (oof (fold_left (keep false rnd us) (outx (dec d)) (join (nav0 d) (Ost (osurv o) (ocnt o) (osub o) (odraws o))))) =
              Ok (fold_left (okp rnd us) (outx (dec d)) o)).
      rewrite fold_keep_join, oof_join. destruct o; auto.
    - destruct Ho as [Ho1 Ho2]. rewrite Ho1, Ho2. cbn [rbind fold_left].
      change (Ok (oof (keep false rnd us (join (nav0 d) o) (deco (dec d)))) = Ok (okp rnd us o (deco (dec d)))).
      rewrite keep_join, oof_join. auto.
  Qed.

  Lemma fold_keep_all rnd l : forall o,
    fold_left (okp rnd false) l o = Ost (osurv o ++ l) (ocnt o + Z.of_nat (length l)) (osub o) (odraws o).
  Proof.
    induction l as [|z l IH]; intros o; cbn [fold_left].
    - rewrite app_nil_r, Z.add_0_r. destruct o; auto.
    - rewrite IH, okeep_eq. cbn [osurv ocnt osub odraws]. rewrite <- app_assoc. cbn [app length]. f_equal. lia.
  Qed.

  Lemma process_all rnd evs : (forall e, In e evs -> goode e) -> forall o,
    exists o', process c G cwa supers cellsize dim false rnd false evs o = Ok o' /\
               osurv o' = osurv o ++ flat_map evout evs.
  Proof.
    induction evs as [|e evs IH]; intros Hg o; cbn [process flat_map].
    - exists o. rewrite app_nil_r. auto.
    - unfold wants. cbn [negb andb]. rewrite orb_true_r. cbn [orb].
      assert (forall e', In e' evs -> goode e') as Hg' by (intros; apply Hg; cbn; auto).
      destruct e as [d ast|d].
      + rewrite apply_out by (apply Hg; cbn; auto). cbn [rbind]. rewrite fold_keep_all.
        match goal with |- context [process _ _ _ _ _ _ _ _ _ _ ?o1] => destruct (IH Hg' o1) as [o' [E1 E2]] end.
        exists o'. split; auto. rewrite E2. cbn [osurv evout]. rewrite app_assoc. auto.
      + cbn [apply_ev rbind]. destruct (IH Hg' o) as [o' [E1 E2]]. exists o'. auto.
  Qed.

  (** ** with a list of sample numbers *)
  Variable S : list Z.
  Definition tracked (o : ost) : Prop :=
    osub o = SList S /\
    exists Q, NoDup Q /\ incl Q S /\ (forall q, In q Q -> q < ocnt o) /\ length Q = length (osurv o).

  Lemma fold_keep_sub rnd l : forall o, tracked o ->
    tracked (fold_left (okp rnd true) l o) /\
    osurv (fold_left (okp rnd true) l o) = osurv o ++ at_positions S (ocnt o) l /\
    ocnt (fold_left (okp rnd true) l o) = ocnt o + Z.of_nat (length l).
  Proof.
    induction l as [|z l IH]; intros o Ho; cbn [fold_left at_positions].
    - rewrite app_nil_r. split; auto. split; auto. cbn. lia.
    - rewrite okeep_eq. destruct Ho as [Hs [Q [HQ1 [HQ2 [HQ3 HQ4]]]]]. rewrite Hs. cbn [in_subset].
      match goal with |- context [fold_left _ _ ?o1] => destruct (IH o1) as [I1 [I2 I3]] end.
      + split; [reflexivity|]. cbn [osurv ocnt].
        destruct (existsb (Z.eqb (ocnt o)) S) eqn:E.
        * exists (ocnt o :: Q). split; [|split; [|split]].
          -- constructor; auto. intros Hin. apply HQ3 in Hin. lia.
          -- intros q [<-|Hq]; auto. apply existsb_exists in E as [y [Hy Ey]]. apply Z.eqb_eq in Ey. subst; auto.
          -- intros q [<-|Hq]; [lia|]. apply HQ3 in Hq. lia.
          -- rewrite app_length. cbn [length]. lia.
        * exists Q. repeat split; auto. intros q Hq. apply HQ3 in Hq. lia.
      + split; auto. rewrite I2, I3. cbn [osurv ocnt]. split; [|cbn [length]; lia].
        destruct (existsb (Z.eqb (ocnt o)) S); auto. rewrite <- app_assoc. auto.
  Qed.

  Lemma at_positions_app {A} (l1 : list A) : forall l2 i,
    at_positions S i (l1 ++ l2) = at_positions S i l1 ++ at_positions S (i + Z.of_nat (length l1)) l2.
  Proof.
    induction l1 as [|a l1 IH]; intros l2 i; cbn [app at_positions length].
    - rewrite Z.add_0_r. auto.
    - rewrite IH, <- app_assoc. do 3 f_equal. lia.
  Qed.
  Lemma at_positions_full {A} o (l : list A) : tracked o -> (length S <= length (osurv o))%nat -> at_positions S (ocnt o) l = [].
  Proof.
    intros [_ [Q [HQ1 [HQ2 [HQ3 HQ4]]]]] Hl.
    assert (forall q, ocnt o <= q -> ~ In q S) as Hno.
    { intros q Hq Hin. assert (NoDup (q :: Q)) as Hnd.
      { constructor; auto. intros H. apply HQ3 in H. lia. }
      assert (incl (q :: Q) S) as Hi by (intros y [<-|Hy]; auto).
      pose proof (NoDup_incl_length Hnd Hi) as H. cbn [length] in H. lia. }
    revert Hno. generalize (ocnt o) as i. induction l as [|a l IH]; intros i Hno; cbn [at_positions]; auto.
    destruct (existsb (Z.eqb i) S) eqn:E.
    - apply existsb_exists in E as [y [Hy Ey]]. apply Z.eqb_eq in Ey. subst. exfalso. apply (Hno y); auto. lia.
    - cbn [app]. apply IH. intros q Hq. apply Hno. lia.
  Qed.

  Lemma process_sub rnd evs : (forall e, In e evs -> goode e /\ forall d, e <> EvSup d) -> forall o, tracked o ->
    exists o', process c G cwa supers cellsize dim false rnd true evs o = Ok o' /\
               osurv o' = osurv o ++ at_positions S (ocnt o) (flat_map evout evs).
  Proof.
    induction evs as [|e evs IH]; intros Hg o Ho; cbn [process flat_map].
    - exists o. cbn. rewrite app_nil_r. auto.
    - unfold wants. cbn [negb andb]. rewrite !orb_false_r. pose proof Ho as [Hs _]. rewrite Hs.
      destruct (Nat.ltb_spec (length (osurv o)) (length S)) as [Hlt|Hge].
      2:{ exists o. split; auto. rewrite (at_positions_full o) by (auto; lia). rewrite app_nil_r. auto. }
      destruct (Hg e (or_introl eq_refl)) as [Hge Hnsup].
      destruct e as [d ast|d]; [|exfalso; eapply Hnsup; eauto].
      rewrite apply_out by auto. cbn [rbind].
      destruct (fold_keep_sub rnd (outx (dec d)) o Ho) as [F1 [F2 F3]].
      destruct (IH (fun e' He' => Hg e' (or_intror He')) _ F1) as [o' [E1 E2]].
      exists o'. split; auto. rewrite E2, F2, F3. cbn [evout]. rewrite at_positions_app, app_assoc. auto.
  Qed.

  (** ** the canonical colourings *)
  Definition canonicals : list (list nat) := map dec (filter (canon_code c G) (all_codes C)).

  Lemma canonicals_In x : In x canonicals <-> has_concs c x /\ canon c G x.
  Proof.
    unfold canonicals. rewrite in_map_iff. split.
    - intros [d [<- Hd]]. apply filter_In in Hd as [Hd Hc]. apply in_all_codes in Hd.
      destruct (dec_spec c d Hd) as [_ [H _]]. split; auto. apply canonb_spec. auto.
    - intros [Hx Hc]. exists (code c x). rewrite dec_code by auto. split; auto.
      apply filter_In. split; [apply in_all_codes, code_valid; auto|].
      unfold canon_code. rewrite dec_code by auto. apply canonb_spec; auto.
  Qed.
  Lemma canonicals_NoDup : NoDup canonicals.
  Proof.
    apply NoDup_map_inj; [|apply NoDup_filter, NoDup_all_codes].
    intros d e Hd He E. apply filter_In in Hd as [Hd _], He as [He _]. apply in_all_codes in Hd, He.
    destruct (dec_spec c d Hd) as [_ [_ <-]]. destruct (dec_spec c e He) as [_ [_ <-]]. rewrite E. auto.
  Qed.

  Definition full_list : list (list site) := flat_map outx canonicals.

  Hypothesis Hnosup : supers = true \/ (0 < br_narrows cwa)%nat.
  Lemma sup_false d : sup c G cwa supers cellsize d = false.
  Proof.
    unfold sup. destruct Hnosup as [->|H]; auto.
    destruct (Nat.eqb_spec (br_narrows cwa) 0); [lia|]. rewrite andb_false_r. auto.
  Qed.
  Lemma ev_all_full : flat_map evout (ev_all c G cwa supers cellsize) = full_list.
  Proof.
    rewrite ev_all_tree by apply sup_false.
    rewrite (tree_all_filter c G HGc) by (auto using sup_false, concs_nonempty).
    unfold full_list, canonicals. generalize (filter (canon_code c G) (all_codes C)) as l.
    induction l as [|d l IH]; auto. cbn [map flat_map]. rewrite IH. auto.
  Qed.
  Lemma ev_all_good e : In e (ev_all c G cwa supers cellsize) -> goode e /\ forall d, e <> EvSup d.
  Proof.
    rewrite ev_all_tree by apply sup_false.
    rewrite (tree_all_filter c G HGc) by (auto using sup_false, concs_nonempty).
    intros H. apply in_map_iff in H as [d [<- Hd]]. apply filter_In in Hd as [Hd _]. apply in_all_codes in Hd.
    split; [split; auto|]. intros d' E. discriminate.
  Qed.

  (** without a usable sample everything is listed *)
  Theorem brancher_every rnd s : use_subset false s = false -> exists fuel0, forall fuel, (fuel0 <= fuel)%nat ->
    brancher c G cwa dim supers cellsize false rnd fuel s = Ok full_list.
  Proof.
    intros Hs.
    destruct (brancher_process c G cwa supers cellsize HGc (concs_pos cwa) (concs_nonempty cwa Hne)
                (eq_sym (concs_sum cwa)) Hcell dim false rnd s) as [f Hf].
    exists f. intros fuel Hfuel. rewrite Hf by auto. rewrite Hs.
    destruct (process_all rnd _ (fun e He => proj1 (ev_all_good e He)) (Ost [] 1 s 0)) as [o [E1 E2]].
    rewrite E1. cbn [rbind]. rewrite E2, ev_all_full. auto.
  Qed.
  Theorem brancher_full rnd : exists fuel0, forall fuel, (fuel0 <= fuel)%nat ->
    brancher c G cwa dim supers cellsize false rnd fuel SNone = Ok full_list.
  Proof. apply brancher_every. reflexivity. Qed.
  Theorem brancher_sub rnd : S <> [] -> exists fuel0, forall fuel, (fuel0 <= fuel)%nat ->
    brancher c G cwa dim supers cellsize false rnd fuel (SList S) = Ok (at_positions S 1 full_list).
  Proof.
    intros HS.
    destruct (brancher_process c G cwa supers cellsize HGc (concs_pos cwa) (concs_nonempty cwa Hne)
                (eq_sym (concs_sum cwa)) Hcell dim false rnd (SList S)) as [f Hf].
    exists f. intros fuel Hfuel. rewrite Hf by auto.
    replace (use_subset false (SList S)) with true by (destruct S; [congruence|auto]).
    destruct (process_sub rnd _ ev_all_good (Ost [] 1 (SList S) 0)) as [o [E1 E2]].
    { split; auto. exists []. split; [constructor|]. split; [intros q []|]. split; [intros q []|auto]. }
    rewrite E1. cbn [rbind]. rewrite E2, ev_all_full. auto.
  Qed.
End Collect.

(** ** positions *)
Lemma at_positions_ext {A} (S S' : list Z) (l : list A) : forall i,
  (forall z, i <= z -> In z S <-> In z S') -> at_positions S i l = at_positions S' i l.
Proof.
  induction l as [|a l IH]; intros i H; cbn [at_positions]; auto. f_equal.
  - assert (existsb (Z.eqb i) S = existsb (Z.eqb i) S') as ->; auto.
    apply eq_true_iff_eq. rewrite !existsb_exists. split; intros [x [Hx E]]; apply Z.eqb_eq in E; subst x;
      exists i; rewrite Z.eqb_refl; split; auto; apply H; auto; lia.
  - apply IH. intros z Hz. apply H. lia.
Qed.
Lemma at_positions_length_from {A} (l : list A) : forall S i, NoDup S ->
  (forall s, In s S -> i <= s < i + Z.of_nat (length l)) -> length (at_positions S i l) = length S.
Proof.
  induction l as [|a l IH]; intros S i Hnd H.
  - destruct S as [|s S]; auto. specialize (H s (or_introl eq_refl)). cbn in H. lia.
  - cbn [at_positions]. rewrite app_length.
    set (S' := filter (fun s => negb (Z.eqb i s)) S).
    rewrite (at_positions_ext S S').
    2:{ intros z Hz. unfold S'. rewrite filter_In. split; [|tauto]. intros Hin. split; auto.
        destruct (Z.eqb_spec i z); [lia|auto]. }
    rewrite IH.
    + unfold S'. destruct (existsb (Z.eqb i) S) eqn:E.
      * apply existsb_exists in E as [x [Hx Ex]]. apply Z.eqb_eq in Ex. subst x. cbn [length].
        clear IH H. subst S'. induction S as [|s S IHS]; [destruct Hx|]. inversion Hnd; subst. cbn [filter].
        destruct (Z.eqb_spec i s) as [->|Hn]; cbn [negb length].
        -- rewrite filter_all; [lia|]. intros y Hy. destruct (Z.eqb_spec s y); subst; [contradiction|auto].
        -- destruct Hx as [Hx|Hx]; [congruence|]. specialize (IHS H2 Hx). lia.
      * rewrite filter_all; auto. intros y Hy. destruct (Z.eqb_spec i y) as [->|]; auto.
        assert (existsb (Z.eqb y) S = true) by (apply existsb_exists; exists y; rewrite Z.eqb_refl; auto). congruence.
    + apply NoDup_filter; auto.
    + intros s Hs. apply filter_In in Hs as [Hs E]. specialize (H s Hs). cbn [length] in H.
      destruct (Z.eqb_spec i s); [discriminate|]. lia.
Qed.
Lemma at_positions_length (A : Type) (S : list Z) (L : list A) : NoDup S ->
  (forall s, In s S -> 1 <= s <= Z.of_nat (length L)) -> length (at_positions S 1 L) = length S.
Proof. intros Hnd H. apply at_positions_length_from; auto. intros s Hs. specialize (H s Hs). lia. Qed.
Lemma at_positions_In_from {A} (S : list Z) (d a : A) (l : list A) : forall i,
  In a (at_positions S i l) <-> exists s, In s S /\ i <= s < i + Z.of_nat (length l) /\ a = nth (Z.to_nat (s - i)) l d.
Proof.
  induction l as [|b l IH]; intros i; cbn [at_positions].
  - split; [intros []|]. intros [s [_ [H _]]]. cbn in H. lia.
  - rewrite in_app_iff, IH. split.
    + intros [H|[s [H1 [H2 H3]]]].
      * destruct (existsb (Z.eqb i) S) eqn:E; [|destruct H]. destruct H as [<-|[]].
        apply existsb_exists in E as [x [Hx Ex]]. apply Z.eqb_eq in Ex. subst x.
        exists i. rewrite Z.sub_diag. cbn. split; auto. split; [lia|auto].
      * exists s. split; auto. split; [cbn [length]; lia|].
        replace (Z.to_nat (s - i)) with (1 + Z.to_nat (s - (i + 1)))%nat by lia. auto.
    + intros [s [H1 [H2 H3]]]. cbn [length] in H2. destruct (Z.eq_dec s i) as [->|Hn].
      * left. rewrite Z.sub_diag in H3. cbn in H3.
        assert (existsb (Z.eqb i) S = true) as -> by (apply existsb_exists; exists i; rewrite Z.eqb_refl; auto).
        cbn; auto.
      * right. exists s. split; auto. split; [lia|].
        replace (Z.to_nat (s - i)) with (1 + Z.to_nat (s - (i + 1)))%nat in H3 by lia. auto.
Qed.
Lemma at_positions_In (A : Type) (S : list Z) (L : list A) (d a : A) :
  In a (at_positions S 1 L) <-> exists s, In s S /\ 1 <= s <= Z.of_nat (length L) /\ a = nth (Z.to_nat (s - 1)) L d.
Proof.
  rewrite (at_positions_In_from S d). split; intros [s [H1 [H2 H3]]]; exists s; repeat split; auto; lia.
Qed.
