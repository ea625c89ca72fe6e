(** C06: removal of superperiodic colourings. *)
From Coq Require Import Permutation.
From Verif Require Import PyBase Spec ListFacts PermFacts NumericsModel NumericsProofs PhononsModel
  TreeModel HashProofs CanonProofs TreeSearch PermSpec BranchMachine BranchRun BranchTop ColorProofs
  ArrowProofs DecoFacts ArrowEnum DecoBij BranchProofs BranchTheorems.
Local Open Scope Z_scope.

Definition zzlist_eqb : list site -> list site -> bool := list_eqb site_eqb.
Lemma zzlist_eqb_spec a b : zzlist_eqb a b = true <-> a = b.
Proof. apply list_eqb_spec, site_eqb_spec. Qed.

Section Prune.
  Variable c : list nat.
  Variable G : list op.
  Variable sup : list Z -> bool.
  Notation nosup := (fun _ : list Z => false).
  Notation keepd := (fun d => negb (sup d)).

  Lemma tree_sub_sound Cs : forall p d, In d (tree_sub c G sup Cs p) ->
    In d (tree_sub c G nosup Cs p) /\ sup d = false.
  Proof.
    induction Cs as [|r Cs IH]; intros p d; cbn [tree_sub]; [intros []|].
    destruct Cs as [|r' Cs']; [intros []|]. rewrite !in_app_iff. intros [H|H].
    - apply IH in H. tauto.
    - apply in_flat_map in H as [v [Hv H]]. destruct (uniqp c G (p ++ [v])) eqn:Eu; [|destruct H].
      destruct (sup (padz c (p ++ [v]))) eqn:Es; [destruct H|].
      assert (In d (padz c (p ++ [v]) :: tree_sub c G nosup (r' :: Cs') (p ++ [v])) /\ sup d = false) as [H1 H2].
      { destruct H as [<-|H]; [split; [cbn|]; auto|]. apply IH in H. split; [right|]; tauto. }
      split; auto. right. apply in_flat_map. exists v. split; auto. rewrite Eu. auto.
  Qed.
  Lemma tree_all_sound d : In d (tree_all c G sup) -> In d (tree_all c G nosup) /\ sup d = false.
  Proof.
    unfold tree_all. intros H. apply in_flat_map in H as [b [Hb H]]. unfold tree_top in H.
    destruct (uniqp c G [b]) eqn:Eu; [|destruct H]. apply in_app_iff in H as [H|H].
    - destruct (sup (padz c [b])) eqn:Es; [destruct H|]. destruct H as [<-|[]]. split; auto.
      apply in_flat_map. exists b. split; auto. unfold tree_top. rewrite Eu. cbn; auto.
    - apply tree_sub_sound in H as [H1 H2]. split; auto. apply in_flat_map. exists b. split; auto.
      unfold tree_top. rewrite Eu. apply in_app_iff. auto.
  Qed.

  Lemma tree_sub_short Cs p : (length Cs <= 2)%nat ->
    tree_sub c G sup Cs p = filter keepd (tree_sub c G nosup Cs p).
  Proof.
    destruct Cs as [|r [|r' [|]]]; cbn [length]; intros H; auto; [|lia].
    cbn [tree_sub app]. rewrite flat_map_filter. apply flat_map_ext_in. intros v _.
    destruct (uniqp c G (p ++ [v])); auto. cbn [filter]. destruct (sup (padz c (p ++ [v]))); auto.
  Qed.
  Lemma tree_all_short : (length c <= 3)%nat -> tree_all c G sup = filter keepd (tree_all c G nosup).
  Proof.
    intros H. unfold tree_all. rewrite flat_map_filter. apply flat_map_ext_in. intros b _. unfold tree_top.
    destruct (uniqp c G [b]); auto. rewrite filter_app, <- tree_sub_short.
    - f_equal. cbn [filter]. destruct (sup (padz c [b])); auto.
    - rewrite skipn_length, radices_length. lia.
  Qed.
  Lemma NoDup_tree_all : NoDup (tree_all c G nosup) -> NoDup (tree_all c G sup).
  Proof.
    assert (forall Cs p, NoDup (tree_sub c G nosup Cs p) -> NoDup (tree_sub c G sup Cs p)) as Hsub.
    { induction Cs as [|r Cs IH]; intros p Hn; cbn [tree_sub] in *; auto.
      destruct Cs as [|r' Cs']; auto.
      assert (forall A (l1 l2 : list A), NoDup (l1 ++ l2) -> NoDup l1 /\ NoDup l2 /\ forall x, In x l1 -> In x l2 -> False) as Happ.
      { induction l1 as [|a l1 IHl]; cbn; intros l2 H; [repeat split; auto; constructor|].
        inversion H; subst. destruct (IHl l2 H3) as [N1 [N2 N3]]. rewrite in_app_iff in H2.
        repeat split; auto; [constructor; tauto|]. intros x [<-|Hx]; [tauto|apply N3; auto]. }
      destruct (Happ _ _ _ Hn) as [N1 [N2 N3]].
      apply NoDup_app_intro.
      - apply IH; auto.
      - clear N1 N3 Hn. induction (range_up 1 r) as [|v vs IHv]; cbn [flat_map] in *; [constructor|].
        destruct (Happ _ _ _ N2) as [M1 [M2 M3]]. apply NoDup_app_intro; auto.
        + destruct (uniqp c G (p ++ [v])); auto. destruct (sup (padz c (p ++ [v]))); [constructor|].
          inversion M1; subst. constructor; [|apply IH; auto]. intros Hin. apply tree_sub_sound in Hin. tauto.
        + intros x Hx1 Hx2. apply (M3 x).
          * destruct (uniqp c G (p ++ [v])); auto. destruct (sup (padz c (p ++ [v]))); [destruct Hx1|].
            destruct Hx1 as [<-|Hx1]; [cbn; auto|]. right. apply tree_sub_sound in Hx1. tauto.
          * apply in_flat_map in Hx2 as [u [Hu Hx2]]. apply in_flat_map. exists u. split; auto.
            destruct (uniqp c G (p ++ [u])); auto. destruct (sup (padz c (p ++ [u]))); [destruct Hx2|].
            destruct Hx2 as [<-|Hx2]; [cbn; auto|]. right. apply tree_sub_sound in Hx2. tauto.
      - intros x H1 H2. apply (N3 x); [apply tree_sub_sound in H1; tauto|].
        apply in_flat_map in H2 as [u [Hu Hx2]]. apply in_flat_map. exists u. split; auto.
        destruct (uniqp c G (p ++ [u])); auto. destruct (sup (padz c (p ++ [u]))); [destruct Hx2|].
        destruct Hx2 as [<-|Hx2]; [cbn; auto|]. right. apply tree_sub_sound in Hx2. tauto. }
    unfold tree_all.
    assert (forall A (l1 l2 : list A), NoDup (l1 ++ l2) -> NoDup l1 /\ NoDup l2 /\ forall x, In x l1 -> In x l2 -> False) as Happ.
    { induction l1 as [|a l1 IHl]; cbn; intros l2 H; [repeat split; auto; constructor|].
      inversion H; subst. destruct (IHl l2 H3) as [N1 [N2 N3]]. rewrite in_app_iff in H2.
      repeat split; auto; [constructor; tauto|]. intros x [<-|Hx]; [tauto|apply N3; auto]. }
    assert (forall b x, In x (tree_top c G sup b) -> In x (tree_top c G nosup b)) as Htop.
    { intros b x. unfold tree_top. destruct (uniqp c G [b]); auto. rewrite !in_app_iff. intros [H|H].
      - left. destruct (sup (padz c [b])); [destruct H|auto].
      - right. apply tree_sub_sound in H. tauto. }
    induction (range_up 0 (nth 0 (radices c) 0)) as [|b bs IHb]; cbn [flat_map]; intros Hn; [constructor|].
    destruct (Happ _ _ _ Hn) as [M1 [M2 M3]]. apply NoDup_app_intro; auto.
    - unfold tree_top in *. destruct (uniqp c G [b]); [|constructor].
      destruct (Happ _ _ _ M1) as [N1 [N2 N3]]. apply NoDup_app_intro; auto.
      + destruct (sup (padz c [b])); [constructor|auto].
      + intros x Hx1 Hx2. apply (N3 x); [destruct (sup (padz c [b])); [destruct Hx1|auto]|].
        apply tree_sub_sound in Hx2. tauto.
    - intros x Hx1 Hx2. apply (M3 x); [apply Htop; auto|].
      apply in_flat_map in Hx2 as [u [Hu Hx2]]. apply in_flat_map. exists u. split; auto.
  Qed.
End Prune.

Section Super.
  Variable cwa : list site.
  Variable G : list op.
  Variable cellsize : nat.
  Notation n := (length cwa).
  Notation c := (map (multiplicity site_eqb cwa) (first_occurrences site_eqb cwa)).
  Notation C := (radices c).
  Notation dec := (dec c).
  Notation sup := (sup c G cwa false cellsize).
  Hypothesis HG : perm_group n (map fst G).
  Hypothesis Hne : cwa <> [].
  Hypothesis Hno : Forall (fun s => fst s = -1) cwa.
  Hypothesis Hcell : (cellsize <= length G)%nat.

  (** the translations other than the identity *)
  Definition moves : list (list nat) :=
    filter (fun p => negb (nlist_eqb p (idperm cellsize))) (map fst (skipn 1 (firstn cellsize G))).

  Lemma in_moves p : In p moves <->
    exists t g, (1 <= t < cellsize)%nat /\ nth_error G t = Some g /\ p = fst g /\ p <> idperm cellsize.
  Proof.
    unfold moves. rewrite filter_In, in_map_iff. split.
    - intros [[g [<- Hg]] E]. apply In_nth_error in Hg as [t Et].
      exists (S t), g.
      assert (nth_error (firstn cellsize G) (S t) = Some g) as E2.
      { destruct (firstn cellsize G); cbn in Et; [destruct t; discriminate|]. auto. }
      assert (S t < cellsize)%nat as Hlt.
      { assert (nth_error (firstn cellsize G) (S t) <> None) as Hn by congruence.
        apply nth_error_Some in Hn. rewrite firstn_length in Hn. lia. }
      split; [lia|]. split.
      + rewrite <- (firstn_skipn cellsize G). rewrite nth_error_app1; auto. apply nth_error_Some. congruence.
      + split; auto. intros E3. apply negb_true_iff in E. apply nlist_eqb_spec in E3. congruence.
    - intros [t [g [Ht [E [-> Hneq]]]]]. split.
      + exists g. split; auto. apply nth_error_In with (n := (t - 1)%nat).
        assert (nth_error (firstn cellsize G) t = Some g) as E2.
        { rewrite <- (firstn_skipn cellsize G) in E. rewrite nth_error_app1 in E; auto.
          rewrite firstn_length. lia. }
        destruct (firstn cellsize G); [destruct t; discriminate|]. destruct t; [lia|]. cbn in *.
        rewrite Nat.sub_0_r. auto.
      + apply negb_true_iff. destruct (nlist_eqb (fst g) (idperm cellsize)) eqn:E2; auto.
        apply nlist_eqb_spec in E2. congruence.
  Qed.

  Lemma is_super_iff x : has_concs c x -> forall ts, (forall t, In t ts -> (t < length G)%nat) ->
    exists b, is_super G cellsize ts x = Ok b /\
      (b = true <-> exists t g, In t ts /\ nth_error G t = Some g /\ gx g x = x /\ fst g <> idperm cellsize).
  Proof.
    intros Hx. induction ts as [|t ts IH]; intros Ht; cbn [is_super].
    - exists false. split; auto. split; [discriminate|]. intros [t [g [[] _]]].
    - destruct IH as [b [Eb Hb]]; [intros; apply Ht; cbn; auto|].
      unfold get at 1. destruct (nth_error G t) as [g|] eqn:Eg.
      2:{ apply nth_error_None in Eg. specialize (Ht t (or_introl eq_refl)). lia. }
      cbn [rbind].
      assert (In g G) as Hg by (eapply nth_error_In; eauto).
      rewrite (rmap_get 0%nat) by (intros j Hj; apply (gx_idx c G (HGc cwa G HG) g x); auto). cbn [rbind].
      fold (gx g x).
      destruct (nlist_eqb (gx g x) x) eqn:E1; cbn [andb].
      + apply nlist_eqb_spec in E1. destruct (nlist_eqb (fst g) (seq 0 cellsize)) eqn:E2; cbn [negb].
        * apply nlist_eqb_spec in E2. exists b. split; auto. rewrite Hb. split.
          -- intros [t' [g' [H1 H2]]]. exists t', g'. split; [right|]; auto.
          -- intros [t' [g' [[<-|H1] [H2 [H3 H4]]]]]; [|exists t', g'; auto].
             assert (g' = g) by congruence. subst. exfalso. auto.
        * exists true. split; auto. split; auto. intros _. exists t, g. split; [cbn; auto|]. split; auto. split; auto.
          intros E3. apply nlist_eqb_spec in E3. unfold idperm in E3. congruence.
      + exists b. split; auto. rewrite Hb. split.
        * intros [t' [g' [H1 H2]]]. exists t', g'. split; [right|]; auto.
        * intros [t' [g' [[<-|H1] [H2 [H3 H4]]]]]; [|exists t', g'; auto].
          assert (g' = g) by congruence. subst. apply nlist_eqb_spec in H3. congruence.
  Qed.

  Lemma sup_spec d : valid_code C d -> sup d = true <-> fixed_by_some moves (deco cwa (dec d)).
  Proof.
    intros Hd. destruct (dec_spec c d Hd) as [_ [Hx _]].
    unfold BranchRun.sup. rewrite narrows_zero by auto. cbn [negb andb Nat.eqb].
    destruct (is_super_iff (dec d) Hx (seq 1 (cellsize - 1))) as [b [Eb Hb]].
    { intros t Ht. apply in_seq in Ht. lia. }
    rewrite Eb, Hb. unfold fixed_by_some.
    assert (forall g, In g G -> is_perm n (fst g)) as Hp by (intros g Hg; apply HG, in_map; auto).
    split.
    - intros [t [g [H1 [H2 [H3 H4]]]]]. exists (fst g).
      assert (In g G) as Hg by (eapply nth_error_In; eauto). split.
      + apply in_moves. exists t, g. apply in_seq in H1. repeat split; auto; lia.
      + rewrite <- deco_gx by auto. rewrite H3. auto.
    - intros [p [H1 H2]]. apply in_moves in H1 as [t [g [Ht [Eg [-> Hneq]]]]].
      assert (In g G) as Hg by (eapply nth_error_In; eauto).
      exists t, g. split; [apply in_seq; lia|]. split; auto. split; auto.
      rewrite <- deco_gx in H2 by auto. apply deco_inj in H2; auto.
      apply (gx_concs c G (HGc cwa G HG)); auto.
  Qed.

  Notation evs := (ev_all c G cwa false cellsize).

  Lemma outs_sub Cs : forall p e, In e (ev_sub c G cwa false cellsize Cs p) ->
    match e with EvOut d ast => ast = stab_full G (dec d) | EvSup _ => True end.
  Proof.
    induction Cs as [|r Cs IH]; intros p e; cbn [ev_sub]; [intros []|].
    destruct Cs as [|r' Cs']; [intros []|]. rewrite in_app_iff. intros [H|H]; [eapply IH; eauto|].
    apply in_flat_map in H as [v [_ H]]. destruct (uniqp c G (p ++ [v])); [|destruct H].
    destruct (sup (padz c (p ++ [v]))).
    - destruct H as [<-|[]]. auto.
    - destruct H as [<-|H]; auto. eapply IH; eauto.
  Qed.
  Lemma evout_sub Cs : forall p,
    flat_map (evout cwa (plain cwa)) (ev_sub c G cwa false cellsize Cs p) =
    map (fun d => deco cwa (dec d)) (tree_sub c G sup Cs p).
  Proof.
    induction Cs as [|r Cs IH]; intros p; auto. cbn [ev_sub tree_sub]. destruct Cs as [|r' Cs']; auto.
    rewrite flat_map_app, map_app, IH. f_equal. induction (range_up 1 r) as [|v vs IHv]; auto.
    cbn [flat_map]. rewrite flat_map_app, map_app, IHv. f_equal.
    destruct (uniqp c G (p ++ [v])); auto. destruct (sup (padz c (p ++ [v]))); auto.
    cbn [flat_map map evout plain app]. rewrite IH. auto.
  Qed.
  Lemma outs_sub_In Cs : forall p d ast, In (EvOut d ast) (ev_sub c G cwa false cellsize Cs p) -> In d (tree_sub c G sup Cs p).
  Proof.
    induction Cs as [|r Cs IH]; intros p d ast; cbn [ev_sub tree_sub]; [intros []|].
    destruct Cs as [|r' Cs']; [intros []|]. rewrite !in_app_iff. intros [H|H]; [left; eapply IH; eauto|]. right.
    apply in_flat_map in H as [v [Hv H]]. apply in_flat_map. exists v. split; auto.
    destruct (uniqp c G (p ++ [v])); [|destruct H].
    destruct (sup (padz c (p ++ [v]))).
    - destruct H as [H|[]]. discriminate.
    - destruct H as [H|H]; [injection H as <- <-; cbn; auto|]. right. eapply IH; eauto.
  Qed.

  Lemma codes_all : tree_all c G (fun _ => false) = filter (canon_code c G) (all_codes C).
  Proof. apply (tree_all_filter c G (HGc cwa G HG)); auto. apply concs_nonempty; auto. Qed.

  Lemma evs_out : flat_map (evout cwa (plain cwa)) evs = map (fun d => deco cwa (dec d)) (tree_all c G sup).
  Proof.
    unfold ev_all, tree_all. induction (range_up 0 (nth 0 C 0)) as [|b bs IH]; auto.
    cbn [flat_map]. rewrite flat_map_app, map_app, IH. f_equal. unfold ev_top, tree_top.
    destruct (uniqp c G [b]); auto. rewrite flat_map_app, map_app, evout_sub. f_equal. unfold node.
    destruct (sup (padz c [b])); auto.
  Qed.
  Lemma evs_good e : In e evs -> goode cwa G e.
  Proof.
    destruct e as [d ast|d]; [|intros; exact I]. intros H. unfold ev_all in H.
    apply in_flat_map in H as [b [Hb H]]. unfold ev_top in H. destruct (uniqp c G [b]) eqn:Eu; [|destruct H].
    assert (In d (tree_all c G sup) /\ ast = stab_full G (dec d)) as [H1 H2].
    { apply in_app_iff in H as [H|H].
      - unfold node in H. destruct (sup (padz c [b])) eqn:Es; destruct H as [H|[]]; [discriminate|].
        injection H as <- <-. split; auto. apply in_flat_map. exists b. split; auto. unfold tree_top.
        rewrite Eu, Es. cbn; auto.
      - split; [|apply outs_sub in H; auto]. apply in_flat_map. exists b. split; auto. unfold tree_top. rewrite Eu.
        apply in_app_iff. right. eapply outs_sub_In; eauto. }
    split; auto. apply tree_all_sound in H1 as [H1 _]. rewrite codes_all in H1. apply filter_In in H1 as [H1 _].
    apply in_all_codes in H1. auto.
  Qed.

  Definition reduced : list (list site) := map (fun d => deco cwa (dec d)) (tree_all c G sup).

  Theorem super_run_any dim rnd s : use_subset false s = false -> exists fuel0, forall fuel, (fuel0 <= fuel)%nat ->
    brancher c G cwa dim false cellsize false rnd fuel s = Ok reduced.
  Proof.
    intros Hs.
    destruct (brancher_process c G cwa false cellsize (HGc cwa G HG) (concs_pos cwa) (concs_nonempty cwa Hne)
                (eq_sym (concs_sum cwa)) (fun _ => Hcell) dim false rnd s) as [f Hf].
    exists f. intros fuel Hfuel. rewrite Hf by auto. rewrite Hs.
    destruct (process_all cwa G dim false cellsize (fun _ => Hcell) (plain cwa)
                (plain_out cwa G Hno dim cellsize false) rnd evs evs_good
                (Ost [] 1 s 0)) as [o [E1 E2]].
    rewrite E1. cbn [rbind]. rewrite E2, evs_out. auto.
  Qed.

  Theorem super_run dim rnd : exists fuel0, forall fuel, (fuel0 <= fuel)%nat ->
    brancher c G cwa dim false cellsize false rnd fuel SNone = Ok reduced.
  Proof. apply super_run_any. auto. Qed.

  Lemma colourings_codes : colourings cwa G = map (fun d => deco cwa (dec d)) (tree_all c G (fun _ => false)).
  Proof. unfold colourings, canonicals. rewrite map_map, codes_all. auto. Qed.

  Lemma code_In d : In d (tree_all c G (fun _ => false)) -> valid_code C d.
  Proof. rewrite codes_all. intros H. apply filter_In in H as [H _]. apply in_all_codes in H. auto. Qed.

  Theorem reduced_sound : NoDup reduced /\ forall w, In w reduced ->
    In w (colourings cwa G) /\ ~ fixed_by_some moves w.
  Proof.
    split.
    - apply NoDup_map_inj.
      + intros d e Hd He E. apply tree_all_sound in Hd as [Hd _], He as [He _]. apply code_In in Hd, He.
        destruct (dec_spec c d Hd) as [_ [Hx <-]]. destruct (dec_spec c e He) as [_ [Hy <-]].
        apply deco_inj in E; auto. congruence.
      + apply NoDup_tree_all. rewrite codes_all. apply NoDup_filter, NoDup_all_codes.
    - intros w Hw. apply in_map_iff in Hw as [d [<- Hd]]. apply tree_all_sound in Hd as [Hd Hs]. split.
      + rewrite colourings_codes. apply in_map_iff. eauto.
      + apply code_In in Hd. rewrite <- sup_spec by auto. congruence.
  Qed.
  Theorem reduced_short : (length c <= 3)%nat -> exists keep, reduced = filter keep (colourings cwa G) /\
    forall w, In w (colourings cwa G) -> keep w = true <-> ~ fixed_by_some moves w.
  Proof.
    intros Hk. exists (fun w => negb (existsb (fun t => zzlist_eqb (act (-1, 0) t w) w) moves)). split.
    - unfold reduced. rewrite tree_all_short, colourings_codes, filter_map by auto. f_equal.
      apply filter_ext_in. intros d Hd. apply code_In in Hd. f_equal.
      apply eq_true_iff_eq. rewrite sup_spec by auto. rewrite existsb_exists. unfold fixed_by_some.
      split; intros [t [Ht E]]; exists t; split; auto; apply zzlist_eqb_spec; auto.
    - intros w _. rewrite negb_true_iff. rewrite <- not_true_iff_false, existsb_exists. unfold fixed_by_some.
      split; intros H [t [Ht E]]; apply H; exists t; split; auto; apply zzlist_eqb_spec; auto.
  Qed.
End Super.
