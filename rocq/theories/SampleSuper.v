(** Random samples without superperiodic colourings (C75): the list that is left. *)
From Coq Require Import Permutation.
From Verif Require Import PyBase Spec ListFacts PermFacts NumericsModel NumericsProofs PhononsModel
  TreeModel HashProofs CanonProofs TreeSearch PermSpec BranchMachine BranchRun BranchTop ColorProofs
  ArrowProofs DecoFacts ArrowEnum DecoBij BranchProofs BranchTheorems SuperProofs.
Local Open Scope Z_scope.

Lemma next_sample_ge f : forall nv s p, nv <= next_sample f nv s p.
Proof. induction f as [|f IH]; intros nv s p; cbn [next_sample]; [lia|]. destruct (existsb _ s && _); [|lia]. specialize (IH (nv + 1) s p). lia. Qed.
Lemma replace_length l x y : length (replace_first l x y) = length l.
Proof. induction l as [|a l IH]; cbn [replace_first]; auto. destruct (a =? x); cbn [length]; auto. Qed.
Lemma replace_In l x y a : In a l -> a <> x -> In a (replace_first l x y).
Proof.
  induction l as [|b l IH]; cbn [replace_first]; auto. intros [->|H] Hn.
  - destruct (Z.eqb_spec a x); [congruence|left; auto].
  - destruct (b =? x); [right; auto|right; apply IH; auto].
Qed.

Section Sample.
  Variable cwa : list site.
  Variable G : list op.
  Variable cellsize : nat.
  Notation n := (length cwa).
  Notation c := (map (multiplicity site_eqb cwa) (first_occurrences site_eqb cwa)).
  Notation C := (radices c).
  Notation dec := (dec c).
  Notation sup := (sup c G cwa false cellsize).
  Hypothesis HG : perm_group n (map fst G).
  Hypothesis Hne : cwa <> [].
  Hypothesis Hno : Forall (fun s => fst s = -1) cwa.
  Hypothesis Hcell : (cellsize <= length G)%nat.
  Notation evs := (ev_all c G cwa false cellsize).
  Notation Apply dim rnd := (apply_ev c G cwa dim false cellsize false rnd).

  (** The colouring of an event, and whether it is superperiodic. *)
  Definition ev_code (e : event) : list Z * bool := match e with EvOut d _ => (d, false) | EvSup d => (d, true) end.
  Lemma ev_sub_short Cs p : (length Cs <= 2)%nat -> map ev_code (ev_sub c G cwa false cellsize Cs p) = map (fun d => (d, sup d)) (tree_sub c G (fun _ => false) Cs p).
  Proof.
    destruct Cs as [|r [|r' [|]]]; cbn [length]; intros H; auto; [|lia].
    cbn [tree_sub ev_sub app]. induction (range_up 1 r) as [|x xs IH]; auto. cbn [flat_map]. rewrite !map_app, IH. f_equal.
    destruct (uniqp c G (p ++ [x])); auto. destruct (sup (padz c (p ++ [x]))) eqn:E; cbn [map ev_code]; rewrite ?E; auto.
  Qed.
  Lemma evs_codes : (length c <= 3)%nat -> map ev_code evs = map (fun d => (d, sup d)) (tree_all c G (fun _ => false)).
  Proof.
    intros H. unfold ev_all, tree_all. induction (range_up 0 (nth 0 C 0)) as [|b bs IH]; auto. cbn [flat_map]. rewrite !map_app, IH. f_equal.
    unfold ev_top, tree_top. destruct (uniqp c G [b]); auto. rewrite !map_app, ev_sub_short by (rewrite skipn_length, radices_length; lia). f_equal.
    unfold node. destruct (sup (padz c [b])) eqn:E; cbn [map ev_code]; rewrite ?E; auto.
  Qed.

  Variable S : list Z.
  (** What is left of the sample [l] after the structures before [ocnt o]: [Q], the numbers of those that were kept. *)
  Definition moved (o : ost) : Prop := exists l, osub o = SList l /\ length l = length S /\ (forall s, In s S -> ocnt o <= s -> In s l) /\
    exists Q, NoDup Q /\ incl Q l /\ (forall q, In q Q -> q < ocnt o) /\ length Q = length (osurv o).
  Lemma moved_full o s : moved o -> (length S <= length (osurv o))%nat -> In s S -> ocnt o <= s -> False.
  Proof.
    intros [l [_ [Hl [Hs [Q [Q1 [Q2 [Q3 Q4]]]]]]]] Hlen Hi Hc. assert (NoDup (s :: Q)) as Hnd by (constructor; auto; intros K; apply Q3 in K; lia).
    assert (incl (s :: Q) l) as Hincl by (intros y [<-|Hy]; auto). pose proof (NoDup_incl_length Hnd Hincl) as K. cbn [length] in K. lia.
  Qed.
  Lemma process_moved dim rnd es : (forall e, In e es -> goode cwa G e) -> forall o, moved o -> (length (osurv o) <= length S)%nat ->
    exists o' l1, process c G cwa false cellsize dim false rnd true es o = Ok o' /\ osurv o' = osurv o ++ l1 /\ subseq l1 (flat_map (evout cwa (plain cwa)) es) /\
      (length (osurv o') <= length S)%nat /\ forall i d ast, nth_error es i = Some (EvOut d ast) -> In (ocnt o + Z.of_nat i) S -> In (deco cwa (dec d)) l1.
  Proof.
    induction es as [|e es IH]; intros Hg o Ho Hlen; cbn [process flat_map].
    - exists o, []. rewrite app_nil_r. repeat split; auto; [constructor|]. intros [|i] d ast E; discriminate E.
    - pose proof Ho as [l [Hl [Hll [Hls [Q [Q1 [Q2 [Q3 Q4]]]]]]]]. unfold wants. rewrite Hl. cbn [negb andb]. rewrite !orb_false_r.
      destruct (Nat.ltb_spec (length (osurv o)) (length l)) as [Hlt|Hge].
      2:{ exists o, []. rewrite app_nil_r. split; auto. split; auto. split; [|split; auto].
          - generalize (evout cwa (plain cwa) e ++ flat_map (evout cwa (plain cwa)) es). clear. induction l; constructor; auto.
          - intros i d ast _ Hi. exfalso. apply (moved_full o _ Ho) in Hi; auto; lia. }
      assert (forall e', In e' es -> goode cwa G e') as Hg' by (intros; apply Hg; right; auto).
      destruct e as [d ast|d].
      + rewrite (apply_out cwa G dim false cellsize (plain cwa) (plain_out cwa G Hno dim cellsize false)) by (apply Hg; left; auto).
        cbn [rbind plain fold_left]. rewrite okeep_eq. rewrite Hl. cbn [in_subset].
        match goal with |- context [process _ _ _ _ _ _ _ _ _ _ ?o1] => destruct (IH Hg' o1) as [o' [l1 [E1 [E2 [E3 [E4 E5]]]]]] end.
        * exists l. cbn [osub ocnt osurv]. split; auto. split; auto. split; [intros s Hs Hc; apply Hls; auto; lia|].
          destruct (existsb (Z.eqb (ocnt o)) l) eqn:E.
          -- exists (ocnt o :: Q). split; [|split; [|split]].
             ++ constructor; auto. intros K. apply Q3 in K. lia.
             ++ intros q [<-|Hq]; auto. apply existsb_exists in E as [y [Hy Ey]]. apply Z.eqb_eq in Ey. subst. auto.
             ++ intros q [<-|Hq]; [lia|]. apply Q3 in Hq. lia.
             ++ rewrite app_length. cbn [length]. lia.
          -- exists Q. repeat split; auto. intros q Hq. apply Q3 in Hq. lia.
        * cbn [osurv]. destruct (existsb _ l); [rewrite app_length; cbn [length]|]; lia.
        * cbn [osurv ocnt evout plain app] in *. exists o', ((if existsb (Z.eqb (ocnt o)) l then [deco cwa (dec d)] else []) ++ l1). split; auto. split; [rewrite E2; destruct (existsb _ l); [rewrite <- app_assoc|]; auto|].
          split; [destruct (existsb _ l); cbn [app]; [apply sub_keep|apply sub_skip]; auto|]. split; auto.
          intros [|i] d' ast' Ei Hi; cbn [nth_error] in Ei.
          -- inversion Ei; subst. rewrite Z.add_0_r in Hi. assert (existsb (Z.eqb (ocnt o)) l = true) as -> by (apply existsb_exists; exists (ocnt o); split; [apply Hls; auto; lia|apply Z.eqb_refl]). left. auto.
          -- apply in_app_iff. right. apply (E5 i d' ast'); auto. replace (ocnt o + 1 + Z.of_nat i) with (ocnt o + Z.of_nat (Datatypes.S i)) by lia. auto.
      + cbn [apply_ev]. rewrite Hl. unfold bump_subset.
        assert (exists l', (if existsb (Z.eqb (ocnt o)) l then Ok (SList (replace_first l (ocnt o) (next_sample (Datatypes.S (length l)) (ocnt o) l (prod_Z (br_C c))))) else Ok (SList l)) = Ok (SList l') /\
          length l' = length l /\ forall a, In a l -> a <> ocnt o -> In a l') as [l' [-> [L1 L2]]].
        { destruct (existsb (Z.eqb (ocnt o)) l); [|exists l; auto]. eexists. split; [reflexivity|]. split; [apply replace_length|intros; apply replace_In; auto]. }
        cbn [rbind]. match goal with |- context [process _ _ _ _ _ _ _ _ _ _ ?o1] => destruct (IH Hg' o1) as [o' [l1 [E1 [E2 [E3 [E4 E5]]]]]] end.
        * exists l'. cbn [osub ocnt osurv]. split; auto. split; [lia|]. split; [intros s Hs Hc; apply L2; [apply Hls; auto; lia|lia]|].
          exists Q. split; auto. split; [intros q Hq; apply L2; [auto|apply Q3 in Hq; lia]|]. split; auto. intros q Hq. apply Q3 in Hq. lia.
        * auto.
        * cbn [osurv ocnt evout app] in *. exists o', l1. split; auto. split; auto. split; auto. split; auto.
          intros [|i] d' ast' Ei Hi; cbn [nth_error] in Ei; [discriminate Ei|]. apply (E5 i d' ast'); auto. replace (ocnt o + 1 + Z.of_nat i) with (ocnt o + Z.of_nat (Datatypes.S i)) by lia. auto.
  Qed.

  Theorem super_sub dim rnd : S <> [] -> exists L fuel0, (forall fuel, (fuel0 <= fuel)%nat -> brancher c G cwa dim false cellsize false rnd fuel (SList S) = Ok L) /\
    subseq L (reduced cwa G cellsize) /\ (length L <= length S)%nat /\
    ((length c <= 3)%nat -> forall i w, nth_error (colourings cwa G) i = Some w -> In (Z.of_nat i + 1) S -> In w (reduced cwa G cellsize) -> In w L).
  Proof.
    intros HS. destruct (brancher_process c G cwa false cellsize (HGc cwa G HG) (concs_pos cwa) (concs_nonempty cwa Hne)
                (eq_sym (concs_sum cwa)) (fun _ => Hcell) dim false rnd (SList S)) as [f Hf].
    destruct (process_moved dim rnd evs (evs_good cwa G cellsize HG Hne) (Ost [] 1 (SList S) 0)) as [o [l1 [E1 [E2 [E3 [E4 E5]]]]]].
    { exists S. cbn [osub ocnt osurv length]. repeat split; auto. exists []. repeat split; [constructor|intros q []|intros q []]. }
    { cbn. lia. }
    exists l1, f. split; [|split; [|split]].
    - intros fuel Hfu. rewrite Hf by auto. replace (use_subset false (SList S)) with true by (destruct S; [congruence|auto]). rewrite E1. cbn [rbind]. rewrite E2. auto.
    - rewrite evs_out in E3. exact E3.
    - rewrite E2 in E4. cbn [osurv app] in E4. auto.
    - intros Hk i w Hi Hs Hw. rewrite colourings_codes in Hi by auto. rewrite nth_error_map in Hi. destruct (nth_error (tree_all c G (fun _ => false)) i) as [d|] eqn:Ed; [|discriminate Hi]. inversion Hi; subst w.
      assert (nth_error (map ev_code evs) i = Some (d, sup d)) as Ee by (rewrite evs_codes, nth_error_map, Ed by auto; auto).
      rewrite nth_error_map in Ee. destruct (nth_error evs i) as [[d' ast|d']|] eqn:Ev; [| |discriminate Ee]; inversion Ee; subst d'.
      + apply (E5 i d ast); auto. cbn [ocnt]. rewrite Z.add_comm. auto.
      + exfalso. apply (reduced_sound cwa G cellsize) in Hw; auto. destruct Hw as [_ Hw]. apply Hw. apply sup_spec; auto. eapply code_In; eauto. eapply nth_error_In; eauto.
  Qed.
End Sample.
