(** C04-C09: the lists returned by [brancher] and [add_arrows]. *)
From Coq Require Import Permutation.
From Verif Require Import PyBase Spec ListFacts PermFacts NumericsModel NumericsProofs PhononsModel
  TreeModel HashProofs CanonProofs TreeSearch PermSpec BranchMachine BranchRun BranchTop ColorProofs
  ArrowProofs DecoFacts ArrowEnum DecoBij BranchProofs.
Local Open Scope Z_scope.

Lemma narrows_zero cwa : Forall (fun s => fst s = -1) cwa -> br_narrows cwa = 0%nat.
Proof.
  intros H. unfold br_narrows. rewrite how_many_arrows_count. rewrite filter_none; auto.
  intros s Hs. rewrite Forall_forall in H. apply H in Hs. unfold arrowed. rewrite Hs. auto.
Qed.

(** ** without arrows *)
Section Plain.
  Variable cwa : list site.
  Variable G : list op.
  Notation n := (length cwa).
  Notation c := (map (multiplicity site_eqb cwa) (first_occurrences site_eqb cwa)).
  Hypothesis HG : perm_group n (map fst G).
  Hypothesis Hne : cwa <> [].
  Hypothesis Hno : Forall (fun s => fst s = -1) cwa.

  Definition plain (x : list nat) : list (list site) := [deco cwa x].
  Lemma plain_out dim cs sp : forall x rnd k, has_concs c x ->
    if (0 <? br_narrows cwa)%nat then
      add_arrows rnd (deco cwa x) (stab_full G x) dim (firstn cs G) false None sp k = Ok (plain x, k)
    else out_plain cwa x = Ok (deco cwa x) /\ plain x = [deco cwa x].
  Proof.
    intros x rnd k Hx. rewrite narrows_zero by auto. cbn. split; auto. apply out_plain_eq; auto.
  Qed.

  Definition colourings : list (list site) := map (deco cwa) (canonicals cwa G).
  Lemma full_plain : full_list cwa G plain = colourings.
  Proof.
    unfold full_list, colourings. induction (canonicals cwa G) as [|x l IH]; auto.
  Qed.

  Lemma deco_equiv x y : has_concs c x -> has_concs c y ->
    site_equiv G (deco cwa x) (deco cwa y) <-> equiv G x y.
  Proof.
    intros Hx Hy. unfold site_equiv, equiv.
    assert (forall g, In g G -> is_perm n (fst g)) as Hp by (intros g Hg; apply HG, in_map; auto).
    split; intros [g [Hg E]]; exists g; split; auto.
    - rewrite <- deco_gx in E by auto. apply deco_inj in E; auto.
      apply (gx_concs c G (HGc cwa G HG)); auto.
    - subst y. apply deco_gx; auto.
  Qed.

  Theorem colourings_transversal :
    transversal (fun w => Permutation w cwa) (site_equiv G) colourings.
  Proof.
    pose proof (HGc cwa G HG) as HGs.
    split; [|split].
    - intros r Hr. apply in_map_iff in Hr as [x [<- Hx]]. apply canonicals_In in Hx as [Hx _].
      apply deco_perm; auto.
    - intros w Hw. destruct (deco_surj cwa w Hw) as [x [Hx <-]].
      destruct (canon_exists c G HGs x Hx) as [y [E [Hy Cy]]].
      exists (deco cwa y). split; [apply in_map, canonicals_In; auto|]. apply deco_equiv; auto.
    - apply pairwise_of_NoDup.
      + apply NoDup_map_inj; [|apply canonicals_NoDup]. intros x y Hx Hy E.
        apply canonicals_In in Hx as [Hx _], Hy as [Hy _]. apply deco_inj in E; auto.
      + intros v w Hv Hw E. apply in_map_iff in Hv as [x [<- Hx]], Hw as [y [<- Hy]].
        apply canonicals_In in Hx as [Hx Cx], Hy as [Hy Cy]. apply deco_equiv in E; auto.
        f_equal. eapply canon_unique; eauto.
  Qed.

  (** supers = true *)
  Theorem plain_full dim cs rnd : exists fuel0, forall fuel, (fuel0 <= fuel)%nat ->
    brancher c G cwa dim true cs false rnd fuel SNone = Ok colourings.
  Proof.
    rewrite <- full_plain. apply (brancher_full cwa G dim true cs HG Hne); auto; [discriminate|].
    apply plain_out.
  Qed.
  Theorem plain_every dim cs rnd s : use_subset false s = false -> exists fuel0, forall fuel, (fuel0 <= fuel)%nat ->
    brancher c G cwa dim true cs false rnd fuel s = Ok colourings.
  Proof.
    intros Hs. rewrite <- full_plain. apply (brancher_every cwa G dim true cs HG Hne); auto; [discriminate|].
    apply plain_out.
  Qed.
  Theorem plain_sub dim cs rnd S : S <> [] -> exists fuel0, forall fuel, (fuel0 <= fuel)%nat ->
    brancher c G cwa dim true cs false rnd fuel (SList S) = Ok (at_positions S 1 colourings).
  Proof.
    intros HS. rewrite <- full_plain. apply (brancher_sub cwa G dim true cs HG Hne); auto; [discriminate|].
    apply plain_out.
  Qed.
End Plain.

(** ** with arrows *)
Section Arrows.
  Variable cwa : list site.
  Variable G : list op.
  Variable m : nat.
  Variable dim : Z.
  Notation n := (length cwa).
  Notation c := (map (multiplicity site_eqb cwa) (first_occurrences site_eqb cwa)).
  Hypothesis Hm : Z.of_nat m = dim.
  Hypothesis Hdim : 0 < dim.
  Hypothesis HG : op_group n m G.
  Hypothesis Hcons : forall s t, In s cwa -> In t cwa -> skeleton s = skeleton t -> s = t.

  Lemma HGp : perm_group n (map fst G).
  Proof. eapply op_group_perm_group; eauto. Qed.
  Lemma HGs' : perm_group (sum_nat c) (map fst G).
  Proof. apply HGc, HGp. Qed.

  Lemma stab_group x : has_concs c x -> op_group n m (stab_full G x).
  Proof.
    intros Hx. destruct HG as [Hp [Hid Hcl]]. split; [|split].
    - intros g Hg. apply stab_full_In in Hg as [Hg _]. auto.
    - apply stab_full_In. split; auto. apply (gx_id c); auto. cbn. rewrite concs_sum. auto.
    - intros g h Hg Hh. apply stab_full_In in Hg as [Hg Eg], Hh as [Hh Eh]. apply stab_full_In.
      split; auto. unfold gx in *. cbn [fst].
      rewrite (act_comp 0%nat n) by (apply Hp; auto). rewrite Eh. auto.
  Qed.
  Lemma stab_perm x g : In g (stab_full G x) -> is_perm n (fst g) /\ is_perm m (snd g).
  Proof. intros Hg. apply stab_full_In in Hg as [Hg _]. apply HG; auto. Qed.
  Lemma stab_skel x g : has_concs c x -> In g (stab_full G x) ->
    act (-1, 0) (fst g) (map skeleton (deco cwa x)) = map skeleton (deco cwa x).
  Proof.
    intros Hx Hg. pose proof (stab_perm x g Hg) as [Hp _]. apply stab_full_In in Hg as [Hg E].
    rewrite (act_map skeleton (-1, 0)).
    - rewrite <- deco_gx by auto. rewrite E. auto.
    - intros j Hj. rewrite deco_length by auto. apply Hp; auto.
  Qed.

  Variable supers : bool.
  Variable cellsize : nat.

  Definition dressed (x : list nat) : list (list site) :=
    arrangements dim (deco cwa x) (stab_full G x) supers (firstn cellsize G).

  Lemma dressed_out : (0 < br_narrows cwa)%nat -> forall x rnd k, has_concs c x ->
    if (0 <? br_narrows cwa)%nat then
      add_arrows rnd (deco cwa x) (stab_full G x) dim (firstn cellsize G) false None supers k = Ok (dressed x, k)
    else out_plain cwa x = Ok (deco cwa x) /\ dressed x = [deco cwa x].
  Proof.
    intros Hpos x rnd k Hx. destruct (Nat.ltb_spec 0 (br_narrows cwa)); [|lia].
    apply (add_arrows_eq n m); auto.
    - apply deco_length; auto.
    - apply stab_perm.
    - intros _ g Hg. apply HG. rewrite <- (firstn_skipn cellsize G). apply in_app_iff. auto.
  Qed.

  Definition structures : list (list site) := full_list cwa G dressed.

  Hypothesis Hne : cwa <> [].
  Hypothesis Hcell : supers = false -> (cellsize <= length G)%nat.
  Theorem arrows_full rnd : (0 < br_narrows cwa)%nat -> exists fuel0, forall fuel, (fuel0 <= fuel)%nat ->
    brancher c G cwa dim supers cellsize false rnd fuel SNone = Ok structures.
  Proof.
    intros Hp. unfold structures.
    apply (brancher_full cwa G dim supers cellsize HGp Hne Hcell); auto. apply dressed_out; auto.
  Qed.
  Theorem arrows_every rnd s : (0 < br_narrows cwa)%nat -> use_subset false s = false -> exists fuel0, forall fuel, (fuel0 <= fuel)%nat ->
    brancher c G cwa dim supers cellsize false rnd fuel s = Ok structures.
  Proof.
    intros Hp Hs. unfold structures.
    apply (brancher_every cwa G dim supers cellsize HGp Hne Hcell); auto. apply dressed_out; auto.
  Qed.
  Theorem arrows_sub rnd S : (0 < br_narrows cwa)%nat -> S <> [] -> exists fuel0, forall fuel, (fuel0 <= fuel)%nat ->
    brancher c G cwa dim supers cellsize false rnd fuel (SList S) = Ok (at_positions S 1 structures).
  Proof.
    intros Hp HS. unfold structures.
    apply (brancher_sub cwa G dim supers cellsize HGp Hne Hcell); auto. apply dressed_out; auto.
  Qed.

  (** the structures before removal of superperiodic ones *)
  Definition mins (x : list nat) : list (list site) := all_min dim (deco cwa x) (stab_full G x).
  Definition all_structures : list (list site) := full_list cwa G mins.

  Lemma mins_transversal x : has_concs c x ->
    transversal (arr dim (deco cwa x)) (op_equiv (stab_full G x)) (mins x).
  Proof.
    intros Hx. apply (all_min_transversal n m dim); auto.
    - apply deco_length; auto.
    - apply stab_perm.
    - apply stab_group; auto.
    - intros g Hg. apply stab_skel; auto.
  Qed.

  Definition decorated (w : list site) : Prop :=
    Permutation (map skeleton w) (map skeleton cwa) /\ directions_below dim w.

  Lemma decorated_okw w : decorated w -> okw n dim w.
  Proof. intros [H1 H2]. split; auto. apply Permutation_length in H1. rewrite !map_length in H1. auto. Qed.

  Lemma skel_inj v w : (forall s, In s v -> In s cwa) -> (forall s, In s w -> In s cwa) ->
    map skeleton v = map skeleton w -> v = w.
  Proof.
    revert w; induction v as [|s v IH]; intros [|t w] Hv Hw E; try discriminate; auto.
    cbn [map] in E. inversion E. f_equal.
    - apply Hcons; [apply Hv|apply Hw|]; cbn; auto. unfold skeleton. congruence.
    - apply IH; auto; intros; [apply Hv|apply Hw]; cbn; auto.
  Qed.

  (** a colouring with the skeleton of a decorated structure *)
  Lemma skel_colouring w : decorated w -> exists x, has_concs c x /\ map skeleton (deco cwa x) = map skeleton w.
  Proof.
    intros [H _]. destruct (Permutation_map_inv _ _ H) as [v [E Hv]].
    destruct (deco_surj cwa v) as [x [Hx Ex]]; [symmetry; auto|].
    exists x. rewrite Ex. split; auto.
  Qed.

  Lemma act_op_skel_perm g w : In g G -> length w = n ->
    map skeleton (act_op g w) = act (-1, 0) (fst g) (map skeleton w).
  Proof. intros Hg Hl. apply act_op_skeleton. intros j Hj. rewrite Hl. apply HG in Hg. apply Hg; auto. Qed.

  Lemma skel_gx g x : In g G -> has_concs c x ->
    map skeleton (deco cwa (gx g x)) = act (-1, 0) (fst g) (map skeleton (deco cwa x)).
  Proof.
    intros Hg Hx. assert (is_perm n (fst g)) as Hp by (apply HG; auto).
    rewrite deco_gx by auto. symmetry. apply act_map.
    intros j Hj. rewrite deco_length by auto. apply Hp; auto.
  Qed.

  Theorem all_structures_transversal : transversal decorated (op_equiv G) all_structures.
  Proof.
    split; [|split].
    - intros r Hr. apply in_flat_map in Hr as [x [Hx Hr]]. apply canonicals_In in Hx as [Hx _].
      apply (mins_transversal x Hx) in Hr. destruct Hr as [Hr1 Hr2]. split; auto.
      rewrite Hr1. apply Permutation_map, deco_perm; auto.
    - intros w Hw. destruct (skel_colouring w Hw) as [x [Hx Ex]].
      destruct (canon_exists c G HGs' x Hx) as [y [[g [Hg Ey]] [Hy Cy]]].
      assert (arr dim (deco cwa y) (act_op g w)) as Ha.
      { split.
        - rewrite act_op_skel_perm by (auto; apply decorated_okw; auto). subst y.
          rewrite skel_gx by auto. rewrite Ex. auto.
        - apply (okw_act n m dim G Hm HG g w Hg). apply decorated_okw; auto. }
      destruct (mins_transversal y Hy) as [_ [Hex _]]. destruct (Hex _ Ha) as [r [Hr [h [Hh Er]]]].
      exists r. split; [apply in_flat_map; exists y; split; auto; apply canonicals_In; auto|].
      apply (op_equiv_trans n m dim G Hm HG w (act_op g w) r).
      + apply decorated_okw; auto.
      + exists g; auto.
      + exists h. split; auto. apply stab_full_In in Hh. tauto.
    - apply pairwise_of_NoDup.
      + unfold all_structures, full_list. apply NoDup_flat_map; [apply canonicals_NoDup| |].
        * intros x Hx. apply canonicals_In in Hx as [Hx _].
          apply (all_min_NoDup n m dim (deco cwa x) (stab_full G x) Hdim). apply deco_length; auto.
        * intros x y w Hx Hy Hwx Hwy. apply canonicals_In in Hx as [Hx _], Hy as [Hy _].
          apply (mins_transversal x Hx) in Hwx. apply (mins_transversal y Hy) in Hwy.
          destruct Hwx as [E1 _], Hwy as [E2 _].
          apply (deco_inj cwa); auto. apply skel_inj; [intros s; apply deco_In; auto|intros s; apply deco_In; auto|congruence].
      + intros r s Hr Hs [g [Hg E]].
        apply in_flat_map in Hr as [x [Hx Hr]], Hs as [y [Hy Hs]].
        apply canonicals_In in Hx as [Hx Cx], Hy as [Hy Cy].
        pose proof (proj1 (mins_transversal x Hx) r Hr) as [Er _].
        pose proof (proj1 (mins_transversal y Hy) s Hs) as [Es _].
        assert (gx g x = y) as Exy.
        { apply (deco_inj cwa); auto; [apply (gx_concs c G HGs'); auto|].
          apply skel_inj.
          - intros t Ht. eapply (deco_In cwa (gx g x)); eauto. apply (gx_concs c G HGs'); auto.
          - intros t; apply deco_In; auto.
          - rewrite skel_gx by auto. rewrite <- Er, <- Es, E. symmetry. apply act_op_skel_perm; auto.
            pose proof (f_equal (@length _) Er) as El. rewrite !map_length, deco_length in El; auto. }
        assert (x = y) as <-.
        { eapply canon_unique; eauto using HGs'. exists g; auto. }
        apply (all_min_unique n m dim (deco cwa x) (stab_full G x)); auto.
        * apply deco_length; auto.
        * apply stab_group; auto.
        * exists g. split; auto. apply stab_full_In. auto.
  Qed.

  Lemma structures_supers : supers = true -> structures = all_structures.
  Proof.
    intros E. unfold structures, all_structures, full_list. apply flat_map_ext_in. intros x _.
    unfold dressed, mins, arrangements, all_min. apply filter_ext. intros w. unfold spd. rewrite E.
    cbn [negb andb]. apply andb_true_r.
  Qed.
End Arrows.
