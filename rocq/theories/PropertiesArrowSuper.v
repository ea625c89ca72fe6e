(** C67: superperiodic structures among those with displacements. *)
From Coq Require Import Permutation.
From Verif Require Import PyBase Spec ListFacts PermFacts NumericsModel PhononsModel TreeModel TreeSearch BranchTop
  ArrowEnum BranchProofs BranchTheorems Decide ArrowSuper.
Local Open Scope Z_scope.

Lemma some_arrow cwa : (exists s, In s cwa /\ has_arrow s = true) -> cwa <> [] /\ (0 < br_narrows cwa)%nat.
Proof.
  intros [s [Hs Ha]]. split; [intros ->; destruct Hs|].
  unfold br_narrows. rewrite how_many_arrows_count. change arrowed with has_arrow.
  destruct (filter has_arrow cwa) eqn:E; cbn; [|lia].
  assert (In s (filter has_arrow cwa)) as Hin by (apply filter_In; auto). rewrite E in Hin. destruct Hin.
Qed.

Lemma filter_subseq {A} (p : A -> bool) l : subseq (filter p l) l.
Proof. induction l as [|a l IH]; cbn; [constructor|]. destruct (p a); [apply sub_keep|apply sub_skip]; auto. Qed.

(** When no species occurs both with and without an arrow: exactly the structures are removed that one of
    the first [cellsize] operations, other than the identity, maps to themselves (sites and arrows). *)
Theorem C67_superperiodic_arrows_partial : forall cwa G m dim cellsize rnd,
  (exists s, In s cwa /\ has_arrow s = true) ->
  (forall s t, In s cwa -> In t cwa -> snd s = snd t -> s = t) ->
  0 < dim -> Z.of_nat m = dim -> op_group (length cwa) m G -> (cellsize <= length G)%nat ->
  exists L keep fuel0,
    (forall w, In w L -> keep w = true <->
       ~ exists g, In g (firstn cellsize G) /\ g <> (idperm (length cwa), idperm m) /\ act_op g w = w) /\
    forall fuel, (fuel0 <= fuel)%nat ->
    let run supers := brancher (map (multiplicity site_eqb cwa) (first_occurrences site_eqb cwa)) G cwa dim supers
                               cellsize false rnd fuel SNone in
    run true = Ok L /\ run false = Ok (filter keep L).
Proof.
  intros cwa G m dim cs rnd Ha Hsp Hd Hm HG Hcell. destruct (some_arrow cwa Ha) as [Hne Hn].
  assert (forall s t, In s cwa -> In t cwa -> skeleton s = skeleton t -> s = t) as Hcons.
  { intros s t Hs Ht E. apply Hsp; auto. apply (f_equal snd) in E. exact E. }
  destruct (arrows_full cwa G m dim Hm Hd HG true cs Hne (fun E => ltac:(discriminate E)) rnd Hn) as [f1 H1].
  destruct (arrows_full cwa G m dim Hm Hd HG false cs Hne (fun _ => Hcell) rnd Hn) as [f2 H2].
  exists (all_structures cwa G dim), (fun w => negb (looks_superb G cs w)), (f1 + f2)%nat. split.
  - intros w Hw. destruct (structure_ok cwa G m dim Hm Hd HG Hcons w Hw) as [Hl Hb].
    rewrite negb_true_iff, <- not_true_iff_false, (looks_superb_spec cwa G m dim Hm HG cs w Hl Hb).
    assert (looks_fixed (length cwa) m (firstn cs G) w <-> fixed_by_other (length cwa) m (firstn cs G) w) as ->; [|tauto].
    split; [|apply fixed_looks]. apply looks_is_fixed; auto.
    + intros g Hg. apply (T_perm cwa G m HG cs g Hg).
    + pose proof (structure_skeleton cwa G m dim Hm Hd HG Hcons w Hw) as Hp.
      intros s t Hs Ht E. apply (in_map skeleton) in Hs, Ht. rewrite Hp in Hs, Ht.
      apply in_map_iff in Hs as [s' [Es Hs]], Ht as [t' [Et Ht]]. rewrite <- Es, <- Et. f_equal. apply Hsp; auto.
      apply (f_equal snd) in Es, Et. cbn in Es, Et. congruence.
  - intros fuel Hf. split.
    + rewrite H1 by lia. rewrite (structures_supers cwa G dim true cs); auto.
    + rewrite H2 by lia. rewrite structures_reduced; auto.
Qed.

(** In general: what is returned is part of the full list, nothing twice, and nothing in it is mapped to
    itself by one of these operations. *)
Theorem C67_superperiodic_arrows_sound : forall cwa G m dim cellsize rnd,
  (exists s, In s cwa /\ has_arrow s = true) ->
  (forall s t, In s cwa -> In t cwa -> skeleton s = skeleton t -> s = t) ->
  0 < dim -> Z.of_nat m = dim -> op_group (length cwa) m G -> (cellsize <= length G)%nat ->
  exists L L' fuel0,
    subseq L' L /\ NoDup L' /\
    (forall w, In w L' ->
       ~ exists g, In g (firstn cellsize G) /\ g <> (idperm (length cwa), idperm m) /\ act_op g w = w) /\
    forall fuel, (fuel0 <= fuel)%nat ->
    let run supers := brancher (map (multiplicity site_eqb cwa) (first_occurrences site_eqb cwa)) G cwa dim supers
                               cellsize false rnd fuel SNone in
    run true = Ok L /\ run false = Ok L'.
Proof.
  intros cwa G m dim cs rnd Ha Hcons Hd Hm HG Hcell. destruct (some_arrow cwa Ha) as [Hne Hn].
  destruct (arrows_full cwa G m dim Hm Hd HG true cs Hne (fun E => ltac:(discriminate E)) rnd Hn) as [f1 H1].
  destruct (arrows_full cwa G m dim Hm Hd HG false cs Hne (fun _ => Hcell) rnd Hn) as [f2 H2].
  exists (all_structures cwa G dim), (filter (fun w => negb (looks_superb G cs w)) (all_structures cwa G dim)), (f1 + f2)%nat.
  destruct (all_structures_transversal cwa G m dim Hm Hd HG Hcons) as [Hin [_ Hpw]]. split; [apply filter_subseq|]. split; [|split].
  - apply NoDup_filter. revert Hin Hpw. clear - Hm Hd HG. intros Hin Hpw.
    induction (all_structures cwa G dim) as [|a l IH]; constructor.
    + intros Hi. inversion_clear Hpw as [|? ? Hf _]. rewrite Forall_forall in Hf. apply (Hf a Hi).
      exists (idperm (length cwa), idperm m). split; [apply HG|]. symmetry.
      apply (DecoFacts.act_op_id (length cwa) m dim); auto; apply (decorated_okw cwa dim a); apply Hin; cbn; auto.
    + apply IH; [intros; apply Hin; cbn; auto|]. inversion Hpw; auto.
  - intros w Hw. apply filter_In in Hw as [Hw Hk].
    destruct (structure_ok cwa G m dim Hm Hd HG Hcons w Hw) as [Hl Hb].
    apply negb_true_iff in Hk. rewrite <- not_true_iff_false, (looks_superb_spec cwa G m dim Hm HG cs w Hl Hb) in Hk.
    intros H. apply Hk. apply fixed_looks. exact H.
  - intros fuel Hf. split.
    + rewrite H1 by lia. rewrite (structures_supers cwa G dim true cs); auto.
    + rewrite H2 by lia. rewrite structures_reduced; auto.
Qed.

(** A species that occurs both with and without an arrow: two atoms of one species, one of them displaced,
    in a cell of two sites.  Moving by one site exchanges the displaced atom with the other one, so neither
    arrangement is superperiodic; the code removes them all. *)
Definition half_displaced : list site := [(-1, 1); (1, 1)].
Definition move2 : list op := [([0; 1], [0; 1]); ([1; 0], [0; 1])]%nat.
Theorem C67_mixed_refuted :
  let run supers := brancher (map (multiplicity site_eqb half_displaced) (first_occurrences site_eqb half_displaced))
                             move2 half_displaced 2 supers 2 false (fun _ => false) 200 SNone in
  op_group 2 2 move2 /\
  run true = Ok [[(-1, 1); (0, 1)]; [(-1, 1); (1, 1)]] /\
  Forall (fun w => ~ exists g, In g (firstn 2 move2) /\ g <> (idperm 2, idperm 2) /\ act_op g w = w)
         [[(-1, 1); (0, 1)]; [(-1, 1); (1, 1)]] /\
  run false = Ok [].
Proof.
  split; [apply op_groupb_spec; reflexivity|]. split; [vm_compute; reflexivity|]. split; [|vm_compute; reflexivity].
  repeat constructor; intros [g [[<-|[<-|[]]] [Hne E]]]; try discriminate E; apply Hne; reflexivity.
Qed.

(** Two displaced atoms of one species and two of another, in two directions: of seven arrangements two are
    superperiodic. *)
Definition two_displaced : list site := [(1, 1); (1, 1); (-1, 2); (-1, 2)].
Definition move4 : list op :=
  [([0; 1; 2; 3], [0; 1]); ([1; 2; 3; 0], [0; 1]); ([2; 3; 0; 1], [0; 1]); ([3; 0; 1; 2], [0; 1])]%nat.
Example C67_example :
  (exists s, In s two_displaced /\ has_arrow s = true) /\
  (forall s t, In s two_displaced -> In t two_displaced -> snd s = snd t -> s = t) /\
  op_group 4 2 move4 /\
  let run supers := brancher (map (multiplicity site_eqb two_displaced) (first_occurrences site_eqb two_displaced))
                             move4 two_displaced 2 supers 4 false (fun _ => false) 200 SNone in
  run true = Ok [[(0, 1); (0, 1); (-1, 2); (-1, 2)]; [(1, 1); (0, 1); (-1, 2); (-1, 2)]; [(0, 1); (1, 1); (-1, 2); (-1, 2)];
                 [(1, 1); (1, 1); (-1, 2); (-1, 2)]; [(0, 1); (-1, 2); (0, 1); (-1, 2)]; [(1, 1); (-1, 2); (0, 1); (-1, 2)];
                 [(1, 1); (-1, 2); (1, 1); (-1, 2)]] /\
  run false = Ok [[(0, 1); (0, 1); (-1, 2); (-1, 2)]; [(1, 1); (0, 1); (-1, 2); (-1, 2)]; [(0, 1); (1, 1); (-1, 2); (-1, 2)];
                  [(1, 1); (1, 1); (-1, 2); (-1, 2)]; [(1, 1); (-1, 2); (0, 1); (-1, 2)]].
Proof.
  split; [exists (1, 1); cbn; auto|]. split.
  { cbn. intros s t [<-|[<-|[<-|[<-|[]]]]] [<-|[<-|[<-|[<-|[]]]]]; cbn; intros E; auto; discriminate. }
  split; [apply op_groupb_spec; reflexivity|]. split; vm_compute; reflexivity.
Qed.

Print Assumptions C67_superperiodic_arrows_partial.
Print Assumptions C67_superperiodic_arrows_sound.
Print Assumptions C67_mixed_refuted.
