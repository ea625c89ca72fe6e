(** C67: what [add_arrows] removes as superperiodic. *)
From Coq Require Import Permutation.
From Verif Require Import PyBase Spec ListFacts PermFacts NumericsModel NumericsProofs PhononsModel
  TreeModel HashProofs CanonProofs TreeSearch PermSpec BranchMachine BranchRun BranchTop ColorProofs
  ArrowProofs DecoFacts ArrowEnum DecoBij BranchProofs BranchTheorems.
Local Open Scope Z_scope.

(** Mapped to itself by one of the operations, other than the identity. *)
Definition fixed_by_other (n m : nat) (T : list op) (w : list site) : Prop :=
  exists g, In g T /\ g <> (idperm n, idperm m) /\ act_op g w = w.

(** The comparison the code makes for one operation: same species everywhere, and the same arrow
    directions when the arrows are read off in the order of the sites. *)
Definition looks_fixed (n m : nat) (T : list op) (w : list site) : Prop :=
  exists g, In g T /\ g <> (idperm n, idperm m) /\
    map snd (act_op g w) = map snd w /\ arrs (act_op g w) = arrs w.

Lemma zlist_eqb_spec a : forall b, zlist_eqb a b = true <-> a = b.
Proof.
  unfold zlist_eqb. induction a as [|x a IH]; intros [|y b]; cbn; split; intros H; try congruence; auto.
  - apply andb_true_iff in H as [H1 H2]. apply Z.eqb_eq in H1. apply IH in H2. congruence.
  - injection H as <- <-. rewrite Z.eqb_refl. cbn. apply IH. auto.
Qed.

Lemma map_snd_turn sg l : map snd (map (turn sg) l) = map (@snd Z Z) l.
Proof.
  rewrite map_map. apply map_ext. intros s. unfold turn. destruct (has_arrow s); auto.
Qed.
Lemma act_op_snd n g w : is_perm n (fst g) -> length w = n ->
  map snd (act_op g w) = act 0 (fst g) (map snd w).
Proof.
  intros [_ [_ Hp]] Hl. unfold act_op. rewrite map_snd_turn. unfold act. rewrite map_map.
  apply map_ext_in. intros j Hj. symmetry. change 0 with (snd (-1, 0)). apply map_nth.
Qed.
Lemma act_op_arrs n m dim g w : Z.of_nat m = dim -> is_perm n (fst g) -> is_perm m (snd g) ->
  length w = n -> directions_below dim w ->
  arrs (act_op g w) =
  map (fun s => Z.of_nat (nth (Z.to_nat s) (snd g) 0%nat)) (filter (fun s => 0 <=? s) (act 0 (fst g) (map fst w))).
Proof.
  intros Hm [_ [_ Hp]] Hp2 Hl Hb. unfold arrs, act_op, act. rewrite (map_ext_in (fun j => nth j (map fst w) 0) (fun j => fst (nth j w (-1, 0)))).
  2:{ intros j Hj. rewrite (nth_indep (map fst w) 0 (-1)) by (rewrite map_length, Hl; auto).
      change (-1) with (fst (-1, 0)). apply map_nth. }
  rewrite <- (map_map (fun j => nth j w (-1, 0)) fst). generalize (map (fun j => nth j w (-1, 0)) (fst g)) as l.
  induction l as [|s l IH]; auto. cbn [map filter].
  change (arrowed (turn (snd g) s)) with (has_arrow (turn (snd g) s)). rewrite turn_arrow.
  unfold has_arrow at 1. destruct (0 <=? fst s) eqn:E; [|exact IH].
  cbn [map]. f_equal; [|exact IH]. unfold turn, has_arrow. rewrite E. auto.
Qed.

Section Super.
  Variables (n m : nat) (dim : Z).
  Hypothesis Hm : Z.of_nat m = dim.

  Lemma super_true w : length w = n -> directions_below dim w ->
    forall tr, (forall g, In g tr -> is_perm n (fst g) /\ is_perm m (snd g)) ->
    exists b, arrow_superperiodic tr w (arrs w) = Ok b /\ (b = true <-> looks_fixed n m tr w).
  Proof.
    intros Hl Hb. induction tr as [|[ac pe] tr IH]; intros Ht.
    { exists false. split; auto. split; [discriminate|]. intros [g [[] _]]. }
    destruct IH as [b [Eb Hiff]]; [intros; apply Ht; cbn; auto|].
    destruct (Ht (ac, pe)) as [Hp1 Hp2]; [cbn; auto|]. cbn [arrow_superperiodic fst snd] in *.
    pose proof (proj1 Hp1) as L1. pose proof (proj1 Hp2) as L2. rewrite L1, L2.
    assert (looks_fixed n m ((ac, pe) :: tr) w <->
            ((ac, pe) <> (idperm n, idperm m) /\ act 0 ac (map snd w) = map snd w /\ arrs (act_op (ac, pe) w) = arrs w)
            \/ looks_fixed n m tr w) as Hcons.
    { rewrite <- (act_op_snd n (ac, pe)) by auto. split.
      - intros [g [[<-|Hg] R]]; [left; tauto|right; exists g; tauto].
      - intros [R|[g [Hg R]]]; [exists (ac, pe); cbn; tauto|exists g; cbn; tauto]. }
    destruct (negb (nlist_eqb ac (seq 0 n)) || negb (nlist_eqb pe (seq 0 m))) eqn:En.
    - assert ((ac, pe) <> (idperm n, idperm m)) as Hne.
      { intros E. injection E as -> ->. unfold idperm in En.
        rewrite (proj2 (nlist_eqb_spec _ _) eq_refl), (proj2 (nlist_eqb_spec _ _) eq_refl) in En. discriminate. }
      rewrite !(rmap_get 0) by (intros j Hj; rewrite map_length, Hl; apply Hp1; auto). cbn [rbind].
      rewrite (rmap_zget_ok n m dim w); auto.
      2:{ intros s Hs. apply filter_In in Hs as [Hs E]. apply Z.leb_le in E. split; auto.
          rewrite (act_In 0 n ac) in Hs by (auto; rewrite map_length; auto).
          apply in_map_iff in Hs as [t [<- Ht2]]. apply Hb; auto. }
      cbn [rbind]. pose proof (act_op_arrs n m dim (ac, pe) w Hm Hp1 Hp2 Hl Hb) as Ea. cbn [fst snd] in Ea. rewrite <- Ea.
      destruct (zlist_eqb (map snd w) (act 0 ac (map snd w)) && zlist_eqb (arrs (act_op (ac, pe) w)) (arrs w)) eqn:Ec.
      + exists true. split; auto. split; auto. intros _. apply Hcons. left.
        apply andb_true_iff in Ec as [E1 E2]. apply zlist_eqb_spec in E1, E2. auto.
      + exists b. split; auto. rewrite Hiff, Hcons. split; auto. intros [[_ [E1 E2]]|H]; auto. exfalso.
        rewrite E1, E2, !(proj2 (zlist_eqb_spec _ _) eq_refl) in Ec. discriminate.
    - exists b. split; auto. rewrite Hiff, Hcons. split; auto. intros [[Hne _]|H]; auto. exfalso. apply Hne.
      apply orb_false_iff in En as [E1 E2]. apply negb_false_iff, nlist_eqb_spec in E1, E2. unfold idperm. congruence.
  Qed.

  Lemma fixed_looks T w : fixed_by_other n m T w -> looks_fixed n m T w.
  Proof. intros [g [Hg [Hne E]]]. exists g. rewrite E. auto. Qed.

  (** Where the species tells which sites carry an arrow, the comparison is exact. *)
  Lemma looks_is_fixed T w : (forall g, In g T -> is_perm n (fst g)) -> length w = n ->
    (forall s t, In s w -> In t w -> snd s = snd t -> skeleton s = skeleton t) ->
    looks_fixed n m T w -> fixed_by_other n m T w.
  Proof.
    intros Hp Hl Hs [g [Hg [Hne [E1 E2]]]]. exists g. split; auto. split; auto.
    assert (map skeleton (act_op g w) = map skeleton w) as Ek.
    { assert (forall s, In s (act_op g w) -> exists t, In t w /\ skeleton s = skeleton t) as Hin.
      { intros s Hi. unfold act_op in Hi. apply in_map_iff in Hi as [t [<- Hi]].
        exists t. split; [|apply turn_skeleton]. unfold act in Hi. apply in_map_iff in Hi as [j [<- Hj]].
        apply nth_In. rewrite Hl. apply (Hp g Hg); auto. }
      revert E1 Hin Hs. clear. generalize (act_op g w) as v. intros v E H Hs.
      assert (forall s, In s w -> In s w) as Hi by auto. revert Hi E. generalize w at 1 3 4 as u.
      revert H. induction v as [|s v IH]; intros H [|t u] Hi E; try discriminate; auto.
      cbn [map] in *. injection E as E1 E2. f_equal.
      - destruct (H s (or_introl eq_refl)) as [t' [Ht' Es]]. rewrite Es. apply Hs; auto; [apply Hi; cbn; auto|].
        rewrite <- E1. apply (f_equal snd) in Es. cbn in Es. auto.
      - apply IH; auto; intros; [apply H|apply Hi]; cbn; auto. }
    pose proof (place_arrs w _ Ek) as P1. pose proof (place_arrs w w eq_refl) as P2. rewrite E2 in P1.
    rewrite P1 in P2. injection P2 as P2. exact P2.
  Qed.
End Super.

Section ArrowRun.
  Variable cwa : list site.
  Variable G : list op.
  Variable m : nat.
  Variable dim : Z.
  Notation n := (length cwa).
  Notation c := (map (multiplicity site_eqb cwa) (first_occurrences site_eqb cwa)).
  Hypothesis Hm : Z.of_nat m = dim.
  Hypothesis Hdim : 0 < dim.
  Hypothesis HG : op_group n m G.
  Hypothesis Hcons : forall s t, In s cwa -> In t cwa -> skeleton s = skeleton t -> s = t.
  Variable cellsize : nat.
  Notation T := (firstn cellsize G).

  Definition looks_superb (w : list site) : bool := spd false T w.

  Lemma T_perm g : In g T -> is_perm n (fst g) /\ is_perm m (snd g).
  Proof. intros Hg. apply HG. rewrite <- (firstn_skipn cellsize G). apply in_app_iff. auto. Qed.

  Lemma looks_superb_spec w : length w = n -> directions_below dim w ->
    looks_superb w = true <-> looks_fixed n m T w.
  Proof.
    intros Hl Hb. destruct (super_true n m dim Hm w Hl Hb T T_perm) as [b [E Hiff]].
    unfold looks_superb, spd. rewrite E. cbn [negb andb]. exact Hiff.
  Qed.

  Lemma filter_flat_map {A B} (p : B -> bool) (f : A -> list B) l :
    filter p (flat_map f l) = flat_map (fun x => filter p (f x)) l.
  Proof. induction l as [|a l IH]; cbn; auto. rewrite filter_app, IH. auto. Qed.
  Lemma filter_filter {A} (p q : A -> bool) l : filter p (filter q l) = filter (fun x => q x && p x) l.
  Proof.
    induction l as [|a l IH]; cbn; auto. destruct (q a); cbn; rewrite ?IH; auto. 
  Qed.

  Lemma structures_reduced :
    structures cwa G dim false cellsize = filter (fun w => negb (looks_superb w)) (all_structures cwa G dim).
  Proof.
    unfold structures, all_structures, full_list. rewrite filter_flat_map. apply flat_map_ext_in. intros x _.
    unfold dressed, mins, arrangements, all_min. rewrite filter_filter. reflexivity.
  Qed.

  Lemma structure_ok w : In w (all_structures cwa G dim) -> length w = n /\ directions_below dim w.
  Proof.
    intros Hw. destruct (all_structures_transversal cwa G m dim Hm Hdim HG Hcons) as [Hd _].
    apply Hd in Hw. apply (decorated_okw cwa dim) in Hw. exact Hw.
  Qed.
  Lemma structure_skeleton w : In w (all_structures cwa G dim) -> Permutation (map skeleton w) (map skeleton cwa).
  Proof.
    intros Hw. destruct (all_structures_transversal cwa G m dim Hm Hdim HG Hcons) as [Hd _].
    apply Hd in Hw. apply Hw.
  Qed.
End ArrowRun.
