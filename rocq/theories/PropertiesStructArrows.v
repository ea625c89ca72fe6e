(** Property theorems C50, with displacements (see /verif/properties.jsonl). *)
From Coq Require Import Permutation.
From Verif Require Import Decide PyBase Spec ListFacts PermFacts TransFacts PhononsModel TreeModel DecoFacts Mat3 HNFModel.
From Verif Require Import LatSpec LatGroupModel LatFacts LatSites LatProofs LatMain LatTop LatGroupThm LatNoDup LatFirst.
From Verif Require Import SNFModel SuperModel StructSpec StructProofs StructThm StructMain StructAll StructArrows PropertiesTree PropertiesLattice PropertiesGroup.
Local Open Scope Z_scope.

(** With displacements, when no species occurs both with and without one: over all supercells of a size every decoration
    of the crystal whose primitive cell has that size and those contents (up to the directions of the displacements) is
    listed exactly once up to the symmetries of the crystal. *)
Theorem C50_displaced_partial : forall pg D bas n cwa rnd,
  0 < D -> bas <> [] -> NoDup bas -> (forall d, In d bas -> reduced (D, D, D) d) ->
  (forall C R, In (C, R) pg -> unimodular C /\ orthogonal R) -> rotation_group pg ->
  1 <= n <= 10 ^ 5 -> (forall H, In H (find_all_HNFs n) -> self_inverse_on_basis pg D bas H) ->
  length cwa = (length bas * Z.to_nat n)%nat -> (exists s, In s cwa /\ has_arrow s = true) ->
  (forall s t, In s cwa -> In t cwa -> snd s = snd t -> s = t) ->
  exists l fuel0, (forall fuel, (fuel0 <= fuel)%nat -> enumerate_size_displaced pg D bas n cwa false rnd fuel = Ok l) /\
    catalogue (displaced_structures D bas n cwa) (same_structure pg D bas)
      (fun e f => exists M L B, SmithNormalForm (fst e) = Ok (M, L, B) /\ describes D bas L (diag_of M) (snd e) f) l.
Proof.
  intros pg D bas n cwa rnd HD Hne Hnd Hred Hpg Hgr Hn Hself Hlen Harr Huni.
  assert (forall s t, In s cwa -> In t cwa -> skeleton s = skeleton t -> s = t) as Hcons.
  { intros s t Hs Ht E. apply Huni; auto. apply (f_equal snd) in E. exact E. }
  destruct (all_supercells_arrows pg D bas HD Hne Hnd Hred Hpg Hgr n cwa Hn Hlen Harr Hcons Hself rnd) as [l [f0 [Hrun [H1 [H2 [H3 H4]]]]]].
  exists l, f0. split; [exact Hrun|]. split; [exact H1|split; [exact H2|split; [|exact H3]]]. intros f Hf. destruct (H4 Huni f Hf) as [e [g [He [Hm Hs]]]]. exists e, g. auto.
Qed.
(** Any distribution of the displacements over the species: what is listed is right and not repeated. *)
Theorem C50_displaced_sound_partial : forall pg D bas n cwa rnd,
  0 < D -> bas <> [] -> NoDup bas -> (forall d, In d bas -> reduced (D, D, D) d) ->
  (forall C R, In (C, R) pg -> unimodular C /\ orthogonal R) -> rotation_group pg ->
  1 <= n <= 10 ^ 5 -> (forall H, In H (find_all_HNFs n) -> self_inverse_on_basis pg D bas H) ->
  length cwa = (length bas * Z.to_nat n)%nat -> (exists s, In s cwa /\ has_arrow s = true) ->
  (forall s t, In s cwa -> In t cwa -> skeleton s = skeleton t -> s = t) ->
  let row_means (e : mat * list site) f := exists M L B, SmithNormalForm (fst e) = Ok (M, L, B) /\ describes D bas L (diag_of M) (snd e) f in
  exists l fuel0, (forall fuel, (fuel0 <= fuel)%nat -> enumerate_size_displaced pg D bas n cwa false rnd fuel = Ok l) /\
    (forall e, In e l -> exists f, row_means e f) /\
    (forall e f, In e l -> row_means e f -> displaced_structures D bas n cwa f) /\
    ForallOrdPairs (fun v w => forall f g, row_means v f -> row_means w g -> ~ same_structure pg D bas f g) l.
Proof.
  intros pg D bas n cwa rnd HD Hne Hnd Hred Hpg Hgr Hn Hself Hlen Harr Hcons.
  destruct (all_supercells_arrows pg D bas HD Hne Hnd Hred Hpg Hgr n cwa Hn Hlen Harr Hcons Hself rnd) as [l [f0 [Hrun [H1 [H2 [H3 H4]]]]]].
  exists l, f0. auto.
Qed.
Theorem C50_one_atom_displaced_partial : forall pg D n cwa rnd,
  0 < D -> (forall C R, In (C, R) pg -> unimodular C /\ orthogonal R) -> rotation_group pg ->
  1 <= n <= 10 ^ 5 -> length cwa = Z.to_nat n -> (exists s, In s cwa /\ has_arrow s = true) ->
  (forall s t, In s cwa -> In t cwa -> snd s = snd t -> s = t) ->
  exists l fuel0, (forall fuel, (fuel0 <= fuel)%nat -> enumerate_size_displaced pg D [(0, 0, 0)] n cwa false rnd fuel = Ok l) /\
    catalogue (displaced_structures D [(0, 0, 0)] n cwa) (same_structure pg D [(0, 0, 0)])
      (fun e f => exists M L B, SmithNormalForm (fst e) = Ok (M, L, B) /\ describes D [(0, 0, 0)] L (diag_of M) (snd e) f) l.
Proof.
  intros pg D n cwa rnd HD Hpg Hgr Hn Hlen Harr Huni.
  apply C50_displaced_partial; auto; [discriminate|apply origin_nd|apply origin_red; auto|intros; apply self_inverse_origin|cbn [length]; lia].
Qed.

(** Otherwise structures are missing.  The simple cubic lattice with two atoms of one species per cell, one of them
    displaced: nothing is listed, although the crystal whose layers are displaced alternately has such a cell. *)
Definition alternating (x : vec) : Z * Z := if Z.even (vget x 2) then (-1, 1) else (4, 1).
Theorem C50_displaced_mixed_refuted :
  let cwa := [(-1, 1); (1, 1)] in
  displaced_structures 1 [(0, 0, 0)] 2 cwa alternating /\
  enumerate_size_displaced cubic 1 [(0, 0, 0)] 2 cwa false (fun _ => false) 1000 = Ok [] /\
  exists e l, enumerate_size_displaced cubic 1 [(0, 0, 0)] 2 cwa true (fun _ => false) 1000 = Ok (e :: l).
Proof.
  intros cwa. split; [|split; [vm_compute; reflexivity|eexists _, _; vm_compute; reflexivity]].
  set (H := ((1, 0, 0), (0, 1, 0), (0, 0, 2)) : mat).
  assert (forall k, in_lattice H k <-> Z.even (vget k 2) = true) as HL.
  { intros [[a b] c]. split.
    - intros [[[u v] w] E]. rewrite E. rewrite Z.even_spec. exists w. unfold H. mat_unfold. ring.
    - cbn [vget]. rewrite Z.even_spec. intros [w ->]. exists (a, b, w). unfold H. vec_ring. }
  assert (forall x, crystal_point 1 [(0, 0, 0)] x) as Hpt.
  { intros x. exists (0, 0, 0), x. split; [cbn; auto|]. vec_ring. }
  exists H. split; [reflexivity|]. split; [|split].
  - intros k. rewrite HL. split.
    + intros Hk x Hx. unfold alternating. assert (vget (vadd x (vscale 1 k)) 2 = vget x 2 + vget k 2) as -> by (destruct x as [[? ?] ?], k as [[? ?] ?]; cbn [vadd vscale vget]; ring).
      rewrite Z.even_add, Hk. destruct (Z.even (vget x 2)); auto.
    + intros Hk. specialize (Hk (0, 0, 0) (Hpt _)). unfold alternating in Hk. replace (vget (vadd (0, 0, 0) (vscale 1 k)) 2) with (vget k 2) in Hk by (destruct k as [[? ?] ?]; cbn [vadd vscale vget]; ring).
      destruct (Z.even (vget k 2)); auto. discriminate.
  - exists [(0, 0, 0); (0, 0, 1)]. split; [|apply Permutation_refl]. split; [intros; apply Hpt|]. split.
    + intros x _. exists (if Z.even (vget x 2) then (0, 0, 0) else (0, 0, 1)). split; [destruct (Z.even _); cbn; auto|].
      exists (vsub (if Z.even (vget x 2) then (0, 0, 0) else (0, 0, 1)) x). split.
      * apply HL. destruct x as [[a b] c]. cbn [vget]. destruct (Z.even c) eqn:Ec; [replace (vget (vsub (0, 0, 0) (a, b, c)) 2) with (0 - c) by (unfold vsub; cbn [vget vadd vscale]; ring)|replace (vget (vsub (0, 0, 1) (a, b, c)) 2) with (1 - c) by (unfold vsub; cbn [vget vadd vscale]; ring)]; rewrite Z.even_sub, Ec; auto.
      * destruct (Z.even (vget x 2)); vec_ring.
    + repeat constructor. intros [k [Hk E]]. apply HL in Hk. destruct k as [[a b] c]. apply (f_equal (fun v => vget v 2)) in E. cbn [vget] in Hk. replace (vget (vadd (0, 0, 0) (vscale 1 (a, b, c))) 2) with c in E by (cbn [vget vadd vscale]; ring). cbn [vget] in E. subst c. discriminate.
  - intros x _. unfold alternating. destruct (Z.even _); cbn; lia.
Qed.

(** The simple cubic lattice, two atoms per cell, both displaced, one species: for each of the three cells the pairs of
    different directions up to symmetry; equal directions would repeat with one atom per cell. *)
Example C50_displaced_example :
  (forall C R, In (C, R) cubic -> unimodular C /\ orthogonal R) /\ rotation_group cubic /\
  (forall s t : Z * Z, In s [(1, 1); (1, 1)] -> In t [(1, 1); (1, 1)] -> snd s = snd t -> s = t) /\
  let H1 := ((1, 0, 0), (0, 1, 0), (0, 0, 2)) in let H2 := ((1, 0, 0), (0, 1, 0), (0, 1, 2)) in let H3 := ((1, 0, 0), (0, 1, 0), (1, 1, 2)) in
  enumerate_size_displaced cubic 1 [(0, 0, 0)] 2 [(1, 1); (1, 1)] false (fun _ => false) 1000 =
    Ok [(H1, [(1, 1); (0, 1)]); (H1, [(2, 1); (0, 1)]); (H1, [(4, 1); (0, 1)]); (H1, [(5, 1); (4, 1)]);
        (H2, [(1, 1); (0, 1)]); (H2, [(2, 1); (0, 1)]); (H2, [(3, 1); (2, 1)]); (H2, [(4, 1); (2, 1)]);
        (H3, [(1, 1); (0, 1)]); (H3, [(2, 1); (0, 1)])].
Proof.
  split; [apply cubic_ok|]. split; [apply cubic_ok|]. split; [intros s t [<-|[<-|[]]] [<-|[<-|[]]]; auto|]. vm_compute. reflexivity.
Qed.

Print Assumptions C50_displaced_partial.
Print Assumptions C50_displaced_sound_partial.
Print Assumptions C50_one_atom_displaced_partial.
Print Assumptions C50_displaced_mixed_refuted.
