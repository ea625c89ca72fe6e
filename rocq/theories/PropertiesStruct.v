(** Property theorems C49, C50 (see /verif/properties.jsonl). *)
From Coq Require Import Permutation.
From Verif Require Import Decide PyBase Spec ListFacts PermFacts TransFacts PhononsModel TreeModel DecoFacts BranchTheorems Mat3 HNFModel HNFProofs.
From Verif Require Import LatSpec LatGroupModel LatFacts LatSites LatProofs LatMain LatTop LatGroupThm LatNoDup LatFirst.
From Verif Require Import SNFModel SuperModel StructSpec StructProofs StructThm StructMain StructAll PropertiesTree PropertiesLattice PropertiesGroup.
Local Open Scope Z_scope.

(** ** C49: one supercell *)
(** Without displacements: the list the enumeration gives for a supercell names every decoration of the crystal with that
    period and those contents, up to the symmetries of the crystal that keep the supercell, exactly once. *)
Theorem C49_supercell_catalogue_partial : forall pg D bas H cwa rnd,
  0 < D -> bas <> [] -> NoDup bas -> (forall d, In d bas -> reduced (D, D, D) d) ->
  (forall C R, In (C, R) pg -> unimodular C /\ orthogonal R) -> rotation_group pg ->
  1 <= mdet H <= 10 ^ 5 -> self_inverse_on_basis pg D bas H ->
  length cwa = (length bas * Z.to_nat (mdet H))%nat -> Forall (fun s => fst s = -1) cwa ->
  exists M L B G l fuel0, SmithNormalForm H = Ok (M, L, B) /\ sym_group pg D bas H false = Ok G /\
    (forall fuel, (fuel0 <= fuel)%nat ->
       brancher (map (multiplicity site_eqb cwa) (first_occurrences site_eqb cwa)) G cwa 6 true (Z.to_nat (mdet H)) false rnd fuel SNone = Ok l) /\
    catalogue (plain_structures D bas H cwa) (same_in_supercell pg D bas H) (describes D bas L (diag_of M)) l.
Proof.
  intros pg D bas H cwa rnd HD Hne Hnd Hred Hpg Hgr Hdet Hself Hlen Hno.
  destruct (snf_facts H Hdet) as [M [L [B [E [HL [HB [Hs [Hp [Hsm Hv]]]]]]]]].
  destruct (C48_symmetry_group_plain_partial pg D bas H L B (diag_of M) HD Hne Hnd Hred Hpg HL HB Hs Hp Hsm Hself) as [G [EG HG]].
  destruct (C48_is_group_partial pg D bas H L B (diag_of M) false HD Hne Hnd Hred Hpg Hgr HL HB Hs Hp Hsm Hself) as [G' [EG' HG']].
  rewrite EG in EG'. inversion EG'; subst G'. rewrite Hv in HG'. rewrite <- Hlen in HG'.
  assert (cwa <> []) as Hcne.
  { intros ->. cbn in Hlen. assert (0 < length bas)%nat by (destruct bas; [congruence|cbn; lia]). assert (0 < Z.to_nat (mdet H))%nat by lia. nia. }
  destruct (C04_full_enumeration cwa G 6 (Z.to_nat (mdet H)) rnd Hcne Hno) as [l [Ht [f0 Hf]]]; [eapply op_group_perm_group; eauto|].
  exists M, L, B, G, l, f0. split; auto. split; [unfold sym_group; rewrite E; exact EG|]. split; auto.
  apply (plain_catalogue D bas H L B (diag_of M) HD Hred Hnd HL HB Hs Hp pg) with (G := G); auto; [congruence|].
  intros c Hc. rewrite Forall_forall in Hno. auto.
Qed.
(** With displacements along the six directions. *)
Theorem C49_supercell_catalogue_arrows_partial : forall pg D bas H cwa rnd,
  0 < D -> bas <> [] -> NoDup bas -> (forall d, In d bas -> reduced (D, D, D) d) ->
  (forall C R, In (C, R) pg -> unimodular C /\ orthogonal R) -> rotation_group pg ->
  1 <= mdet H <= 10 ^ 5 -> self_inverse_on_basis pg D bas H ->
  length cwa = (length bas * Z.to_nat (mdet H))%nat -> (exists s, In s cwa /\ has_arrow s = true) ->
  (forall s t, In s cwa -> In t cwa -> skeleton s = skeleton t -> s = t) ->
  exists M L B G l fuel0, SmithNormalForm H = Ok (M, L, B) /\ sym_group pg D bas H true = Ok G /\
    (forall fuel, (fuel0 <= fuel)%nat ->
       brancher (map (multiplicity site_eqb cwa) (first_occurrences site_eqb cwa)) G cwa 6 true (Z.to_nat (mdet H)) false rnd fuel SNone = Ok l) /\
    catalogue (arrow_structures D bas H cwa) (same_in_supercell pg D bas H) (describes D bas L (diag_of M)) l.
Proof.
  intros pg D bas H cwa rnd HD Hne Hnd Hred Hpg Hgr Hdet Hself Hlen Har Hcons.
  destruct (snf_facts H Hdet) as [M [L [B [E [HL [HB [Hs [Hp [Hsm Hv]]]]]]]]].
  destruct (C48_symmetry_group_partial pg D bas H L B (diag_of M) HD Hne Hnd Hred Hpg HL HB Hs Hp Hsm Hself) as [G [EG HG]].
  destruct (C48_is_group_partial pg D bas H L B (diag_of M) true HD Hne Hnd Hred Hpg Hgr HL HB Hs Hp Hsm Hself) as [G' [EG' HG']].
  rewrite EG in EG'. inversion EG'; subst G'. rewrite Hv in HG'. rewrite <- Hlen in HG'.
  destruct (C05_full_enumeration_with_arrows cwa G 6%nat 6 (Z.to_nat (mdet H)) rnd Har Hcons) as [l [Ht [f0 Hf]]]; auto; [lia|].
  exists M, L, B, G, l, f0. split; auto. split; [unfold sym_group; rewrite E; exact EG|]. split; auto.
  apply (arrow_catalogue D bas H L B (diag_of M) HD Hred Hnd HL HB Hs Hp pg) with (G := G); auto; congruence.
Qed.
(** One atom per cell, at the origin: for every supercell. *)
Theorem C49_one_atom : forall pg D H cwa rnd,
  0 < D -> (forall C R, In (C, R) pg -> unimodular C /\ orthogonal R) -> rotation_group pg ->
  1 <= mdet H <= 10 ^ 5 -> length cwa = Z.to_nat (mdet H) -> Forall (fun s => fst s = -1) cwa ->
  exists M L B G l fuel0, SmithNormalForm H = Ok (M, L, B) /\ sym_group pg D [(0, 0, 0)] H false = Ok G /\
    (forall fuel, (fuel0 <= fuel)%nat ->
       brancher (map (multiplicity site_eqb cwa) (first_occurrences site_eqb cwa)) G cwa 6 true (Z.to_nat (mdet H)) false rnd fuel SNone = Ok l) /\
    catalogue (plain_structures D [(0, 0, 0)] H cwa) (same_in_supercell pg D [(0, 0, 0)] H) (describes D [(0, 0, 0)] L (diag_of M)) l.
Proof.
  intros pg D H cwa rnd HD Hpg Hgr Hdet Hlen Hno. apply C49_supercell_catalogue_partial; auto; [discriminate|apply origin_nd|apply origin_red; auto|apply self_inverse_origin|cbn [length]; lia].
Qed.
Theorem C49_one_atom_arrows : forall pg D H cwa rnd,
  0 < D -> (forall C R, In (C, R) pg -> unimodular C /\ orthogonal R) -> rotation_group pg ->
  1 <= mdet H <= 10 ^ 5 -> length cwa = Z.to_nat (mdet H) -> (exists s, In s cwa /\ has_arrow s = true) ->
  (forall s t, In s cwa -> In t cwa -> skeleton s = skeleton t -> s = t) ->
  exists M L B G l fuel0, SmithNormalForm H = Ok (M, L, B) /\ sym_group pg D [(0, 0, 0)] H true = Ok G /\
    (forall fuel, (fuel0 <= fuel)%nat ->
       brancher (map (multiplicity site_eqb cwa) (first_occurrences site_eqb cwa)) G cwa 6 true (Z.to_nat (mdet H)) false rnd fuel SNone = Ok l) /\
    catalogue (arrow_structures D [(0, 0, 0)] H cwa) (same_in_supercell pg D [(0, 0, 0)] H) (describes D [(0, 0, 0)] L (diag_of M)) l.
Proof.
  intros pg D H cwa rnd HD Hpg Hgr Hdet Hlen Hno Hcons. apply C49_supercell_catalogue_arrows_partial; auto; [discriminate|apply origin_nd|apply origin_red; auto|apply self_inverse_origin|cbn [length]; lia].
Qed.
(** Three cells along z of the simple cubic lattice, one of the three atoms displaced: two structures, along the axis and
    across it. *)
Example C49_example : let H := ((1, 0, 0), (0, 1, 0), (0, 0, 3)) in let cwa := [(1, 1); (-1, 2); (-1, 2)] in
  (forall C R, In (C, R) cubic -> unimodular C /\ orthogonal R) /\ rotation_group cubic /\ 1 <= mdet H <= 10 ^ 5 /\
  (forall s t, In s cwa -> In t cwa -> skeleton s = skeleton t -> s = t) /\
  exists G, sym_group cubic 1 [(0, 0, 0)] H true = Ok G /\
    brancher (map (multiplicity site_eqb cwa) (first_occurrences site_eqb cwa)) G cwa 6 true 3 false (fun _ => false) 1000 SNone =
      Ok [[(0, 1); (-1, 2); (-1, 2)]; [(4, 1); (-1, 2); (-1, 2)]].
Proof.
  split; [apply cubic_ok|]. split; [apply cubic_ok|]. split; [cbn; lia|].
  split; [intros s t [<-|[<-|[<-|[]]]] [<-|[<-|[<-|[]]]]; auto; discriminate|]. eexists. split; [vm_compute; reflexivity|vm_compute; reflexivity].
Qed.

(** ** C50: one size *)
(** Over all supercells of a size, with superperiodic structures left out: every decoration of the crystal whose primitive
    cell has that size and those contents, up to the symmetries of the crystal, is listed exactly once.  Up to three
    species (C06_four_species_refuted shows why). *)
Theorem C50_size_catalogue_partial : forall pg D bas n cwa rnd,
  0 < D -> bas <> [] -> NoDup bas -> (forall d, In d bas -> reduced (D, D, D) d) ->
  (forall C R, In (C, R) pg -> unimodular C /\ orthogonal R) -> rotation_group pg ->
  1 <= n <= 10 ^ 5 -> (forall H, In H (find_all_HNFs n) -> self_inverse_on_basis pg D bas H) ->
  length cwa = (length bas * Z.to_nat n)%nat -> Forall (fun s => fst s = -1) cwa ->
  (length (first_occurrences site_eqb cwa) <= 3)%nat ->
  exists l fuel0, (forall fuel, (fuel0 <= fuel)%nat -> enumerate_size pg D bas n cwa false rnd fuel = Ok l) /\
    catalogue (size_structures D bas n cwa) (same_structure pg D bas)
      (fun e f => exists M L B, SmithNormalForm (fst e) = Ok (M, L, B) /\ describes D bas L (diag_of M) (snd e) f) l.
Proof.
  intros pg D bas n cwa rnd HD Hne Hnd Hred Hpg Hgr Hn Hself Hlen Hno Hk.
  destruct (all_supercells pg D bas HD Hne Hnd Hred Hpg Hgr n cwa Hn Hlen Hno Hself rnd) as [l [f0 [Hrun [H1 [H2 [H3 H4]]]]]].
  exists l, f0. split; auto. split; auto.
Qed.
(** Any number of species: what is listed is right and not repeated. *)
Theorem C50_any_species_partial : forall pg D bas n cwa rnd,
  0 < D -> bas <> [] -> NoDup bas -> (forall d, In d bas -> reduced (D, D, D) d) ->
  (forall C R, In (C, R) pg -> unimodular C /\ orthogonal R) -> rotation_group pg ->
  1 <= n <= 10 ^ 5 -> (forall H, In H (find_all_HNFs n) -> self_inverse_on_basis pg D bas H) ->
  length cwa = (length bas * Z.to_nat n)%nat -> Forall (fun s => fst s = -1) cwa ->
  let row_means (e : mat * list site) f := exists M L B, SmithNormalForm (fst e) = Ok (M, L, B) /\ describes D bas L (diag_of M) (snd e) f in
  exists l fuel0, (forall fuel, (fuel0 <= fuel)%nat -> enumerate_size pg D bas n cwa false rnd fuel = Ok l) /\
    (forall e, In e l -> exists f, row_means e f) /\
    (forall e f, In e l -> row_means e f -> size_structures D bas n cwa f) /\
    ForallOrdPairs (fun v w => forall f g, row_means v f -> row_means w g -> ~ same_structure pg D bas f g) l.
Proof.
  intros pg D bas n cwa rnd HD Hne Hnd Hred Hpg Hgr Hn Hself Hlen Hno.
  destruct (all_supercells pg D bas HD Hne Hnd Hred Hpg Hgr n cwa Hn Hlen Hno Hself rnd) as [l [f0 [Hrun [H1 [H2 [H3 H4]]]]]].
  exists l, f0. auto.
Qed.
Theorem C50_one_atom_partial : forall pg D n cwa rnd,
  0 < D -> (forall C R, In (C, R) pg -> unimodular C /\ orthogonal R) -> rotation_group pg ->
  1 <= n <= 10 ^ 5 -> length cwa = Z.to_nat n -> Forall (fun s => fst s = -1) cwa ->
  (length (first_occurrences site_eqb cwa) <= 3)%nat ->
  exists l fuel0, (forall fuel, (fuel0 <= fuel)%nat -> enumerate_size pg D [(0, 0, 0)] n cwa false rnd fuel = Ok l) /\
    catalogue (size_structures D [(0, 0, 0)] n cwa) (same_structure pg D [(0, 0, 0)])
      (fun e f => exists M L B, SmithNormalForm (fst e) = Ok (M, L, B) /\ describes D [(0, 0, 0)] L (diag_of M) (snd e) f) l.
Proof.
  intros pg D n cwa rnd HD Hpg Hgr Hn Hlen Hno Hk.
  apply C50_size_catalogue_partial; auto; [discriminate|apply origin_nd|apply origin_red; auto|intros; apply self_inverse_origin|cbn [length]; lia].
Qed.
(** The equiatomic structures of size 2 on the simple cubic lattice: alternating layers, rods and points. *)
Example C50_example :
  (forall C R, In (C, R) cubic -> unimodular C /\ orthogonal R) /\ rotation_group cubic /\
  enumerate_size cubic 1 [(0, 0, 0)] 2 [(-1, 1); (-1, 2)] false (fun _ => false) 1000 =
    Ok [(((1, 0, 0), (0, 1, 0), (0, 0, 2)), [(-1, 1); (-1, 2)]); (((1, 0, 0), (0, 1, 0), (0, 1, 2)), [(-1, 1); (-1, 2)]); (((1, 0, 0), (0, 1, 0), (1, 1, 2)), [(-1, 1); (-1, 2)])].
Proof. split; [apply cubic_ok|]. split; [apply cubic_ok|]. vm_compute. reflexivity. Qed.

Print Assumptions C49_supercell_catalogue_partial.
Print Assumptions C49_supercell_catalogue_arrows_partial.
Print Assumptions C49_one_atom.
Print Assumptions C49_one_atom_arrows.
Print Assumptions C50_size_catalogue_partial.
Print Assumptions C50_any_species_partial.
Print Assumptions C50_one_atom_partial.
