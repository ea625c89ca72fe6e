(** Property theorems C01, C03-C10, C43 (see /verif/properties.jsonl). *)
From Coq Require Import Permutation.
From Verif Require Import PyBase Spec ListFacts PermFacts NumericsModel NumericsProofs PhononsModel
  TreeModel HashProofs CanonProofs TreeSearch PermSpec BranchMachine BranchRun BranchTop ColorProofs
  ArrowProofs DecoFacts ArrowEnum DecoBij BranchProofs BranchTheorems SuperProofs Decide.
Local Open Scope Z_scope.

(** ** C01 *)
Theorem C01_binomial_counts_subsets : forall n k : nat,
  binomial_coefficient (Z.of_nat n) (Z.of_nat k) = Z.of_nat (length (subsets n k)).
Proof. exact binomial_counts_subsets. Qed.
Theorem C01_binomial_zero_outside : forall n k : Z, k < 0 \/ n < k -> binomial_coefficient n k = 0.
Proof. exact binomial_zero_outside. Qed.
(** [t*i] is divisible by [n-i+1] in every pass of the loop. *)
Theorem C01_binomial_no_remainder : forall (n k : Z) pre i post,
  0 <= k <= n -> binom_range n k = pre ++ i :: post ->
  n - i + 1 <> 0 /\ (fold_left (binom_step n) pre 1 * i) mod (n - i + 1) = 0.
Proof. exact binomial_no_remainder. Qed.
Example C01_example : binomial_coefficient 7 3 = 35 /\ length (subsets 7 3) = 35%nat /\
  binom_range 7 3 = [7] ++ 6 :: [5].
Proof. vm_compute. auto. Qed.

(** ** C03 *)
Theorem C03_decode : forall c digits, digits_below (coefficients c (Z.of_nat (sum_nat c))) digits ->
  exists x, invhash digits c (sum_nat c) = Ok x /\ has_concs c x /\
    forall i, (i < length c)%nat -> (0 < nth i c 0)%nat -> hash (level_bits i x) = Ok (nth i digits 0).
Proof.
  intros c digits H. destruct (invhash_valid c digits H) as [x [E [Hx Ec]]]. exists x. split; auto. split; auto.
  intros i Hi Hpos. change (level_bits i x) with (mask i x). rewrite hash_rank.
  - rewrite <- Ec. unfold encode. rewrite nth_map_lt with (d := 0%nat) by (rewrite seq_length; auto).
    rewrite seq_nth by auto. auto.
  - apply mask_bits.
  - apply occ_pos. rewrite mask_occ. destruct Hx as [_ Hx]. rewrite Hx; auto.
Qed.
Theorem C03_unique_number : forall c x, has_concs c x ->
  exists! digits, digits_below (coefficients c (Z.of_nat (sum_nat c))) digits /\
                  invhash digits c (sum_nat c) = Ok x.
Proof.
  intros c x Hx. exists (encode (length c) x). split.
  - split; [apply encode_valid; auto|apply invhash_encode; auto].
  - intros d [Hd E]. destruct (invhash_valid c d Hd) as [y [Ey [Hy Ec]]]. congruence.
Qed.
Theorem C03_distinct : forall c d e, digits_below (coefficients c (Z.of_nat (sum_nat c))) d ->
  digits_below (coefficients c (Z.of_nat (sum_nat c))) e ->
  invhash d c (sum_nat c) = invhash e c (sum_nat c) -> d = e.
Proof.
  intros c d e Hd He E. destruct (invhash_valid c d Hd) as [x [Ex [Hx Ed]]].
  destruct (invhash_valid c e He) as [y [Ey [Hy Ee]]]. congruence.
Qed.
Example C03_example : coefficients [2; 3; 1]%nat 6 = [15; 4; 1] /\
  invhash [11; 2; 0] [2; 3; 1]%nat 6 = Ok [2; 3; 1; 2; 2; 1]%nat /\
  has_concs [2; 3; 1]%nat [2; 3; 1; 2; 2; 1]%nat /\ hash (level_bits 1 [2; 3; 1; 2; 2; 1]%nat) = Ok 2.
Proof.
  split; [reflexivity|]. split; [reflexivity|]. split; [|reflexivity].
  apply has_concsb_spec. reflexivity.
Qed.

(** ** C04: [concs] is the list of multiplicities of the decorations, as [how_many_arrows] computes it
    (C43). *)
Theorem C04_full_enumeration : forall cwa G dim cellsize rnd,
  cwa <> [] -> Forall (fun s => fst s = -1) cwa -> perm_group (length cwa) (map fst G) ->
  exists L, transversal (fun w => Permutation w cwa) (site_equiv G) L /\
  exists fuel0, forall fuel, (fuel0 <= fuel)%nat ->
    brancher (map (multiplicity site_eqb cwa) (first_occurrences site_eqb cwa)) G cwa dim true cellsize
             false rnd fuel SNone = Ok L.
Proof.
  intros cwa G dim cs rnd Hne Hno HG. exists (colourings cwa G).
  split; [apply colourings_transversal; auto|apply plain_full; auto].
Qed.

(** A square of four sites with its four rotations. *)
Definition square : list op :=
  map (fun p => (p, [0]%nat)) [[0; 1; 2; 3]; [1; 2; 3; 0]; [2; 3; 0; 1]; [3; 0; 1; 2]]%nat.
Definition two_two : list site := [(-1, 1); (-1, 1); (-1, 2); (-1, 2)].
Example C04_example :
  two_two <> [] /\ Forall (fun s : site => fst s = -1) two_two /\ perm_group (length two_two) (map fst square) /\
  brancher (map (multiplicity site_eqb two_two) (first_occurrences site_eqb two_two)) square two_two 1 true 4
           false (fun _ => false) 100 SNone =
  Ok [[(-1, 1); (-1, 1); (-1, 2); (-1, 2)]; [(-1, 1); (-1, 2); (-1, 1); (-1, 2)]].
Proof.
  split; [discriminate|]. split; [repeat constructor|]. split; [apply perm_groupb_spec; reflexivity|].
  vm_compute. reflexivity.
Qed.

(** ** C05 *)
Theorem C05_full_enumeration_with_arrows : forall cwa G m dim cellsize rnd,
  (exists s, In s cwa /\ has_arrow s = true) ->
  (forall s t, In s cwa -> In t cwa -> skeleton s = skeleton t -> s = t) ->
  0 < dim -> Z.of_nat m = dim -> op_group (length cwa) m G ->
  exists L,
    transversal (fun w => Permutation (map skeleton w) (map skeleton cwa) /\ directions_below dim w)
                (op_equiv G) L /\
  exists fuel0, forall fuel, (fuel0 <= fuel)%nat ->
    brancher (map (multiplicity site_eqb cwa) (first_occurrences site_eqb cwa)) G cwa dim true cellsize
             false rnd fuel SNone = Ok L.
Proof.
  intros cwa G m dim cs rnd [s [Hs Ha]] Hcons Hd Hm HG.
  exists (all_structures cwa G dim).
  split; [apply (all_structures_transversal cwa G m dim); auto|].
  rewrite <- (structures_supers cwa G dim true cs) by auto.
  apply (arrows_full cwa G m dim); auto.
  - intros ->. destruct Hs.
  - discriminate.
  - unfold br_narrows. rewrite how_many_arrows_count. change arrowed with has_arrow.
    destruct (filter has_arrow cwa) eqn:E; cbn; [|lia].
    assert (In s (filter has_arrow cwa)) as Hin by (apply filter_In; auto). rewrite E in Hin. destruct Hin.
Qed.

(** Two sites, one of them arrowed along one of four directions; the operations are the identity, the
    exchange of the sites with a quarter turn, ... *)
Definition quarter : list op :=
  [([0; 1], [0; 1; 2; 3]); ([1; 0], [1; 2; 3; 0]); ([0; 1], [2; 3; 0; 1]); ([1; 0], [3; 0; 1; 2])]%nat.
Definition one_arrow : list site := [(-1, 1); (1, 2)].
Example C05_example :
  (exists s, In s one_arrow /\ has_arrow s = true) /\
  (forall s t, In s one_arrow -> In t one_arrow -> skeleton s = skeleton t -> s = t) /\
  op_group (length one_arrow) 4 quarter /\
  brancher (map (multiplicity site_eqb one_arrow) (first_occurrences site_eqb one_arrow)) quarter one_arrow 4
           true 2 false (fun _ => false) 100 SNone = Ok [[(-1, 1); (0, 2)]; [(-1, 1); (1, 2)]].
Proof.
  split; [exists (1, 2); cbn; auto|]. split.
  { cbn. intros s t [<-|[<-|[]]] [<-|[<-|[]]]; cbn; intros E; auto; discriminate. }
  split; [apply op_groupb_spec; reflexivity|]. vm_compute. reflexivity.
Qed.

(** ** C06 *)
(** Translations: operations 1 .. cellsize-1 of the group that are not [range(cellsize)]. *)
Definition translations (G : list op) (cellsize : nat) : list (list nat) :=
  filter (fun p => negb (nlist_eqb p (idperm cellsize))) (map fst (skipn 1 (firstn cellsize G))).

(** Up to three species: exactly the representatives that no translation maps to themselves. *)
Theorem C06_superperiodic_removed_partial : forall cwa G dim cellsize rnd,
  cwa <> [] -> Forall (fun s => fst s = -1) cwa -> perm_group (length cwa) (map fst G) ->
  (cellsize <= length G)%nat -> (length (first_occurrences site_eqb cwa) <= 3)%nat ->
  exists L keep fuel0,
    (forall w, In w L -> keep w = true <-> ~ fixed_by_some (translations G cellsize) w) /\
    forall fuel, (fuel0 <= fuel)%nat ->
    let run supers := brancher (map (multiplicity site_eqb cwa) (first_occurrences site_eqb cwa)) G cwa dim supers
                               cellsize false rnd fuel SNone in
    run true = Ok L /\ run false = Ok (filter keep L).
Proof.
  intros cwa G dim cs rnd Hne Hno HG Hcell Hk.
  destruct (plain_full cwa G HG Hne Hno dim cs rnd) as [f1 H1].
  destruct (super_run cwa G cs HG Hne Hno Hcell dim rnd) as [f2 H2].
  destruct (reduced_short cwa G cs HG Hne Hno Hcell) as [keep [E Hkeep]]; [rewrite map_length; auto|].
  exists (colourings cwa G), keep, (f1 + f2)%nat. split; [exact Hkeep|]. intros fuel Hf. split.
  - apply H1. lia.
  - rewrite <- E. apply H2. lia.
Qed.
(** Any number of species: no superperiodic structure is returned, nothing is returned that is not in
    the full list, and nothing twice. *)
Theorem C06_superperiodic_sound : forall cwa G dim cellsize rnd,
  cwa <> [] -> Forall (fun s => fst s = -1) cwa -> perm_group (length cwa) (map fst G) ->
  (cellsize <= length G)%nat ->
  exists L L' fuel0,
    NoDup L' /\ (forall w, In w L' -> In w L /\ ~ fixed_by_some (translations G cellsize) w) /\
    forall fuel, (fuel0 <= fuel)%nat ->
    let run supers := brancher (map (multiplicity site_eqb cwa) (first_occurrences site_eqb cwa)) G cwa dim supers
                               cellsize false rnd fuel SNone in
    run true = Ok L /\ run false = Ok L'.
Proof.
  intros cwa G dim cs rnd Hne Hno HG Hcell.
  destruct (plain_full cwa G HG Hne Hno dim cs rnd) as [f1 H1].
  destruct (super_run cwa G cs HG Hne Hno Hcell dim rnd) as [f2 H2].
  destruct (reduced_sound cwa G cs HG Hne Hno Hcell) as [Hnd Hs].
  exists (colourings cwa G), (reduced cwa G cs), (f1 + f2)%nat. split; auto. split; [exact Hs|].
  intros fuel Hf. split; [apply H1; lia|apply H2; lia].
Qed.
(** With four species the completeness claim is false: sixteen of the 1248 structures that no translation
    fixes are missing from the result, this one among them. *)
Definition four_species : list site :=
  [(-1, 1); (-1, 1); (-1, 2); (-1, 2); (-1, 3); (-1, 3); (-1, 4); (-1, 4)].
Definition swap8 : list op := [([0; 1; 2; 3; 4; 5; 6; 7], [0]); ([1; 0; 3; 2; 5; 4; 7; 6], [0])]%nat.
Definition lost : list site :=
  [(-1, 1); (-1, 1); (-1, 3); (-1, 4); (-1, 2); (-1, 2); (-1, 3); (-1, 4)].
Definition answer (r : res (list (list site))) : list (list site) := match r with Ok l => l | Err _ => [] end.
Theorem C06_four_species_refuted :
  let run supers := brancher (map (multiplicity site_eqb four_species) (first_occurrences site_eqb four_species))
                             swap8 four_species 1 supers 2 false (fun _ => false) 5000 SNone in
  perm_group 8 (map fst swap8) /\
  existsb (zzlist_eqb lost) (answer (run true)) = true /\
  ~ fixed_by_some (translations swap8 2) lost /\
  existsb (zzlist_eqb lost) (answer (run false)) = false /\
  length (answer (run false)) = 1232%nat.
Proof.
  split; [apply perm_groupb_spec; reflexivity|].
  split; [vm_compute; reflexivity|]. split.
  - intros [t [[<-|[]] E]]. discriminate E.
  - split; vm_compute; reflexivity.
Qed.
Example C06_example : (2 <= length square)%nat /\ translations square 4 = [[1; 2; 3; 0]; [2; 3; 0; 1]; [3; 0; 1; 2]]%nat /\
  brancher (map (multiplicity site_eqb two_two) (first_occurrences site_eqb two_two)) square two_two 1 false 4
           false (fun _ => false) 100 SNone = Ok [[(-1, 1); (-1, 1); (-1, 2); (-1, 2)]].
Proof. split; [cbn; lia|]. split; vm_compute; reflexivity. Qed.

(** ** C07 *)
(** The list [S] selects the structures at the positions it names, in the order of the full list. *)
Theorem C07_sample_selects_plain : forall cwa G dim cellsize rnd S,
  cwa <> [] -> Forall (fun s => fst s = -1) cwa -> perm_group (length cwa) (map fst G) -> S <> [] ->
  exists L fuel0, forall fuel, (fuel0 <= fuel)%nat ->
    let run := brancher (map (multiplicity site_eqb cwa) (first_occurrences site_eqb cwa)) G cwa dim true
                        cellsize false rnd fuel in
    run SNone = Ok L /\ run (SList S) = Ok (at_positions S 1 L).
Proof.
  intros cwa G dim cs rnd S Hne Hno HG HS.
  destruct (plain_full cwa G HG Hne Hno dim cs rnd) as [f1 H1].
  destruct (plain_sub cwa G HG Hne Hno dim cs rnd S HS) as [f2 H2].
  exists (colourings cwa G), (f1 + f2)%nat. intros fuel Hf. split; [apply H1; lia|apply H2; lia].
Qed.
Theorem C07_sample_selects_arrows : forall cwa G m dim supers cellsize rnd S,
  (exists s, In s cwa /\ has_arrow s = true) ->
  0 < dim -> Z.of_nat m = dim -> op_group (length cwa) m G ->
  (supers = false -> (cellsize <= length G)%nat) -> S <> [] ->
  exists L fuel0, forall fuel, (fuel0 <= fuel)%nat ->
    let run := brancher (map (multiplicity site_eqb cwa) (first_occurrences site_eqb cwa)) G cwa dim supers
                        cellsize false rnd fuel in
    run SNone = Ok L /\ run (SList S) = Ok (at_positions S 1 L).
Proof.
  intros cwa G m dim sp cs rnd S [s [Hs Ha]] Hd Hm HG Hcell HS.
  assert (cwa <> []) as Hne by (intros ->; destruct Hs).
  assert (0 < br_narrows cwa)%nat as Hn.
  { unfold br_narrows. rewrite how_many_arrows_count. change arrowed with has_arrow.
    destruct (filter has_arrow cwa) eqn:E; cbn; [|lia].
    assert (In s (filter has_arrow cwa)) as Hin by (apply filter_In; auto). rewrite E in Hin. destruct Hin. }
  destruct (arrows_full cwa G m dim Hm Hd HG sp cs Hne Hcell rnd Hn) as [f1 H1].
  destruct (arrows_sub cwa G m dim Hm Hd HG sp cs Hne Hcell rnd S Hn HS) as [f2 H2].
  exists (structures cwa G dim sp cs), (f1 + f2)%nat. intros fuel Hf. split; [apply H1; lia|apply H2; lia].
Qed.
(** ... and for distinct positions that exist, as many structures as requested are returned. *)
Theorem C07_sample_size : forall (A : Type) (S : list Z) (L : list A), NoDup S ->
  (forall s, In s S -> 1 <= s <= Z.of_nat (length L)) -> length (at_positions S 1 L) = length S.
Proof. exact @at_positions_length. Qed.
Theorem C07_sample_members : forall (A : Type) (S : list Z) (L : list A) (d a : A),
  In a (at_positions S 1 L) <-> exists s, In s S /\ 1 <= s <= Z.of_nat (length L) /\ a = nth (Z.to_nat (s - 1)) L d.
Proof. exact @at_positions_In. Qed.
Example C07_example :
  brancher (map (multiplicity site_eqb two_two) (first_occurrences site_eqb two_two)) square two_two 1 true 4
           false (fun _ => false) 100 (SList [2]) = Ok [[(-1, 1); (-1, 2); (-1, 1); (-1, 2)]].
Proof. vm_compute. reflexivity. Qed.

(** ** C08: with an acceptance rate the loop condition is false from the start. *)
Theorem C08_accept_rate_refuted : forall concs G cwa dim supers cellsize rnd fuel s,
  concs <> [] -> s = SNone \/ (exists z, s = SInt z /\ z <> 0) ->
  brancher concs G cwa dim supers cellsize true rnd fuel s = Ok [].
Proof.
  intros concs G cwa dim sp cs rnd fuel s Hc Hs. unfold brancher. destruct concs as [|a concs]; [congruence|].
  assert (continue (a :: concs) true true (br_init (a :: concs) s) = false) as E.
  { unfold continue. apply andb_false_iff. right. destruct Hs as [->|[z [-> Hz]]]; cbn; auto.
    destruct z; auto. congruence. }
  destruct fuel; destruct Hs as [->|[z [-> Hz]]]; cbn [br_loop use_subset];
    unfold br_init in *; rewrite E; reflexivity.
Qed.

(** ** C09 *)
Theorem C09_arrow_arrangements : forall n m dim col A tr rnd k,
  0 < dim -> Z.of_nat m = dim -> length col = n -> op_group n m A ->
  (forall g, In g A -> act (-1, 0) (fst g) (map skeleton col) = map skeleton col) ->
  exists L, add_arrows rnd col A dim tr false None true k = Ok (L, k) /\
    transversal (fun w => map skeleton w = map skeleton col /\ directions_below dim w) (op_equiv A) L.
Proof.
  intros n m dim col A tr rnd k Hd Hm Hl HA Hfix. exists (all_min dim col A).
  assert (forall g, In g A -> is_perm n (fst g) /\ is_perm m (snd g)) as Hp by apply HA. split.
  - rewrite (add_arrows_eq n m dim col A Hm Hd Hl Hp true tr) by discriminate.
    do 2 f_equal. unfold arrangements, all_min. apply filter_ext. intros w. unfold spd. cbn. apply andb_true_r.
  - apply (all_min_transversal n m dim); auto.
Qed.
Example C09_example :
  add_arrows (fun _ => false) [(1, 2); (1, 2)] quarter 4 [] false None true 0 =
    Ok ([[(0, 2); (0, 2)]; [(1, 2); (0, 2)]; [(2, 2); (0, 2)]; [(0, 2); (1, 2)]], 0%nat) /\
  op_group 2 4 quarter /\
  forall g, In g quarter -> act (-1, 0) (fst g) (map skeleton [(1, 2); (1, 2)]) = map skeleton [(1, 2); (1, 2)].
Proof.
  split; [vm_compute; reflexivity|]. split; [apply op_groupb_spec; reflexivity|].
  cbn. intros g [<-|[<-|[<-|[<-|[]]]]]; reflexivity.
Qed.

(** ** C10 *)
Theorem C10_decode_encode : forall (a : list Z) dim, 0 < dim -> (forall x, In x a -> 0 <= x < dim) ->
  ainvhash (ahash a dim) (length a) dim = a.
Proof. exact ainvhash_ahash. Qed.
Theorem C10_encode_decode : forall h n dim, 0 < dim -> 0 <= h < dim ^ Z.of_nat n ->
  length (ainvhash h n dim) = n /\ (forall x, In x (ainvhash h n dim) -> 0 <= x < dim) /\
  ahash (ainvhash h n dim) dim = h.
Proof. exact ainvhash_spec. Qed.
Theorem C10_range : forall (a : list Z) dim, 0 < dim -> (forall x, In x a -> 0 <= x < dim) ->
  0 <= ahash a dim < dim ^ Z.of_nat (length a).
Proof. intros. rewrite ahash_horner. apply horner_range; auto. Qed.
Example C10_example : ahash [3; 0; 5] 6 = 183 /\ ainvhash 183 3 6 = [3; 0; 5].
Proof. vm_compute. auto. Qed.

(** ** C43: entries that were blanked (0 in the code, [None] here) are ignored. *)
Theorem C43_color_list : forall (A : Type) (eqb : A -> A -> bool) (l : list (option A)),
  (forall x y, eqb x y = true <-> x = y) ->
  color_list eqb l = first_occurrences eqb (somes l).
Proof. intros. apply color_list_spec. Qed.
Theorem C43_find_concentrations : forall (A : Type) (eqb : A -> A -> bool) (l : list (option A)),
  (forall x y, eqb x y = true <-> x = y) ->
  find_concentrations eqb l = map (multiplicity eqb (somes l)) (first_occurrences eqb (somes l)).
Proof. intros. apply find_concentrations_spec; auto. Qed.
Theorem C43_first_occurrences : forall (A : Type) (eqb : A -> A -> bool) (l : list A),
  (forall x y, eqb x y = true <-> x = y) ->
  NoDup (first_occurrences eqb l) /\ forall a, In a (first_occurrences eqb l) <-> In a l.
Proof. intros A eqb l H. split; [apply first_occ_NoDup|intros; apply first_occ_In]; auto. Qed.
Example C43_example :
  color_list Nat.eqb [Some 3; Some 1; None; Some 3; Some 2; Some 1; Some 3]%nat = [3; 1; 2]%nat /\
  find_concentrations Nat.eqb [Some 3; Some 1; None; Some 3; Some 2; Some 1; Some 3]%nat = [3; 2; 1]%nat.
Proof. vm_compute. auto. Qed.

Print Assumptions C01_binomial_counts_subsets.
Print Assumptions C03_decode.
Print Assumptions C03_unique_number.
Print Assumptions C04_full_enumeration.
Print Assumptions C05_full_enumeration_with_arrows.
Print Assumptions C06_superperiodic_removed_partial.
Print Assumptions C06_superperiodic_sound.
Print Assumptions C06_four_species_refuted.
Print Assumptions C07_sample_selects_plain.
Print Assumptions C07_sample_selects_arrows.
Print Assumptions C08_accept_rate_refuted.
Print Assumptions C09_arrow_arrangements.
Print Assumptions C10_encode_decode.
Print Assumptions C43_find_concentrations.
