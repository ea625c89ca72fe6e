(** Whole runs with displaced species (C68): the properties. *)
From Coq Require Import Permutation QArith.
From Verif Require Import TextModel TextProofs PyBase Spec PhononsModel TreeModel EnumSysModel Mat3 PolyaModel HNFModel LatSpec LatGroupModel LatGroupThm SuperModel StructSpec StructAll.
From Verif Require Import FilesModel EnumOutModel EnumOutSpec PropertiesEnumOut PointGroupModel PointGroupSpec PointGroupProofs PointGroupMain PropertiesPoint BoxLattice RunModel RunSpec RunProofs RunMain RunTop PropertiesRun.
From Verif Require Import RunArrowDeco RunArrowSystem RunArrowSpec RunArrowOne RunArrowMain RunArrowTop.
Local Open Scope Z_scope.

(** What lattice.in asks for: atoms at the points [bas] (multiples of 1/D of the lattice vectors) of each cell, one species for
    each entry of [displaced], in the concentrations within the ranges (any, without ranges), sizes lo to hi; all atoms of the
    marked species are displaced, none of the others. *)
Definition displaced_basis_setup (pg : list (mat * mat)) (D : Z) (bas : list vec) (displaced : list bool) (lo hi : Z) (ranges : option (list (Z * Z * Z))) : setup :=
  {| s_pg := pg; s_D := D; s_bas := bas; s_species := length displaced; s_lo := lo; s_hi := hi;
     s_restricted := match ranges with None => false | Some _ => true end; s_concs := match ranges with None => [] | Some l => l end;
     s_arrows := true; s_na := fun c => map (fun '(d, n) => if d : bool then n else 0) (combine displaced c) |}.
(** One atom per cell. *)
Definition displaced_setup (pg : list (mat * mat)) (displaced : list bool) (lo hi : Z) (ranges : option (list (Z * Z * Z))) : setup :=
  displaced_basis_setup pg 1 [(0, 0, 0)] displaced lo hi ranges.
Lemma setup_na displaced c : map (fun '(d, n) => if d : bool then n else 0) (combine displaced (map Z.of_nat c)) = moved_counts displaced c.
Proof. unfold moved_counts. revert c. induction displaced as [|d l IH]; intros [|n c]; cbn [combine map fst snd]; auto. rewrite IH. auto. Qed.

(** The systems of a run of one, two or three species, one of them displaced. *)
Lemma small_systems pg D bas lo hi displaced s H c rnd : 0 < D -> (forall C R, In (C, R) pg -> unimodular C /\ orthogonal R) -> rotation_group pg -> NoDup (map snd pg) -> good_basis pg D bas lo hi ->
  In true displaced -> 1 <= s -> lo <= s <= hi -> small_run (length displaced) (s * Z.of_nat (length bas)) -> In H (find_all_HNFs s) -> length c = length displaced -> Z.of_nat (sum_nat c) = s * Z.of_nat (length bas) ->
  systemA pg D bas displaced c H rnd.
Proof.
  intros HD Hpg Hgr Hdiff Hgb Hd Hs1 Hlh Hsm HH Hl Hsum.
  assert (12 ^ 7 <= 10 ^ 8) as E12 by discriminate. assert (18 ^ 6 <= 10 ^ 8) as E18 by discriminate.
  destruct Hsm as [[E1 Hh]|Hsm].
  - destruct displaced as [|d [|]]; try discriminate. destruct Hd as [->|[]]. destruct c as [|x [|]]; try discriminate. unfold sum_nat in Hsum. cbn [fold_right] in Hsum.
    replace x with (Z.to_nat (s * Z.of_nat (length bas))) by lia. apply (one_systemOne pg D bas lo hi); auto.
  - assert (2 <= length c <= 3)%nat as Hlc by (destruct Hsm as [[E _]|[E _]]; lia). apply (one_systemA pg D bas lo hi) with (n := s); auto. rewrite Hl. split; auto. split; auto.
    destruct Hsm as [[-> Hh]|[-> Hh]]; [change (6 * Z.of_nat 2) with 12; transitivity (12 ^ 7)|change (6 * Z.of_nat 3) with 18; transitivity (18 ^ 6)]; auto; apply Z.pow_le_mono_r; lia.
Qed.

Lemma basis_displaced : forall eps DL A m D bas displaced lo hi ranges v others listdir rnd0 draw rnd shuffled p,
  0 < DL -> mdet A <> 0 -> tolerable eps DL A m -> fine eps A -> integer_rotations A ->
  0 < D -> (forall pg, point_group eps DL A = Ok pg -> good_basis pg D bas lo hi) ->
  1 <= lo <= hi -> small_run (length displaced) (hi * Z.of_nat (length bas)) -> In true displaced ->
  usable_ranges (length displaced) ranges -> possible_sites (Z.of_nat (length bas)) lo hi ranges ->
  (forall l : list string, Permutation (listdir l) l) -> NoDup others ->
  (forall f, In f others -> contains "polya.out" f = false \/ first_char f <> first_char "polya.out") -> good_params p ->
  exists pg file fuel0 structs, point_group eps DL A = Ok pg /\
    (forall fuel, (fuel0 <= fuel)%nat -> run_from_scratch v others listdir rnd0 draw rnd shuffled fuel p (displaced_basis_setup pg D bas displaced lo hi ranges) false false = Ok file) /\
    read_enum_out file None = Ok (system_of p, structs) /\
    catalogue (displaced_run_structures D bas displaced lo hi ranges) (congruent_displaced A D bas) (row_says D bas) structs /\
    forall s f, In s structs -> row_says D bas s f -> primitive D bas (sHNF s) f.
Proof.
  intros eps DL A m D bas displaced lo hi ranges v others listdir rnd0 draw rnd shuffled p HD Hd Ht Hf Hi HDb Hgb Hlo Hsm Hdis Hur Hpos Hls Hno Hoth Hp.
  destruct (C56_usable eps DL A m HD Hd Ht Hf Hi) as [pg [E [F1 [F2 [F3 F4]]]]]. exists pg. specialize (Hgb pg E).
  set (su := displaced_basis_setup pg D bas displaced lo hi ranges). assert (ranges_of su = ranges) as Er by (destruct ranges; reflexivity).
  pose proof (gb_pos _ _ _ _ _ Hgb) as Hbp.
  destruct (from_scratchA su v displaced) with (others := others) (listdir := listdir) (rnd0 := rnd0) (draw := draw) (rnd := rnd) (shuffled := shuffled) (p := p)
    as [file [fuel0 [structs [H1 [H2 [H3 H4]]]]]]; auto; try solve [cbn; lia].
  { rewrite Er. auto. }
  { intros c _. apply setup_na. }
  { intros s H c rnd1 Hs HH Hl Hsum. unfold run_sizes in Hs. apply TreeSearch.in_range_up in Hs. cbn [su displaced_basis_setup s_lo s_hi s_species s_D s_pg s_bas] in *.
    apply small_systems with (lo := lo) (hi := hi) (s := s); auto; try lia. assert (s * Z.of_nat (length bas) <= hi * Z.of_nat (length bas)) by nia. unfold small_run in *. lia. }
  { apply possible_someB; rewrite ?Er; auto; cbn; unfold small_run in Hsm; lia. }
  rewrite Er in H3. exists file, fuel0, structs. split; auto. split; auto. split; auto. split; auto. cbn [su displaced_basis_setup s_pg s_D s_bas s_species s_lo s_hi] in H3.
  assert (forall f g, same_structure pg D bas f g <-> congruent_displaced A D bas f g) as Hsame.
  { intros f g. split.
    - intros [C [R [t [HC [Hs Hc]]]]]. exists C, R, t. destruct (proj1 (F1 C R) HC). auto.
    - intros [C [R [t [HC [HR [Hs Hc]]]]]]. exists C, R, t. split; [apply F1; auto|]. auto. }
  destruct H3 as [G1 [G2 [G3 G4]]]. split; [|split; [|split]]; auto.
  - intros f Hfa. destruct (G3 f Hfa) as [w [f' [Hw [Hm Hs]]]]. exists w, f'. split; auto. split; auto. apply Hsame; auto.
  - eapply TransFacts.FOP_impl; [|exact G4]. cbv beta. intros a b Ha Hb Hab f g Hfa Hg Hc. apply (Hab f g Hfa Hg). apply Hsame; auto.
Qed.
(** From the lattice vectors to the rows that are read from enum.out, with displaced species: counting, choosing everything,
    enumerating and writing succeed, and the file lists every crystal whose primitive cell has between lo and hi
    parent cells and the wanted concentrations, with every choice of one of the six directions for each atom of the marked
    species, exactly once up to the isometries of space, which turn the displacements with them; every row gives the
    superlattice of the periods of its crystal, displacements included. *)
Theorem C68_from_scratch_partial : forall eps DL A m displaced lo hi ranges v others listdir rnd0 draw rnd shuffled p,
  0 < DL -> mdet A <> 0 -> tolerable eps DL A m -> fine eps A -> integer_rotations A ->
  1 <= lo <= hi -> small_run (length displaced) hi -> In true displaced ->
  usable_ranges (length displaced) ranges -> possible lo hi ranges ->
  (forall l : list string, Permutation (listdir l) l) -> NoDup others ->
  (forall f, In f others -> contains "polya.out" f = false \/ first_char f <> first_char "polya.out") -> good_params p ->
  exists pg file fuel0 structs, point_group eps DL A = Ok pg /\
    (forall fuel, (fuel0 <= fuel)%nat -> run_from_scratch v others listdir rnd0 draw rnd shuffled fuel p (displaced_setup pg displaced lo hi ranges) false false = Ok file) /\
    read_enum_out file None = Ok (system_of p, structs) /\
    catalogue (displaced_run_structures 1 [(0, 0, 0)] displaced lo hi ranges) (congruent_displaced A 1 [(0, 0, 0)]) (row_says 1 [(0, 0, 0)]) structs /\
    forall s f, In s structs -> row_says 1 [(0, 0, 0)] s f -> primitive 1 [(0, 0, 0)] (sHNF s) f.
Proof.
  intros eps DL A m displaced lo hi ranges v others listdir rnd0 draw rnd shuffled p HD Hd Ht Hf Hi Hlo Hsm Hdis Hur Hpos Hls Hno Hoth Hp.
  apply (basis_displaced eps DL A m 1 [(0, 0, 0)] displaced lo hi ranges v others listdir rnd0 draw rnd shuffled p); auto; try lia.
  - intros pg _. apply good_origin. lia.
  - cbn [length]. change (Z.of_nat 1) with 1. rewrite Z.mul_1_r. auto.
  - apply possible_one. auto.
Qed.
(** The same for several atoms per cell, one of them at the origin, on a lattice whose symmetries are their own inverses
    (orthorhombic, monoclinic and triclinic lattices). *)
Theorem C68_several_atoms_partial : forall eps DL A m D bas displaced lo hi ranges v others listdir rnd0 draw rnd shuffled p,
  0 < DL -> mdet A <> 0 -> tolerable eps DL A m -> fine eps A -> integer_rotations A -> (forall C, keeps_lengths A C -> mmul C C = mid) ->
  0 < D -> NoDup bas -> (forall d, In d bas -> reduced (D, D, D) d) -> In (0, 0, 0) bas ->
  1 <= lo <= hi -> small_run (length displaced) (hi * Z.of_nat (length bas)) -> In true displaced ->
  usable_ranges (length displaced) ranges -> possible_sites (Z.of_nat (length bas)) lo hi ranges ->
  (forall l : list string, Permutation (listdir l) l) -> NoDup others ->
  (forall f, In f others -> contains "polya.out" f = false \/ first_char f <> first_char "polya.out") -> good_params p ->
  exists pg file fuel0 structs, point_group eps DL A = Ok pg /\
    (forall fuel, (fuel0 <= fuel)%nat -> run_from_scratch v others listdir rnd0 draw rnd shuffled fuel p (displaced_basis_setup pg D bas displaced lo hi ranges) false false = Ok file) /\
    read_enum_out file None = Ok (system_of p, structs) /\
    catalogue (displaced_run_structures D bas displaced lo hi ranges) (congruent_displaced A D bas) (row_says D bas) structs /\
    forall s f, In s structs -> row_says D bas s f -> primitive D bas (sHNF s) f.
Proof.
  intros eps DL A m D bas displaced lo hi ranges v others listdir rnd0 draw rnd shuffled p HD Hd Ht Hf Hi Hinv HDb Hn Hr Hz Hlo Hsm Hdis Hur Hpos Hls Hno Hoth Hp.
  apply (basis_displaced eps DL A m D bas displaced lo hi ranges v others listdir rnd0 draw rnd shuffled p); auto.
  intros pg Epg. destruct (C56_usable eps DL A m HD Hd Ht Hf Hi) as [pg' [E' [F1 [F2 _]]]]. assert (pg' = pg) as -> by congruence.
  apply good_involutions; auto. intros C R HC. split; [apply (F2 C R HC)|apply Hinv, (F1 C R); auto].
Qed.
Definition cubic_displaced_file : string := Eval vm_compute in match run_from_scratch Py3 ["lattice.in"%string] (fun l => rev l) (fun _ => true) (fun _ _ _ => 0) (fun _ _ => true) (fun _ l => l) 100 cubic_params (displaced_setup cubic_rotations [true] 1 2 None) false false with Ok f => f | Err _ => EmptyString end.
Lemma cubic_displaced_run : run_from_scratch Py3 ["lattice.in"%string] (fun l => rev l) (fun _ => true) (fun _ _ _ => 0) (fun _ _ => true) (fun _ l => l) 100 cubic_params (displaced_setup cubic_rotations [true] 1 2 None) false false = Ok cubic_displaced_file.
Proof. vm_compute. reflexivity. Qed.
Definition cubic_displaced_structs : list structure := Eval vm_compute in match read_enum_out cubic_displaced_file None with Ok (_, s) => s | Err _ => [] end.
Lemma cubic_displaced_read : read_enum_out cubic_displaced_file None = Ok (system_of cubic_params, cubic_displaced_structs).
Proof. vm_compute. reflexivity. Qed.
(** The simple cubic lattice with one displaced species, one and two cells: one structure of one cell, and those of two cells
    whose two displacements differ. *)
Example C68_example :
  (mdet (simple_cubic 1) <> 0 /\ tolerable (1 # 10000000000) 1 (simple_cubic 1) 2 /\ fine (1 # 10000000000) (simple_cubic 1) /\ integer_rotations (simple_cubic 1)) /\
  good_params cubic_params /\ small_run (length [true]) 2 /\ In true [true] /\
  exists pg file structs, point_group (1 # 10000000000) 1 (simple_cubic 1) = Ok pg /\
    run_from_scratch Py3 ["lattice.in"%string] (fun l => rev l) (fun _ => true) (fun _ _ _ => 0) (fun _ _ => true) (fun _ l => l) 100 cubic_params (displaced_setup pg [true] 1 2 None) false false = Ok file /\
    read_enum_out file None = Ok (system_of cubic_params, structs) /\
    map (fun s => (six (sHNF s), labeling s, directions_of s)) structs =
     [([1; 0; 1; 0; 0; 1], "0", "1");
      ([1; 0; 1; 0; 0; 2], "00", "21"); ([1; 0; 1; 0; 0; 2], "00", "31"); ([1; 0; 1; 0; 0; 2], "00", "51"); ([1; 0; 1; 0; 0; 2], "00", "65");
      ([1; 0; 1; 0; 1; 2], "00", "21"); ([1; 0; 1; 0; 1; 2], "00", "31"); ([1; 0; 1; 0; 1; 2], "00", "43"); ([1; 0; 1; 0; 1; 2], "00", "53");
      ([1; 0; 1; 1; 1; 2], "00", "21"); ([1; 0; 1; 1; 1; 2], "00", "31")]%string.
Proof.
  split; [apply C60_example|]. split; [apply cubic_good|]. split; [left; split; [reflexivity|discriminate]|]. split; [left; auto|].
  exists cubic_rotations, cubic_displaced_file, cubic_displaced_structs. split; [exact cubic_rotations_ok|]. split; [exact cubic_displaced_run|]. split; [exact cubic_displaced_read|reflexivity].
Qed.
Definition cubic_half_file : string := Eval vm_compute in match run_from_scratch Py3 ["lattice.in"%string] (fun l => rev l) (fun _ => true) (fun _ _ _ => 0) (fun _ _ => true) (fun _ l => l) 100 cubic_params (displaced_setup cubic_rotations [false; true] 2 2 (Some [(0, 1, 2); (1, 2, 2)])) false false with Ok f => f | Err _ => EmptyString end.
Lemma cubic_half_run : run_from_scratch Py3 ["lattice.in"%string] (fun l => rev l) (fun _ => true) (fun _ _ _ => 0) (fun _ _ => true) (fun _ l => l) 100 cubic_params (displaced_setup cubic_rotations [false; true] 2 2 (Some [(0, 1, 2); (1, 2, 2)])) false false = Ok cubic_half_file.
Proof. vm_compute. reflexivity. Qed.
Definition cubic_half_structs : list structure := Eval vm_compute in match read_enum_out cubic_half_file None with Ok (_, s) => s | Err _ => [] end.
Lemma cubic_half_read : read_enum_out cubic_half_file None = Ok (system_of cubic_params, cubic_half_structs).
Proof. vm_compute. reflexivity. Qed.
(** Two species, the second one displaced and at least half of the atoms: with one atom of each, two structures of two
    cells for the superlattices that have two kinds of axes, and one for the last one. *)
Example C68_example_two :
  let ranges := Some [(0, 1, 2); (1, 2, 2)] in
  usable_ranges 2 ranges /\ possible 2 2 ranges /\ small_run (length [false; true]) 2 /\ In true [false; true] /\
  exists file structs,
    let pg := match point_group (1 # 10000000000) 1 (simple_cubic 1) with Ok pg => pg | Err _ => [] end in
    run_from_scratch Py3 ["lattice.in"%string] (fun l => rev l) (fun _ => true) (fun _ _ _ => 0) (fun _ _ => true) (fun _ l => l) 100 cubic_params (displaced_setup pg [false; true] 2 2 ranges) false false = Ok file /\
    read_enum_out file None = Ok (system_of cubic_params, structs) /\
    filter (fun r => negb (String.eqb (snd (fst r)) "11")) (map (fun s => (six (sHNF s), labeling s, directions_of s)) structs) =
      [([1; 0; 1; 0; 0; 2], "01", "01"); ([1; 0; 1; 0; 0; 2], "01", "05"); ([1; 0; 1; 0; 1; 2], "01", "01"); ([1; 0; 1; 0; 1; 2], "01", "03"); ([1; 0; 1; 1; 1; 2], "01", "01")]%string.
Proof.
  cbv zeta. split; [|split; [|split; [|split]]].
  - split; auto. exists 2. split; [lia|]. intros x y z [E|[E|[]]]; inversion E; subst; lia.
  - exists 2, [1; 1]. split; [lia|]. split; auto. repeat constructor; cbn; lia.
  - right. left. split; [reflexivity|discriminate].
  - right. left. auto.
  - exists cubic_half_file, cubic_half_structs. rewrite cubic_rotations_ok. split; [exact cubic_half_run|]. split; [exact cubic_half_read|reflexivity].
Qed.

Definition box_displaced_file : string := Eval vm_compute in match run_from_scratch Py3 ["lattice.in"%string] (fun l => rev l) (fun _ => true) (fun _ _ _ => 0) (fun _ _ => true) (fun _ l => l) 100 box_params (displaced_basis_setup box_rotations 2 [(0, 0, 0); (0, 1, 0)] [false; true] 1 1 (Some [(1, 1, 2); (1, 1, 2)])) false false with Ok f => f | Err _ => EmptyString end.
Lemma box_displaced_run : run_from_scratch Py3 ["lattice.in"%string] (fun l => rev l) (fun _ => true) (fun _ _ _ => 0) (fun _ _ => true) (fun _ l => l) 100 box_params (displaced_basis_setup box_rotations 2 [(0, 0, 0); (0, 1, 0)] [false; true] 1 1 (Some [(1, 1, 2); (1, 1, 2)])) false false = Ok box_displaced_file.
Proof. vm_compute. reflexivity. Qed.
Definition box_displaced_structs : list structure := Eval vm_compute in match read_enum_out box_displaced_file None with Ok (_, s) => s | Err _ => [] end.
Lemma box_displaced_read : read_enum_out box_displaced_file None = Ok (system_of box_params, box_displaced_structs).
Proof. vm_compute. reflexivity. Qed.
(** Two atoms per cell, in the corner and on an edge of the box with edges 1, 2 and 3, the second species displaced: with one
    atom of each species in the cell, one structure for each axis. *)
Example C68_example_two_atoms :
  let ranges := Some [(1, 1, 2); (1, 1, 2)] in
  (let A := box_lattice 1 2 3 in mdet A <> 0 /\ tolerable (1 # 10000000000) 1 A 9 /\ fine (1 # 10000000000) A /\ integer_rotations A /\ forall C, keeps_lengths A C -> mmul C C = mid) /\
  usable_ranges 2 ranges /\ possible_sites 2 1 1 ranges /\ small_run (length [false; true]) (1 * Z.of_nat 2) /\ good_params box_params /\
  exists pg file structs, point_group (1 # 10000000000) 1 (box_lattice 1 2 3) = Ok pg /\
    run_from_scratch Py3 ["lattice.in"%string] (fun l => rev l) (fun _ => true) (fun _ _ _ => 0) (fun _ _ => true) (fun _ l => l) 100 box_params (displaced_basis_setup pg 2 [(0, 0, 0); (0, 1, 0)] [false; true] 1 1 ranges) false false = Ok file /\
    read_enum_out file None = Ok (system_of box_params, structs) /\
    map (fun s => (six (sHNF s), labeling s, directions_of s)) structs =
      [([1; 0; 1; 0; 0; 1], "01", "01"); ([1; 0; 1; 0; 0; 1], "01", "03"); ([1; 0; 1; 0; 0; 1], "01", "05")]%string.
Proof.
  cbv zeta. split; [apply C60_example_two_atoms|]. split; [|split; [|split; [|split]]].
  - split; auto. exists 2. split; [lia|]. intros x y z [E|[E|[]]]; inversion E; subst; lia.
  - exists 1, [1; 1]. split; [lia|]. split; auto. repeat constructor; cbn; lia.
  - right. left. split; [reflexivity|discriminate].
  - apply C60_example_two_atoms.
  - exists box_rotations, box_displaced_file, box_displaced_structs. split; [exact box_rotations_ok|]. split; [exact box_displaced_run|]. split; [exact box_displaced_read|reflexivity].
Qed.

Print Assumptions C68_several_atoms_partial.
Print Assumptions C68_example_two_atoms.
Print Assumptions C68_from_scratch_partial.
Print Assumptions C68_example.
Print Assumptions C68_example_two.
