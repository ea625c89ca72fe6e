(** Whole runs (C60): the properties. *)
From Coq Require Import Permutation QArith.
From Verif Require Import TextModel TextProofs PyBase Spec PhononsModel TreeModel EnumSysModel Mat3 PolyaModel LatSpec LatGroupModel LatGroupThm SuperModel StructSpec StructAll.
From Verif Require Import FilesModel EnumOutModel EnumOutSpec PropertiesEnumOut PointGroupModel PointGroupSpec PointGroupProofs PointGroupMain PropertiesPoint BoxLattice RunModel RunSpec RunProofs RunMain RunTop.
Local Open Scope Z_scope.

(** What lattice.in asks for: atoms at the points [bas] (multiples of 1/D of the lattice vectors) of each cell, [k] species in
    the concentrations within the ranges (any, without ranges), no arrows, sizes lo to hi. *)
Definition basis_setup (pg : list (mat * mat)) (D : Z) (bas : list vec) (k : nat) (lo hi : Z) (ranges : option (list (Z * Z * Z))) : setup :=
  {| s_pg := pg; s_D := D; s_bas := bas; s_species := k; s_lo := lo; s_hi := hi; s_restricted := match ranges with None => false | Some _ => true end; s_concs := match ranges with None => [] | Some l => l end; s_arrows := false;
     s_na := fun c => map (fun _ => 0) c |}.
(** One atom per cell. *)
Definition simple_setup (pg : list (mat * mat)) (k : nat) (lo hi : Z) (ranges : option (list (Z * Z * Z))) : setup := basis_setup pg 1 [(0, 0, 0)] k lo hi ranges.

Lemma basis_rows : forall eps DL A m D bas k lo hi ranges v others listdir rnd0 draw rnd shuffled p,
  0 < DL -> mdet A <> 0 -> tolerable eps DL A m -> fine eps A -> integer_rotations A ->
  0 < D -> (forall pg, point_group eps DL A = Ok pg -> good_basis pg D bas lo hi) ->
  1 <= lo <= hi -> (k = 2%nat /\ hi * Z.of_nat (length bas) <= 20 \/ k = 3%nat /\ hi * Z.of_nat (length bas) <= 15) ->
  usable_ranges k ranges -> possible_sites (Z.of_nat (length bas)) lo hi ranges ->
  (forall l : list string, Permutation (listdir l) l) -> NoDup others ->
  (forall f, In f others -> contains "polya.out" f = false \/ first_char f <> first_char "polya.out") -> good_params p ->
  exists pg file fuel0 structs, point_group eps DL A = Ok pg /\
    (forall fuel, (fuel0 <= fuel)%nat -> run_from_scratch v others listdir rnd0 draw rnd shuffled fuel p (basis_setup pg D bas k lo hi ranges) false false = Ok file) /\
    read_enum_out file None = Ok (system_of p, structs) /\
    catalogue (run_structures D bas k lo hi ranges) (congruent_crystals A D bas) (row_says D bas) structs /\
    (forall s f, In s structs -> row_says D bas s f -> primitive D bas (sHNF s) f) /\ (forall s, In s structs -> makeable_for (length bas) k lo hi s) /\
    forall i s, nth_error structs i = Some s -> strN s = Z.of_nat i + 1.
Proof.
  intros eps DL A m D bas k lo hi ranges v others listdir rnd0 draw rnd shuffled p HD Hd Ht Hf Hi HDb Hgb Hlo Hk Hur Hpos Hls Hno Hoth Hp.
  destruct (C56_usable eps DL A m HD Hd Ht Hf Hi) as [pg [E [F1 [F2 [F3 F4]]]]]. exists pg. specialize (Hgb pg E).
  assert (ranges_of (basis_setup pg D bas k lo hi ranges) = ranges) as Er by (destruct ranges; reflexivity).
  assert (usable_ranges k (ranges_of (basis_setup pg D bas k lo hi ranges)) /\ s_arrows (basis_setup pg D bas k lo hi ranges) = false /\
    forall c, length c = k -> s_na (basis_setup pg D bas k lo hi ranges) c = map (fun _ => 0) c) as Hplain by (rewrite Er; auto).
  destruct (from_scratch_rows (basis_setup pg D bas k lo hi ranges) v) with (others := others) (listdir := listdir) (rnd0 := rnd0) (draw := draw) (rnd := rnd) (shuffled := shuffled) (p := p)
    as [file [fuel0 [structs [H1 [H2 [H3 H4]]]]]]; auto; try solve [cbn; lia].
  { apply possible_some; auto; try solve [cbn; lia]. rewrite Er. auto. }
  rewrite Er in H3.
  exists file, fuel0, structs. split; auto. split; auto. split; auto. split; auto. cbn [basis_setup s_pg s_D s_bas s_species s_lo s_hi] in H3.
  assert (forall f g, no_directions D bas f -> (same_structure pg D bas f g <-> congruent_crystals A D bas f g)) as Hsame.
  { intros f g Nf. split.
    - intros [C [R [t [HC [Hs Hc]]]]]. exists C, t. split; [apply (F1 C R); auto|]. split; auto. apply (plain_carries D bas C R); auto.
    - intros [C [t [HC [Hs Hc]]]]. destruct (Hi C HC) as [R HR]. exists C, R, t. split; [apply F1; auto|]. split; auto. apply plain_carries; auto. }
  destruct H3 as [G1 [G2 [G3 G4]]]. split; [|split; [|split]]; auto.
  - intros f Hfa. destruct (G3 f Hfa) as [w [f' [Hw [Hm Hs]]]]. exists w, f'. split; auto. split; auto. apply Hsame; auto. intros x Hx. apply Hfa; auto.
  - eapply TransFacts.FOP_impl; [|exact G4]. cbv beta. intros a b Ha Hb Hab f g Hfa Hg Hc. apply (Hab f g Hfa Hg). apply Hsame; auto. destruct (G2 a f Ha Hfa) as [Hn _]. intros x Hx. apply Hn; auto.
Qed.
Lemma scratch_rows : forall eps DL A m k lo hi ranges v others listdir rnd0 draw rnd shuffled p,
  0 < DL -> mdet A <> 0 -> tolerable eps DL A m -> fine eps A -> integer_rotations A ->
  1 <= lo <= hi -> (k = 2%nat /\ hi <= 20 \/ k = 3%nat /\ hi <= 15) ->
  usable_ranges k ranges -> possible lo hi ranges ->
  (forall l : list string, Permutation (listdir l) l) -> NoDup others ->
  (forall f, In f others -> contains "polya.out" f = false \/ first_char f <> first_char "polya.out") -> good_params p ->
  exists pg file fuel0 structs, point_group eps DL A = Ok pg /\
    (forall fuel, (fuel0 <= fuel)%nat -> run_from_scratch v others listdir rnd0 draw rnd shuffled fuel p (simple_setup pg k lo hi ranges) false false = Ok file) /\
    read_enum_out file None = Ok (system_of p, structs) /\
    catalogue (run_structures 1 [(0, 0, 0)] k lo hi ranges) (congruent_crystals A 1 [(0, 0, 0)]) (row_says 1 [(0, 0, 0)]) structs /\
    (forall s f, In s structs -> row_says 1 [(0, 0, 0)] s f -> primitive 1 [(0, 0, 0)] (sHNF s) f) /\ (forall s, In s structs -> makeable k lo hi s) /\
    forall i s, nth_error structs i = Some s -> strN s = Z.of_nat i + 1.
Proof.
  intros eps DL A m k lo hi ranges v others listdir rnd0 draw rnd shuffled p HD Hd Ht Hf Hi Hlo Hk Hur Hpos Hls Hno Hoth Hp.
  apply (basis_rows eps DL A m 1 [(0, 0, 0)] k lo hi ranges v others listdir rnd0 draw rnd shuffled p); auto; try lia.
  - intros pg _. apply good_origin. lia.
  - cbn [length]. lia.
  - apply possible_one. auto.
Qed.
(** From the lattice vectors to the rows that are read from enum.out: counting, choosing everything, enumerating and
    writing succeed, and the file lists every crystal whose primitive cell has between lo and hi parent cells and
    the wanted concentrations exactly once,
    up to the isometries of space; every row gives the superlattice of the periods of its crystal. *)
Theorem C60_from_scratch_partial : forall eps DL A m k lo hi ranges v others listdir rnd0 draw rnd shuffled p,
  0 < DL -> mdet A <> 0 -> tolerable eps DL A m -> fine eps A -> integer_rotations A ->
  1 <= lo <= hi -> (k = 2%nat /\ hi <= 20 \/ k = 3%nat /\ hi <= 15) ->
  usable_ranges k ranges -> possible lo hi ranges ->
  (forall l : list string, Permutation (listdir l) l) -> NoDup others ->
  (forall f, In f others -> contains "polya.out" f = false \/ first_char f <> first_char "polya.out") -> good_params p ->
  exists pg file fuel0 structs, point_group eps DL A = Ok pg /\
    (forall fuel, (fuel0 <= fuel)%nat -> run_from_scratch v others listdir rnd0 draw rnd shuffled fuel p (simple_setup pg k lo hi ranges) false false = Ok file) /\
    read_enum_out file None = Ok (system_of p, structs) /\
    catalogue (run_structures 1 [(0, 0, 0)] k lo hi ranges) (congruent_crystals A 1 [(0, 0, 0)]) (row_says 1 [(0, 0, 0)]) structs /\
    forall s f, In s structs -> row_says 1 [(0, 0, 0)] s f -> primitive 1 [(0, 0, 0)] (sHNF s) f.
Proof.
  intros eps DL A m k lo hi ranges v others listdir rnd0 draw rnd shuffled p HD Hd Ht Hf Hi Hlo Hk Hur Hpos Hls Hno Hoth Hp.
  destruct (scratch_rows eps DL A m k lo hi ranges v others listdir rnd0 draw rnd shuffled p) as [pg [file [f0 [structs [E1 [E2 [E3 [E4 [E5 _]]]]]]]]]; auto.
  exists pg, file, f0, structs. auto.
Qed.
(** The same for several atoms per cell, one of them at the origin, on a lattice whose symmetries are their own inverses
    (orthorhombic, monoclinic and triclinic lattices): every crystal with these atoms is listed exactly once. *)
Theorem C60_several_atoms_partial : forall eps DL A m D bas k lo hi ranges v others listdir rnd0 draw rnd shuffled p,
  0 < DL -> mdet A <> 0 -> tolerable eps DL A m -> fine eps A -> integer_rotations A -> (forall C, keeps_lengths A C -> mmul C C = mid) ->
  0 < D -> NoDup bas -> (forall d, In d bas -> reduced (D, D, D) d) -> In (0, 0, 0) bas ->
  1 <= lo <= hi -> (k = 2%nat /\ hi * Z.of_nat (length bas) <= 20 \/ k = 3%nat /\ hi * Z.of_nat (length bas) <= 15) ->
  usable_ranges k ranges -> possible_sites (Z.of_nat (length bas)) lo hi ranges ->
  (forall l : list string, Permutation (listdir l) l) -> NoDup others ->
  (forall f, In f others -> contains "polya.out" f = false \/ first_char f <> first_char "polya.out") -> good_params p ->
  exists pg file fuel0 structs, point_group eps DL A = Ok pg /\
    (forall fuel, (fuel0 <= fuel)%nat -> run_from_scratch v others listdir rnd0 draw rnd shuffled fuel p (basis_setup pg D bas k lo hi ranges) false false = Ok file) /\
    read_enum_out file None = Ok (system_of p, structs) /\
    catalogue (run_structures D bas k lo hi ranges) (congruent_crystals A D bas) (row_says D bas) structs /\
    forall s f, In s structs -> row_says D bas s f -> primitive D bas (sHNF s) f.
Proof.
  intros eps DL A m D bas k lo hi ranges v others listdir rnd0 draw rnd shuffled p HD Hd Ht Hf Hi Hinv HDb Hn Hr Hz Hlo Hk Hur Hpos Hls Hno Hoth Hp.
  destruct (basis_rows eps DL A m D bas k lo hi ranges v others listdir rnd0 draw rnd shuffled p) as [pg [file [f0 [structs [E1 [E2 [E3 [E4 [E5 _]]]]]]]]]; auto.
  - intros pg Epg. destruct (C56_usable eps DL A m HD Hd Ht Hf Hi) as [pg' [E' [F1 [F2 _]]]]. assert (pg' = pg) as -> by congruence.
    apply good_involutions; auto. intros C R HC. split; [apply (F2 C R HC)|apply Hinv, (F1 C R); auto].
  - exists pg, file, f0, structs. auto.
Qed.
Definition cubic_rotations : list (mat * mat) := Eval vm_compute in match point_group (1 # 10000000000) 1 (simple_cubic 1) with Ok pg => pg | Err _ => [] end.
Lemma cubic_rotations_ok : point_group (1 # 10000000000) 1 (simple_cubic 1) = Ok cubic_rotations.
Proof. vm_compute. reflexivity. Qed.
Definition cubic_two_file : string := Eval vm_compute in match run_from_scratch Py3 ["lattice.in"%string] (fun l => rev l) (fun _ => true) (fun _ _ _ => 0) (fun _ _ => true) (fun _ l => l) 100 cubic_params (simple_setup cubic_rotations 2 1 2 None) false false with Ok f => f | Err _ => EmptyString end.
Lemma cubic_two_run : run_from_scratch Py3 ["lattice.in"%string] (fun l => rev l) (fun _ => true) (fun _ _ _ => 0) (fun _ _ => true) (fun _ l => l) 100 cubic_params (simple_setup cubic_rotations 2 1 2 None) false false = Ok cubic_two_file.
Proof. vm_compute. reflexivity. Qed.
Definition cubic_two_structs : list structure := Eval vm_compute in match read_enum_out cubic_two_file None with Ok (_, s) => s | Err _ => [] end.
Lemma cubic_two_read : read_enum_out cubic_two_file None = Ok (system_of cubic_params, cubic_two_structs).
Proof. vm_compute. reflexivity. Qed.
(** The simple cubic lattice, two species, one and two cells, in a directory with a lattice.in: two structures of one cell and
    three of two cells, whose rows are the ones of the file. *)
Example C60_example :
  (mdet (simple_cubic 1) <> 0 /\ tolerable (1 # 10000000000) 1 (simple_cubic 1) 2 /\ fine (1 # 10000000000) (simple_cubic 1) /\ integer_rotations (simple_cubic 1)) /\
  good_params cubic_params /\
  exists pg file structs, point_group (1 # 10000000000) 1 (simple_cubic 1) = Ok pg /\
    run_from_scratch Py3 ["lattice.in"%string] (fun l => rev l) (fun _ => true) (fun _ _ _ => 0) (fun _ _ => true) (fun _ l => l) 100 cubic_params (simple_setup pg 2 1 2 None) false false = Ok file /\
    read_enum_out file None = Ok (system_of cubic_params, structs) /\
    map (fun s => (six (sHNF s), labeling s, directions_of s)) structs =
      [([1; 0; 1; 0; 0; 1], "0", "0"); ([1; 0; 1; 0; 0; 1], "1", "0");
       ([1; 0; 1; 0; 0; 2], "01", "00"); ([1; 0; 1; 0; 1; 2], "01", "00"); ([1; 0; 1; 1; 1; 2], "01", "00")]%string.
Proof.
  split; [|split; [apply cubic_good|]].
  - split; [discriminate|]. split; [split; [intros i Hi; destruct i as [|[|[|i]]]; try lia; vm_compute; discriminate|split; [discriminate|reflexivity]]|]. split; [reflexivity|]. apply C56_cubic. discriminate.
  - exists cubic_rotations, cubic_two_file, cubic_two_structs. split; [exact cubic_rotations_ok|]. split; [exact cubic_two_run|]. split; [exact cubic_two_read|reflexivity].
Qed.
Definition cubic_third_file : string := Eval vm_compute in match run_from_scratch Py3 ["lattice.in"%string] (fun l => rev l) (fun _ => true) (fun _ _ _ => 0) (fun _ _ => true) (fun _ l => l) 100 cubic_params (simple_setup cubic_rotations 2 1 3 (Some [(2, 3, 3); (0, 1, 3)])) false false with Ok f => f | Err _ => EmptyString end.
Lemma cubic_third_run : run_from_scratch Py3 ["lattice.in"%string] (fun l => rev l) (fun _ => true) (fun _ _ _ => 0) (fun _ _ => true) (fun _ l => l) 100 cubic_params (simple_setup cubic_rotations 2 1 3 (Some [(2, 3, 3); (0, 1, 3)])) false false = Ok cubic_third_file.
Proof. vm_compute. reflexivity. Qed.
Definition cubic_third_structs : list structure := Eval vm_compute in match read_enum_out cubic_third_file None with Ok (_, s) => s | Err _ => [] end.
Lemma cubic_third_read : read_enum_out cubic_third_file None = Ok (system_of cubic_params, cubic_third_structs).
Proof. vm_compute. reflexivity. Qed.
(** At most a third of the second species, up to three cells: one structure of one cell and the three of three cells. *)
Example C60_example_ranges :
  let ranges := Some [(2, 3, 3); (0, 1, 3)] in
  usable_ranges 2 ranges /\ possible 1 3 ranges /\
  exists file structs, 
    let pg := match point_group (1 # 10000000000) 1 (simple_cubic 1) with Ok pg => pg | Err _ => [] end in
    run_from_scratch Py3 ["lattice.in"%string] (fun l => rev l) (fun _ => true) (fun _ _ _ => 0) (fun _ _ => true) (fun _ l => l) 100 cubic_params (simple_setup pg 2 1 3 ranges) false false = Ok file /\
    read_enum_out file None = Ok (system_of cubic_params, structs) /\
    map (fun s => (six (sHNF s), labeling s)) structs = [([1; 0; 1; 0; 0; 1], "0"); ([1; 0; 1; 0; 0; 3], "100"); ([1; 0; 1; 0; 1; 3], "100"); ([1; 0; 1; 1; 1; 3], "100")]%string.
Proof.
  cbv zeta. split; [|split].
  - split; auto. exists 3. split; [lia|]. intros x y z [E|[E|[]]]; inversion E; subst; lia.
  - exists 1, [1; 0]. split; [lia|]. split; auto. repeat constructor; cbn; lia.
  - exists cubic_third_file, cubic_third_structs. rewrite cubic_rotations_ok. split; [exact cubic_third_run|]. split; [exact cubic_third_read|reflexivity].
Qed.

(** Two atoms per cell, in the corner and on an edge, in the box with edges 1, 2 and 3: the three structures of one cell
    (both atoms of one species, or different). *)
Definition box_params : params :=
  {| p_date := "2026-01-01 00:00:00"; p_bulk := true;
     p_lat := [("1.0000000", "0.0000000", "0.0000000"); ("0.0000000", "2.0000000", "0.0000000"); ("0.0000000", "0.0000000", "3.0000000")]%string;
     p_basis := [("0.0000000", "0.0000000", "0.0000000"); ("0.0000000", "1.0000000", "0.0000000")]%string; p_nspecies := 2; p_sizes := [1; 2]; p_restricted := false |}.
Definition box_rotations : list (mat * mat) := Eval vm_compute in match point_group (1 # 10000000000) 1 (box_lattice 1 2 3) with Ok pg => pg | Err _ => [] end.
Lemma box_rotations_ok : point_group (1 # 10000000000) 1 (box_lattice 1 2 3) = Ok box_rotations.
Proof. vm_compute. reflexivity. Qed.
Definition box_two_file : string := Eval vm_compute in match run_from_scratch Py3 ["lattice.in"%string] (fun l => rev l) (fun _ => true) (fun _ _ _ => 0) (fun _ _ => true) (fun _ l => l) 100 box_params (basis_setup box_rotations 2 [(0, 0, 0); (0, 1, 0)] 2 1 1 None) false false with Ok f => f | Err _ => EmptyString end.
Lemma box_two_run : run_from_scratch Py3 ["lattice.in"%string] (fun l => rev l) (fun _ => true) (fun _ _ _ => 0) (fun _ _ => true) (fun _ l => l) 100 box_params (basis_setup box_rotations 2 [(0, 0, 0); (0, 1, 0)] 2 1 1 None) false false = Ok box_two_file.
Proof. vm_compute. reflexivity. Qed.
Definition box_two_structs : list structure := Eval vm_compute in match read_enum_out box_two_file None with Ok (_, s) => s | Err _ => [] end.
Lemma box_two_read : read_enum_out box_two_file None = Ok (system_of box_params, box_two_structs).
Proof. vm_compute. reflexivity. Qed.
Example C60_example_two_atoms :
  (let A := box_lattice 1 2 3 in mdet A <> 0 /\ tolerable (1 # 10000000000) 1 A 9 /\ fine (1 # 10000000000) A /\ integer_rotations A /\ forall C, keeps_lengths A C -> mmul C C = mid) /\
  good_params box_params /\
  exists pg file structs, point_group (1 # 10000000000) 1 (box_lattice 1 2 3) = Ok pg /\
    run_from_scratch Py3 ["lattice.in"%string] (fun l => rev l) (fun _ => true) (fun _ _ _ => 0) (fun _ _ => true) (fun _ l => l) 100 box_params (basis_setup pg 2 [(0, 0, 0); (0, 1, 0)] 2 1 1 None) false false = Ok file /\
    read_enum_out file None = Ok (system_of box_params, structs) /\
    map (fun s => (six (sHNF s), labeling s, directions_of s)) structs =
      [([1; 0; 1; 0; 0; 1], "00", "00"); ([1; 0; 1; 0; 0; 1], "01", "00"); ([1; 0; 1; 0; 0; 1], "11", "00")]%string.
Proof.
  split; [|split].
  - split; [discriminate|]. split; [split; [intros i Hi; destruct i as [|[|[|i]]]; try lia; vm_compute; discriminate|split; [discriminate|reflexivity]]|]. split; [reflexivity|]. split; [apply C56_box; lia|]. apply box_involutions; lia.
  - split; [cbn; repeat split; reflexivity|]. split; [reflexivity|]. split; [discriminate|]. split; [cbn; lia|]. repeat (constructor; [repeat split; try discriminate; solve_solid|]). constructor.
  - exists box_rotations, box_two_file, box_two_structs. split; [exact box_rotations_ok|]. split; [exact box_two_run|]. split; [exact box_two_read|reflexivity].
Qed.

Print Assumptions C60_several_atoms_partial.
Print Assumptions C60_example_two_atoms.
Print Assumptions C60_from_scratch_partial.
Print Assumptions C60_example.
Print Assumptions C60_example_ranges.
