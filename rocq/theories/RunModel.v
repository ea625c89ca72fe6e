(** Model of whole runs: enumeration.py:52-120 [_polya_out], 19-50 [_enum_in] and 124-213 [_enum_out], which call one
    another through the files polya.out.<size> and enum.in. *)
From Verif Require Import TextModel PyBase Mat3 NumericsModel PhononsModel TreeModel PolyaModel HNFModel ConcsModel LatGroupModel SNFModel SuperModel EnumSysModel DistModel FilesModel EnumOutModel.
Local Open Scope Z_scope.

(** What the steps take from lattice.in (io_utils.py:23-75 [read_lattice]).  The lattice vectors enter through the point
    group (C56), the basis vectors as multiples of 1/D.  [s_na conc] stands for the numbers [int(conc[i]*a_concs[i])] of
    atoms with arrows (phonons.py:326), [s_arrows] for [sum(a_concs) != 0] (phonons.py:405). *)
Record setup : Type := {
  s_pg : list (mat * mat); s_D : Z; s_bas : list vec; s_species : nat; s_lo : Z; s_hi : Z;
  s_restricted : bool; s_concs : list conc; s_arrows : bool; s_na : list Z -> list Z }.

(** enumeration.py:84: the six entries of an HNF. *)
Definition six (H : mat) : list Z := [mget H 0 0; mget H 1 0; mget H 1 1; mget H 2 0; mget H 2 1; mget H 2 2].

(** ** Counting *)
(** enumeration.py:97-109: the count for one concentration, and the group as [polya] leaves it. *)
Definition count_conc (v : pyversion) (na : list Z -> list Z) (c : list Z) (G : list op) : res (Z * list op) :=
  let conc := map Z.to_nat c in
  do decorations <- arrow_concs conc (na c);
  let '(n_arrows, arrow_types, concs_w_arrows) := how_many_arrows decorations in
  if negb (arrow_types =? 0)%nat || negb (n_arrows =? 0)%nat then polya v concs_w_arrows G arrow_types else polya v conc G 0.
(** enumeration.py:95-112: the counts of one line. *)
Fixpoint count_concs (v : pyversion) (na : list Z -> list Z) (cs : list (list Z)) (G : list op) : res (list Z) :=
  match cs with
  | [] => Ok []
  | c :: cs' => do (n, G') <- count_conc v na c G; do r <- count_concs v na cs' G'; Ok (n :: r)
  end.
(** enumeration.py:65-119: the file of one size. *)
Definition polya_of_size (v : pyversion) (fuel : nat) (su : setup) (s : Z) : res string :=
  do hnfs <- get_HNFs (s_pg su) (s_D su) (s_bas su) s;
  do cs <- get_concs_for_size fuel s (s_species su) (s_restricted su) (Z.of_nat (length (s_bas su))) (s_concs su);
  do rows <- rmap (fun H => do G <- sym_group (s_pg su) (s_D su) (s_bas su) H true;
                            do counts <- count_concs v (s_na su) cs G; Ok (six H, counts)) hnfs;
  Ok (polya_text cs rows).
(** enumeration.py:52-120 [_polya_out]: the files, by size. *)
Definition polya_out (v : pyversion) (fuel : nat) (su : setup) : res (list (Z * string)) :=
  rmap (fun s => do t <- polya_of_size v fuel su s; Ok (s, t)) (range_up (s_lo su) (s_hi su + 1)).

(** ** Choosing *)
(** structures.py:425-436 after [_polya_out]: [others] are the other names in the directory; [listdir] gives them and the
    new ones in an order of its own. *)
Definition polya_name (s : Z) : string := ("polya.out." ++ str s)%string.
(** enumeration.py:138-153 and 19-50, no enum.in and no polya.out.* in the directory, no -distribution, no -sizes, no
    -filter: everything is asked for. *)
Definition enum_in_all (files : list (Z * string)) (others : list string) (listdir : list string -> list string) (rnd : nat -> bool) : res string :=
  do sizes <- found_sizes "polya.out" (listdir (others ++ map (fun f => polya_name (fst f)) files));
  do t <- make_enum_in (fun s => dget Z.eqb files s) sizes FAll None NoFilter rnd false;
  match t with Some t => Ok t | None => Err ValueError (* not for FAll: the file is always written *) end.

(** ** Enumerating *)
(** enumeration.py:169-183 with phonons.py:398-411, for every line of enum.in: the configurations.  The random numbers of
    line [i] are [draw i] and [rnd i], its shuffle is [shuffled i]. *)
Definition enum_lines (v : pyversion) (draw : nat -> nat -> Z -> Z) (rnd : nat -> nat -> bool) (shuffled : nat -> list Z -> list Z) (fuel : nat) (su : setup)
    (supers accept : bool) (systems : list (list Z * list Z * Z)) : res (list (list Z * list config)) :=
  rmap (fun '(i, (h, c, num)) =>
          do G <- sym_group (s_pg su) (s_D su) (s_bas su) (full_HNF h) (s_arrows su);
          do configs <- enum_sys v (draw i) (rnd i) (shuffled i) fuel G (length (s_bas su)) (map Z.to_nat c) (s_na su c) (Z.to_nat num) supers accept;
          Ok (h, map Arrowed configs)) (combine (seq 0 (length systems)) systems).
(** enumeration.py:124-213 [_enum_out] in a directory with neither enum.in nor polya.out.*: the text of enum.out. *)
Definition run_from_scratch (v : pyversion) (others : list string) (listdir : list string -> list string) (rnd0 : nat -> bool)
    (draw : nat -> nat -> Z -> Z) (rnd : nat -> nat -> bool) (shuffled : nat -> list Z -> list Z) (fuel : nat) (p : params) (su : setup)
    (supers accept : bool) : res string :=
  do files <- polya_out v fuel su;
  do enum_in <- enum_in_all files others listdir rnd0;
  do systems <- read_enum enum_in;
  do found <- enum_lines v draw rnd shuffled fuel su supers accept systems;
  enum_out_file p found.
