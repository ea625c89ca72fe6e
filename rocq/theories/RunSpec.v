(** Specification for C60: what the list of structures of a whole run has to be. *)
From Coq Require Import List ZArith.
From Verif Require Import Spec Mat3 LatSpec StructSpec EnumOutModel PointGroupSpec.
Import ListNotations.
Local Open Scope Z_scope.

(** The crystals (one decoration of the points of the parent lattice each) with species numbers 1, ..., k and no
    displacements whose primitive cell has between [lo] and [hi] parent cells, and in whose cell the fraction of species i is
    within the i-th range, if there are ranges. *)
Definition amount (cell : list (Z * Z)) (species : Z) : Z := Z.of_nat (length (filter (fun a => snd a =? species) cell)).
Definition run_structures (D : Z) (bas : list vec) (k : nat) (lo hi : Z) (ranges : option (list (Z * Z * Z))) (f : decoration) : Prop :=
  (forall x, crystal_point D bas x -> fst (f x) = -1 /\ 1 <= snd (f x) <= Z.of_nat k) /\
  exists H, lo <= Z.abs (mdet H) <= hi /\ primitive D bas H f /\
    match ranges with
    | None => True
    | Some l => exists cell, contents D bas H f cell /\
        forall i r, nth_error l i = Some r -> fraction_within (Z.of_nat (length cell)) r (amount cell (Z.of_nat i + 1))
    end.
(** Ranges the program can use: one per species, with a common denominator and bounds from 0; and some size from lo to hi has
    a composition within them. *)
Definition usable_ranges (k : nat) (ranges : option (list (Z * Z * Z))) : Prop :=
  match ranges with None => True | Some l => length l = k /\ exists d, 0 < d /\ forall x y z, In (x, y, z) l -> z = d /\ 0 <= x /\ 0 <= y end.
Definition possible (lo hi : Z) (ranges : option (list (Z * Z * Z))) : Prop :=
  match ranges with None => True | Some l => exists n c, lo <= n <= hi /\ fold_right Z.add 0 c = n /\ Forall2 (fraction_within n) l c end.

Definition possible_sites (m lo hi : Z) (ranges : option (list (Z * Z * Z))) : Prop :=
  match ranges with None => True | Some l => exists n c, lo <= n <= hi /\ fold_right Z.add 0 c = n * m /\ Forall2 (fraction_within (n * m)) l c end.

(** Bases that the program handles, for sizes from lo to hi: the atoms are different and inside the cell, one of them is at
    the origin, and each rotation acts on the basis as its inverse does (see LatSpec.v).  One atom at the origin always
    qualifies; any atoms do if every rotation of the lattice is its own inverse, as in orthorhombic, monoclinic and
    triclinic lattices. *)
Definition good_basis (pg : list (mat * mat)) (D : Z) (bas : list vec) (lo hi : Z) : Prop :=
  NoDup bas /\ (forall d, In d bas -> reduced (D, D, D) d) /\ In (0, 0, 0) bas /\
  forall H, lo <= mdet H <= hi -> self_inverse_on_basis pg D bas H.

(** What a row of enum.out says, from the row only: the labels are one digit per site, the species from 0 and the direction
    of the displacement from 1 (0: none); the sites of the supercell are numbered by the left transform and the Smith
    normal form of the row. *)
Definition digit (ch : Ascii.ascii) : Z := Z.of_nat (Ascii.nat_of_ascii ch) - 48.
Definition digits_of (s : String.string) : list Z := map digit (String.list_ascii_of_string s).
Definition row_sites (labels directions : String.string) : list (Z * Z) :=
  combine (map (fun d => d - 1) (digits_of directions)) (map (fun l => l + 1) (digits_of labels)).
Definition row_says (D : Z) (bas : list vec) (s : structure) (f : decoration) : Prop :=
  describes D bas (sL s) (sdiag s) (row_sites (labeling s) (directions_of s)) f.

(** Two crystals without displacements that an isometry of space makes of one another; A holds the lattice vectors, so
    that lengths are those of space. *)
Definition congruent_crystals (A : mat) (D : Z) (bas : list vec) (f g : decoration) : Prop :=
  exists C t, keeps_lengths A C /\ crystal_symmetry D bas C t /\ forall x, crystal_point D bas x -> g (affine C t x) = f x.
