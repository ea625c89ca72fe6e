(** Specification for C68: what the list of structures of a whole run with displaced species has to be. *)
From Coq Require Import List ZArith.
From Verif Require Import Spec Mat3 LatSpec StructSpec PointGroupSpec RunSpec.
Import ListNotations.
Local Open Scope Z_scope.

(** A site: one of the species 1, ..., k; every atom of the displaced species is displaced in one of the six directions, no
    atom of the others is. *)
Definition displaced_site (displaced : list bool) (a : Z * Z) : Prop :=
  1 <= snd a <= Z.of_nat (length displaced) /\
  if nth (Z.to_nat (snd a) - 1) displaced false then 0 <= fst a < 6 else fst a = -1.
(** The crystals with such sites whose primitive cell has between [lo] and [hi] parent cells, and in whose cell the fraction
    of species i is within the i-th range, if there are ranges. *)
Definition displaced_run_structures (D : Z) (bas : list vec) (displaced : list bool) (lo hi : Z) (ranges : option (list (Z * Z * Z))) (f : decoration) : Prop :=
  (forall x, crystal_point D bas x -> displaced_site displaced (f x)) /\
  exists H, lo <= Z.abs (mdet H) <= hi /\ primitive D bas H f /\
    match ranges with
    | None => True
    | Some l => exists cell, contents D bas H f cell /\
        forall i r, nth_error l i = Some r -> fraction_within (Z.of_nat (length cell)) r (amount cell (Z.of_nat i + 1))
    end.
(** Two crystals that an isometry of space makes of one another, the displacements turned by its rotation; A holds the
    lattice vectors, C is the isometry in lattice coordinates and R its rotation. *)
Definition congruent_displaced (A : mat) (D : Z) (bas : list vec) (f g : decoration) : Prop :=
  exists C R t, keeps_lengths A C /\ cartesian_of A C R /\ crystal_symmetry D bas C t /\ carries D bas C R t f g.
