(** Specification for C66: lattices turned in space, and rotations that turn an axis away from all axes. *)
From Verif Require Import PyBase Mat3 LatSpec ReduceSpec PointGroupSpec.
Local Open Scope Z_scope.

(** The lattice with vectors A' is the one with vectors A turned (or reflected) in space: the vectors with the same
    coordinates are equally long in both. *)
Definition turned (A A' : mat) : Prop := forall x y z, len2 (comb3 A' x y z) = len2 (comb3 A x y z).
(** The vector w/d differs from each of the six axis directions by more than 1/2 in some coordinate. *)
Definition far_from_axes (d : Z) (w : vec) : Prop :=
  forall u, In u directions -> exists i, (i < 3)%nat /\ Z.abs d < 2 * Z.abs (vget w i - d * vget u i).
(** Some isometry of the lattice (with Cartesian matrix R / det A) takes some axis far from all six. *)
Definition oblique (A : mat) : Prop :=
  exists f R e, lattice_isometry A f /\ acts_as A R (mdet A) f /\ In e directions /\ far_from_axes (mdet A) (row_times e R).
