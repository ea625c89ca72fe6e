(** Specification vocabulary for the point group of a lattice (C56). *)
From Coq Require Import QArith.
From Verif Require Import PyBase Mat3 ReduceSpec.
Local Open Scope Z_scope.

Definition vminus (u v : vec) : vec := let '(a, b, c) := u in let '(x, y, z) := v in (a - x, b - y, c - z).
(** The vectors of the lattice spanned by the rows of [A]. *)
Definition in_rows (A : mat) (v : vec) : Prop := exists x y z, v = comb3 A x y z.
(** A map of the lattice into itself that keeps the origin and all distances. *)
Definition lattice_isometry (A : mat) (f : vec -> vec) : Prop :=
  f zero3 = zero3 /\ (forall v, in_rows A v -> in_rows A (f v)) /\
  (forall u v, in_rows A u -> in_rows A v -> len2 (vminus (f u) (f v)) = len2 (vminus u v)).
(** Row vector times matrix. *)
Definition row_times (v : vec) (M : mat) : vec := mvec (transpose M) v.
(** The matrix R/d acts on the vectors of the lattice (from the right, as rows) as [f] does. *)
Definition acts_as (A R : mat) (d : Z) (f : vec -> vec) : Prop :=
  forall v, in_rows A v -> row_times v R = vscale d (f v).
(** The integer matrix [C], acting on columns of coordinates along the rows of [A], keeps all lengths. *)
Definition keeps_lengths (A C : mat) : Prop :=
  forall x, len2 (mvec (transpose A) (mvec C x)) = len2 (mvec (transpose A) x).
(** [R] is the Cartesian matrix of [C]. *)
Definition cartesian_of (A C R : mat) : Prop := mmul R (transpose A) = mmul (transpose A) C.
(** All symmetries of the lattice have integer Cartesian matrices (the cubic lattices, for instance). *)
Definition integer_rotations (A : mat) : Prop := forall C, keeps_lengths A C -> exists R, cartesian_of A C R.
