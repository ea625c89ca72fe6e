(** Specification vocabulary for the reduction of lattice bases (C45). *)
From Coq Require Import QArith.
From Verif Require Import PyBase Mat3.
Local Open Scope Z_scope.

(** Integer combinations. *)
Definition comb2 (U V : vec) (x y : Z) : vec := vadd (vscale x U) (vscale y V).
Definition comb3 (M : mat) (x y z : Z) : vec := let '(A, B, C) := M in vadd (vadd (vscale x A) (vscale y B)) (vscale z C).
(** The pairs span the same two-dimensional lattice. *)
Definition same_pair_lattice (U V U' V' : vec) : Prop :=
  forall w, (exists x y, w = comb2 U V x y) <-> (exists x y, w = comb2 U' V' x y).
(** The rows span the same lattice. *)
Definition same_row_lattice (M N : mat) : Prop :=
  forall w, (exists x y z, w = comb3 M x y z) <-> (exists x y z, w = comb3 N x y z).
Definition len2 (u : vec) : Z := vdot u u.
Definition zero3 : vec := (0, 0, 0).
(** A shortest vector and a shortest one independent of it. *)
Definition shortest_pair (A B : vec) : Prop :=
  (forall x y, (x, y) <> (0, 0) -> len2 A <= len2 (comb2 A B x y)) /\
  (forall x y, y <> 0 -> len2 B <= len2 (comb2 A B x y)).
(** Minkowski-reduced rows: each vector is as short as any that could stand in its place. *)
Definition minkowski_reduced (M : mat) : Prop :=
  let '(A, B, C) := M in
  (forall x y z, (x, y, z) <> (0, 0, 0) -> len2 A <= len2 (comb3 M x y z)) /\
  (forall x y z, (y, z) <> (0, 0) -> len2 B <= len2 (comb3 M x y z)) /\
  (forall x y z, z <> 0 -> len2 C <= len2 (comb3 M x y z)).
(** The tolerance [e] cannot confuse two different lengths up to [sqrt m], and [m] is not astronomically large. *)
Definition small_tolerance (e : Q) (m : Z) : Prop := (0 <= e /\ 4 * e * e * inject_Z m < 1)%Q /\ 2 * m < 10 ^ 10.
(** The same vectors, possibly with the last two exchanged. *)
Definition same_rows (M N : mat) : Prop := let '(A, B, C) := M in N = M \/ N = (A, C, B).
