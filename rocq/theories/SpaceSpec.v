(** Specification vocabulary for the space group of a crystal (C65).  Points are rational Cartesian vectors. *)
From Coq Require Import QArith Qabs List ZArith.
Import ListNotations.
Local Open Scope Q_scope.

Definition pt : Type := Q * Q * Q.
Definition plus (u v : pt) : pt := let '(a, b, c) := u in let '(x, y, z) := v in (a + x, b + y, c + z).
Definition same (u v : pt) : Prop := let '(a, b, c) := u in let '(x, y, z) := v in a == x /\ b == y /\ c == z.
Definition dotp (u v : pt) : Q := let '(a, b, c) := u in let '(x, y, z) := v in a * x + b * y + c * z.
(** Every component of the point is at most [e] in absolute value; two points differ by at most [e] in every component. *)
Definition small (e : Q) (u : pt) : Prop := let '(a, b, c) := u in Qabs a <= e /\ Qabs b <= e /\ Qabs c <= e.
Definition within (e : Q) (u v : pt) : Prop := let '(a, b, c) := u in let '(x, y, z) := v in small e (a - x, b - y, c - z).
(** A 3x3 matrix applied to a column; the combination x a + y b + z c of three vectors. *)
Definition turn (R : pt * pt * pt) (u : pt) : pt := let '(r, s, t) := R in (dotp r u, dotp s u, dotp t u).
Definition combo (L : pt * pt * pt) (x y z : Q) : pt :=
  let '((a, b, c), (d, e, f), (g, h, i)) := L in (x * a + y * d + z * g, x * b + y * e + z * h, x * c + y * f + z * i).
(** Lattice vectors. *)
Definition lattice_vec (L : pt * pt * pt) (v : pt) : Prop := exists x y z : Z, same v (combo L (inject_Z x) (inject_Z y) (inject_Z z)).
(** There is an atom of type [t] at [x]: the atoms of the cell, repeated by the lattice. *)
Definition occupied (L : pt * pt * pt) (atoms : list (Z * pt)) (t : Z) (x : pt) : Prop :=
  exists p v, In (t, p) atoms /\ lattice_vec L v /\ same x (plus p v).
(** x -> R x + t keeps lengths, and takes the crystal to itself. *)
Definition rigid (R : pt * pt * pt) : Prop := forall u, dotp (turn R u) (turn R u) == dotp u u.
Definition keeps_crystal (L : pt * pt * pt) (atoms : list (Z * pt)) (R : pt * pt * pt) (t : pt) : Prop :=
  forall k x, occupied L atoms k x <-> occupied L atoms k (plus (turn R x) t).
(** [R] takes the lattice to itself. *)
Definition keeps_lattice (L R : pt * pt * pt) : Prop := forall v, lattice_vec L v -> lattice_vec L (turn R v).
Definition translation_symmetry (L : pt * pt * pt) (atoms : list (Z * pt)) (t : pt) : Prop :=
  forall k x, occupied L atoms k x <-> occupied L atoms k (plus x t).
(** The cell is primitive: every translation that takes the crystal to itself is a lattice vector. *)
Definition primitive (L : pt * pt * pt) (atoms : list (Z * pt)) : Prop :=
  forall t, translation_symmetry L atoms t -> lattice_vec L t.
(** The same motion up to a lattice translation. *)
Definition same_motion (L : pt * pt * pt) (m m' : (pt * pt * pt) * pt) : Prop :=
  (forall u, same (turn (fst m) u) (turn (fst m') u)) /\ exists v, lattice_vec L v /\ same (snd m) (plus (snd m') v).
(** Positions that are fractions of denominator N of the lattice vectors; no two at equivalent positions. *)
Definition fractional (L : pt * pt * pt) (N : Z) (p : pt) : Prop :=
  exists x y z : Z, same p (combo L (inject_Z x / inject_Z N) (inject_Z y / inject_Z N) (inject_Z z / inject_Z N)).
Definition distinct_sites (L : pt * pt * pt) (atoms : list (Z * pt)) : Prop :=
  ForallOrdPairs (fun a b => ~ exists v, lattice_vec L v /\ same (snd a) (plus (snd b) v)) atoms.
(** Points whose Cartesian components are at most [e] have lattice coordinates at most [c e]. *)
Definition coordinates_bound (L : pt * pt * pt) (c : Q) : Prop :=
  forall e x y z, small e (combo L x y z) -> small (c * e) (x, y, z).
