(** Specifications for the symmetry group of a supercell (C24-C26, C48, C49): crystals as sets of points, their symmetry
    operations, the numbering of the sites of a supercell and the permutations that operations induce on it.  Lattice
    coordinates, in units of 1/D. *)
From Verif Require Import Spec Mat3.
From Coq Require Import List Arith ZArith Lia Bool.
Import ListNotations.
Local Open Scope Z_scope.

(** Components between 0 and the moduli, and componentwise congruence. *)
Definition reduced (m x : vec) : Prop :=
  forall i, (i < 3)%nat -> 0 <= vget x i < vget m i.
Definition congruent (m x y : vec) : Prop :=
  forall i, (i < 3)%nat -> (vget m i | vget x i - vget y i).
(** The position of (i,j,k) when the members of Z_a x Z_b x Z_c are listed with the last digit running fastest. *)
Definition rank (m x : vec) : Z :=
  let '(a, b, c) := m in let '(i, j, k) := x in i * (b * c) + j * c + k.
Definition diagonal (m : vec) : mat := let '(a, b, c) := m in ((a, 0, 0), (0, b, 0), (0, 0, c)).
Definition positive (m : vec) : Prop := let '(a, b, c) := m in 0 < a /\ 0 < b /\ 0 < c.
Definition volume (m : vec) : Z := let '(a, b, c) := m in a * b * c.

(** The points of the crystal: basis positions plus parent lattice vectors. *)
Definition crystal_point (D : Z) (bas : list vec) (x : vec) : Prop :=
  exists d z, In d bas /\ x = vadd d (vscale D z).
(** The affine map x -> C x + s. *)
Definition affine (C : mat) (s : vec) (x : vec) : vec := vadd (mvec C x) s.
(** It takes the crystal to itself. *)
Definition crystal_symmetry (D : Z) (bas : list vec) (C : mat) (s : vec) : Prop :=
  forall x, crystal_point D bas x <-> crystal_point D bas (affine C s x).

(** Site number [i] of the supercell is the point [x]: the [iD]-th basis position in the parent cell [z], cells being
    numbered by the rank of L z modulo the Smith normal form. *)
Definition is_site (D : Z) (bas : list vec) (L : mat) (diag : vec) (x : vec) (i : nat) : Prop :=
  exists iD z g, (iD < length bas)%nat /\ x = vadd (nth iD bas (0, 0, 0)) (vscale D z) /\
    reduced diag g /\ congruent diag (mvec L z) g /\
    i = (iD * Z.to_nat (volume diag) + Z.to_nat (rank diag g))%nat.
(** The permutation [p] moves the labels of the sites as the map [f] moves the points: the label that arrives at site j
    comes from site p[j]. *)
Definition induces (D : Z) (bas : list vec) (L : mat) (diag : vec) (f : vec -> vec) (p : list nat) : Prop :=
  length p = (length bas * Z.to_nat (volume diag))%nat /\
  forall x i j, is_site D bas L diag x i -> is_site D bas L diag (f x) j -> nth j p 0%nat = i.

(** The six arrow directions +x, -x, +y, -y, +z, -z; [a] says how [R] (on column vectors) turns them: direction number k
    becomes direction number a[k]. *)
Definition directions : list vec := [(1, 0, 0); (-1, 0, 0); (0, 1, 0); (0, -1, 0); (0, 0, 1); (0, 0, -1)].
Definition turns (R : mat) (a : list nat) : Prop :=
  is_perm 6 a /\ forall k, (k < 6)%nat -> nth (nth k a 0%nat) directions (0, 0, 0) = mvec R (nth k directions (0, 0, 0)).
(** An orthogonal integer matrix. *)
Definition orthogonal (R : mat) : Prop := mmul R (transpose R) = mid /\ mmul (transpose R) R = mid.

(** A symmetry operation of the supercell H: a rotation of the point group, with Cartesian matrix R, that keeps the
    superlattice, and a shift that makes it a symmetry of the crystal. *)
Definition supercell_symmetry (pg : list (mat * mat)) (D : Z) (bas : list vec) (H C R : mat) (s : vec) : Prop :=
  In (C, R) pg /\ same_lattice (mmul C H) H /\ crystal_symmetry D bas C s.
(** The case in which a rotation and its inverse act alike on the basis, up to lattice vectors, and up to vectors of the
    superlattice for the rotations that keep it (for one atom at the origin: always). *)
Definition self_inverse_on_basis (pg : list (mat * mat)) (D : Z) (bas : list vec) (H : mat) : Prop :=
  forall C R s d, In (C, R) pg -> crystal_symmetry D bas C s -> In d bas ->
    exists k, mvec C d = vadd (mvec (minv C) d) (vscale D k) /\ (same_lattice (mmul C H) H -> in_lattice H k).
