(** Specifications for the counting properties (C11-C15): cycles of permutations, fixed directions and
    decorated structures of a given composition. *)
From Coq Require Import Permutation.
From Verif Require Import Spec.
From Coq Require Import List Arith ZArith Lia Bool.
Import ListNotations.

(** [c] lists one cycle of the permutation [p]: each entry is followed by its image, the last by the first. *)
Definition is_cycle (p c : list nat) : Prop :=
  c <> [] /\ NoDup c /\ forall k, k < length c -> nth (nth k c 0) p 0 = nth (S k mod length c) c 0.
(** The cycles of [p]: every point is on exactly one of them. *)
Definition cycle_decomposition (p : list nat) (cs : list (list nat)) : Prop :=
  Permutation (concat cs) (seq 0 (length p)) /\ Forall (is_cycle p) cs.
(** Directions that are back where they were after k applications of [sigma]. *)
Definition fixed_directions (sigma : list nat) (k : nat) : list nat :=
  filter (fun a => Nat.iter k (fun b => nth b sigma 0) a =? a) (seq 0 (length sigma)).

(** Decorated structures with [concs_i] sites of colour i+1; the sites of a colour either all carry an arrow
    ([flags_i]), in one of [dim] directions, or none does. *)
Definition decorated (concs : list nat) (flags : list bool) (dim : nat) (w : list (Z * Z)) : Prop :=
  (forall i, i < length concs ->
     length (filter (fun s => Z.eqb (snd s) (Z.of_nat (S i))) w) = nth i concs 0) /\
  forall s, In s w -> exists i, i < length concs /\ snd s = Z.of_nat (S i) /\
     if nth i flags false then (0 <= fst s < Z.of_nat dim)%Z else fst s = (-1)%Z.

(** The colours that carry arrows: the last [a] of [k]. *)
Definition last_ones (k a : nat) : list bool := map (fun i => k - a <=? i) (seq 0 k).

(** How many sites carry an arrow, and how many decorated structures there are altogether. *)
Definition arrow_sites (concs : list nat) (flags : list bool) : nat :=
  fold_right Nat.add 0 (map (fun '(c, f) => if f : bool then c else 0) (combine concs flags)).
Definition structure_count (concs : list nat) (flags : list bool) (dim : nat) : nat :=
  length (labelings concs) * dim ^ arrow_sites concs flags.

(** The sites of a composition without arrows: [concs_i] of species i+1. *)
Definition plain_sites (concs : list nat) : list (Z * Z) :=
  flat_map (fun '(i, c) => repeat ((-1)%Z, Z.of_nat i) c) (combine (seq 1 (length concs)) concs).
