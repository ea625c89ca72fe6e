(** Specifications for the group properties (C22-C26, C47). *)
From Verif Require Import Spec.
From Coq Require Import List Arith ZArith Lia Bool.
Import ListNotations.

(** The products of generators (the empty product included). In a finite group this is the subgroup they generate. *)
Inductive generated {X : Type} (one : X) (mul : X -> X -> X) (gen : list X) : X -> Prop :=
| gen_one : generated one mul gen one
| gen_mul g x : In g gen -> generated one mul gen x -> generated one mul gen (mul g x).

(** The product of two pairs of permutations, component by component. *)
Definition pair_mul (a b : list nat * list nat) : list nat * list nat := (comp (fst a) (fst b), comp (snd a) (snd b)).
