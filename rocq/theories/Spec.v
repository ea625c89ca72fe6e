(** Specifications: the mathematical notions the properties are stated in.  Nothing here refers to the
    model of the code. *)
From Coq Require Import List Arith ZArith Lia Bool.
Import ListNotations.

(** ** Counting *)

(** All lists of length [n] over the alphabet [l]. *)
Fixpoint words {A : Type} (l : list A) (n : nat) : list (list A) :=
  match n with
  | 0 => [[]]
  | S n' => flat_map (fun a => map (cons a) (words l n')) l
  end.

(** Number of occurrences of [x]. *)
Definition occ (x : nat) (l : list nat) : nat := count_occ Nat.eq_dec l x.

(** The k-element subsets of {0,..,n-1}, as characteristic vectors. *)
Definition subsets (n k : nat) : list (list nat) :=
  filter (fun v => occ 1 v =? k) (words [0; 1] n).

(** The labelings of sum(c) sites that use colour 1 c_0 times, colour 2 c_1 times, ... *)
Definition has_concs (c : list nat) (x : list nat) : Prop :=
  length x = fold_right Nat.add 0 c /\
  forall i, i < length c -> occ (S i) x = nth i c 0.

Definition has_concsb (c : list nat) (x : list nat) : bool :=
  (length x =? fold_right Nat.add 0 c) &&
  forallb (fun i => occ (S i) x =? nth i c 0) (seq 0 (length c)).

(** All such labelings, without repetition (see [labelings_spec], [labelings_NoDup]). *)
Definition labelings (c : list nat) : list (list nat) :=
  filter (has_concsb c) (words (seq 1 (length c)) (fold_right Nat.add 0 c)).

(** ** Permutations acting on labelings *)

(** A permutation of {0,..,n-1} in one-line notation. *)
Definition is_perm (n : nat) (p : list nat) : Prop :=
  length p = n /\ NoDup p /\ forall i, In i p -> i < n.

(** Relabeling: position j of the result holds what position p[j] held. *)
Definition act {A : Type} (d : A) (p : list nat) (x : list A) : list A :=
  map (fun j => nth j x d) p.

(** Composition: [act d (comp p q) x = act d p (act d q x)]; comp p q = [q[p[0]]; q[p[1]]; ...]. *)
Definition comp (p q : list nat) : list nat := map (fun j => nth j q 0) p.

Definition idperm (n : nat) : list nat := seq 0 n.

(** A finite list of permutations that contains the identity and is closed under composition (such
    a list is a group: inverses follow from finiteness). *)
Definition perm_group (n : nat) (G : list (list nat)) : Prop :=
  (forall p, In p G -> is_perm n p) /\ In (idperm n) G /\
  forall p q, In p G -> In q G -> In (comp p q) G.

(** ** Distinct entries *)

(** The distinct entries of a list in order of first occurrence: scan from the left and keep what has
    not been seen yet. *)
Definition first_occurrences {A : Type} (eqb : A -> A -> bool) (l : list A) : list A :=
  fold_left (fun seen a => if existsb (eqb a) seen then seen else seen ++ [a]) l [].

(** Multiplicity with respect to a boolean equality. *)
Definition multiplicity {A : Type} (eqb : A -> A -> bool) (l : list A) (a : A) : nat :=
  length (filter (eqb a) l).

(** The defined entries of a list of optional values. *)
Definition somes {A : Type} (l : list (option A)) : list A :=
  flat_map (fun o => match o with Some a => [a] | None => [] end) l.

(** ** Representatives *)

(** [reps] contains exactly one member of every class of [eqv] on the set [all]. *)
Definition transversal {X : Type} (all : X -> Prop) (eqv : X -> X -> Prop) (reps : list X) : Prop :=
  (forall r, In r reps -> all r) /\
  (forall x, all x -> exists r, In r reps /\ eqv x r) /\
  ForallOrdPairs (fun r s => ~ eqv r s) reps.

(** [l] is what is left of [m] after deleting some entries. *)
Inductive subseq {A : Type} : list A -> list A -> Prop :=
| sub_nil : subseq [] []
| sub_skip x l m : subseq l m -> subseq l (x :: m)
| sub_keep x l m : subseq l m -> subseq (x :: l) (x :: m).

(** ** Decorated sites *)

(** A site is (arrow direction or a negative number, species). *)
Definition has_arrow (s : Z * Z) : bool := (0 <=? fst s)%Z.
(** Turning the arrow of a site by a permutation of the directions. *)
Definition turn (sigma : list nat) (s : Z * Z) : Z * Z :=
  if has_arrow s then (Z.of_nat (nth (Z.to_nat (fst s)) sigma 0), snd s) else s.
(** A joint operation (site permutation, direction permutation) acting on a decorated colouring. *)
Definition act_op (g : list nat * list nat) (w : list (Z * Z)) : list (Z * Z) :=
  map (turn (snd g)) (act (-1, 0)%Z (fst g) w).
(** Where the arrows are, and which species, forgetting their directions. *)
Definition skeleton (s : Z * Z) : Z * Z := (if has_arrow s then 0%Z else fst s, snd s).
(** Arrow directions below [dim]. *)
Definition directions_below (dim : Z) (w : list (Z * Z)) : Prop := forall s, In s w -> (fst s < dim)%Z.
(** A finite group of joint operations on n sites and m directions. *)
Definition op_group (n m : nat) (G : list (list nat * list nat)) : Prop :=
  (forall g, In g G -> is_perm n (fst g) /\ is_perm m (snd g)) /\
  In (idperm n, idperm m) G /\
  forall g h, In g G -> In h G -> In (comp (fst g) (fst h), comp (snd h) (snd g)) G.
(** Equivalence under a set of joint operations. *)
Definition op_equiv (G : list (list nat * list nat)) (v w : list (Z * Z)) : Prop :=
  exists g, In g G /\ w = act_op g v.

(** ** Selecting by position *)

(** The entries of [l] at the positions listed in [S], positions counted from [from], in the order of [l]. *)
Fixpoint at_positions {A : Type} (S : list Z) (from : Z) (l : list A) : list A :=
  match l with
  | [] => []
  | a :: l' => (if existsb (Z.eqb from) S then [a] else []) ++ at_positions S (from + 1)%Z l'
  end.

(** ** Equivalence and periodicity of colourings *)

(** Two colourings related by the site permutation of an operation. *)
Definition site_equiv (G : list (list nat * list nat)) (v w : list (Z * Z)) : Prop :=
  exists g, In g G /\ w = act (-1, 0)%Z (fst g) v.

(** Mapped to itself by one of the given site permutations. *)
Definition fixed_by_some (T : list (list nat)) (w : list (Z * Z)) : Prop :=
  exists t, In t T /\ act (-1, 0)%Z t w = w.

(** ** Levels of a labeling *)

(** Ignoring the sites with a colour below [S i], which of the remaining ones have colour [S i]. *)
Definition level_bits (i : nat) (x : list nat) : list nat :=
  map (fun a => if a =? S i then 1 else 0) (filter (fun a => i <? a) x).
(** Digits below their radices. *)
Definition digits_below (radices digits : list Z) : Prop :=
  Forall2 (fun d r => (0 <= d < r)%Z) digits radices.

(** ** Concentration ranges *)
(** a/n lies between x/d and y/d (n and d positive). *)
Definition fraction_within (n : Z) (r : Z * Z * Z) (a : Z) : Prop :=
  let '(x, y, d) := r in (Z.min x y * n <= a * d <= Z.max x y * n)%Z.
