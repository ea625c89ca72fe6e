(** Model of the functions that put the lattice part together: HNFs.py:119-159 [get_HNFs] and grouptheory.py:710-759
    [get_sym_group] with its call of [SmithNormalForm]. *)
From Verif Require Import PyBase Mat3 HNFModel LatGroupModel SNFModel PhononsModel TreeModel.
Local Open Scope Z_scope.

(** HNFs.py:119-159 [get_HNFs], LatDim=3: the HNFs of determinant [n] that are not related by a rotation of the space
    group.  [_get_dvector_permutations] (line 155) can end the program. *)
Definition get_HNFs (pg : list (mat * mat)) (D : Z) (bas : list vec) (n : Z) : res (list mat) :=
  let bas := map (into_cell D) bas in
  let ops := get_spaceGroup pg D bas in
  do _ <- get_dvector_permutations D bas ops;
  Ok (fst (fst (remove_duplicate_lattices (map rot ops) (find_all_HNFs n)))).

(** The diagonal of a matrix (enumeration.py:178, grouptheory.py:537-540). *)
Definition diag_of (M : mat) : vec := (mget M 0 0, mget M 1 1, mget M 2 2).

(** grouptheory.py:710-759 [get_sym_group]: [SmithNormalForm] of the HNF gives the left transform and the diagonal. *)
Definition sym_group (pg : list (mat * mat)) (D : Z) (bas : list vec) (HNF : mat) (arrows : bool) :
    res (list (list nat * list nat)) :=
  do snf <- SmithNormalForm HNF;
  let '(M, L, _) := snf in
  get_sym_group pg D bas HNF L (diag_of M) arrows.

(** The enumeration of one size and one composition without displacements: for every HNF of that size the full list of
    [brancher], superperiodic ones left out or not (enumeration.py:169-183 over an enum.in that lists every HNF of
    [get_HNFs] with all of its structures; phonons.py:398-411, 483 with an empty [subset]).  [concs] are the numbers of
    the decorations in [cwa], as [how_many_arrows] counts them (C43). *)
Definition enumerate_size (pg : list (mat * mat)) (D : Z) (bas : list vec) (n : Z) (cwa : list site) (supers : bool)
    (rnd : nat -> bool) (fuel : nat) : res (list (mat * list site)) :=
  let '(_, _, concs) := how_many_arrows cwa in
  do hnfs <- get_HNFs pg D bas n;
  do lists <- rmap (fun H =>
                do G <- sym_group pg D bas H false;
                do configs <- brancher concs G cwa 6 supers (Z.to_nat n) false rnd fuel SNone;
                Ok (map (fun w => (H, w)) configs)) hnfs;
  Ok (concat lists).
