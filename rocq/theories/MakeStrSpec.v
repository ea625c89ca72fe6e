(** Specification for C36, C37, C53, C54: a row of enum.out that stands for a list of decorated sites, and what a POSCAR
    says about the crystal. *)
From Coq Require Import Permutation.
From Verif Require Import TextModel PyBase Spec Mat3 HNFModel SNFModel SuperModel EnumOutModel LatSpec StructSpec PoscarModel PoscarSpec.
Local Open Scope Z_scope.

(** The decoration of the sites that a configuration of the enumeration means: without arrows the direction is -1. *)
Definition decorated (c : config) : list (Z * Z) := match c with Arrowed l => l | Plain l => map (pair (-1)) l end.
(** Row [s] is the row of the configuration [c] in the supercell H of a crystal with [nD] atoms per cell and [k] species
    (what C32 says about the rows of the file): its size, HNF, Smith normal form, left transform and labels. *)
Definition row_for (nD : nat) (k : Z) (H : mat) (c : config) (s : structure) : Prop :=
  EnumOutModel.cells s = mdet H /\ sHNF s = H /\ (exists M R, SmithNormalForm H = Ok (M, sL s, R) /\ sdiag s = diag_of M) /\
  create_labeling c = Ok (labeling s, directions_of s) /\
  length (decorated c) = (nD * Z.to_nat (mdet H))%nat /\ (forall a l, In (a, l) (decorated c) -> -1 <= a <= 5 /\ 1 <= l <= k).
(** The atoms of a POSCAR with their species: positions, from the lines of the file only (PoscarSpec.v). *)
Definition listed_atoms (k : Z) (labels : list Z) (removed : bool) (p : poscar vec) : list (Z * (vec * vec)) :=
  combine (species_order (shown_species k (number_with labels) removed) (numbers p)) (atoms p).
(** The species (from 0) of the sites. *)
Definition species_of (c : config) : list Z := map (fun s => snd s - 1) (decorated c).
(** The POSCAR shows the decoration [f] of the crystal: one atom for every site of the supercell, with its species. *)
Definition shows_crystal (D : Z) (bas : list vec) (H : mat) (f : decoration) (atoms : list (Z * (vec * vec))) : Prop :=
  transversal (crystal_point D bas) (fun x y => exists z, in_lattice H z /\ y = vadd x (vscale D z)) (map (fun a => fst (snd a)) atoms) /\
  forall s x v, In (s, (x, v)) atoms -> snd (f x) = s + 1.
(** ... and moves every atom as [f] says: not at all without arrow, else along one of the directions +x, -x, +y, -y, +z,
    -z of LatSpec.v. *)
Definition shows_arrows (f : decoration) (atoms : list (Z * (vec * vec))) : Prop :=
  forall s x v, In (s, (x, v)) atoms -> v = if has_arrow (f x) then nth (Z.to_nat (fst (f x))) LatSpec.directions (0, 0, 0) else (0, 0, 0).
