(** Model of phenumStr.py:19-52 [_make_structures]: one structure of enum.out, from its row to the file written. *)
From Coq Require Import QArith.
From Verif Require Import TextModel PyBase Mat3 HNFModel SNFModel EnumOutModel MapModel PoscarModel.
Local Open Scope Z_scope.

(** The parent crystal is given in lattice coordinates (units 1/D), see MapModel.v.  Positions stay in those coordinates:
    [cartesian2direct] (line 44) rewrites them in units of the supercell vectors and takes them into the supercell; see
    ReduceModel.v.  Line 38-41 (a hash that is returned to no one in the script) is left out. *)
Definition make_poscar (lim : mat -> limits) (param : Z -> Q) (D : Z) (bas : list vec) (k : Z) (sys_title : string)
    (s : structure) (species : option (list string)) (remove_zeros : flag) : res (poscar vec) :=
  do sp <- map_enumStr (lim (sHNF s)) D bas k (EnumOutModel.cells s) (sHNF s) (sL s) (sdiag s) (labeling s);
  write_POSCAR param sys_title k (EnumOutModel.cells s) (length bas) (strN s) (labeling s) (directions_of s) (gIndx sp) (aBas sp) species remove_zeros.
Definition make_config (lim : mat -> limits) (param : Z -> Q) (D : Z) (bas : list vec) (k : Z) (sys_title : string)
    (s : structure) (species : option (list string)) (mapping : option (list Z)) : res (Q * list (config_atom vec)) :=
  do sp <- map_enumStr (lim (sHNF s)) D bas k (EnumOutModel.cells s) (sHNF s) (sL s) (sdiag s) (labeling s);
  write_config param sys_title k (EnumOutModel.cells s) (length bas) (strN s) (labeling s) (directions_of s) (gIndx sp) (aBas sp) species mapping.
(** vector_utils.py:88-94: the supercell vectors, as columns in lattice coordinates; [reduce] stands for
    [_minkowski_reduce_basis]. *)
Definition supercell_vectors (reduce : mat -> mat) (mink : flag) (H : mat) : mat := if truthy mink then reduce H else H.
