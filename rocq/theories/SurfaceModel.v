(** Model of the branches for surfaces (LatDim = 2) of /repo/phenum/grouptheory.py and HNFs.py, in the setting of
    LatGroupModel.v (integer lattice coordinates; rotations of the lattice with integer Cartesian matrices). *)
From Verif Require Import PyBase Mat3 HNFModel LatGroupModel SNFModel SuperModel.
Local Open Scope Z_scope.

(** grouptheory.py:946-949: what is asked of the lattice vectors (the rows of [A], in any unit). *)
Definition surface_vectors (A : mat) : bool :=
  (mget A 0 1 =? 0) && (mget A 0 2 =? 0) && (mget A 2 0 =? 0) && (mget A 2 1 =? 0).
(** grouptheory.py:956-958: "this operation is 2D". *)
Definition flat (R : mat) : bool :=
  (mget R 0 1 =? 0) && (mget R 0 2 =? 0) && (mget R 1 0 =? 0) && (mget R 2 0 =? 0) && (Z.abs (mget R 0 0) =? 1).
(** grouptheory.py:928-963 [_rm_3D_operations]. *)
Definition rm_3D_operations (A : mat) (ops : list sg_op) : res (list sg_op) :=
  if negb (surface_vectors A) then Err ValueError else Ok (filter (fun o => flat (cart o)) ops).

(** grouptheory.py:411-489 [_get_dvector_permutations] with LatDim=2 (lines 438-439). *)
Definition get_dvector_permutations2 (A : mat) (D : Z) (bas : list vec) (ops : list sg_op) : res (list (list vec * list nat)) :=
  do ops2 <- rm_3D_operations A ops;
  get_dvector_permutations D bas ops2.

(** grouptheory.py:150-210 [_get_sLV_fixing_operations], the part that LatDim decides on: [dPerm.v[iRot]] (line 186) is read
    for every operation that fixes the superlattice. *)
Definition fixing_operations2 (HNF : mat) (ops : list sg_op) (vps : list (list vec * list nat)) : res (list nat) :=
  let fixing := fst (get_sLV_fixing_operations HNF (map rot ops)) in
  do _ <- rmap (fun iRot => get vps iRot) fixing;
  Ok fixing.

(** grouptheory.py:710-759 [get_sym_group] with LatDim=2: the permutations of the basis are those of the flat operations,
    the operations themselves all of them (lines 747-753). *)
Definition get_sym_group2 (A : mat) (pg : list (mat * mat)) (D : Z) (bas : list vec) (HNF : mat) (arrows : bool) :
    res (list (list nat * list nat)) :=
  let bas := map (into_cell D) bas in
  let ops := get_spaceGroup pg D bas in
  do vps <- get_dvector_permutations2 A D bas ops;
  do fixing <- fixing_operations2 HNF ops vps;
  do snf <- SmithNormalForm HNF;
  let '(M, L, _) := snf in
  get_rotation_perms_list D L (diag_of M) ops vps fixing (length bas) arrows.

(** HNFs.py:119-159 [get_HNFs] with LatDim=2; [remove_duplicate_lattices] (lines 54-117) asks for the operations that fix
    each HNF that it keeps. *)
Definition get_HNFs2 (A : mat) (pg : list (mat * mat)) (D : Z) (bas : list vec) (n : Z) : res (list mat) :=
  let bas := map (into_cell D) bas in
  let ops := get_spaceGroup pg D bas in
  do vps <- get_dvector_permutations2 A D bas ops;
  let hnfs := fst (fst (remove_duplicate_lattices (map rot ops) (find_all_HNFs n))) in
  do _ <- rmap (fun H => fixing_operations2 H ops vps) hnfs;
  Ok hnfs.
