(** Model of symmetry.py:97-151 and 271-398 ([_does_mapping_exist], [_get_transformations], [get_spaceGroup]).

    Positions are exact rationals (every double is one); the lattice vectors have integer components in units of 1/D, as in
    PointGroupModel.v.  The products and the inverse are not rounded.  [atomType] and [bas_vecs] are lists of equal length in
    the code and a list of pairs here. *)
From Coq Require Import QArith Qabs.
From Verif Require Import PyBase Mat3 CellModel PointGroupModel.
Local Open Scope Q_scope.

(** The lattice vectors as given to the code (rows). *)
Definition qof (d : Z) (v : vec) : qvec := let '(x, y, z) := v in (inject_Z x / inject_Z d, inject_Z y / inject_Z d, inject_Z z / inject_Z d).
Definition qmof (d : Z) (M : mat) : qmat := let '(r, s, t) := M in (qof d r, qof d s, qof d t).
Definition qplus (u v : qvec) : qvec := let '(a, b, c) := u in let '(x, y, z) := v in (a + x, b + y, c + z).
Definition qminus (u v : qvec) : qvec := let '(a, b, c) := u in let '(x, y, z) := v in (a - x, b - y, c - z).

(** symmetry.py:124: [numpy.allclose(v, this_position, rtol=0, atol=eps)]. *)
Definition close (eps : Q) (u v : qvec) : bool :=
  let '(a, b, c) := u in let '(x, y, z) := v in
  Qle_bool (Qabs (a - x)) eps && Qle_bool (Qabs (b - y)) eps && Qle_bool (Qabs (c - z)) eps.
(** symmetry.py:97-129 [_does_mapping_exist]. *)
Definition does_mapping_exist (v : qvec) (this_type : Z) (atoms : list (Z * qvec)) (eps : Q) : bool :=
  existsb (fun '(a_type, p) => (a_type =? this_type)%Z && close eps v p) atoms.
(** symmetry.py:131-151 [_get_transformations]. *)
Definition get_transformations (par_lat : qmat) : qmat * qmat := (qtrans par_lat, qinv (qtrans par_lat)).

Section Loops.
Variables (eps : Q) (latt_to_cart cart_to_latt : qmat) (atoms : list (Z * qvec)).
(** symmetry.py:368-381: the loop over the atoms, left at the first that is not mapped. *)
Fixpoint all_mapped (op : qmat) (fract : qvec) (l : list (Z * qvec)) : res bool :=
  match l with
  | [] => Ok true
  | (this_type, p) :: l' =>
      do v2 <- bring_into_cell (qplus (qmvec op p) fract) cart_to_latt latt_to_cart eps;
      if does_mapping_exist v2 this_type atoms eps then all_mapped op fract l' else Ok false
  end.
(** symmetry.py:363-392: one atom [jAtom] of the type of the first. *)
Definition try_atom (op : qmat) (v : qvec) (type0 : Z) (a : Z * qvec) : res (list (qmat * qvec)) :=
  if negb (fst a =? type0)%Z then Ok [] else
  do fract <- bring_into_cell (qminus (snd a) v) cart_to_latt latt_to_cart eps;
  do mapped <- all_mapped op fract atoms;
  Ok (if mapped : bool then [(op, fract)] else []).
(** symmetry.py:356-392: one rotation; [atom_pos[0]] of an empty list is an IndexError. *)
Definition try_op (op : qmat) : res (list (qmat * qvec)) :=
  match atoms with
  | [] => Err IndexError
  | (type0, p0) :: _ => do ls <- rmap (try_atom op (qmvec op p0) type0) atoms; Ok (concat ls)
  end.
End Loops.

(** symmetry.py:271-398 [get_spaceGroup]: the pairs (sg_ops[i], sg_fracts[i]).  Singular lattice vectors make
    [numpy.linalg.inv] raise LinAlgError (a ValueError). *)
Definition get_spaceGroup (eps : Q) (D : Z) (A : mat) (atoms : list (Z * qvec)) (lattcoords : bool) : res (list (qmat * qvec)) :=
  if (mdet A =? 0)%Z then Err ValueError else
  let '(latt_to_cart, cart_to_latt) := get_transformations (qmof D A) in
  let atom_pos := map (fun '(t, p) => (t, if lattcoords then qmvec latt_to_cart p else p)) atoms in
  do atom_pos <- rmap (fun '(t, p) => do q <- bring_into_cell p cart_to_latt latt_to_cart eps; Ok (t, q)) atom_pos;
  do lattpg_op <- get_lattice_pointGroup eps D A;
  do ls <- rmap (try_op eps latt_to_cart cart_to_latt atom_pos) (map (qmof (mdet A)) lattpg_op);
  Ok (concat ls).
