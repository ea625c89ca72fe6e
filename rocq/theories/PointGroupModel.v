(** Model of symmetry.py:197-268 [get_lattice_pointGroup].

    The lattice vectors (rows, as in the code) have integer components in units of 1/D, and the tolerance is a rational
    number (so any doubles are covered).  Arithmetic is exact: norms, the inverse, the determinant and the products are not
    rounded; norms are compared through their squares (ReduceNorm.v). *)
From Coq Require Import QArith Qabs.
From Verif Require Import PyBase Mat3 ReduceModel.
Local Open Scope Z_scope.

(** symmetry.py:220: the squared length of the longest vector. *)
Definition max_norm2 (A : mat) : Z := let '(a, b, c) := A in Z.max (Z.max (nrm2 a) (nrm2 b)) (nrm2 c).
(** symmetry.py:219: the volume of the cell (units D^-3). *)
Definition cell_volume (A : mat) : Z := Z.abs (mdet A).
(** symmetry.py:221-223: [ceil(max_norm * norm(w/cell_volume + eps))] for the cross product [w]; [eps] is added to each of
    the components of the quotient.  With eps = p/q the argument of [ceil] is sqrt(x)/(V D q), x the integer below. *)
Definition extent (eps : Q) (D : Z) (A : mat) (w : vec) : Z :=
  let V := cell_volume A in let q := Z.pos (Qden eps) in
  let s := let '(x, y, z) := w in (x * D * q + Qnum eps * V, y * D * q + Qnum eps * V, z * D * q + Qnum eps * V) in
  - ((- Z.sqrt_up (max_norm2 A * nrm2 s)) / (V * D * q)).
(** [range(-n, n+1)]. *)
Definition both_ways (n : Z) : list Z := map (fun k => Z.of_nat k - n) (seq 0 (Z.to_nat (2 * n + 1))).
(** symmetry.py:225-241: the lattice vectors within the sphere. *)
Definition r_vecs (eps : Q) (D : Z) (A : mat) : list vec :=
  let '(a, b, c) := A in
  flat_map (fun i => flat_map (fun j => flat_map (fun k =>
      let v := vadd (vadd (vscale i a) (vscale j b)) (vscale k c) in
      if norm_ge (max_norm2 A) (nrm2 v) (eps * inject_Z D) then [v] else [])
    (both_ways (extent eps D A (cross a b)))) (both_ways (extent eps D A (cross c a)))) (both_ways (extent eps D A (cross b c))).
(** [itertools.permutations(range(n), 3)]. *)
Definition permutations3 (n : nat) : list (nat * nat * nat) :=
  flat_map (fun i => flat_map (fun j => flat_map (fun k =>
      if (i =? j)%nat || (i =? k)%nat || (j =? k)%nat then [] else [(i, j, k)]) (seq 0 n)) (seq 0 n)) (seq 0 n).
(** [abs(norm u - norm v) <= eps]. *)
Definition same_length (e : Q) (u v : vec) : bool := norm_ge (nrm2 u) (nrm2 v) e && norm_ge (nrm2 v) (nrm2 u) e.
(** symmetry.py:256: the negation of the condition under which a triple is skipped. *)
Definition candidate (eps : Q) (D : Z) (A N : mat) : bool :=
  let '(a, b, c) := A in let '(u, v, w) := N in let e := (eps * inject_Z D)%Q in
  same_length e u a && same_length e v b && same_length e w c &&
  Qle_bool (inject_Z (Z.abs (cell_volume A - Z.abs (mdet N)))) (eps * inject_Z (D * D * D)).
(** symmetry.py:262: [rotation_matrix = matmul(inverse_avecs, new_vectors)], multiplied by det A. *)
Definition rotation_num (A N : mat) : mat := mmul (madj A) N.
(** symmetry.py:264-265: R R^T equals 1 within [eps] in every entry; the numbers here are multiplied by (det A)^2. *)
Definition orthogonal_within (eps : Q) (d : Z) (R : mat) : bool :=
  let T := mmul R (transpose R) in
  forallb (fun '(x, y) => Qle_bool (inject_Z (Z.abs (x - d * d * y))) (eps * inject_Z (d * d)))
    (combine (entries T) (entries mid)).
(** symmetry.py:197-268 [get_lattice_pointGroup]: the rotation matrices, multiplied by det A.  Singular vectors make
    [numpy.linalg.inv] raise LinAlgError (a ValueError). *)
Definition get_lattice_pointGroup (eps : Q) (D : Z) (A : mat) : res (list mat) :=
  if mdet A =? 0 then Err ValueError else
  let rs := r_vecs eps D A in
  Ok (map (rotation_num A)
        (filter (fun N => candidate eps D A N && orthogonal_within eps (mdet A) (rotation_num A N))
           (map (fun '(i, j, k) => (nth i rs (0, 0, 0), nth j rs (0, 0, 0), nth k rs (0, 0, 0)))
              (permutations3 (length rs))))).

(** ** The form in which LatGroupModel.v takes the point group *)
(** A rotation R (here det A times R) acts on positions A^T x, x the coordinates along the lattice vectors, as A^-T R A^T
    acts on x (symmetry.py:141-151 and the products [matmul(op, ...)] of lines 322-345). *)
Definition mdivz (M : mat) (k : Z) : mat :=
  let '((a, b, c), (d, e, f), (g, h, i)) := M in ((a / k, b / k, c / k), (d / k, e / k, f / k), (g / k, h / k, i / k)).
Definition on_coordinates (A R : mat) : mat :=
  mdivz (mmul (mmul (transpose (madj A)) R) (transpose A)) (mdet A * mdet A).
(** grouptheory.py:566, 570 round the entries of R (the directions being unit vectors). *)
Definition mround (M : mat) (k : Z) : mat :=
  let r x := round_even (Z.sgn k * x) (Z.abs k) in
  let '((a, b, c), (d, e, f), (g, h, i)) := M in ((r a, r b, r c), (r d, r e, r f), (r g, r h, r i)).
Definition point_group (eps : Q) (D : Z) (A : mat) : res (list (mat * mat)) :=
  do ops <- get_lattice_pointGroup eps D A;
  Ok (map (fun R => (on_coordinates A R, mround R (mdet A))) ops).
