(** Model of vector_utils.py:161-428: [_minkowski_reduce_basis], [_minkowski_conditions_check], [_reduce_C_in_ABC] and
    [_gaussian_reduce_two_vectors].

    Vectors have integer components in units of 1/D (any vectors with rational components, so in particular any doubles, are
    of this form).  Arithmetic is exact: norms, quotients, projections and distances are not rounded.  Norms appear in
    comparisons only, and are compared through their squares.  [eps] is the tolerance as the code has it, so [eps * D] in the
    units of the vectors. *)
From Coq Require Import QArith Qround Qabs.
From Verif Require Import PyBase Mat3.
Local Open Scope Z_scope.

Definition vsub (u v : vec) : vec := let '(a, b, c) := u in let '(x, y, z) := v in (a - x, b - y, c - z).
Definition nrm2 (u : vec) : Z := vdot u u.
(** [cross(u, v)]. *)
Definition cross (u v : vec) : vec :=
  let '(a, b, c) := u in let '(x, y, z) := v in (b * z - c * y, c * x - a * z, a * y - b * x).

(** [norm >= norm' - e] for vectors of squared norms [u], [v], without square roots (ReduceNorm.v: the same thing as
    [sqrt u >= sqrt v - e]). *)
Definition norm_ge (u v : Z) (e : Q) : bool :=
  let d := (inject_Z v - inject_Z u - e * e)%Q in
  Qle_bool d 0 || Qle_bool (d * d) (4 * e * e * inject_Z u).
(** [norm > norm' - e]. *)
Definition norm_gt (u v : Z) (e : Q) : bool :=
  let d := (inject_Z v - inject_Z u - e * e)%Q in
  negb (Qle_bool 0 d) || negb (Qle_bool (4 * e * e * inject_Z u) (d * d)).

(** [round(p/q)], [q > 0]: Python rounds halves to even. *)
Definition round_even (p q : Z) : Z :=
  let f := p / q in let r := 2 * (p mod q) in
  if r <? q then f else if q <? r then f + 1 else if Z.even f then f else f + 1.
(** vector_utils.py:416: [round(dot(U,V)/float(dot(U,U)) + 1E-10)], 1E-10 taken as the decimal fraction. *)
Definition nudge : Z := 10 ^ 10.
Definition multiple (U V : vec) : Z := round_even (vdot U V * nudge + vdot U U) (vdot U U * nudge).

(** ** _gaussian_reduce_two_vectors *)
(** Lines 410-421; [n] is the number of passes left before the exit of lines 411-414.  For [U = 0] the quotient is not a
    number and [round] raises. *)
Fixpoint gauss_loop (n : nat) (e : Q) (U V : vec) : res (vec * vec) :=
  match n with
  | O => Err SystemExit
  | S n' =>
      if vdot U U =? 0 then Err ValueError else
      let R := vsub V (vscale (multiple U V) U) in
      (* V = U; U = R *)
      if norm_ge (nrm2 R) (nrm2 U) e then Ok (R, U) else gauss_loop n' e R U
  end.
(** Lines 401-428. *)
Definition gauss (e : Q) (U V : vec) : res (vec * vec) :=
  let '(U, V) := if norm_gt (nrm2 U) (nrm2 V) e then (V, U) else (U, V) in
  do (U, V) <- gauss_loop 10 e U V;
  Ok (V, U).

(** ** _reduce_C_in_ABC *)
(** [floor(p/q + eps)]. *)
Definition floor_eps (eps : Q) (p q : Z) : Z := (p * Z.pos (Qden eps) + Qnum eps * q) / (q * Z.pos (Qden eps)).
(** Line 339: the four corners, without the third component (0). *)
Definition corners : list (Z * Z) := [(0, 0); (1, 0); (0, 1); (1, 1)].
(** [idx = dist.index(min(dist))] and the corner it stands for: the first one of the smallest distance. *)
Fixpoint closest (f : Z * Z -> Z) (best : Z * Z) (l : list (Z * Z)) : Z * Z :=
  match l with
  | [] => best
  | x :: l' => closest f (if f x <? f best then x else best) l'
  end.
(** Lines 366-373: is p/d within eps of an integer? *)
Definition near_int (eps : Q) (d p : Z) : bool :=
  let p' := Z.sgn d * p in
  Qle_bool (inject_Z (Z.abs (p' - round_even p' (Z.abs d) * Z.abs d))) (eps * inject_Z (Z.abs d)).
Definition entries (M : mat) : list Z :=
  let '((a, b, c), (d, e, f), (g, h, i)) := M in [a; b; c; d; e; f; g; h; i].
(** Lines 308-375.  [N2] times the projection T (line 320) is an integer vector: [T2]. Its coordinates (line 330) by
    Cramer's rule are det(T2,B,C), det(A,T2,C), det(A,B,T2), divided by N2 det(A,B,C).  Lines 322-324 only print. *)
Definition reduce_C (eps : Q) (D : Z) (A0 B0 C : vec) : res mat :=
  do (A, B) <- gauss (eps * inject_Z D) A0 B0;
  let N := cross A B in let N2 := vdot N N in
  let T2 := vsub (vscale N2 C) (vscale (vdot C N) N) in
  let vol := N2 * mdet (A, B, C) in
  let l0 := floor_eps eps (mdet (T2, B, C)) vol in
  let l1 := floor_eps eps (mdet (A, T2, C)) vol in
  let l2 := floor_eps eps (mdet (A, B, T2)) vol in
  (* matmul(corners[i] + LC, abc) *)
  let point '(i, j) := vadd (vadd (vscale (i + l0) A) (vscale (j + l1) B)) (vscale l2 C) in
  let best := closest (fun ij => nrm2 (vsub T2 (vscale N2 (point ij)))) (0, 0) corners in
  let C' := vsub C (point best) in
  let M := (A, B, C') in
  if forallb (near_int eps (mdet M)) (entries (mmul (A0, B0, C) (madj M))) then Ok M else Err SystemExit.

(** ** _minkowski_conditions_check, lines 232-285 *)
(** [not (norm(u) > norm(v) + eps)]. *)
Definition no_longer (e : Q) (u v : vec) : bool := norm_ge (nrm2 v) (nrm2 u) e.
Definition conditions (e : Q) (M : mat) : bool :=
  let '(b1, b2, b3) := M in
  no_longer e b1 b2 && no_longer e b2 b3 &&
  no_longer e b2 (vadd b1 b2) && no_longer e b2 (vsub b1 b2) &&
  no_longer e b3 (vadd b1 b3) && no_longer e b3 (vsub b3 b1) &&
  no_longer e b3 (vadd b2 b3) && no_longer e b3 (vsub b3 b2) &&
  no_longer e b3 (vadd (vadd b1 b2) b3) && no_longer e b3 (vadd (vsub b1 b2) b3) &&
  no_longer e b3 (vsub (vadd b1 b2) b3) && no_longer e b3 (vsub (vsub b1 b2) b3).

(** ** _minkowski_reduce_basis *)
(** Line 192: [norms.index(max(norms))]. *)
Definition max_index (n : vec) : nat :=
  let '(x, y, z) := n in
  if (y <=? x) && (z <=? x) then 0%nat else if (x <=? y) && (z <=? y) then 1%nat else 2%nat.
(** Line 194: [norms[idx] = 0]. *)
Definition zero_at (n : vec) (i : nat) : vec :=
  let '(x, y, z) := n in match i with 0%nat => (0, y, z) | 1%nat => (x, 0, z) | _ => (x, y, 0) end.
(** Lines 186-195: the rows in ascending order of their norms. *)
Definition sort_rows (M : mat) : mat :=
  let '(r, s, t) := M in
  let n0 := (nrm2 r, nrm2 s, nrm2 t) in
  let i2 := max_index n0 in let n1 := zero_at n0 i2 in
  let i1 := max_index n1 in let n2 := zero_at n1 i1 in
  let i0 := max_index n2 in
  (mrow M i0, mrow M i1, mrow M i2).
(** Lines 184-198. *)
Fixpoint mink_loop (n : nat) (eps : Q) (D : Z) (M : mat) : res mat :=
  match n with
  | O => Ok M
  | S n' =>
      let '(A, B, C) := sort_rows M in
      do M' <- reduce_C eps D A B C;
      if norm_ge (nrm2 (mrow M' 2)) (nrm2 (mrow M' 1)) (eps * inject_Z D) then Ok M' else mink_loop n' eps D M'
  end.
(** Lines 179-216. *)
Definition minkowski_reduce (eps : Q) (D : Z) (IN : mat) : res mat :=
  if Qle_bool (inject_Z (Z.abs (mdet IN))) (eps * inject_Z (D * D * D)) then Err ValueError else
  do M <- mink_loop 10 eps D IN;
  if conditions (eps * inject_Z D) M then
    let '(b1, b2, b3) := M in Ok (if mdet M <? 0 then (b1, b3, b2) else M)
  else Err SystemExit.
