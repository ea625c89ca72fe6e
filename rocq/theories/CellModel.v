(** Model of symmetry.py:153-195 [bring_into_cell] and vector_utils.py:430-458 [cartesian2direct].

    Numbers are exact rationals (every double is one); rounding of the products is not modelled. *)
From Coq Require Import QArith Qabs Qround Qminmax.
From Verif Require Import PyBase.
Local Open Scope Q_scope.

(** Points and 3x3 matrices (lists of three entries in the code). *)
Definition qvec : Type := Q * Q * Q.
Definition qmat : Type := qvec * qvec * qvec.
Definition qdot (u v : qvec) : Q := let '(a, b, c) := u in let '(x, y, z) := v in a * x + b * y + c * z.
(** [matmul(M, v)]. *)
Definition qmvec (M : qmat) (v : qvec) : qvec := let '(r, s, t) := M in (qdot r v, qdot s v, qdot t v).
Definition qtrans (M : qmat) : qmat :=
  let '((a, b, c), (d, e, f), (g, h, i)) := M in ((a, d, g), (b, e, h), (c, f, i)).
(** [matmul(v, M)]. *)
Definition qvecm (v : qvec) (M : qmat) : qvec := qmvec (qtrans M) v.
Definition qdet (M : qmat) : Q :=
  let '((a, b, c), (d, e, f), (g, h, i)) := M in
  a * (e * i - f * h) - b * (d * i - f * g) + c * (d * h - e * g).
(** [linalg.inv(M)] (by Cramer's rule; numpy raises for a singular matrix, outside the model). *)
Definition qinv (M : qmat) : qmat :=
  let '((a, b, c), (d, e, f), (g, h, i)) := M in
  let D := qdet M in
  (((e * i - f * h) / D, (c * h - b * i) / D, (b * f - c * e) / D),
   ((f * g - d * i) / D, (a * i - c * g) / D, (c * d - a * f) / D),
   ((d * h - e * g) / D, (b * g - a * h) / D, (a * e - b * d) / D)).
Definition qlt_bool (x y : Q) : bool := negb (Qle_bool y x).
(** The components of a point, as the loops see them. *)
Definition comps (v : qvec) : list Q := let '(x, y, z) := v in [x; y; z].
Definition vmap (f : Q -> Q) (v : qvec) : qvec := let '(x, y, z) := v in (f x, f y, f z).

(** ** bring_into_cell *)
(** symmetry.py:178: [maxc = max(ceil(abs(max(vec))), ceil(abs(min(vec))))*2]. *)
Definition max3 (v : qvec) : Q := let '(x, y, z) := v in Qmax (Qmax x y) z.
Definition min3 (v : qvec) : Q := let '(x, y, z) := v in Qmin (Qmin x y) z.
Definition maxc (v : qvec) : Z := (Z.max (Qceiling (Qabs (max3 v))) (Qceiling (Qabs (min3 v))) * 2)%Z.
(** Line 182: the condition of the while loop. *)
Definition outside (eps : Q) (v : qvec) : bool :=
  existsb (fun i => qlt_bool (1 - eps) i) (comps v) || existsb (fun i => qlt_bool i (0 - eps)) (comps v).
(** Lines 184-188: one component. *)
Definition shift_in (eps x : Q) : Q :=
  if Qle_bool (1 - eps) x then x - 1 else if qlt_bool x (0 - eps) then x + 1 else x.
(** Lines 182-191; [c] is the counter, [fuel] only makes the recursion structural. *)
Fixpoint bring_loop (fuel : nat) (eps : Q) (limit c : Z) (v : qvec) : res qvec :=
  if outside eps v then
    match fuel with
    | O => Err OutOfFuel
    | S fuel' =>
        let v' := vmap (shift_in eps) v in
        if (limit <? c + 1)%Z then Err SystemExit else bring_loop fuel' eps limit (c + 1) v'
    end
  else Ok v.
(** Lines 174-195.  The loop leaves after at most [limit + 1] passes. *)
Definition bring_into_cell (vec : qvec) (cart_to_latt latt_to_cart : qmat) (eps : Q) : res qvec :=
  let v := qmvec cart_to_latt vec in
  do v' <- bring_loop (S (Z.to_nat (maxc v))) eps (maxc v) 0 v;
  Ok (qmvec latt_to_cart v').

(** ** cartesian2direct *)
(** vector_utils.py:454: the condition of the while loop. *)
Definition not_direct (eps : Q) (v : qvec) : bool :=
  existsb (fun i => Qle_bool (1 - eps) i) (comps v) || existsb (fun i => qlt_bool i (0 - eps)) (comps v).
(** Lines 455 and 456. *)
Definition down (eps x : Q) : Q := if qlt_bool x (1 - eps) then x else x - 1.
Definition up (eps x : Q) : Q := if Qle_bool (0 - eps) x then x else x + 1.
(** Lines 454-456: no counter in the code, so the number of passes is bounded by [fuel] only. *)
Fixpoint direct_loop (fuel : nat) (eps : Q) (v : qvec) : res qvec :=
  if not_direct eps v then
    match fuel with
    | O => Err OutOfFuel
    | S fuel' => direct_loop fuel' eps (vmap (up eps) (vmap (down eps) v))
    end
  else Ok v.
(** Lines 446-458. *)
Definition cartesian2direct (fuel : nat) (sLV : qmat) (aBas : list qvec) (eps : Q) : res (list qvec) :=
  rmap (fun p => direct_loop fuel eps (qvecm p (qinv sLV))) aBas.
