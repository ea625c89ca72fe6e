(** Model of the Smith normal form routine (phenum/grouptheory.py:245-409).

    Simplifications.  The input is a 3x3 integer matrix (the conversion of integral floats by [int(x)] and the check
    that the input was integral, lines 291-297, are not modelled), and [np.linalg.det(HNF) < 1] is decided on the exact
    determinant instead of on its floating-point approximation.  The checks
    [dot(dot(A,HNF),B).any() != np.array(M).any()] (lines 323, 336, 349, 371, 403) compare two truth values ("some entry
    is non-zero"), with a body that prints and exits; they are modelled by [any_check]. *)
From Verif Require Import PyBase Mat3.
Local Open Scope Z_scope.

Definition vlist (v : vec) : list Z := let '(x, y, z) := v in [x; y; z].

(** [l.index(x)], [min(l)] and [max(l)] on lists of integers. *)
Fixpoint zindex_from (x : Z) (l : list Z) (k : nat) : res nat :=
  match l with
  | [] => Err ValueError
  | y :: l' => if y =? x then Ok k else zindex_from x l' (S k)
  end.
Definition zindex (x : Z) (l : list Z) : res nat := zindex_from x l 0.
Definition py_min (l : list Z) : res Z :=
  match l with [] => Err ValueError | y :: l' => Ok (fold_left Z.min l' y) end.
Definition py_max (l : list Z) : res Z :=
  match l with [] => Err ValueError | y :: l' => Ok (fold_left Z.max l' y) end.

(** [3 - v.count(0)] (lines 314, 340, 365). *)
Definition nonzeros (v : vec) : nat := length (filter (fun x => negb (x =? 0)) (vlist v)).

(** grouptheory.py:245-265 [_find_minmax_indices]. *)
Definition find_minmax (invec : vec) : res (nat * nat) :=
  let v := map Z.abs (vlist invec) in
  do m <- py_min (filter (fun i => 0 <? i) v);
  do this_min <- zindex m v;
  let rvec := rev v in
  do mx <- py_max rvec;
  do k <- zindex mx rvec;
  Ok (this_min, (2 - k)%nat).

(** grouptheory.py:327, 357: position of the first entry of largest absolute value. *)
Definition arg_max (v : vec) : res nat :=
  let l := map Z.abs (vlist v) in
  do mx <- py_max l; zindex mx l.

Definition set_row (M : mat) (i : nat) (v : vec) : mat :=
  let '(r, s, t) := M in match i with O => (v, s, t) | S O => (r, v, t) | _ => (r, s, v) end.
Definition vset (v : vec) (i : nat) (k : Z) : vec :=
  let '(x, y, z) := v in match i with O => (k, y, z) | S O => (x, k, z) | _ => (x, y, k) end.

(** grouptheory.py:320-321: [M[a] = M[a] - k * M[b]]. *)
Definition row_sub (M : mat) (a b : nat) (k : Z) : mat := set_row M a (vadd (mrow M a) (vscale (- k) (mrow M b))).
(** grouptheory.py:345-347: the same on columns, one row at a time. *)
Definition col_sub (M : mat) (a b : nat) (k : Z) : mat :=
  let f r := vset r a (vget r a - k * vget r b) in let '(r, s, t) := M in (f r, f s, f t).
(** grouptheory.py:328-334: exchange of two rows. *)
Definition row_swap (M : mat) (a b : nat) : mat := set_row (set_row M a (mrow M b)) b (mrow M a).
(** grouptheory.py:358-364: exchange of two columns. *)
Definition col_swap (M : mat) (a b : nat) : mat :=
  let f r := vset (vset r a (vget r b)) b (vget r a) in let '(r, s, t) := M in (f r, f s, f t).
(** grouptheory.py:353-355, 398-401: change of sign of a column. *)
Definition col_neg (M : mat) (j : nat) : mat :=
  let f r := vset r j (- vget r j) in let '(r, s, t) := M in (f r, f s, f t).
(** grouptheory.py:382-383, 387-388: [M[a] = M[a] + M[b]]. *)
Definition row_add (M : mat) (a b : nat) : mat := set_row M a (vadd (mrow M a) (mrow M b)).

(** numpy's [.any()]. *)
Definition mat_any (M : mat) : bool :=
  let '(r, s, t) := M in existsb (fun x => negb (x =? 0)) (vlist r ++ vlist s ++ vlist t).
(** The consistency check after each step: see the head of the file. *)
Definition any_check (H M A B : mat) : res unit :=
  if Bool.eqb (mat_any (mmul (mmul A H) B)) (mat_any M) then Ok tt else Err SystemExit.

(** grouptheory.py:314-325: clearing column [j]; [fuel] bounds the number of passes of the while loop. *)
Fixpoint col_loop (fuel : nat) (H B : mat) (j : nat) (M A : mat) : res (mat * mat) :=
  match fuel with
  | O => Err OutOfFuel
  | S fuel' =>
      let c := (mget M 0 j, mget M 1 j, mget M 2 j) in
      if (1 <? nonzeros c)%nat then
        do mm <- find_minmax c;
        let '(minidx, maxidx) := mm in
        let minm := mget M minidx j in
        let mult := mget M maxidx j / minm in
        let M := row_sub M maxidx minidx mult in
        let A := row_sub A maxidx minidx mult in
        do _ <- any_check H M A B;
        col_loop fuel' H B j M A
      else Ok (M, A)
  end.

(** grouptheory.py:326-338: bring the remaining entry of column [j] to row [j]. *)
Definition row_fix (H B : mat) (j : nat) (M A : mat) : res (mat * mat) :=
  do MA <- (if mget M j j =? 0 then
              do maxidx <- arg_max (mget M 0 j, mget M 1 j, mget M 2 j);
              Ok (row_swap M j maxidx, row_swap A j maxidx)
            else Ok (M, A));
  let '(M, A) := MA in
  do _ <- any_check H M A B;
  Ok (M, A).

(** grouptheory.py:340-351: clearing row [j]. *)
Fixpoint row_loop (fuel : nat) (H A : mat) (j : nat) (M B : mat) : res (mat * mat) :=
  match fuel with
  | O => Err OutOfFuel
  | S fuel' =>
      if (1 <? nonzeros (mrow M j))%nat then
        do mm <- find_minmax (mrow M j);
        let '(minidx, maxidx) := mm in
        let mult := mget M j maxidx / mget M j minidx in
        let M := col_sub M maxidx minidx mult in
        let B := col_sub B maxidx minidx mult in
        do _ <- any_check H M A B;
        row_loop fuel' H A j M B
      else Ok (M, B)
  end.

(** grouptheory.py:352-364: make the entry [j],[j] positive, or bring the remaining entry of row [j] to column [j]. *)
Definition col_fix (j : nat) (M B : mat) : res (mat * mat) :=
  if mget M j j <? 0 then Ok (col_neg M j, col_neg B j)
  else if mget M j j =? 0 then
    do maxidx <- arg_max (mrow M j);
    Ok (col_swap M j maxidx, col_swap B j maxidx)
  else Ok (M, B).

(** A bound on the number of passes of the while loops on the vector [v]: each pass makes the sum of the absolute
    values smaller. *)
Definition loop_fuel (v : vec) : nat := let '(x, y, z) := v in S (Z.to_nat (Z.abs x + Z.abs y + Z.abs z)).

(** Result of one pass of the main loop: [continue] with a new state, or leave the loop. *)
Inductive pass : Type :=
| Continue (j : nat) (M A B : mat)
| Stop (M A B : mat).

(** grouptheory.py:379: [local.index(max(local))], the larger of two rows in lexicographic order, the first one when
    they are equal. *)
Definition pick_row (p q : Z * Z) : nat :=
  if (fst p <? fst q) || ((fst p =? fst q) && (snd p <? snd q)) then 1%nat else 0%nat.

(** grouptheory.py:314-395: one pass of the main loop ([j] is 0 or 1). *)
Definition snf_pass (H : mat) (j : nat) (M A B : mat) : res pass :=
  do MA <- col_loop (loop_fuel (mget M 0 j, mget M 1 j, mget M 2 j)) H B j M A;
  let '(M, A) := MA in
  do MA <- row_fix H B j M A;
  let '(M, A) := MA in
  do MB <- row_loop (loop_fuel (mrow M j)) H A j M B;
  let '(M, B) := MB in
  do MB <- col_fix j M B;
  let '(M, B) := MB in
  if (1 <? nonzeros (mrow M j))%nat || (1 <? nonzeros (mget M 0 j, mget M 1 j, mget M 2 j))%nat
  then Ok (Continue j M A B)
  else
    do _ <- any_check H M A B;
    (* lines 373-376; [%] by zero raises *)
    if mget M 0 0 =? 0 then Err ZeroDivisionError else
    let r i k := mget M i k mod mget M 0 0 in
    if (j =? 0)%nat && negb ((r 1%nat 1%nat =? 0) && (r 1%nat 2%nat =? 0) && (r 2%nat 1%nat =? 0) && (r 2%nat 2%nat =? 0)) then
      let nondividx := pick_row (Z.abs (r 1%nat 1%nat), Z.abs (r 1%nat 2%nat)) (Z.abs (r 2%nat 1%nat), Z.abs (r 2%nat 2%nat)) in
      Ok (Continue j (row_add M 0 (nondividx + 1)) (row_add A 0 (nondividx + 1)) B)
    else if (j =? 1)%nat then
      if mget M 1 1 =? 0 then Err ZeroDivisionError
      else if negb (mget M 2 2 mod mget M 1 1 =? 0) then Ok (Continue j (row_add M 1 2) (row_add A 1 2) B)
      else if negb (mget M 2 1 =? 0) || negb (mget M 1 2 =? 0) then Ok (Continue j M A B)
      else Ok (Stop M A B)
    else Ok (Continue 1 M A B).

(** grouptheory.py:307-395: the main loop; [it_cnt >= 100] raises, so [n = 99] passes at most. *)
Fixpoint snf_loop (n : nat) (H : mat) (j : nat) (M A B : mat) : res (mat * mat * mat) :=
  match n with
  | O => Err RuntimeError
  | S n' =>
      do p <- snf_pass H j M A B;
      match p with
      | Stop M A B => Ok (M, A, B)
      | Continue j M A B => snf_loop n' H j M A B
      end
  end.

(** grouptheory.py:267-409 [SmithNormalForm]: returns the normal form and the left and right transforms. *)
Definition SmithNormalForm (H : mat) : res (mat * mat * mat) :=
  if mdet H <? 1 then Err ValueError else
  do st <- snf_loop 99 H 0 H mid mid;
  let '(M, A, B) := st in
  let '(M, B) := if mget M 2 2 <? 0 then (col_neg M 2, col_neg B 2) else (M, B) in
  do _ <- any_check H M A B;
  if negb ((mget M 0 1 =? 0) && (mget M 0 2 =? 0) && (mget M 1 0 =? 0) && (mget M 1 2 =? 0) && (mget M 2 0 =? 0)
           && (mget M 2 1 =? 0)) then Err SystemExit
  else if (mget M 0 0 =? 0) then Err ZeroDivisionError
  else if negb (mget M 1 1 mod mget M 0 0 =? 0) then Err SystemExit
  else if (mget M 1 1 =? 0) then Err ZeroDivisionError
  else if negb (mget M 2 2 mod mget M 1 1 =? 0) then Err SystemExit
  else Ok (M, A, B).
