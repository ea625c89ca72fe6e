(** Model of symmetry.get_concs_for_size (/repo/phenum/symmetry.py:11-95). *)
From Verif Require Import PyBase.
Local Open Scope Z_scope.

(** itertools.product of [n] copies of [l], last position fastest. *)
Fixpoint product_repeat {A : Type} (l : list A) (n : nat) : list (list A) :=
  match n with
  | O => [[]]
  | S n' => flat_map (fun a => map (cons a) (product_repeat l n')) l
  end.

(** symmetry.py:86-94, no restriction. *)
Definition concs_unrestricted (size nB : Z) (nspecies : nat) : list (list Z) :=
  filter (fun p => sum_Z p =? size * nB) (product_repeat (range_up 0 (size * nB + 1)) nspecies).

(** A restriction (min or max, max or min, denominator) of one species. *)
Definition conc : Type := Z * Z * Z.
Definition c_min (c : conc) : Z := let '(x, y, _) := c in Z.min x y.
Definition c_max (c : conc) : Z := let '(x, y, _) := c in Z.max x y.
Definition c_den (c : conc) : Z := let '(_, _, d) := c in d.

(** symmetry.py:38-41: [vol_table] (lower and upper number of atoms) with the denominator of the FIRST
    species.  The floats [float(minc)/denom*size*nB] are taken exactly: floor and ceiling of the rational
    number minc*size*nB/denom. *)
Definition vol_lo (denom size nB : Z) (c : conc) : Z := c_min c * (size * nB) / denom.
Definition vol_hi (denom size nB : Z) (c : conc) : Z := - (- (c_max c * (size * nB)) / denom).

(** symmetry.py:64-67: the fractions are compared exactly; the tolerance 1E-10 is dropped (the numbers
    compared are fractions with denominators n and denom, which differ by more when they differ, as
    long as n*denom < 10^10).  a/n < min/den  iff  a*den < min*n for positive n, den. *)
Definition fraction_ok (n : Z) (a : Z) (c : conc) : bool :=
  negb (a * c_den c <? c_min c * n) && negb (a * c_den c >? c_max c * n).
Fixpoint fractions_ok (n : Z) (a : list Z) (cs : list conc) : bool :=
  match a, cs with
  | x :: a', c :: cs' => fraction_ok n x c && fractions_ok n a' cs'
  | _, _ => true
  end.

Section Odometer.
  Variables (lo : list Z) (digit : list Z).
  (** symmetry.py:69-83: look for the last position [j < jj] that can still be advanced; positions passed
      over are reset; [label[j][d]] is [lo[j]+d].  [None] when every position was at its end. *)
  Fixpoint odometer (jj : nat) (a dig_cnt : list Z) : option (list Z * list Z) :=
    match jj with
    | O => None
    | S j =>
        if negb (nth j dig_cnt 0 =? nth j digit 0)
        then let d := nth j dig_cnt 0 + 1 in
             Some (upd a j (nth j lo 0 + d), upd dig_cnt j d)
        else odometer j (upd a j (nth j lo 0)) (upd dig_cnt j 0)
    end.
End Odometer.

(** symmetry.py:58-84: the while loop. *)
Fixpoint concs_loop (fuel : nat) (n : Z) (cs : list conc) (lo digit : list Z) (a dig_cnt : list Z)
  (c_list : list (list Z)) : res (list (list Z)) :=
  let keep := (sum_Z a =? n) && fractions_ok n a cs in
  let c_list' := if keep then c_list ++ [a] else c_list in
  match odometer lo digit (length cs) a dig_cnt with
  | None => Ok c_list'
  | Some (a', d') =>
      match fuel with
      | O => Err OutOfFuel
      | S f => concs_loop f n cs lo digit a' d' c_list'
      end
  end.

(** symmetry.py:35-84, with restrictions.  [concs[0]] of an empty list raises IndexError; a zero
    denominator or n raises ZeroDivisionError. *)
Definition concs_restricted (fuel : nat) (size nB : Z) (cs : list conc) : res (list (list Z)) :=
  match cs with
  | [] => Err IndexError
  | c0 :: _ =>
      let denom := c_den c0 in
      if existsb (fun c => c_den c =? 0) cs || (size * nB =? 0) then Err ZeroDivisionError
      else
        let lo := map (vol_lo denom size nB) cs in
        let hi := map (vol_hi denom size nB) cs in
        let digit := map (fun p => snd p - fst p) (combine lo hi) in
        concs_loop fuel (size * nB) cs lo digit lo (map (fun _ => 0) cs) []
  end.

(** symmetry.py:11-95 [get_concs_for_size]. *)
Definition get_concs_for_size (fuel : nat) (size : Z) (nspecies : nat) (res_concs : bool) (nB : Z) (cs : list conc)
  : res (list (list Z)) :=
  if res_concs then concs_restricted fuel size nB cs
  else Ok (concs_unrestricted size nB nspecies).
