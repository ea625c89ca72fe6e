(** Model of /repo/phenum/numerics.py. *)
From Verif Require Import PyBase.
Local Open Scope Z_scope.

(** numerics.py:7-27 [factorial].  [range(1,num+1)] is empty for negative numbers. *)
Definition factorial (num : Z) : Z :=
  if num =? 0 then 1 else fold_left Z.mul (range_up 1 (num + 1)) 1.

(** numerics.py:46-48 and 50-51: one pass of either [for] loop, [t = t*i//(n-i+1)]. *)
Definition binom_step (n t i : Z) : Z := t * i / (n - i + 1).

(** numerics.py:45,49: the range the loop runs over. *)
Definition binom_range (n k : Z) : list Z :=
  if k <? n - k then range_down n (n - k) else range_down n k.

(** numerics.py:29-53 [binomial_coefficient] on Python integers. *)
Definition binomial_coefficient (n k : Z) : Z :=
  if negb ((-1 <? k) && (k <? n + 1)) then 0
  else if (k =? 0) && (n =? 0) then 1
  else fold_left (binom_step n) (binom_range n k) 1.

(** numerics.py:29-53 called with [n] a numpy int64 (as [multinomial] does, [np.sum] returning one):
    in the first pass [t*i] is a Python product of Python integers (the range of an int64 yields Python
    integers) and the quotient by the int64 [n-i+1] is an int64; in every later pass [t*i] is an
    int64 product, which wraps modulo 2^64.  numpy's floor division agrees with Python's. *)
Definition binom_step64 (n t i : Z) : Z := wrap64 (t * i) / (n - i + 1).
Definition binomial_coefficient64 (n k : Z) : Z :=
  if negb ((-1 <? k) && (k <? n + 1)) then 0
  else if (k =? 0) && (n =? 0) then 1
  else match binom_range n k with
       | [] => 1
       | i :: r => fold_left (binom_step64 n) r (binom_step n 1 i)
       end.

(** numerics.py:62-65: the list of (remaining total, count) pairs. *)
Fixpoint multinomial_pairs (s : Z) (n : list Z) : list (Z * Z) :=
  match n with
  | [] => []
  | x :: n' => (s, x) :: multinomial_pairs (s - x) n'
  end.

(** numerics.py:56-71 [multinomial].  [n[0]] raises IndexError on the empty list.  [np.sum] of counts
    is assumed to fit in int64 (counts are numbers of atoms); [np.prod] multiplies in int64 with
    wrap-around. *)
Definition multinomial (n : list Z) : res Z :=
  match n with
  | [] => Err IndexError
  | _ => let bins := map (fun b => binomial_coefficient64 (fst b) (snd b))
                         (multinomial_pairs (sum_Z n) n) in
         Ok (fold_left (fun p b => wrap64 (p * b)) bins 1)
  end.

(** The same computation in unbounded integers: NOT what the code does, used to state when the two
    agree. *)
Definition multinomial_exact (n : list Z) : Z :=
  prod_Z (map (fun b => binomial_coefficient (fst b) (snd b)) (multinomial_pairs (sum_Z n) n)).
