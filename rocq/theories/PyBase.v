(** Python vocabulary shared by the model files.  No proofs here. *)
From Coq Require Export List Arith ZArith Lia Bool.
Export ListNotations.

(** Python exceptions the modelled code raises or lets escape; [OutOfFuel] is the model's own marker
    for "the loop has not finished within the fuel given" and corresponds to no Python exception. *)
Inductive exn : Type :=
| ValueError | IndexError | KeyError | TypeError | ZeroDivisionError | RuntimeError
| NameError (* also UnboundLocalError *) | AttributeError | IOError (* also FileNotFoundError *) | SystemExit | OutOfFuel.

Inductive res (A : Type) : Type :=
| Ok (a : A)
| Err (e : exn).
Arguments Ok {A} a.
Arguments Err {A} e.

Definition rbind {A B : Type} (m : res A) (f : A -> res B) : res B :=
  match m with
  | Ok a => f a
  | Err e => Err e
  end.
Notation "'do' x <- m ; k" := (rbind m (fun x => k))
  (at level 200, x pattern, m at level 100, k at level 200, right associativity).

(** A Python [for] loop over a list whose body may raise. *)
Fixpoint rfold {A S : Type} (f : S -> A -> res S) (l : list A) (s : S) : res S :=
  match l with
  | [] => Ok s
  | a :: l' => do s' <- f s a; rfold f l' s'
  end.

(** A list comprehension whose element expression may raise. *)
Fixpoint rmap {A B : Type} (f : A -> res B) (l : list A) : res (list B) :=
  match l with
  | [] => Ok []
  | a :: l' => do b <- f a; do r <- rmap f l'; Ok (b :: r)
  end.

(** [l[i]] for a natural index. *)
Definition get {A : Type} (l : list A) (i : nat) : res A :=
  match nth_error l i with
  | Some a => Ok a
  | None => Err IndexError
  end.

(** [l[i]] for a Python integer: negative indices count from the end. *)
Definition zget {A : Type} (l : list A) (i : Z) : res A :=
  let j := (if i <? 0 then i + Z.of_nat (length l) else i)%Z in
  if (j <? 0)%Z then Err IndexError else get l (Z.to_nat j).

(** [l[i] = x] (the index being in range is the caller's business: out of range leaves [l] as is;
    every use cites why the index is in range). *)
Fixpoint upd {A : Type} (l : list A) (i : nat) (x : A) : list A :=
  match l, i with
  | [], _ => []
  | _ :: l', 0 => x :: l'
  | y :: l', S i' => y :: upd l' i' x
  end.

(** [l[i] = x] raising IndexError when out of range. *)
Definition set {A : Type} (l : list A) (i : nat) (x : A) : res (list A) :=
  if i <? length l then Ok (upd l i x) else Err IndexError.

(** [l.index(x)]: first position of [x], ValueError if there is none. *)
Fixpoint py_index_from (eqb : nat -> bool) (l : list nat) (k : nat) : res nat :=
  match l with
  | [] => Err ValueError
  | y :: l' => if eqb y then Ok k else py_index_from eqb l' (S k)
  end.
Definition py_index (l : list nat) (x : nat) : res nat := py_index_from (Nat.eqb x) l 0.

(** [l.count(x)]. *)
Definition py_count (l : list nat) (x : nat) : nat := length (filter (Nat.eqb x) l).

(** Decidable equality of lists, written as Python's [==] on lists. *)
Fixpoint list_eqb {A : Type} (eqb : A -> A -> bool) (a b : list A) : bool :=
  match a, b with
  | [], [] => true
  | x :: a', y :: b' => eqb x y && list_eqb eqb a' b'
  | _, _ => false
  end.
Definition nlist_eqb : list nat -> list nat -> bool := list_eqb Nat.eqb.
Definition zlist_eqb : list Z -> list Z -> bool := list_eqb Z.eqb.

Definition sum_nat (l : list nat) : nat := fold_right Nat.add 0 l.
Definition sum_Z (l : list Z) : Z := fold_right Z.add 0%Z l.
Definition prod_Z (l : list Z) : Z := fold_right Z.mul 1%Z l.

(** [range(hi, lo, -1)]. *)
Definition range_down (hi lo : Z) : list Z :=
  map (fun j => hi - Z.of_nat j)%Z (seq 0 (Z.to_nat (hi - lo))).

(** [range(lo, hi)]. *)
Definition range_up (lo hi : Z) : list Z :=
  map (fun j => lo + Z.of_nat j)%Z (seq 0 (Z.to_nat (hi - lo))).

(** Wrap-around of a C [int64] (numpy integer arithmetic). *)
Definition wrap64 (z : Z) : Z := ((z + 2 ^ 63) mod 2 ^ 64 - 2 ^ 63)%Z.
