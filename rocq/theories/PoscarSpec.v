(** Specification for C36, C53, C54: how a POSCAR is read, in terms of its own lines only. *)
From Coq Require Import QArith.
From Verif Require Import TextModel PyBase Mat3 PoscarModel.
Local Open Scope Z_scope.

(** The species of the atoms in the order of the list: the first number of atoms belongs to the first of the species
    [shown], and so on. *)
Definition species_order {S : Type} (shown : list S) (numbers : list Z) : list S :=
  flat_map (fun '(s, c) => repeat s (Z.to_nat c)) (combine shown numbers).
(** The species the number line is about: 0 ... k-1, without those of which there are none when zeros are removed (which
    is done only if the elements are named). *)
Definition shown_species (k : Z) (number_of : Z -> Z) (removed : bool) : list Z :=
  if removed then filter (fun s => negb (number_of s =? 0)) (range_up 0 k) else range_up 0 k.
Definition number_with (labels : list Z) (s : Z) : Z := Z.of_nat (length (filter (Z.eqb s) labels)).
(** The title line names the elements [names]. *)
Definition titled (names : list string) (rest t : string) : Prop :=
  t = (fold_right (fun e s => " " ++ e ++ " " ++ s) EmptyString names ++ " " ++ rest ++ String newline "")%string.

(** An element of the table; the mean of the parameters, weighted with the numbers of atoms. *)
Definition known (e : string) : Prop := exists v, element_volume e = Ok v.
Definition zsum (l : list Z) : Z := fold_right Z.add 0 l.
Definition weighted (param : Z -> Q) (l : list (string * Z)) : Q :=
  fold_right (fun p s => (inject_Z (snd p) * (match element_volume (fst p) with Ok v => param v | Err _ => 0 end) + s)%Q) 0%Q l.

