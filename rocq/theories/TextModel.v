(** The Python text primitives that the file-writing and file-reading code uses, on Coq's [string].  Characters are
    [ascii]; the files hold ASCII only. *)
From Coq Require Export String Ascii.
From Verif Require Import PyBase.
Local Open Scope Z_scope.

(** ** Numbers *)
Definition digit_char (d : Z) : ascii := ascii_of_nat (48 + Z.to_nat d).
(** [str(n)] for n >= 0; the fuel suffices for every n (TextProofs.v). *)
Fixpoint digits (fuel : nat) (n : Z) : string :=
  match fuel with
  | O => EmptyString
  | S f => ((if (n <? 10)%Z then EmptyString else digits f (n / 10)%Z) ++ String (digit_char (n mod 10)%Z) EmptyString)%string
  end.
(** [str(z)], [format(z, 'd')]. *)
Definition str (z : Z) : string :=
  if z <? 0 then String "-" (digits (S (Z.to_nat (Z.log2 (- z)))) (- z)) else digits (S (Z.to_nat (Z.log2 z))) z.

Definition char_digit (c : ascii) : option Z :=
  let n := nat_of_ascii c in if ((48 <=? n) && (n <=? 57))%nat then Some (Z.of_nat n - 48) else None.
(** ** Blanks *)
(** [c.isspace()] for ASCII. *)
Definition is_space (c : ascii) : bool := let n := nat_of_ascii c in ((n =? 32) || ((9 <=? n) && (n <=? 13)) || ((28 <=? n) && (n <=? 31)))%nat.
Definition newline : ascii := ascii_of_nat 10.
Fixpoint spaces (n : nat) : string := match n with O => EmptyString | S n' => String " " (spaces n') end.
(** [format(s, ' >w')]. *)
Definition pad (w : nat) (s : string) : string := (spaces (w - String.length s) ++ s)%string.
(** [s.rstrip()], [s.lstrip()]. *)
Fixpoint rstrip (s : string) : string :=
  match s with
  | EmptyString => EmptyString
  | String c s' => match rstrip s' with
                   | EmptyString => if is_space c then EmptyString else String c EmptyString
                   | r => String c r
                   end
  end.
Fixpoint lstrip (s : string) : string :=
  match s with
  | EmptyString => EmptyString
  | String c s' => if is_space c then lstrip s' else s
  end.
(** ** [int] *)
(** Digits; single underscores may stand between them. *)
Fixpoint digits_value (acc : Z) (s : string) : option Z :=
  match s with
  | EmptyString => Some acc
  | String c s' =>
      match char_digit c with
      | Some d => digits_value (10 * acc + d) s'
      | None => if Ascii.eqb c "_"
                then match s' with
                     | String c' s'' => match char_digit c' with Some d => digits_value (10 * acc + d) s'' | None => None end
                     | EmptyString => None
                     end
                else None
      end
  end.
Definition unsigned (s : string) : res Z :=
  match s with
  | EmptyString => Err ValueError
  | String c _ => match char_digit c with
                  | None => Err ValueError
                  | Some _ => match digits_value 0 s with Some v => Ok v | None => Err ValueError end
                  end
  end.
(** [int(s)]: blanks around, a sign. *)
Definition int_of (s : string) : res Z :=
  match lstrip (rstrip s) with
  | EmptyString => Err ValueError
  | String c s' => if Ascii.eqb c "-" then do v <- unsigned s'; Ok (- v)
                   else if Ascii.eqb c "+" then unsigned s' else unsigned (String c s')
  end.

(** [s.split()]: [cur] is the word being read. *)
Fixpoint words_from (cur s : string) : list string :=
  match s with
  | EmptyString => match cur with EmptyString => [] | _ => [cur] end
  | String c s' =>
      if is_space c
      then match cur with EmptyString => words_from EmptyString s' | _ => cur :: words_from EmptyString s' end
      else words_from (cur ++ String c EmptyString)%string s'
  end.
Definition words (s : string) : list string := words_from EmptyString s.
(** [s.split(c)[0]]. *)
Fixpoint before (sep : ascii) (s : string) : string :=
  match s with
  | EmptyString => EmptyString
  | String c s' => if Ascii.eqb c sep then EmptyString else String c (before sep s')
  end.
(** [for line in f]: the lines of a text, without their newlines (the code strips them). *)
Fixpoint lines_from (cur s : string) : list string :=
  match s with
  | EmptyString => match cur with EmptyString => [] | _ => [cur] end
  | String c s' => if Ascii.eqb c newline then cur :: lines_from EmptyString s' else lines_from (cur ++ String c EmptyString)%string s'
  end.
Definition lines (s : string) : list string := lines_from EmptyString s.
(** [''.join(l)], and [sep.join(l)]. *)
Fixpoint join (sep : string) (l : list string) : string :=
  match l with
  | [] => EmptyString
  | [s] => s
  | s :: l' => (s ++ sep ++ join sep l')%string
  end.
(** [s[i]] as a string of one character. *)
Definition char_at (s : string) (i : Z) : res ascii :=
  let n := Z.of_nat (String.length s) in
  let j := if i <? 0 then i + n else i in
  if j <? 0 then Err IndexError else match String.get (Z.to_nat j) s with Some c => Ok c | None => Err IndexError end.
