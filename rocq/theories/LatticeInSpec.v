(** Specification for C59: what a lattice.in file says.  Nothing here refers to the model of the reader except the type of
    its result. *)
From Coq Require Import QArith.
From Verif Require Import TextModel TextProofs PyBase.
Local Open Scope Z_scope.

(** A comment: blanks and a #. *)
Definition comment (l : string) : Prop := exists b r, blank b /\ l = (b ++ String "#" r)%string.
(** The lines of a file are those of [content], in order, with comments anywhere between them. *)
Inductive commented : list string -> list string -> Prop :=
| commented_end : commented [] []
| commented_line l file content : commented file content -> commented (l :: file) (l :: content)
| commented_comment l file content : comment l -> commented file content -> commented (l :: file) content.

(** Decimal numerals: a sign, digits, a point, digits; possibly an e and an exponent. *)
Definition written (ds : list Z) : string := fold_right (fun d s => String (digit_char d) s) EmptyString ds.
Definition positional (ds : list Z) : Z := fold_left (fun a d => 10 * a + d) ds 0.
Definition plain_decimal (w : string) (q : Q) : Prop :=
  exists (sign : string) (s : Z) (ip fp : list Z) (tail : string),
    (sign = EmptyString /\ s = 1 \/ sign = "+"%string /\ s = 1 \/ sign = "-"%string /\ s = -1) /\
    (tail = written fp /\ ip <> [] /\ fp = [] \/ tail = String "." (written fp) /\ ip ++ fp <> []) /\
    Forall (fun d => 0 <= d <= 9) (ip ++ fp) /\ w = (sign ++ written ip ++ tail)%string /\
    (q * inject_Z (10 ^ Z.of_nat (length fp)) == inject_Z (s * positional (ip ++ fp)))%Q.
Definition decimal (w : string) (q : Q) : Prop :=
  plain_decimal w q \/
  exists (m : string) (r : Q) (e : ascii) (sign : string) (s : Z) (ds : list Z),
    plain_decimal m r /\ (e = "e"%char \/ e = "E"%char) /\
    (sign = EmptyString /\ s = 1 \/ sign = "+"%string /\ s = 1 \/ sign = "-"%string /\ s = -1) /\
    ds <> [] /\ Forall (fun d => 0 <= d <= 9) ds /\ w = (m ++ String e (sign ++ written ds))%string /\
    (if s =? 1 then q == r * inject_Z (10 ^ positional ds) else q * inject_Z (10 ^ positional ds) == r)%Q.
(** A line of decimal numerals with blanks between them. *)
Definition decimals (l : string) (qs : list Q) : Prop := qs <> [] /\ Forall2 decimal (words l) qs.
(** A line with one word on it. *)
Definition word_line (l w : string) : Prop := solid w /\ exists b b', blank b /\ blank b' /\ l = (b ++ w ++ b')%string.
Definition same_numbers (a b : list (list Q)) : Prop := Forall2 (Forall2 Qeq) a b.
(** Neither blank nor a comment. *)
Definition plain_line (l : string) : Prop := ~ blank l /\ ~ comment l.
(** The first part of a file: the sizes with single blanks between them, bulk or surface, three lattice vectors, the number of
    species, the number of atoms and their places. *)
Definition crystal_lines (ls : list string) (sizes : list Z) (bulk : bool) (vecs : list (list Q)) (species : Z) (bas : list (list Q)) : Prop :=
  exists l0 l1 c t lv l5 l6 lb, ls = l0 :: l1 :: lv ++ l5 :: l6 :: lb /\
    sizes <> [] /\ l0 = join " " (map str sizes) /\
    word_line l1 (String c t) /\ c <> "#"%char /\ (bulk = true <-> c = "b"%char \/ c = "B"%char) /\
    length lv = 3%nat /\ Forall2 decimals lv vecs /\ word_line l5 (str species) /\
    word_line l6 (str (Z.of_nat (length lb))) /\ Forall2 decimals lb bas.
(** The text whose lines are [file]. *)
Definition text_lines (file : list string) : string := fold_right (fun s r => (s ++ String newline r)%string) EmptyString file.
(** Which file says what: comments anywhere; the crystal; then either F (and anything but blank lines after it), or another
    word, the word for arrows and the restrictions, one line each. *)
Definition file_says (text : string) (sizes : list Z) (bulk : bool) (vecs : list (list Q)) (species : Z) (bas : list (list Q))
    (restricted arrows : bool) (concs : list (list Q)) : Prop :=
  exists file content first rest, Forall no_newline file /\ text = text_lines file /\ commented file content /\ content = first ++ rest /\
    crystal_lines first sizes bulk vecs species bas /\
    match restricted with
    | false => arrows = false /\ concs = [] /\ exists l more, rest = l :: more /\ word_line l "F" /\ Forall plain_line more
    | true => exists l l' lc flag flag', rest = l :: l' :: lc /\ plain_line l /\ plain_line l' /\ word_line l flag /\ flag <> "F"%string /\
                word_line l' flag' /\ (arrows = false <-> flag' = "F"%string) /\ Forall2 decimals lc concs
    end.
