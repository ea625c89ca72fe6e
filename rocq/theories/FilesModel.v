(** Model of the text of the files that pass from one step of a run to the next: polya.out.<size> (written by
    enumeration.py:52-120 [_polya_out], read by structures.py:259-290 [_distribution_summary]) and enum.in (written by
    structures.py:340-393 [_print_distribution], read by io_utils.py:77-99 [read_enum]).  Characters are ASCII. *)
From Verif Require Import TextModel PyBase DistModel.
Local Open Scope Z_scope.

(** ** Text *)
(** [format(s, ' <w')]; also [format(n, ' <wd')] for an integer. *)
Definition padl (w : nat) (s : string) : string := (s ++ spaces (w - String.length s))%string.
Definition strcat (l : list string) : string := fold_right append EmptyString l.
(** [s.split(sep)] for a separator of one character. *)
Fixpoint split_from (sep : ascii) (cur s : string) : list string :=
  match s with
  | EmptyString => [cur]
  | String c s' => if Ascii.eqb c sep then cur :: split_from sep EmptyString s' else split_from sep (cur ++ String c EmptyString)%string s'
  end.
Definition split_on (sep : ascii) (s : string) : list string := split_from sep EmptyString s.
(** Lines, each ended by a newline. *)
Definition text_of (l : list string) : string := fold_right (fun s r => (s ++ String newline r)%string) EmptyString l.

(** numpy's [loadtxt(file, int)]: the part of a line before '#' is split at blanks; lines without a word are skipped;
    the lines must have the same number of words; each word must be an integer of 64 bits.  (The class of the exception for
    an integer out of range depends on numpy's version; here it is ValueError.) *)
Definition int64 (z : Z) : bool := (- 2 ^ 63 <=? z) && (z <? 2 ^ 63).
Definition int64_of (s : string) : res Z := do z <- int_of s; if int64 z then Ok z else Err ValueError.
Definition loadtxt (text : string) : res (list (list Z)) :=
  let rows := filter (fun ws => match ws with [] => false | _ => true end) (map (fun l => words (before "#" l)) (lines text)) in
  match rows with
  | [] => Ok []
  | r :: _ => if forallb (fun ws => Nat.eqb (length ws) (length r)) rows then rmap (rmap int64_of) rows else Err ValueError
  end.

(** ** polya.out *)
(** enumeration.py:76-79: the heading. *)
Definition polya_heading (concs : list (list Z)) : string :=
  (padl 28 "# HNF" ++ strcat (map (fun c => padl 50 (join ":" (map str c))) concs) ++ padl 50 "Total")%string.
(** Lines 83-113: the line of one HNF, given what [polya] returns for each concentration (lines 95-109, RunModel.v).  The
    test of line 96 is true: a concentration has an entry per species. *)
Definition polya_row (hnf counts : list Z) : string :=
  ("  " ++ padl 26 (join " " (map str hnf)) ++ strcat (map (fun n => padl 50 (str n)) counts) ++ padl 10 (str (sum_Z counts)))%string.
(** Lines 82 and 112: the totals per concentration. *)
Definition conc_totals (concs : list (list Z)) (rows : list (list Z * list Z)) : list Z :=
  fold_left (fun totals row => map (fun '(t, n) => t + n) (combine totals (snd row))) rows (map (fun _ => 0) concs).
(** Line 114. *)
Definition rule (concs : list (list Z)) : string := ("# " ++ strcat (map (fun _ => "-"%string) (seq 0 (length concs * 10 + 10 + 30))))%string.
(** Lines 115-118. *)
Definition polya_last (totals : list Z) : string :=
  (padl 28 "  0 0 0 0 0 0" ++ strcat (map (fun n => padl 50 (str n)) totals) ++ padl 50 (str (sum_Z totals)))%string.
(** Lines 76-119: the file, given the rows (HNF, counts). *)
Definition polya_text (concs : list (list Z)) (rows : list (list Z * list Z)) : string :=
  text_of ([polya_heading concs] ++ map (fun '(h, counts) => polya_row h counts) rows ++ [rule concs; polya_last (conc_totals concs rows)]).
Definition polya_file (concs hnfs : list (list Z)) (count : list Z -> list Z -> Z) : string :=
  polya_text concs (map (fun h => (h, map (count h) concs)) hnfs).

(** structures.py:283-298: the concentrations from the first line, the numbers from the rest.  A table of fewer than two
    rows is one-dimensional, which the indexing of line 294 does not accept. *)
Definition read_polya (text : string) : res table :=
  let headings := words (hd EmptyString (lines text)) in
  do concs <- rmap (fun h => rmap int_of (split_on ":" h)) (removelast (skipn 2 headings));
  do raw <- loadtxt text;
  match raw with
  | [] | [_] => Err IndexError
  | _ => Ok {| t_concs := concs;
               t_rows := map (fun r => (firstn 6 r, removelast (skipn 6 r), last r 0)) (removelast raw);
               t_last := removelast (skipn 6 (last raw [])) |}
  end.

(** ** enum.in *)
(** structures.py:374-393: [' '.join(map(str, HNF))] raises for [None]; a concentration [None] is written as nothing. *)
Definition spaced (l : list Z) : string := join " " (map str l).
Definition of_conc (c : option (list Z)) : list Z := match c with Some c => c | None => [] end.
Definition distr_heading (ft : ftype) : string :=
  match ft with
  | FAll => ("# " ++ padl 28 "HNF" ++ "  " ++ padl 10 "Conc." ++ "  " ++ "Number")%string
  | FShape => ("# " ++ padl 18 "HNF" ++ "  " ++ "Number")%string
  | FConc => ("# " ++ padl 6 "Size" ++ "  " ++ padl 6 "Conc." ++ "  " ++ "Number")%string
  | FSize => ("# " ++ padl 6 "Size" ++ "  " ++ "Number")%string
  end.
Definition distr_line (ft : ftype) (kv : key * Z) : res string :=
  let '((size, hnf, conc), value) := kv in
  match ft, hnf with
  | FAll, Some h => Ok ("  " ++ padl 28 (spaced h) ++ "  " ++ padl 10 (spaced (of_conc conc)) ++ "  " ++ str value)%string
  | FShape, Some h => Ok ("  " ++ padl 18 (spaced h) ++ "  " ++ str value)%string
  | FAll, None | FShape, None => Err TypeError
  | FConc, _ => Ok ("  " ++ padl 6 (str size) ++ "  " ++ padl 6 (spaced (of_conc conc)) ++ "  " ++ str value)%string
  | FSize, _ => Ok ("  " ++ padl 6 (str size) ++ "  " ++ str value)%string
  end.
Definition distr_file (ft : ftype) (distr : list (key * Z)) : res string :=
  do l <- rmap (distr_line ft) distr; Ok (text_of (distr_heading ft :: l)).

(** io_utils.py:77-99. *)
Definition read_enum (text : string) : res (list (list Z * list Z * Z)) :=
  do raw <- loadtxt text;
  Ok (map (fun i => (firstn 6 i, removelast (skipn 6 i), last i 0)) raw).

(** ** [make_enum_in] *)
(** structures.py:425-436: the sizes for which the directory holds a file (when none are asked for). *)
Definition contains (form f : string) : bool := match String.index 0 form f with Some _ => true | None => false end.
Definition first_char (s : string) : option ascii := match s with EmptyString => None | String c _ => Some c end.
Definition found_sizes (infile : string) (files : list string) : res (list Z) :=
  let ours := filter (fun f => contains infile f && match first_char f, first_char infile with Some a, Some b => Ascii.eqb a b | _, _ => false end) files in
  do sizes <- rmap (fun f => int_of (last (split_on "." f) EmptyString)) ours;
  match sizes with [] => Err ValueError | _ => Ok sizes end.
(** structures.py:274-290 for every size: the files that exist, read. *)
Definition read_tables (file : Z -> option string) (sizes : list Z) : res (list (Z * table)) :=
  do l <- rmap (fun s => match file s with None => Ok [] | Some t => do x <- read_polya t; Ok [(s, x)] end) sizes; Ok (concat l).
(** structures.py:438-465: the text written to [outfile]; [save] as in line 465. *)
Definition make_enum_in (file : Z -> option string) (sizes : list Z) (ft : ftype) (wanted : option Z) (flt : filter_by) (rnd : nat -> bool) (save : bool) : res (option string) :=
  do tabs <- read_tables file sizes;
  let distr := distribute (fun s => dget Z.eqb tabs s) sizes ft wanted flt rnd in
  match ft with
  | FAll => do t <- distr_file FAll distr; Ok (Some t)
  | _ => if save then do t <- distr_file ft distr; Ok (Some t) else Ok None
  end.
