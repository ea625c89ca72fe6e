(** Model of the command line of the enumeration: enumeration.py:342-391 [_script_enum] and the steps it calls, 19-50
    [_enum_in], 52-120 [_polya_out] and 124-213 [_enum_out], as they read and write the files of a directory. *)
From Coq Require Import QArith.
From Verif Require Import TextModel PyBase Mat3 ReduceModel HNFModel PolyaModel ConcsModel SuperModel EnumSysModel DistModel FilesModel EnumOutModel RunModel LatticeInModel.
Local Open Scope Z_scope.

(** ** Directories *)
(** Names and texts of the files; every name occurs once. *)
Definition dir : Type := list (string * string).
Definition dfile (d : dir) (f : string) : option string := dget String.eqb d f.
Definition names (d : dir) : list string := map fst d.
(** [open(f, 'w')], write, close. *)
Definition dput (d : dir) (f t : string) : dir := (f, t) :: filter (fun e => negb (String.eqb (fst e) f)) d.
Definition after (d : dir) (ws : list (string * string)) : dir := fold_left (fun d w => dput d (fst w) (snd w)) ws d.
(** A program: the texts it leaves in the files it writes, in order, and how it ends. *)
Definition act (A : Type) : Type := dir -> list (string * string) * res A.
Definition aret {A} (a : A) : act A := fun _ => ([], Ok a).
Definition abind {A B} (m : act A) (k : A -> act B) : act B := fun d =>
  match m d with
  | (ws, Err e) => (ws, Err e)
  | (ws, Ok a) => let '(ws', r) := k a (after d ws) in (ws ++ ws', r)
  end.
Definition lift {A} (r : res A) : act A := fun _ => ([], r).
Definition awrite (f t : string) : act unit := fun _ => ([(f, t)], Ok tt).
Definition aread (f : string) : act string := fun d => ([], match dfile d f with Some t => Ok t | None => Err IOError end).
Definition alook {A} (g : dir -> A) : act A := fun d => ([], Ok (g d)).
Fixpoint aeach {A} (f : A -> act unit) (l : list A) : act unit :=
  match l with [] => aret tt | x :: l' => abind (f x) (fun _ => aeach f l') end.

(** ** What is not the directory's business: the interpreter, the order of [os.listdir], random numbers, the clock. *)
Record env : Type := {
  e_version : pyversion; e_fuel : nat; e_listdir : list string -> list string; e_rnd0 : nat -> bool;
  e_draw : nat -> nat -> Z -> Z; e_rnd : nat -> nat -> bool; e_shuffled : nat -> list Z -> list Z; e_date : string }.

(** The options, enumeration.py:266-322.  [-seed] chooses the random numbers; [-visualize] and [-profile] are left out;
    [a_accept] is whether a valid rate is given ([Err] for one above 1). *)
Record args : Type := {
  a_polya : bool; a_enum : bool; a_lattice : string; a_input : option string; a_distribution : option (list string);
  a_savedist : bool; a_outfile : option string; a_sizes : option (Z * Z); a_accept : res bool; a_super : bool;
  a_filter : option (string * string) }.

(** [glob(f + ".*")], for names without wildcards. *)
Fixpoint prefix_of (p s : string) : bool :=
  match p, s with
  | EmptyString, _ => true
  | String a p', String b s' => Ascii.eqb a b && prefix_of p' s'
  | String _ _, EmptyString => false
  end.
Definition globbed (f : string) (d : dir) : bool := existsb (prefix_of (f ++ ".")) (names d).

(** ** -polya *)
(** [args["outfile"]+"."+str(s)]. *)
Definition sized (f : string) (s : Z) : string := (f ++ "." ++ str s)%string.
(** Line 68 comes before the file is opened; what a failing count leaves in it is its heading and some lines (here: nothing). *)
Definition polya_step (e : env) (su : setup) (out : string) : act unit :=
  aeach (fun s => match get_HNFs (s_pg su) (s_D su) (s_bas su) s with
                  | Err x => lift (Err x)
                  | Ok _ => match polya_of_size (e_version e) (e_fuel e) su s with
                            | Ok t => awrite (sized out s) t
                            | Err x => abind (awrite (sized out s) EmptyString) (fun _ => lift (Err x))
                            end
                  end) (range_up (s_lo su) (s_hi su + 1)).
(** [read_lattice] and what depends on it; the code finds an unusable lattice when it first uses it. *)
Definition lattice_step (f : string) : act (lattice * setup) :=
  abind (aread f) (fun t => abind (lift (read_lattice t)) (fun par => abind (lift (setup_of par)) (fun su => aret (par, su)))).
Definition polya_main (e : env) (lat out : string) : act unit := abind (lattice_step lat) (fun p => polya_step e (snd p) out).

(** ** -distribution *)
(** structures.py:63, 237-252: the kinds of distribution. *)
Definition kind_of (s : string) : res ftype :=
  let l := lower_all s in
  if String.eqb l "all" then Ok FAll else if String.eqb l "shape" then Ok FShape else if String.eqb l "conc" then Ok FConc
  else if String.eqb l "size" then Ok FSize else Err ValueError.
(** structures.py:442-456 and 218: the filter. *)
Definition filter_step (flt : option (string * string)) : act filter_by :=
  match flt with
  | None => aret NoFilter
  | Some (kind, f) => abind (aread f) (fun t =>
      if String.eqb kind "shape" || String.eqb kind "conc"
      then abind (lift (rmap (fun l => rmap int_of (words l)) (filter (fun l => negb (contains "#" l)) (lines t))))
             (fun rows => aret (read_filter (String.eqb kind "shape") rows))
      else lift (Err ValueError))
  end.
(** enumeration.py:19-50 with structures.py:395-465; [lat] as -lattice, [input], [out], [dist] as the caller sets them.
    The words of a filter line that are not used need not be numbers in the code. *)
Definition enum_in_step (e : env) (a : args) (input out : string) (dist : list string) : act unit :=
  abind (alook (globbed input)) (fun there =>
  abind (if there then aret tt else polya_main e (a_lattice a) input) (fun _ =>
  match dist with
  | [kind; number] =>
      abind (lift (if String.eqb (lower_all number) "all" then Ok None else do n <- int_of number; Ok (Some n))) (fun wanted =>
      abind (alook (fun d => e_listdir e (names d))) (fun files =>
      abind (lift (match a_sizes a with
                   | None => found_sizes input files
                   | Some (lo, hi) => let ss := range_up lo hi in
                       if forallb (fun s => existsb (String.eqb (sized input s)) files) ss then Ok ss else Err ValueError
                   end)) (fun sizes =>
      abind (filter_step (a_filter a)) (fun flt =>
      abind (lift (kind_of kind)) (fun ft =>
      abind (alook (fun d s => dfile d (sized input s))) (fun file =>
      abind (lift (make_enum_in file sizes ft wanted flt (e_rnd0 e) (a_savedist a))) (fun t =>
      match t with Some t => awrite out t | None => aret tt end)))))))
  | _ => lift (Err IndexError)
  end)).

(** ** -enum *)
(** io_utils.py:113-118: ['{:.7f}'], for the exact number. *)
Definition seven (q : Q) : string :=
  let n := round_even (Qnum q * 10 ^ 7) (Zpos (Qden q)) in
  let m := Z.abs n in
  let d i := String (digit_char (m / 10 ^ i mod 10)) EmptyString in
  ((if (Qnum q <? 0)%Z then "-" else "") ++ str (m / 10 ^ 7)%Z ++ "." ++ d 6 ++ d 5 ++ d 4 ++ d 3 ++ d 2 ++ d 1 ++ d 0)%string.
Definition triple_of (l : list Q) : string * string * string := (seven (nth 0 l 0%Q), seven (nth 1 l 0%Q), seven (nth 2 l 0%Q)).
Definition params_of (date : string) (par : lattice) : params :=
  {| p_date := date; p_bulk := l_bulk par; p_lat := map triple_of (l_vecs par); p_basis := map triple_of (l_bas par);
     p_nspecies := l_nspecies par; p_sizes := l_sizes par; p_restricted := l_restricted par |}.
(** enumeration.py:124-213.  The heading is written first (line 156), the rows at the end (lines 168, 199-211). *)
Definition enum_out_step (e : env) (a : args) (input out : string) : act unit :=
  abind (lattice_step (a_lattice a)) (fun p => let '(par, su) := p in
  abind (alook (fun d => match dfile d input with Some _ => true | None => false end)) (fun there =>
  abind (if there then aret tt else
         abind (alook (globbed "polya.out")) (fun counted =>
         abind (if counted then aret tt else polya_step e su "polya.out") (fun _ =>
         enum_in_step e a "polya.out" input (match a_distribution a with None => ["all"; "all"]%string | Some l => l end)))) (fun _ =>
  abind (aread input) (fun t =>
  abind (lift (read_enum t)) (fun systems =>
  abind (awrite out (text (header (params_of (e_date e) par)))) (fun _ =>
  abind (lift (a_accept a)) (fun accept =>
  abind (lift (do found <- enum_lines (e_version e) (e_draw e) (e_rnd e) (e_shuffled e) (e_fuel e) su (a_super a) accept systems;
               enum_out_file (params_of (e_date e) par) found)) (fun file =>
  awrite out file)))))))).

(** ** [_script_enum] *)
Definition default (o : option string) (s : string) : string := match o with Some x => x | None => s end.
Definition script (e : env) (a : args) : act unit :=
  let out1 := if a_polya a then Some (default (a_outfile a) "polya.out") else a_outfile a in
  let in2 := if a_enum a then Some (default (a_input a) "enum.in") else a_input a in
  let out2 := if a_enum a then Some (default out1 "enum.out") else out1 in
  let has_dist := match a_distribution a with Some (_ :: _) => true | _ => false end in
  let in3 := if has_dist then Some (default in2 "polya.out") else in2 in
  let out3 := if has_dist then Some (default out2 "enum.in") else out2 in
  abind (alook (fun d => match dfile d (a_lattice a) with Some _ => true | None => false end)) (fun lat =>
  if a_polya a && negb lat then lift (Err IOError) else
  if has_dist && negb (Nat.eqb (match a_distribution a with Some l => length l | None => 0%nat end) 2) then lift (Err ValueError) else
  abind (lift (a_accept a)) (fun _ =>
  abind (if a_polya a then polya_main e (a_lattice a) (default out3 EmptyString) else aret tt) (fun _ =>
  abind (if a_enum a then enum_out_step e a (default in3 EmptyString) (default out3 EmptyString) else aret tt) (fun _ =>
  if has_dist && negb (a_enum a)
  then enum_in_step e a (default in3 EmptyString) (default out3 EmptyString) (match a_distribution a with Some l => l | None => [] end)
  else aret tt)))).
