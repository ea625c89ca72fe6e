(** Model of the file enum.out: enumeration.py:166-213 [_enum_out] (the part after [enum_sys]), io_utils.py:101-129
    [write_enum], io_utils.py:205-226 [create_labeling] and io_utils.py:228-328 [read_enum_out]. *)
From Verif Require Import TextModel PyBase Mat3 HNFModel SNFModel SuperModel.
Local Open Scope Z_scope.

(** ** [create_labeling], io_utils.py:205-226 *)
(** A configuration is a list of [arrow, colour] lists, or of colours. *)
Inductive config : Type := Arrowed (sites : list (Z * Z)) | Plain (colors : list Z).
(** The loops of lines 217-224; [config[0]] (line 216) raises on an empty list. *)
Definition create_labeling (c : config) : res (string * string) :=
  match c with
  | Arrowed [] => Err IndexError
  | Plain [] => Err IndexError
  | Arrowed l => Ok (fold_left (fun '(label, arrow) i => (label ++ str (snd i - 1), arrow ++ str (fst i + 1))%string) l (EmptyString, EmptyString))
  | Plain l => Ok (fold_left (fun '(label, arrow) i => (label ++ str (i - 1), arrow ++ "0")%string) l (EmptyString, EmptyString))
  end.

(** ** Writing *)
(** The tuple of enumeration.py:191. *)
Record entry : Type := { e_size : Z; e_hnf : list Z; e_snf : list Z; e_lt : list Z; e_lab : string; e_arr : string }.
(** [itemgetter(0,4)] and Python's order of such pairs. *)
Definition entry_ltb (a b : entry) : bool :=
  (e_size a <? e_size b) || ((e_size a =? e_size b) && String.ltb (e_lab a) (e_lab b)).
(** [sorted(enumlist, key=...)], line 193: a stable sort; here by insertion from the left, after everything that is not
    larger. *)
Fixpoint insert_entry (x : entry) (l : list entry) : list entry :=
  match l with
  | [] => [x]
  | y :: l' => if entry_ltb x y then x :: l else y :: insert_entry x l'
  end.
Definition sort_entries (l : list entry) : list entry := fold_left (fun s x => insert_entry x s) l [].

(** grouptheory.py:909-926 [get_full_HNF]: the six entries of the HNF as a matrix. *)
Definition full_HNF (h : list Z) : mat :=
  let g i := nth i h 0 in ((g 0%nat, 0, 0), (g 1%nat, g 2%nat, 0), (g 3%nat, g 4%nat, g 5%nat)).
Definition flat (M : mat) : list Z := flat_map (fun i => map (fun j => mget M i j) [0; 1; 2]%nat) [0; 1; 2]%nat.
(** enumeration.py:174-191: the entries of one line of enum.in, given what [enum_sys] found. *)
Definition system_entries (hnf : list Z) (configs : list config) : res (list entry) :=
  do (SNF, L, _) <- SmithNormalForm (full_HNF hnf);
  rmap (fun c => do (lab, arr) <- create_labeling c;
                 Ok {| e_size := nth 0 hnf 0 * nth 2 hnf 0 * nth 5 hnf 0; e_hnf := hnf;
                       e_snf := [mget SNF 0 0; mget SNF 1 1; mget SNF 2 2]; e_lt := flat L; e_lab := lab; e_arr := arr |}) configs.

(** Lines 161-165 [fmtn]. *)
Definition fmtn (l : list Z) (n : nat) : string := fold_right (fun i s => (pad n (str i) ++ s)%string) EmptyString l.
(** Lines 158-159 and 208: one row. *)
Definition row (count_t count_s : Z) (e : entry) : string :=
  (pad 10 (str count_t) ++ pad 10 (str 1) ++ pad 8 (str 1) ++ pad 9 (str 1) ++ pad 9 (str 1) ++ pad 12 (str count_s) ++
   pad 4 (str (e_size e)) ++ pad 6 (str 1) ++ pad 10 (fmtn (e_snf e) 3) ++ "  " ++ pad 18 (fmtn (e_hnf e) 3) ++ "  " ++
   pad 44 (fmtn (e_lt e) 5) ++ "    " ++ e_lab e ++ "    " ++ pad 21 (e_arr e))%string.
(** Lines 200-213. *)
Fixpoint rows (count_t count_s last_sz : Z) (l : list entry) : list string :=
  match l with
  | [] => []
  | e :: l' => let count_s' := if negb (e_size e =? last_sz) then 1 else count_s + 1 in
               row count_t count_s' e :: rows (count_t + 1) count_s' (e_size e) l'
  end.
(** Lines 169-213: the loop over the lines of enum.in and the rows.  [sortenum] is assigned inside the loop only. *)
Definition enum_out_rows (systems : list (list Z * list config)) : res (list string) :=
  do parts <- rmap (fun '(hnf, configs) => system_entries hnf configs) systems;
  match systems with
  | [] => Err NameError
  | _ => let sortenum := sort_entries (concat parts) in
         Ok (match sortenum with [] => [] | e :: _ => rows 1 0 (e_size e) sortenum end)
  end.

(** io_utils.py:101-129 [write_enum].  The numbers with seven decimals are given as text; so is the date. *)
Record params : Type := {
  p_date : string; p_bulk : bool; p_lat : list (string * string * string); p_basis : list (string * string * string);
  p_nspecies : Z; p_sizes : list Z; p_restricted : bool }.
Definition triple (indent : string) (l : string * string * string) : string :=
  let '(x, y, z) := l in (indent ++ x ++ "       " ++ y ++ "       " ++ z)%string.
Definition header (p : params) : list string :=
  [("Random structure enumeration: " ++ p_date p)%string; if p_bulk p then "bulk"%string else "surface"%string] ++
  map (triple " ") (p_lat p) ++ [("    " ++ str (Z.of_nat (length (p_basis p))))%string] ++ map (triple "  ") (p_basis p) ++
  [(" " ++ str (p_nspecies p) ++ "-nary case")%string; ("   " ++ join "   " (map str (p_sizes p)))%string; " 1e-7"%string;
   "Concentration check:"%string; if p_restricted p then "    T"%string else "    F"%string;
   "full list of labelings (including incomplete labelings) is used "%string;
   "Equivalency list: 1 #Not used in the random enumeration algorithm "%string;
   "start   #tot      HNF     Hdegn   labdegn   Totdegn   #size idx    pg    SNF             HNF                 Left transform                          labeling                 directions"%string].
(** The text: [write_enum] ends with an empty line without newline, every row ends with one. *)
Definition text (l : list string) : string := fold_right (fun s r => (s ++ String newline r)%string) EmptyString l.
Definition enum_out_file (p : params) (systems : list (list Z * list config)) : res string :=
  do r <- enum_out_rows systems; Ok (text (header p ++ r)).

(** ** [read_enum_out], io_utils.py:228-328 *)
Record structure : Type := {
  strN : Z; hnfN : Z; hnf_degen : Z; lab_degen : Z; tot_degen : Z; sizeN : Z; cells : Z; pgOps : Z;
  sdiag : vec; sHNF : mat; sL : mat; labeling : string; directions_of : string }.
(** [float(v)] is left out: the numerals are kept. *)
Record system : Type := {
  s_title : string; s_bulksurf : string; s_plattice : list (list string); s_nD : Z; s_dvecs : list (list string);
  s_k : Z; s_eps : string }.
Definition no_system : system :=
  {| s_title := ""; s_bulksurf := ""; s_plattice := []; s_nD := 0; s_dvecs := []; s_k := 0; s_eps := "" |}.

(** Lines 301-321. *)
Definition read_row (temp : string) : res structure :=
  let data := words temp in
  let num i := do s <- get data i; int_of s in
  do v0 <- num 0%nat; do v1 <- num 1%nat; do v2 <- num 2%nat; do v3 <- num 3%nat; do v4 <- num 4%nat; do v5 <- num 5%nat;
  do v6 <- num 6%nat; do v7 <- num 7%nat; do v8 <- num 8%nat; do v9 <- num 9%nat; do v10 <- num 10%nat; do v11 <- num 11%nat;
  do v12 <- num 12%nat; do v13 <- num 13%nat; do v14 <- num 14%nat; do v15 <- num 15%nat; do v16 <- num 16%nat; do v17 <- num 17%nat;
  do v18 <- num 18%nat; do v19 <- num 19%nat; do v20 <- num 20%nat; do v21 <- num 21%nat; do v22 <- num 22%nat; do v23 <- num 23%nat;
  do v24 <- num 24%nat; do v25 <- num 25%nat; do v26 <- get data 26%nat; do v27 <- get data 27%nat;
  Ok {| strN := v0; hnfN := v1; hnf_degen := v2; lab_degen := v3; tot_degen := v4; sizeN := v5; cells := v6; pgOps := v7;
        sdiag := (v8, v9, v10); sHNF := ((v11, 0, 0), (v12, v13, 0), (v14, v15, v16));
        sL := ((v17, v18, v19), (v20, v21, v22), (v23, v24, v25)); labeling := v26; directions_of := v27 |}.

(** Lines 270-321: one line of the file, number [n] (from 1); [wanted] is [lc in structures]. *)
Definition read_line (wanted : Z -> bool) (n : Z) (line : string) (st : system * list structure) : res (system * list structure) :=
  let temp := rstrip line in
  if String.prefix "#" temp then Ok st else
  let '(s, data) := st in
  let title := if n =? 1 then temp else s_title s in
  let bulksurf := if n =? 2 then temp else s_bulksurf s in
  let plattice := if (n =? 3) || (n =? 4) || (n =? 5) then s_plattice s ++ [words temp] else s_plattice s in
  do nD <- (if n =? 6 then int_of (lstrip temp) else Ok (s_nD s));
  let dvecs := if negb (nD =? 0) && (7 <=? n) && (n <? 7 + nD) then s_dvecs s ++ [words temp] else s_dvecs s in
  do k <- (if n =? 7 + nD then int_of (lstrip (rstrip (before "-" temp))) else Ok (s_k s));
  let eps := if n =? 9 + nD then lstrip temp else s_eps s in
  let s' := {| s_title := title; s_bulksurf := bulksurf; s_plattice := plattice; s_nD := nD; s_dvecs := dvecs; s_k := k; s_eps := eps |} in
  let lc := n - (14 + nD) in
  if wanted lc && negb (nD =? 0)
  then do r <- read_row temp; Ok (s', data ++ [r])
  else Ok (s', data).
Fixpoint read_lines (wanted : Z -> bool) (n : Z) (ls : list string) (st : system * list structure) : res (system * list structure) :=
  match ls with
  | [] => Ok st
  | l :: ls' => do st' <- read_line wanted n l st; read_lines wanted (n + 1) ls' st'
  end.
(** Lines 255-262: [structures] is [None] (all: range(1, count-13), [count] being the number of lines less one) or a
    list of numbers. *)
Definition read_enum_out (file : string) (structures : option (list Z)) : res (system * list structure) :=
  let ls := lines file in
  match structures, ls with
  | None, [] => Err NameError
  | None, _ => read_lines (fun lc => (1 <=? lc) && (lc <? Z.of_nat (length ls) - 1 - 13)) 1 ls (no_system, [])
  | Some wanted, _ => read_lines (fun lc => existsb (Z.eqb lc) wanted) 1 ls (no_system, [])
  end.

(** ** The command line of makeStr, phenumStr.py:167-189 *)
Definition lower (c : ascii) : ascii := let n := nat_of_ascii c in if ((65 <=? n) && (n <=? 90))%nat then ascii_of_nat (n + 32) else c.
Fixpoint lower_all (s : string) : string := match s with EmptyString => EmptyString | String c s' => String (lower c) (lower_all s') end.
(** phenumStr.py:4-17 [RepresentsInt]. *)
Definition represents_int (s : string) : bool := match int_of s with Ok _ => true | Err _ => false end.
(** [range(a, b)]. *)
Definition py_range (a b : Z) : list Z := map (fun i => a + Z.of_nat i) (seq 0 (Z.to_nat (b - a))).
(** The value of [args["structures"]] passed on; argparse gives at least one word. *)
Definition select (structures : list string) : res (option (list Z)) :=
  match structures with
  | [] => Err IndexError
  | s :: rest =>
      if negb (represents_int s) && String.eqb (lower_all s) "all" then Ok None
      else match rest with
           | [] => if represents_int s then do v <- int_of s; Ok (Some [v]) else Err ValueError
           | [t] => do a <- int_of s; do b <- int_of t; Ok (Some (py_range a (b + 1)))
           | _ => Err ValueError
           end
  end.
(** phenumStr.py:183-206 and 19-33: the structures [run] passes to the loop that writes the POSCARs. *)
Definition make_selected (file : string) (structures : list string) : res (system * list structure) :=
  do sel <- select structures; read_enum_out file sel.
