(** Model of structures.py (the distribution of a number of structures over the polya counts) and of the table that
    enumeration.py:52-120 [_polya_out] writes.  Files are modelled as the table of numbers they hold (the text of the
    polya files is in TextModel.v where it matters); dictionaries are association lists in insertion order (CPython's
    order), a later assignment to an existing key replacing its value in place. *)
From Verif Require Import PyBase.
Local Open Scope Z_scope.

(** ** Dictionaries *)
Section Dict.
Context {K V : Type} (eqb : K -> K -> bool).
(** [d.get(k)] *)
Fixpoint dget (d : list (K * V)) (k : K) : option V :=
  match d with
  | [] => None
  | (k', v) :: d' => if eqb k k' then Some v else dget d' k
  end.
(** [d[k] = v] *)
Fixpoint dset (d : list (K * V)) (k : K) (v : V) : list (K * V) :=
  match d with
  | [] => [(k, v)]
  | (k', v') :: d' => if eqb k k' then (k', v) :: d' else (k', v') :: dset d' k v
  end.
(** [{k: v for k, v in pairs}] *)
Definition dict_of (pairs : list (K * V)) : list (K * V) := fold_left (fun d kv => dset d (fst kv) (snd kv)) pairs [].
End Dict.
(** [d[k] += v] for a key that is there. *)
Definition dadd {K} (eqb : K -> K -> bool) (d : list (K * Z)) (k : K) (v : Z) : list (K * Z) :=
  match dget eqb d k with
  | Some w => dset eqb d k (w + v)
  | None => dset eqb d k v
  end.

(** ** The polya files *)
(** One file polya.out.<size>: the concentrations of the heading; a row per HNF (six entries, the counts, their total);
    the last row with the totals per concentration. *)
Record table : Type := { t_concs : list (list Z); t_rows : list (list Z * list Z * Z); t_last : list Z }.

(** enumeration.py:80-119 [_polya_out] for one size: [count hnf conc] is the number [polya] returns.  [conc_totals]
    (line 88) is updated per row (line 112). *)
Definition polya_table (concs hnfs : list (list Z)) (count : list Z -> list Z -> Z) : table :=
  {| t_concs := concs;
     t_rows := map (fun h => (h, map (count h) concs, sum_Z (map (count h) concs))) hnfs;
     t_last := fold_left (fun totals h => map (fun '(t, c) => t + count h c) (combine totals concs)) hnfs (map (fun _ => 0) concs) |}.

(** ** [_distribution_summary], structures.py:259-338 *)
Record data : Type := {
  d_distr : list (list Z * list (list Z * Z));
  d_ctotals : list (list Z * Z);
  d_stotals : list (list Z * Z);
  d_gtotal : Z }.
Inductive filter_by : Type := NoFilter | ByShape (hnfs : list (list Z)) | ByConc (concs : list (list Z)).
Definition zl_in (x : list Z) (l : list (list Z)) : bool := existsb (zlist_eqb x) l.

Definition summary_one (flt : filter_by) (t : table) : data :=
  let concs := t_concs t in
  let zeros := dict_of zlist_eqb (map (fun c => (c, 0)) concs) in
  let '(distr, ctotals, stotals) :=
    match flt with
    | NoFilter => (* lines 294-298 *)
        (dict_of zlist_eqb (map (fun '(h, vs, _) => (h, dict_of zlist_eqb (combine concs vs))) (t_rows t)),
         dict_of zlist_eqb (combine concs (t_last t)),
         dict_of zlist_eqb (map (fun '(h, _, v) => (h, v)) (t_rows t)))
    | ByShape hnfs => (* lines 299-309 *)
        let kept := filter (fun '(h, _, _) => zl_in h hnfs) (t_rows t) in
        (dict_of zlist_eqb (map (fun '(h, vs, _) => (h, dict_of zlist_eqb (combine concs vs))) kept),
         fold_left (fun ct '(h, vs, _) => fold_left (fun ct '(c, v) => dadd zlist_eqb ct c v) (combine concs vs) ct) kept zeros,
         dict_of zlist_eqb (map (fun '(h, _, v) => (h, v)) kept))
    | ByConc wanted => (* lines 310-328; every row of the table is in [distr], so line 327 keeps every row total *)
        let pick vs := filter (fun '(c, _) => zl_in c wanted) (combine concs vs) in
        (dict_of zlist_eqb (map (fun '(h, vs, _) => (h, dict_of zlist_eqb (pick vs))) (t_rows t)),
         fold_left (fun ct '(h, vs, _) => fold_left (fun ct '(c, v) => dadd zlist_eqb ct c v) (pick vs) ct) (t_rows t) zeros,
         dict_of zlist_eqb (map (fun '(h, _, v) => (h, v)) (t_rows t)))
    end in
  {| d_distr := distr; d_ctotals := ctotals; d_stotals := stotals; d_gtotal := sum_Z (map snd ctotals) |}.

(** The loop over the cell sizes; a missing file is reported and skipped (lines 278-281). *)
Definition distribution_summary (file : Z -> option table) (sizes : list Z) (flt : filter_by) : list (Z * data) * Z :=
  fold_left (fun '(ds, g) s =>
    match file s with
    | None => (ds, g)
    | Some t => let d := summary_one flt t in (dset Z.eqb ds s d, g + d_gtotal d)
    end) sizes ([], 0).

(** ** [_distribute], structures.py:37-168 *)
Inductive ftype : Type := FAll | FShape | FConc | FSize.
Definition key : Type := (Z * option (list Z) * option (list Z))%type.
Definition olist_eqb (a b : option (list Z)) : bool :=
  match a, b with Some x, Some y => zlist_eqb x y | None, None => true | _, _ => false end.
Definition key_eqb (a b : key) : bool :=
  let '(s, h, c) := a in let '(s', h', c') := b in (s =? s') && olist_eqb h h' && olist_eqb c c'.

(** Lines 126-155: the keys and their limits.  The weight is limit / gtotal * n. *)
Definition relvals (ft : ftype) (ds : list (Z * data)) : list (key * Z) :=
  match ft with
  | FAll => flat_map (fun '(s, d) => flat_map (fun '(h, distr) => map (fun '(c, v) => ((s, Some h, Some c), v)) distr) (d_distr d)) ds
  | FShape => flat_map (fun '(s, d) => map (fun '(h, v) => ((s, Some h, None), v)) (d_stotals d)) ds
  | FConc => flat_map (fun '(s, d) => map (fun '(c, v) => ((s, None, Some c), v)) (d_ctotals d)) ds
  | FSize => map (fun '(s, d) => ((s, None, None), d_gtotal d)) ds
  end.

(** Lines 73-82 [vinsert]; the state is (result, rtotal). *)
Definition vinsert (k : key) (value n : Z) (st : list (key * Z) * Z) : (list (key * Z) * Z) * bool :=
  let '(result, rtotal) := st in
  if rtotal <? n
  then (if 0 <? value then (dadd key_eqb result k value, rtotal + value) else (result, rtotal), true)
  else (st, false).

(** Lines 89-91: everything is wanted; the result of [vinsert] is not looked at. *)
Definition assign_all (rel : list (key * Z)) (n : Z) : list (key * Z) * Z :=
  fold_left (fun st '(k, limit) => fst (vinsert k limit n st)) rel ([], 0).

(** Lines 118-119: the integer part of the weight, and one more with a probability equal to the fractional part: the
    stream says whether [random() < rf] when rf is not zero.  Weights are exact rationals here, doubles there. *)
Definition draw (limit delta gtotal : Z) (b : bool) : Z :=
  limit * delta / gtotal + (if (limit * delta) mod gtotal =? 0 then 0 else if b then 1 else 0).
(** Lines 112-121: one pass over the keys, until [vinsert] says there are enough. *)
Fixpoint assign_round (rel : list (key * Z)) (delta gtotal n : Z) (rnd : nat -> bool) (i : nat) (st : list (key * Z) * Z) :
    (list (key * Z) * Z) * nat :=
  match rel with
  | [] => (st, i)
  | (k, limit) :: rel' =>
      let '(st', go) := vinsert k (draw limit delta gtotal (rnd i)) n st in
      if go then assign_round rel' delta gtotal n rnd (S i) st' else (st', S i)
  end.
(** Lines 109-122: at most four rounds. *)
Fixpoint assign_rounds (rounds : nat) (rel : list (key * Z)) (gtotal n : Z) (rnd : nat -> bool) (i : nat) (st : list (key * Z) * Z) :
    list (key * Z) * Z :=
  match rounds with
  | O => st
  | S r => if snd st <? n
           then let '(st', i') := assign_round rel (n - snd st) gtotal n rnd i st in assign_rounds r rel gtotal n rnd i' st'
           else st
  end.
(** Line 107: a stable sort, largest weight first. *)
Fixpoint insert_desc (x : key * Z) (l : list (key * Z)) : list (key * Z) :=
  match l with
  | [] => [x]
  | y :: l' => if snd y <? snd x then x :: l else y :: insert_desc x l'
  end.
Definition sort_desc (l : list (key * Z)) : list (key * Z) := fold_left (fun s x => insert_desc x s) l [].

(** Lines 60-70 and 126-168.  [wanted] is the parameter [n]. *)
Definition distribute (file : Z -> option table) (sizes : list Z) (ft : ftype) (wanted : option Z) (flt : filter_by) (rnd : nat -> bool) :
    list (key * Z) :=
  let '(ds, gtotal) := distribution_summary file sizes flt in
  let n := match wanted with None => gtotal | Some n => if gtotal <? n then gtotal else n end in
  let rel := relvals ft ds in
  if n =? gtotal then fst (assign_all rel n)
  else fst (assign_rounds 4 (sort_desc rel) gtotal n rnd 0 ([], 0)).

(** structures.py:445-453 [make_enum_in]: the lines of the filter file as lists of integers; for concentrations only the
    second and third number of the line are read. *)
Definition read_filter (by_shape : bool) (lines : list (list Z)) : filter_by :=
  if by_shape then ByShape (map (firstn 6) lines) else ByConc (map (fun l => firstn 2 (skipn 1 l)) lines).
