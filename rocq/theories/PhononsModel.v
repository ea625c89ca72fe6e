(** Model of /repo/phenum/phonons.py (everything except [enum_sys], which is in EnumSysModel.v). *)
From Verif Require Import PyBase.
Local Open Scope Z_scope.

(** A group operation: (site permutation, arrow permutation), the lists [a[0]] and [a[1]]. *)
Notation op := (list nat * list nat)%type.

(** A decorated site: (arrow, species), the Python list [[arrow, species]]; arrow < 0 = no arrow. *)
Notation site := (Z * Z)%type.
Definition site_eqb (a b : site) : bool := (fst a =? fst b) && (snd a =? snd b).
Definition arrowed (s : site) : bool := 0 <=? fst s.

(** The array [tcol] of [_find_concentrations]/[_color_list] in which visited entries are overwritten
    by the integer 0: [None] models that 0. *)
Definition zero_out {A} (eqb : A -> A -> bool) (a : A) (tcol : list (option A)) : list (option A) :=
  map (fun y => match y with Some b => if eqb b a then None else Some b | None => None end) tcol.
Definition ocount {A} (eqb : A -> A -> bool) (a : A) (tcol : list (option A)) : nat :=
  length (filter (fun y => match y with Some b => eqb b a | None => false end) tcol).

(** phonons.py:9-28 [_find_concentrations].  [enumerate(tcol)] reads the list while it is being
    overwritten, so [tcol_i] is the current content.  The two assignments 24-27 set every entry equal
    to [tcol_i], the i-th included, to 0. *)
Definition find_concentrations {A} (eqb : A -> A -> bool) (col : list (option A)) : list nat :=
  snd (fold_left (fun st i => match nth i (fst st) None with
                              | Some a => (zero_out eqb a (fst st), snd st ++ [ocount eqb a (fst st)])
                              | None => st
                              end)
                 (seq 0 (length col)) (col, [])).

(** tree.py:95-115 [_color_list] (placed here because [how_many_arrows] and the tree share the array). *)
Definition color_list {A} (eqb : A -> A -> bool) (col : list (option A)) : list A :=
  snd (fold_left (fun st i => match nth i (fst st) None with
                              | Some a => (zero_out eqb a (fst st), snd st ++ [a])
                              | None => st
                              end)
                 (seq 0 (length col)) (col, [])).

(** phonons.py:32-54 [how_many_arrows]: (number of arrows, number of arrowed species, concentrations).
    The entries of [tcol] are lists, never the integer 0, hence [map Some]. *)
Definition how_many_arrows (tcol : list site) : nat * nat * list nat :=
  let st := fold_left (fun st (i : site) =>
              if arrowed i then
                (S (fst st), if existsb (Z.eqb (snd i)) (snd st) then snd st else snd st ++ [snd i])
              else st) tcol (O, []) in
  (fst st, length (snd st), find_concentrations site_eqb (map Some tcol)).

(** Python's stable [sorted(l, key=f)] as insertion sort: equal keys keep their order. *)
Fixpoint insert_by {A} (key : A -> nat) (x : A) (l : list A) : list A :=
  match l with
  | [] => [x]
  | y :: l' => if (key x <=? key y)%nat then x :: l else y :: insert_by key x l'
  end.
Definition sorted_by {A} (key : A -> nat) (l : list A) : list A := fold_right (insert_by key) [] l.

Definition scount (l : list site) (x : site) : nat := length (filter (site_eqb x) l).

(** phonons.py:59-91 [_col_sort]. *)
Definition col_sort (col_list : list site) : list site :=
  let col1 := filter (fun i => fst i <? 0) col_list in
  let col2 := filter (fun i => negb (fst i <? 0) && (0 <=? fst i)) col_list in
  sorted_by (scount col1) col1 ++ sorted_by (scount col2) col2.

(** phonons.py:500-512 [_ahash]. *)
Definition ahash (coloring : list Z) (dim : Z) : Z :=
  sum_Z (map (fun i => nth i coloring 0 * dim ^ Z.of_nat i) (seq 0 (length coloring))).

(** phonons.py:517-533 [_ainvhash]; the loop body for index [i] with [p = num_of_arrows-1-i]. *)
Definition ainvhash (anum : Z) (num_of_arrows : nat) (dim : Z) : list Z :=
  snd (fold_left (fun st i =>
         let p := (num_of_arrows - 1 - i)%nat in
         let base := dim ^ Z.of_nat p in
         (fst st - base * (fst st / base), upd (snd st) p (fst st / base)))
       (seq 0 num_of_arrows) (anum, repeat 0 num_of_arrows)).

(** phonons.py:156-164 (and 193-197, 241-247, 277-281): put the arrows of [arrow_config], in order, on
    the sites of [col] that carry arrows. *)
Fixpoint place_arrows (col : list site) (arrow_config : list Z) : res (list site) :=
  match col with
  | [] => Ok []
  | s :: col' =>
      if arrowed s then
        match arrow_config with
        | [] => Err IndexError
        | a :: ac' => do r <- place_arrows col' ac'; Ok ((a, snd s) :: r)
        end
      else do r <- place_arrows col' arrow_config; Ok (s :: r)
  end.

(** phonons.py:166-177: the arrow list after permuting the sites and turning the arrows. *)
Definition permuted_arrows (perm : op) (temp : list site) : res (list Z) :=
  do newcol <- rmap (fun j => do c <- get (fst perm) j; get temp c) (seq 0 (length temp));
  rmap (fun s => do a <- zget (snd perm) (fst s); Ok (Z.of_nat a)) (filter arrowed newcol).

(** phonons.py:154-184: does some operation give a smaller arrow hash?  ([break] at the first one.) *)
Fixpoint arrow_unique (agroup : list op) (temp : list site) (orighash dim : Z) : res bool :=
  match agroup with
  | [] => Ok true
  | perm :: agroup' =>
      do nac <- permuted_arrows perm temp;
      if ahash nac dim <? orighash then Ok false else arrow_unique agroup' temp orighash dim
  end.

(** phonons.py:200-213: is the decorated colouring mapped to itself by a translation that is not
    (identity, identity)? *)
Fixpoint arrow_superperiodic (translations : list op) (cwa : list site) (arrow_config : list Z)
  : res bool :=
  match translations with
  | [] => Ok false
  | (action, permutation) :: rest =>
      if negb (nlist_eqb action (seq 0 (length action))) ||
         negb (nlist_eqb permutation (seq 0 (length permutation))) then
        let orig_sites := map snd cwa in
        let arrow_sites := map fst cwa in
        do perm_sites <- rmap (get orig_sites) action;
        do rot_arrows <- rmap (get arrow_sites) action;
        do perm_arrows <- rmap (fun s => do a <- zget permutation s; Ok (Z.of_nat a))
                               (filter (fun s => 0 <=? s) rot_arrows);
        if zlist_eqb orig_sites perm_sites && zlist_eqb perm_arrows arrow_config then Ok true
        else arrow_superperiodic rest cwa arrow_config
      else arrow_superperiodic rest cwa arrow_config
  end.

(** Outcomes of [random() < accept]: the k-th call returns [rnd k]; the state carries k.  [accept]
    being [None] is [accept = false]. *)
Section AddArrows.
  Variable rnd : nat -> bool.

  (** phonons.py:146-220: the exhaustive loop, over the remaining hash numbers.  State: survivors and
      number of random draws so far. *)
  Fixpoint add_arrows_loop (hashes : list Z) (col : list site) (agroup : list op) (dim : Z)
           (translations : list op) (accept : bool) (num_wanted : option nat) (supers : bool)
           (arsurvivors : list (list site)) (k : nat) : res (list (list site) * nat) :=
    match hashes with
    | [] => Ok (arsurvivors, k)
    | orighash :: rest =>
        let narrows := length (filter arrowed col) in
        let arrow_config := ainvhash orighash narrows dim in
        do temp <- place_arrows col arrow_config;
        do unique <- arrow_unique agroup temp orighash dim;
        if unique then
          do sp <- (if supers then Ok false else arrow_superperiodic translations temp arrow_config);
          let accepted := if accept then rnd k else true in
          let k' := if accept then S k else k in
          if accepted && negb sp then
            let ars := arsurvivors ++ [temp] in
            match num_wanted with
            | Some w => if (length ars =? w)%nat then Ok (ars, k')
                        else add_arrows_loop rest col agroup dim translations accept num_wanted
                                             supers ars k'
            | None => add_arrows_loop rest col agroup dim translations accept num_wanted supers ars k'
            end
          else add_arrows_loop rest col agroup dim translations accept num_wanted supers arsurvivors k'
        else add_arrows_loop rest col agroup dim translations accept num_wanted supers arsurvivors k
    end.

  (** phonons.py:98-220,307 [add_arrows] with [small=False].  [largest_arrow = [dim-1]*narrows].
      Simplification: the colouring rebuilt at 191-197 is the same list as the [temp] built at
      156-164, so it is not rebuilt; with an empty [agroup] the code never builds [temp], but an
      arrow list too short cannot occur there either ([ainvhash] returns [narrows] entries). *)
  Definition add_arrows (col : list site) (agroup : list op) (dim : Z) (translations : list op)
             (accept : bool) (num_wanted : option nat) (supers : bool) (k : nat)
    : res (list (list site) * nat) :=
    let narrows := fst (fst (how_many_arrows col)) in
    let maxpossible := ahash (repeat (dim - 1) narrows) dim in
    add_arrows_loop (range_up 0 (maxpossible + 1)) col agroup dim translations accept num_wanted
                    supers [] k.
End AddArrows.

(** phonons.py:221-307 [add_arrows] with [small=True].  [draw k] is the k-th value of
    [randrange(maxpossible)] (a value in [0,maxpossible); ValueError if maxpossible = 0, modelled by the
    guard).  The superperiodic test at 284-294 ends in the comparison [unique == False], which has no
    effect; it is left out (with translations that permute the sites and directions it cannot raise
    either).  Fuel counts draws. *)
Section AddArrowsSmall.
  Variable draw : nat -> Z.

  (** phonons.py:226-227: redraw while already visited. *)
  Fixpoint redraw (fuel : nat) (h : Z) (visited : list Z) (k : nat) : res (Z * nat) :=
    if existsb (Z.eqb h) visited then
      match fuel with
      | O => Err OutOfFuel
      | S f => redraw f (draw k) visited (S k)
      end
    else Ok (h, k).

  (** phonons.py:237-268. *)
  Fixpoint arrow_unseen (agroup : list op) (temp : list site) (orighash dim : Z) (visited : list Z)
    : res bool :=
    match agroup with
    | [] => Ok true
    | perm :: agroup' =>
        do nac <- permuted_arrows perm temp;
        let h := ahash nac dim in
        if existsb (Z.eqb h) visited && negb (h =? orighash) then Ok false
        else arrow_unseen agroup' temp orighash dim visited
    end.

  Fixpoint add_arrows_small_loop (fuel : nat) (col : list site) (agroup : list op) (dim : Z)
           (num_wanted : nat) (h : Z) (visited : list Z) (ars : list (list site)) (k : nat)
    : res (list (list site) * nat) :=
    if (length ars <? num_wanted)%nat then
      match fuel with
      | O => Err OutOfFuel
      | S f =>
          do (h', k') <- redraw f h visited k;
          let visited' := visited ++ [h'] in
          let arrow_config := ainvhash h' (length (filter arrowed col)) dim in
          do temp <- place_arrows col arrow_config;
          do unique <- arrow_unseen agroup temp h' dim visited';
          add_arrows_small_loop f col agroup dim num_wanted h' visited'
                                (if unique then ars ++ [temp] else ars) k'
      end
    else Ok (ars, k).

  Definition add_arrows_small (fuel : nat) (col : list site) (agroup : list op) (dim : Z)
             (num_wanted : nat) (k : nat) : res (list (list site) * nat) :=
    let narrows := fst (fst (how_many_arrows col)) in
    let maxpossible := ahash (repeat (dim - 1) narrows) dim in
    if maxpossible <=? 0 then Err ValueError (* randrange(0): empty range *)
    else add_arrows_small_loop fuel col agroup dim num_wanted (draw k) [] [] (S k).
End AddArrowsSmall.
