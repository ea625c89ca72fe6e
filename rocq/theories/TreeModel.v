(** Model of /repo/phenum/tree.py. *)
From Verif Require Import PyBase NumericsModel PhononsModel.
Local Open Scope Z_scope.

(** tree.py:4-25 [_coefficients]: the radices. *)
Fixpoint coefficients (number_of_each_color : list nat) (number_of_slots : Z) : list Z :=
  match number_of_each_color with
  | [] => []
  | c :: cs => binomial_coefficient number_of_slots (Z.of_nat c)
               :: coefficients cs (number_of_slots - Z.of_nat c)
  end.

(** tree.py:47-52: the loop of [_hash], [z] passes. *)
Fixpoint hash_loop (z : nat) (li : list nat) (m y : Z) : res Z :=
  match z with
  | O => Ok y
  | S z' =>
      do p0 <- py_index li 0%nat;
      let k := Z.of_nat (py_count (skipn p0 li) 1%nat) in
      hash_loop z' (skipn (p0 + 1) li) (m - (Z.of_nat p0 + 1))
                (y + binomial_coefficient (m - (Z.of_nat p0 + 1)) (k - 1))
  end.

(** tree.py:27-54 [_hash]; [li.index(1)] on the reversed list raises ValueError without a 1. *)
Definition hash (listi : list nat) : res Z :=
  do ix <- py_index (rev listi) 1%nat;
  let rm1 := (length listi - ix)%nat in
  hash_loop (py_count (firstn rm1 listi) 0%nat) listi (Z.of_nat (length listi)) 0.

(** tree.py:75-85: one colour level of [_invhash], entries 0 or [coluse]. *)
Fixpoint inv_level (l : nat) (t I : Z) (coluse : nat) : list nat :=
  match l with
  | O => []
  | S l' => let binom := binomial_coefficient (Z.of_nat l') (t - 1) in
            if binom <=? I then 0%nat :: inv_level l' t (I - binom) coluse
            else coluse :: inv_level l' (t - 1) I coluse
  end.

(** tree.py:88-92: fill the empty (0) places of [new] with [newi] in order. *)
Fixpoint fill (new newi : list nat) : res (list nat) :=
  match new with
  | [] => Ok []
  | O :: r => match newi with
              | [] => Err IndexError
              | x :: newi' => do r' <- fill r newi'; Ok (x :: r')
              end
  | a :: r => do r' <- fill r newi; Ok (a :: r')
  end.

(** tree.py:72-93: the loop over the levels.  [n] is the number of places left; Python lets it go
    negative, where [range(n)] is as empty as [range(0)]. *)
Fixpoint invhash_loop (branch : list Z) (colors : list nat) (n : nat) (coluse : nat) (new : list nat)
  : res (list nat) :=
  match branch with
  | [] => Ok new
  | Iv :: branch' =>
      match colors with
      | [] => Err IndexError
      | t :: colors' =>
          do new' <- fill new (inv_level n (Z.of_nat t) Iv coluse);
          invhash_loop branch' colors' (n - t)%nat (S coluse) new'
      end
  end.

(** tree.py:56-93 [_invhash]. *)
Definition invhash (branch : list Z) (colors : list nat) (n : nat) : res (list nat) :=
  invhash_loop branch colors n 1 (repeat 0%nat n).

(** The dictionary [order] of [brancher] (tree.py:340-342): keys 0..C[0] with [order[i]=i], entries
    being overwritten by -1 (tree.py:200).  Represented by C[0] and the list of keys set to -1. *)
Definition order_t : Type := Z * list Z.
Definition order_is_minus1 (order : order_t) (k : Z) : res bool :=
  if existsb (Z.eqb k) (snd order) then Ok true
  else if (0 <=? k) && (k <=? fst order) then Ok false else Err KeyError.
Definition order_mark (order : order_t) (k : Z) : order_t := (fst order, snd order ++ [k]).

(** tree.py:171-174: apply the site permutation of an operation. *)
Definition permute (li : list nat) (a : op) : res (list nat) := rmap (get li) (fst a).

(** tree.py:165-214: the loop over the group on the first level. *)
Fixpoint perm_level0 (gen : list op) (li : list nat) (c0 : Z) (st ast : list op) (order : order_t)
  : res (nat * list op * order_t * list op) :=
  match gen with
  | [] => Ok (0%nat, st, order, ast)
  | a :: gen' =>
      do lnew <- permute li a;
      let lnewb := map (fun y => if (y =? 1)%nat then 1%nat else 0%nat) lnew in
      do rtest <- hash lnewb;
      let ast' := if nlist_eqb li lnew then ast ++ [a] else ast in
      if c0 <? rtest then perm_level0 gen' li c0 st ast' (order_mark order rtest)
      else if rtest <? c0 then Ok (1%nat, [], order, [])
      else perm_level0 gen' li c0 (st ++ [a]) ast' order
  end.

(** tree.py:229-283: the loop over the stabilizer on the level [index].  Colours in [li] are positive. *)
Fixpoint perm_levelS (stab : list op) (li : list nat) (index : nat) (ci : Z) (st ast : list op)
  : res (nat * list op * list op) :=
  match stab with
  | [] => Ok (0%nat, st, ast)
  | a :: stab' =>
      do lnew <- permute li a;
      let trunc := map (fun y => if (S index <? y)%nat then 0%nat else y) in
      let lib := trunc li in
      let lnewb := trunc lnew in
      let lnewb2 := map (fun y => if (y =? 0)%nat then 0%nat else 1%nat)
                        (filter (fun y => (y =? 0)%nat || (y =? S index)%nat) lnewb) in
      let st' := if nlist_eqb lnewb lib then st ++ [a] else st in
      let ast' := if nlist_eqb li lnew then ast ++ [a] else ast in
      do rtest <- hash lnewb2;
      if rtest <? ci then Ok (1%nat, [], [])
      else perm_levelS stab' li index ci st' ast'
  end.

(** tree.py:117-288 [_perm].  [stab] = the integer 0 is represented by the empty list (line 154).
    [casei] holds integers (Python keeps them in floats; exact below 2^53). *)
Definition perm (casei : list Z) (colors : list nat) (length_ : nat) (index : nat) (gen stab : list op)
           (order : order_t) : res (nat * list op * order_t * list op) :=
  do li <- invhash casei colors length_;
  if (index =? 0)%nat then
    do c0 <- get casei 0;
    perm_level0 gen li c0 [] [] order
  else match stab with
       | [] => Ok (1%nat, [], order, [])
       | [_] => Ok (0%nat, stab, order, stab)
       | _ => do ci <- get casei index;
              do (u, st, ast) <- perm_levelS stab li index ci [] [];
              Ok (u, st, order, ast)
       end.

(** The [subset] argument of [brancher]: None, a list, or an integer. *)
Inductive subset_t : Type := SNone | SList (l : list Z) | SInt (z : Z).

Record bstate : Type := BState {
  branch : list Z;          (* tree.py:359 *)
  lvl : nat;                (* i *)
  b0 : bool;                (* b0 = 1 *)
  stabalizer : list (list op);
  order : order_t;
  survivors : list (list site);
  count : Z;
  subset : subset_t;        (* the caller's list is modified in place, tree.py:413 *)
  draws : nat               (* how many times random() < accept was evaluated *)
}.

Section Brancher.
  (** Fixed arguments of the call. *)
  Variable concs : list nat.
  Variable group : list op.
  Variable colors_w_arrows : list site.
  Variable dim : Z.
  Variable supers : bool.
  Variable cellsize : nat.     (* int(cellsize) *)
  Variable accept : bool.      (* accept is not None *)
  Variable rnd : nat -> bool.  (* outcome of the k-th random() < accept *)

  Definition br_colors : list site := color_list site_eqb (map Some colors_w_arrows). (* tree.py:324 *)
  Definition br_n : nat := sum_nat concs.                                              (* tree.py:326 *)
  Definition br_C : list Z := coefficients concs (Z.of_nat br_n).                      (* tree.py:329 *)
  Definition br_narrows : nat := fst (fst (how_many_arrows colors_w_arrows)).          (* tree.py:332 *)

  (** tree.py:345-350.  [subset] may be modified later, but not in a way that changes this. *)
  Definition use_subset (s : subset_t) : bool :=
    match s with
    | SList (_ :: _) => true
    | SNone => accept
    | SInt _ => accept
    | SList [] => false
    end.

  (** tree.py:408-413: find a replacement sample number.  [nv] grows while it is in the subset and below
      prod(C); fuel: at most len(subset) numbers are in the subset. *)
  Fixpoint next_sample (fuel : nat) (nv : Z) (s : list Z) (prodC : Z) : Z :=
    match fuel with
    | O => nv
    | S f => if existsb (Z.eqb nv) s && (nv <? prodC) then next_sample f (nv + 1) s prodC else nv
    end.
  Fixpoint replace_first (l : list Z) (x y : Z) : list Z :=
    match l with
    | [] => []
    | a :: l' => if a =? x then y :: l' else a :: replace_first l' x y
    end.
  Definition bump_subset (s : subset_t) (cnt : Z) : res subset_t :=
    match s with
    | SList l =>
        if existsb (Z.eqb cnt) l then
          Ok (SList (replace_first l cnt (next_sample (S (length l)) cnt l (prod_Z br_C))))
        else Ok s
    | _ => Err TypeError   (* [count in subset] with None or an int *)
    end.

  (** tree.py:399-416: superperiodic test of a coloring; note the comparison of [action] with
      [range(cellsize)]. *)
  Fixpoint is_super (translations : list nat) (brancht : list nat) : res bool :=
    match translations with
    | [] => Ok false
    | t :: ts =>
        do g <- get group t;
        do tb <- rmap (get brancht) (fst g);
        if nlist_eqb tb brancht && negb (nlist_eqb (fst g) (seq 0 cellsize)) then Ok true
        else is_super ts brancht
    end.

  (** tree.py:461-463: a colouring without arrows as output. *)
  Definition out_plain (x : list nat) : res (list site) :=
    rmap (fun leaf => do c <- zget br_colors (Z.of_nat leaf - 1); Ok (-1, snd c)) x.
  (** tree.py:433-434: the colouring with its decorations put back. *)
  Definition out_deco (x : list nat) : res (list site) :=
    rmap (fun leaf => zget br_colors (Z.of_nat leaf - 1)) x.

  Definition in_subset (s : subset_t) (cnt : Z) : bool :=
    match s with SList l => existsb (Z.eqb cnt) l | _ => false end.

  (** tree.py:440-455 and 460-479: decide whether to keep one structure.  Both inner branches at 451-454
      (and 470-477) append. *)
  Definition keep (us : bool) (st : bstate) (z : list site) : bstate :=
    let '(ok, k) :=
      if us then
        if in_subset (subset st) (count st) then (true, draws st)
        else if accept then
          (rnd (draws st) && (match subset st with SList _ => false | _ => true end), S (draws st))
        else (false, draws st)
      else (true, draws st) in
    {| branch := branch st; lvl := lvl st; b0 := b0 st; stabalizer := stabalizer st; order := order st;
       survivors := if ok then survivors st ++ [z] else survivors st;
       count := count st + 1; subset := subset st; draws := k |}.

  (** tree.py:423-479: append the configuration(s) of a unique node. *)
  Definition emit (us : bool) (st : bstate) (ast : list op) : res bstate :=
    do x <- invhash (branch st) concs (length colors_w_arrows);
    if (0 <? br_narrows)%nat then
      do brancht <- out_deco x;
      do (arsurvivors, k) <- add_arrows rnd brancht ast dim (firstn cellsize group) accept None supers
                                         (draws st);
      Ok (fold_left (keep us) arsurvivors
           {| branch := branch st; lvl := lvl st; b0 := b0 st; stabalizer := stabalizer st;
              order := order st; survivors := survivors st; count := count st; subset := subset st;
              draws := k |})
    else
      do o <- out_plain x;
      Ok (keep us st o).

  Definition set_nav (st : bstate) (br : list Z) (i : nat) (b : bool) (stb : list (list op)) : bstate :=
    {| branch := br; lvl := i; b0 := b; stabalizer := stb; order := order st;
       survivors := survivors st; count := count st; subset := subset st; draws := draws st |}.

  (** tree.py:505-523: go back over exhausted levels; [i] decreases, so recursion on it. *)
  Fixpoint backtrack (i : nat) (br : list Z) (b : bool) (stb : list (list op))
    : res (list Z * nat * bool * list (list op)) :=
    match i with
    | O => Ok (br, O, b, stb)
    | S i' =>
        do v <- get br i;
        do c <- get br_C i;
        if v =? c - 1 then
          let br' := upd br i 0 in
          if (i' =? 0)%nat then
            backtrack i' (upd br' 0 (nth 0 br' 0 + 1)) false (repeat [] (length concs))
          else backtrack i' br' b stb
        else Ok (br, i, b, stb)
    end.

  (** tree.py:531-539: skip first-level numbers already seen.  Every pass meets a different key that
      was set to -1, so there are at most as many passes as such keys; the fuel is one more. *)
  Fixpoint skip_seen (fuel : nat) (b : Z) (ord : order_t) : res Z :=
    do m <- order_is_minus1 ord b;
    if m then match fuel with
              | O => Err OutOfFuel
              | S f => skip_seen f (b + 1) ord
              end
    else Ok b.

  (** tree.py:385-387: the loop condition. *)
  Definition continue (us : bool) (st : bstate) : bool :=
    (nth 0 (branch st) 0 <? nth 0 br_C 0) &&
    ((match subset st with SList l => (length (survivors st) <? length l)%nat | _ => false end)
     || negb us
     || (accept && match subset st with
                   | SInt z => Z.of_nat (length (survivors st)) =? z
                   | _ => false
                   end)).

  (** tree.py:388-544: one pass of the main loop. *)
  Definition step (us : bool) (st : bstate) : res bstate :=
    let i := lvl st in
    let len := length (branch st) in
    do stab_i <- get (stabalizer st) i;
    do (unique, sti, order', ast) <- perm (branch st) concs br_n i group stab_i (order st);
    do stb <- set (stabalizer st) (i + 1) sti;
    let st1 := {| branch := branch st; lvl := i; b0 := b0 st; stabalizer := stb; order := order';
                  survivors := survivors st; count := count st; subset := subset st;
                  draws := draws st |} in
    (* 394-416 *)
    do (unique2, st2) <-
      (if negb supers && (br_narrows =? 0)%nat && (unique =? 0)%nat && (b0 st || (i =? 0)%nat) then
         do brancht <- invhash (branch st) concs (length colors_w_arrows);
         do sp <- is_super (seq 1 (cellsize - 1)) brancht;
         if sp then
           if us then
             do s' <- bump_subset (subset st) (count st);
             Ok (1%nat, {| branch := branch st; lvl := i; b0 := b0 st; stabalizer := stb;
                           order := order'; survivors := survivors st; count := count st + 1;
                           subset := s'; draws := draws st |})
           else Ok (1%nat, st1)
         else Ok (unique, st1)
       else Ok (unique, st1));
    (* 419-483 *)
    do st3 <-
      (if (unique2 =? 0)%nat then
         do st' <- (if b0 st2 || (i =? 0)%nat then emit us st2 ast else Ok st2);
         Ok (if (Z.of_nat i <? Z.of_nat len - 2) then set_nav st' (branch st') i false (stabalizer st')
             else st')
       else Ok st2);
    (* 492-498 *)
    let '(i4, b4) :=
      if b0 st3 then (i, true)
      else let i' := if (Z.of_nat i <? Z.of_nat len - 1) then S i else i in
           (i', Z.of_nat len - 2 <=? Z.of_nat i') in
    (* 505-523 *)
    do (br5, i5, b5, stb5) <- backtrack i4 (branch st3) b4 (stabalizer st3);
    (* 527-528 *)
    let br6 := if b5 then upd br5 i5 (nth i5 br5 0 + 1) else br5 in
    (* 531-539 *)
    do br7 <- (if (i5 =? 0)%nat then
                 do b' <- skip_seen (S (length (snd (order st3)))) (nth 0 br6 0) (order st3);
                 Ok (upd br6 0 b')
               else Ok br6);
    Ok (set_nav st3 br7 i5 b5 stb5).

  Fixpoint br_loop (fuel : nat) (us : bool) (st : bstate) : res bstate :=
    if continue us st then
      match fuel with
      | O => Err OutOfFuel
      | S f => do st' <- step us st; br_loop f us st'
      end
    else Ok st.

  Definition br_init (s : subset_t) : bstate :=
    {| branch := repeat 0 (length concs); lvl := 0; b0 := false;
       stabalizer := repeat [] (length concs + 1);
       order := (nth 0 br_C 0, []); survivors := []; count := 1; subset := s; draws := 0 |}.

  (** tree.py:291-549 [brancher].  [concs = []] raises IndexError at [C[0]] (line 341).  The argument
      [total] is only used by the progress bar.  [branch] holds integers (numpy floats in the code). *)
  Definition brancher (fuel : nat) (s : subset_t) : res (list (list site)) :=
    match concs with
    | [] => Err IndexError
    | _ => do st <- br_loop fuel (use_subset s) (br_init s); Ok (survivors st)
    end.
End Brancher.
