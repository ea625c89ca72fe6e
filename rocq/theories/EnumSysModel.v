(** Model of /repo/phenum/phonons.py:311-349 [arrow_concs], /repo/phenum/phonons.py:373-498 [enum_sys] and
    /repo/phenum/tree.py:551-668 [guess_and_check_brancher]. *)
From Verif Require Import PyBase NumericsModel PhononsModel TreeModel PolyaModel.
Local Open Scope Z_scope.

(** phonons.py:331-347, one species: [ns] atoms, [na] of them arrowed.  [int(cList[i]*aconcs[i])] (line 326) is
    the argument [na]: how the product of an integer and a float rounds is not modelled. *)
Definition species_decorations (label : Z) (ns : nat) (na : Z) : list site :=
  if na <=? Z.of_nat ns then repeat (1, label) (Z.to_nat na) ++ repeat (-1, label) (ns - Z.to_nat na)
  else repeat (-1, label) ns.

(** phonons.py:311-349 [arrow_concs]: [aconcs[i]] raises IndexError when the list of arrow concentrations is
    too short. *)
Definition arrow_concs (cList : list nat) (na : list Z) : res (list site) :=
  do parts <- rmap (fun i => do c <- get cList i; do a <- get na i;
                             Ok (species_decorations (Z.of_nat (S i)) c a)) (seq 0 (length cList));
  Ok (col_sort (concat parts)).

(** Values stored in, or looked up in, the list [visited] of [guess_and_check_brancher]. *)
Inductive pyval : Type := PInt (z : Z) | PList (l : list Z).
(** Python's [==] between them: an integer never equals a list. *)
Definition pyval_eqb (a b : pyval) : bool :=
  match a, b with
  | PInt x, PInt y => x =? y
  | PList x, PList y => zlist_eqb x y
  | _, _ => false
  end.

Section Guess.
  (** [draw k n]: the k-th random number, taken from range(n): [randint(0,n-1)] and [randrange(n)]. *)
  Variable draw : nat -> Z -> Z.
  Variable concs : list nat.
  Variable group : list op.
  Variable colors_w_arrows : list site.
  Variable dim : Z.
  Variable supers : bool.
  Variable cellsize : nat.     (* int(cellsize) *)
  Variable num_wanted : nat.

  (** tree.py:602-605 (and 609-611): [randint(0,c-1)] with c = 0 raises ValueError. *)
  Fixpoint draw_candidate (C : list Z) (k : nat) : res (list Z * nat) :=
    match C with
    | [] => Ok ([], k)
    | c :: C' => if c <=? 0 then Err ValueError
                 else do (r, k') <- draw_candidate C' (S k); Ok (draw k c :: r, k')
    end.

  (** tree.py:607-611. *)
  Fixpoint redraw_candidate (fuel : nat) (cand : list Z) (visited : list pyval) (k : nat)
    : res (list Z * nat) :=
    if existsb (pyval_eqb (PList cand)) visited then
      match fuel with
      | O => Err OutOfFuel
      | S f => do (cand', k') <- draw_candidate (br_C concs) k; redraw_candidate f cand' visited k'
      end
    else Ok (cand, k).

  (** tree.py:616-629: the comparison with the configurations drawn before.  [_hash] returns an integer. *)
  Fixpoint guess_unseen (gs : list op) (config : list nat) (cand : list Z) (visited : list pyval) : res bool :=
    match gs with
    | [] => Ok true
    | perms :: gs' =>
        do new_config <- rmap (get config) (fst perms);
        do new_location <- hash new_config;
        if existsb (pyval_eqb (PInt new_location)) visited
           && negb (pyval_eqb (PInt new_location) (PList cand)) then Ok false
        else guess_unseen gs' config cand visited
    end.

  (** tree.py:600-663: the main loop; [survivors], [visited] and the number [k] of random numbers drawn. *)
  Fixpoint guess_loop (fuel : nat) (survivors : list (list site)) (visited : list pyval) (k : nat)
    : res (list (list site)) :=
    if (length survivors <? num_wanted)%nat then
      match fuel with
      | O => Err OutOfFuel
      | S f =>
          do (cand0, k0) <- draw_candidate (br_C concs) k;
          do (cand, k1) <- redraw_candidate f cand0 visited k0;
          let visited' := visited ++ [PList cand] in
          do config <- invhash cand concs (sum_nat concs);
          do unique <- guess_unseen group config cand visited';
          do unique2 <- (if negb supers && (br_narrows colors_w_arrows =? 0)%nat && unique then
                           do sp <- is_super group cellsize (seq 1 (cellsize - 1)) config; Ok (negb sp)
                         else Ok unique);
          if unique2 then
            if (0 <? br_narrows colors_w_arrows)%nat then
              do t_config <- out_deco colors_w_arrows config;
              let maxpossible := ahash (repeat (dim - 1) (length (filter arrowed t_config))) dim in
              do (arsurvivors, k2) <- add_arrows_small (fun j => draw j maxpossible) f t_config group dim num_wanted k1;
              guess_loop f (survivors ++ arsurvivors) visited' k2
            else guess_loop f (survivors ++ [map (fun leaf => (-1, Z.of_nat leaf)) config]) visited' k1
          else guess_loop f survivors visited' k1
      end
    else Ok survivors.

  (** tree.py:551-668 [guess_and_check_brancher]. *)
  Definition guess_and_check_brancher (fuel : nat) : res (list (list site)) := guess_loop fuel [] [] 0.
End Guess.

Section EnumSys.
  Variable v : pyversion.                        (* Python 2 or 3: the division in [polya] *)
  Variable draw : nat -> Z -> Z.              (* [randint], [randrange] *)
  Variable rnd : nat -> bool.                 (* outcome of the k-th [random() < accept] *)
  Variable shuffled : list Z -> list Z.       (* [random.shuffle] *)

  (** phonons.py:430: with these numbers the count is not computed. *)
  Definition skip_count (m : Z) (arrow_types : nat) (n : nat) (num_wanted : nat) : bool :=
    ((100000 <? m) && (num_wanted <=? 100)%nat)
    || (negb (arrow_types =? 0)%nat && (12 <=? n)%nat && (num_wanted <=? 100)%nat).

  (** phonons.py:433-458: [total], and [subset] ([None] when the variable is not assigned); the group as [polya]
      leaves it. *)
  Definition plan (concs : list nat) (sorted_concs : list nat) (arrow_types : nat) (agroup : list op)
             (num_wanted : nat) : res (Z * option subset_t * list op) :=
    do m <- NumericsModel.multinomial (map Z.of_nat concs);
    if skip_count m arrow_types (sum_nat concs) num_wanted then Ok (10000000000, None, agroup)
    else
      do (total, agroup') <- (if negb (arrow_types =? 0)%nat then polya v sorted_concs agroup arrow_types
                              else polya v concs agroup 0);
      let subset :=
        if Z.of_nat num_wanted <? total then
          if total <? 1000000 then SList (firstn num_wanted (shuffled (range_up 1 (total + 1))))
          else SInt (Z.of_nat num_wanted)
        else SList [] in
      Ok (total, Some subset, agroup').

  (** phonons.py:373-498 [enum_sys], from line 399 on and with the symmetry group given: computing it
      (lines 403-418) is [get_sym_group] (LatGroupModel.v) or reading a file.  [nbasis] is
      [len(params["basis_vecs"])]; [na] as in [arrow_concs]; [accept] says whether an acceptance rate is given.
      [all(decorations) >= 0] (line 463) is true.  The quotient [float(num_wanted)/total] is compared with 0.001
      in the rationals: the doubles compare alike below 2^50.  [not super] (line 486) negates a built-in class,
      so the length test never raises.  [int(cellsize)] is the quotient rounded down. *)
  Definition enum_sys (fuel : nat) (agroup : list op) (nbasis : nat) (concs : list nat) (na : list Z)
             (num_wanted : nat) (supers accept : bool) : res (list (list site)) :=
    if (nbasis =? 0)%nat then Err ZeroDivisionError else
    let cellsize := (sum_nat concs / nbasis)%nat in
    do decorations <- arrow_concs concs na;
    let '(n_arrows, arrow_types, sorted_concs) := how_many_arrows decorations in
    do (total, subset, agroup') <- plan concs sorted_concs arrow_types agroup num_wanted;
    if (length concs =? 1)%nat then
      if total =? 0 then Err ZeroDivisionError else
      do (a_configs, _) <-
        (if (1000 * Z.of_nat num_wanted <? total) && negb accept then
           add_arrows_small (fun j => draw j (ahash (repeat (6 - 1) n_arrows) 6)) fuel decorations agroup' 6 num_wanted 0
         else
           add_arrows rnd decorations agroup' 6 (firstn cellsize agroup') accept (Some num_wanted) supers 0);
      match subset, a_configs with
      | None, _ :: _ => Err NameError        (* line 477: isinstance(subset, list) *)
      | _, _ => Ok a_configs                 (* both branches append *)
      end
    else
      do m <- NumericsModel.multinomial (map Z.of_nat concs);
      if ((100000 <? m) || (negb (arrow_types =? 0)%nat && (12 <=? sum_nat concs)%nat)) && (num_wanted <=? 100)%nat
         && (Z.of_nat num_wanted <? total) then
        guess_and_check_brancher draw sorted_concs agroup' decorations 6 supers cellsize num_wanted fuel
      else
        match subset with
        | None => Err NameError
        | Some s => brancher sorted_concs agroup' decorations 6 supers cellsize accept rnd fuel s
        end.
End EnumSys.
