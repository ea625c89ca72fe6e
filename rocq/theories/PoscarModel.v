(** Model of element_data.py, of io_utils.py:330-398 [write_POSCAR] and 401-502 [write_config], and of the flags that
    phenumStr.py passes to them. *)
From Coq Require Import QArith.
From Verif Require Import TextModel PyBase Mat3 MapModel.
Local Open Scope Z_scope.

(** ** element_data.py *)
(** element_data.py:4-15: the entries of the dictionary display in their order, in units of 10^-5. *)
Definition element_entries : list (string * Z) :=
[  ("H", 3729580); ("He", 3217890); ("Li", 2125430); ("Be", 849323); ("B", 724205); ("C", 568741); ("N", 4660020);
  ("O", 2228020); ("F", 1702580); ("Ne", 2173460); ("Na", 2325960); ("Mg", 2339280); ("Al", 1660750); ("Si", 785110);
  ("P", 914590); ("S", 1716720); ("Cl", 3520740); ("Ar", 3638290); ("K", 7152780); ("Ca", 4343530); ("Sc", 2564780);
  ("Ti", 1815650); ("V", 1377180); ("Cr", 1194390); ("Mn", 1932070); ("Fe", 1182000); ("Co", 1118380); ("Ni", 1090360);
  ("Cu", 1176150); ("Zn", 1331100); ("Ga", 1844960); ("Ge", 1936380); ("As", 2042700); ("Se", 5861730);
  ("Br", 3331700); ("Kr", 4678730); ("Rb", 8733840); ("Sr", 5618890); ("Y", 3307920); ("Zr", 2383270); ("Nb", 1796850);
  ("Mo", 1562790); ("Tc", 1454580); ("Ru", 1392060); ("Rh", 1371800); ("Pd", 1471600); ("Ag", 1710450);
  ("Cd", 1871610); ("In", 2668610); ("Sn", 2932380); ("Sb", 2717330); ("Te", 6232270); ("I", 2438070); ("Xe", 5958200);
  ("Cs", 11072300); ("Ba", 6325300); ("Hf", 2317480); ("Ta", 1813230); ("W", 1577720); ("Re", 1486940);
  ("Os", 1454850); ("Ir", 1415580); ("Pt", 1505910); ("Au", 1697930); ("Hg", 2769140); ("Tl", 2929490);
  ("Pd", 3032180); ("Bi", 3128490)]%string.
(** A later entry of a dictionary display replaces an earlier one with the same key. *)
Definition element_volume (e : string) : res Z :=
  match find (fun p => String.eqb (fst p) e) (rev element_entries) with Some p => Ok (snd p) | None => Err KeyError end.
(** element_data.py:17-32 [get_lat_param_element]: [param] stands for the cube root (v/lat_vol)**(1./3.), which depends on
    the lattice. *)
Definition lat_param_element (param : Z -> Q) (e : string) : res Q := do v <- element_volume e; Ok (param v).
(** Python's truth value of an argument: the flags can be booleans or text. *)
Inductive flag : Type := Bool (b : bool) | Text (s : string).
Definition truthy (f : flag) : bool := match f with Bool b => b | Text s => negb (String.eqb s "") end.
(** element_data.py:34-72 [get_lattice_parameter]: the parameter (exact rationals for doubles) and the title. *)
Definition get_lattice_parameter (param : Z -> Q) (elements : option (list string)) (concs : list Z) (default_title : string) (remove_zeros : flag) : res (Q * string) :=
  match elements with
  | None => Ok (1%Q, default_title)
  | Some es =>
      if negb (length es =? length concs)%nat then Err ValueError
      else do (total, title) <- rfold (fun '(total, title) '(e, c) =>
                  do p <- lat_param_element param e;
                  Ok ((total + inject_Z c * p)%Q, if (0 <? c) || negb (truthy remove_zeros) then (title ++ " " ++ e ++ " ")%string else title))
                  (combine es concs) (0%Q, EmptyString);
           let s := fold_left Z.add concs 0 in
           if s =? 0 then Err ZeroDivisionError
           else Ok ((total / inject_Z s)%Q, (title ++ " " ++ lstrip (rstrip default_title) ++ String newline "")%string)
  end.

(** ** write_POSCAR *)
(** Line 356. *)
Definition poscar_directions : list vec := [(0, 0, 0); (0, 0, -1); (0, -1, 0); (-1, 0, 0); (1, 0, 0); (0, 1, 0); (0, 0, 1)].
(** Lines 358-361: [concs]. *)
Definition count_labels (k : Z) (labeling : string) (gs : list Z) : res (list Z) :=
  rfold (fun x g => do i <- label_at labeling g; count_up x i) gs (repeat 0 (Z.to_nat k)).
(** [for arrow in arrows: directions.append(...)]. *)
Definition arrow_vectors (table : list vec) (arrows : string) : res (list vec) :=
  rmap (fun c => do i <- int_of (String c ""); zget table i) (list_ascii_of_string arrows).
(** The parts of the file: title, lattice parameter, the line of numbers of atoms and the list of atoms.  [P] is the type
    of positions ("direct" coordinates, as [cartesian2direct] gives them); what is added to the position is given as the
    vector of line 392 in units of displace*lattice_parameter*(1 + rattle). *)
Record poscar (P : Type) : Type := { title : string; parameter : Q; numbers : list Z; atoms : list (P * vec) }.
Arguments title {P}. Arguments parameter {P}. Arguments numbers {P}. Arguments atoms {P}.
(** Lines 389-396, for one [ilab]. *)
Definition atoms_of {P} (labeling : string) (gs : list Z) (bas : list P) (dirs : list vec) (nat_ : nat) (ilab : Z) : res (list (P * vec)) :=
  rfold (fun out iAt =>
           do d <- get dirs iAt;
           do g <- get gs iAt;
           do ch <- char_at labeling g;
           if String.eqb (String ch "") (str ilab) then do p <- get bas iAt; Ok (out ++ [(p, d)]) else Ok out) (seq 0 nat_) [].
Definition write_POSCAR {P} (param : Z -> Q) (sys_title : string) (k n : Z) (nD : nat) (strN : Z) (labeling arrows : string) (gs : list Z) (bas : list P)
    (species : option (list string)) (remove_zeros : flag) : res (poscar P) :=
  let nat_ := Z.to_nat (n * Z.of_nat nD) in
  do gs' <- rmap (get gs) (seq 0 nat_);
  do concs <- count_labels k labeling gs';
  let def_title := (sys_title ++ " str #: " ++ str strN ++ String newline "")%string in
  do (lp, t) <- get_lattice_parameter param species concs def_title remove_zeros;
  do dirs <- arrow_vectors poscar_directions arrows;
  let nums := match species with Some _ => if truthy remove_zeros then filter (fun c => negb (c =? 0)) concs else concs | None => concs end in
  do ats <- rmap (atoms_of labeling gs bas dirs nat_) (range_up 0 k);
  Ok {| title := t; parameter := lp; numbers := nums; atoms := concat ats |}.

(** ** write_config *)
(** Line 426. *)
Definition config_directions : list vec := [(1, 0, 0); (-1, 0, 0); (0, 1, 0); (0, -1, 0); (0, 0, 1); (0, 0, -1)].
(** One line of AtomData: number, type, position and what is added to it. *)
Definition config_atom (P : Type) : Type := Z * Z * P * vec.
(** Lines 435-441: [concs], by comparing characters. *)
Definition config_counts (k : Z) (labeling : string) (gs : list Z) : res (list Z) :=
  do chars <- rmap (char_at labeling) gs;
  Ok (map (fun i => Z.of_nat (length (filter (fun ch => String.eqb (String ch "") (str i)) chars))) (range_up 0 k)).
(** Lines 484-500.  [mapping] is a dictionary from 0, 1, ... (phenumStr.py:193-196), here a list. *)
Definition config_atoms {P} (k : Z) (labeling : string) (gs : list Z) (bas : list P) (dirs : list vec) (mapping : option (list Z)) (nat_ : nat) : res (list (config_atom P)) :=
  rfold (fun out iAt =>
    rfold (fun out ilab =>
             do d <- get dirs iAt;
             do g <- get gs iAt;
             do ch <- char_at labeling g;
             if String.eqb (String ch "") (str ilab)
             then do p <- get bas iAt;
                  do lab <- match mapping with None => Ok ilab | Some m => match nth_error m (Z.to_nat ilab) with Some v => Ok v | None => Err KeyError end end;
                  Ok (out ++ [(Z.of_nat iAt + 1, lab, p, d)])
             else Ok out) (range_up 0 k) out) (seq 0 nat_) [].
Definition write_config {P} (param : Z -> Q) (sys_title : string) (k n : Z) (nD : nat) (strN : Z) (labeling arrows : string) (gs : list Z) (bas : list P)
    (species : option (list string)) (mapping : option (list Z)) : res (Q * list (config_atom P)) :=
  let nat_ := Z.to_nat (n * Z.of_nat nD) in
  do gs' <- rmap (get gs) (seq 0 nat_);
  do concs <- config_counts k labeling gs';
  let def_title := (sys_title ++ str strN ++ String newline "")%string in
  do species' <- match mapping with
                 | None => Ok species
                 | Some m => match species with
                             | None => Err TypeError
                             | Some sp => if (length sp =? length m)%nat then Ok species
                                          else do l <- rmap (zget sp) m; Ok (Some l)
                             end
                 end;
  do (lp, t) <- get_lattice_parameter param species' concs def_title (Bool true);
  do dirs <- arrow_vectors config_directions arrows;
  do ats <- config_atoms k labeling gs bas dirs mapping nat_;
  Ok (lp, ats).

(** ** The flags *)
(** phenumStr.py:99-120: the parser allows "t" and "f" and gives text; 198-201: [args["remove_zeros"]] becomes [True] for "t";
    for "f" another key is set and the text stays.  [args["mink"]] is passed on as it is (line 42). *)
Definition passed_mink (arg : string) : flag := Text arg.
Definition passed_remove_zeros (arg : string) : flag := if String.eqb arg "t" then Bool true else Text arg.
