(** Model of /repo/phenum/io_utils.py:23-75 [read_lattice] and of what the steps make of its result
    (phonons.py:351-371 [get_arrow_concs], phonons.py:326, 404-408). *)
From Coq Require Import QArith Qround.
From Verif Require Import TextModel PyBase Mat3 ConcsModel FilesModel EnumOutModel PointGroupModel RunModel.
Local Open Scope Z_scope.

(** ** [float] *)
(** The value of digits, and how many there are; anything else in the text is refused. *)
Fixpoint plain_digits (acc : Z) (n : nat) (s : string) : option (Z * nat) :=
  match s with
  | EmptyString => Some (acc, n)
  | String c s' => match char_digit c with Some d => plain_digits (10 * acc + d) (S n) s' | None => None end
  end.
(** [s.split(sep, 1)]: what stands before the first [sep], and after it if there is one. *)
Fixpoint cut (sep : ascii -> bool) (s : string) : string * option string :=
  match s with
  | EmptyString => (EmptyString, None)
  | String c s' => if sep c then (EmptyString, Some s') else let '(a, b) := cut sep s' in (String c a, b)
  end.
(** digits, a point, digits. *)
Definition mantissa (s : string) : res (Z * nat) :=
  let '(ip, fp) := cut (fun c => Ascii.eqb c ".") s in
  match plain_digits 0 0 ip with
  | None => Err ValueError
  | Some (a, n) => match plain_digits a 0 (match fp with Some f => f | None => EmptyString end) with
                   | None => Err ValueError
                   | Some (b, k) => if (n + k =? 0)%nat then Err ValueError else Ok (b, k)
                   end
  end.
Definition with_sign {A} (neg : A -> A) (f : string -> res A) (s : string) : res A :=
  match s with
  | String c s' => if Ascii.eqb c "-" then do v <- f s'; Ok (neg v) else if Ascii.eqb c "+" then f s' else f s
  | EmptyString => f s
  end.
(** [float(s)] on decimal numerals, as the exact number (the rounding to 53 bits is left out); underscores, inf and nan,
    which Python also takes, are refused here. *)
Definition float_of (s : string) : res Q :=
  let '(m, e) := cut (fun c => Ascii.eqb c "e" || Ascii.eqb c "E") (lstrip (rstrip s)) in
  do q <- with_sign Qopp (fun t => do (v, k) <- mantissa t; Ok (v # Z.to_pos (10 ^ Z.of_nat k))%Q) m;
  match e with
  | None => Ok q
  | Some t => do x <- with_sign Z.opp (fun t => match plain_digits 0 0 t with Some (v, S _) => Ok v | _ => Err ValueError end) t;
              Ok (q * Qpower 10 x)%Q
  end.

(** ** The file *)
(** The dictionary that [read_lattice] returns; [False] and the empty list for "arrows" are both [false] in every test. *)
Record lattice : Type := {
  l_bulk : bool; l_sizes : list Z; l_vecs : list (list Q); l_nspecies : Z; l_bas : list (list Q);
  l_restricted : bool; l_arrows : bool; l_concs : list (list Q) }.

(** io_utils.py:38-39: [l.strip()[0] != '#']. *)
Definition strip (s : string) : string := lstrip (rstrip s).
Fixpoint without_comments (ls : list string) : res (list string) :=
  match ls with
  | [] => Ok []
  | l :: ls' => match strip l with
                | EmptyString => Err IndexError
                | String c _ => do r <- without_comments ls'; Ok (if Ascii.eqb c "#" then r else l :: r)
                end
  end.
(** [lines[a:b]] and [lines[a:]] for integers: negative bounds count from the end. *)
Definition bound {A} (l : list A) (i : Z) : nat := Z.to_nat (if i <? 0 then i + Z.of_nat (length l) else i).
Definition slice {A} (l : list A) (a b : Z) : list A := firstn (bound l b - bound l a) (skipn (bound l a) l).
Definition slice_from {A} (l : list A) (a : Z) : list A := skipn (bound l a) l.
Definition floats (l : string) : res (list Q) := rmap float_of (words l).
(** io_utils.py:23-75 [read_lattice]. *)
Definition read_lattice (text : string) : res lattice :=
  do ls <- without_comments (lines text);
  do l0 <- zget ls 0;
  do sizes <- rmap int_of (split_on " " l0);
  do l1 <- zget ls 1;
  do b <- char_at (strip l1) 0;
  do vecs <- rmap floats (slice ls 2 5);
  do l5 <- zget ls 5;
  do nspecies <- int_of l5;
  do l6 <- zget ls 6;
  do nbas <- int_of l6;
  do bas <- rmap floats (slice ls 7 (7 + nbas));
  do flag <- zget ls (7 + nbas);
  let made := fun restricted arrows concs =>
    {| l_bulk := Ascii.eqb (lower b) "b"; l_sizes := sizes; l_vecs := vecs; l_nspecies := nspecies; l_bas := bas;
       l_restricted := restricted; l_arrows := arrows; l_concs := concs |} in
  if String.eqb (strip flag) "F" then Ok (made false false [])
  else do flag2 <- zget ls (7 + nbas + 1);
       do concs <- rmap floats (slice_from ls (7 + nbas + 2));
       Ok (made true (negb (String.eqb (strip flag2) "F")) concs).

(** ** What the steps make of it *)
(** phonons.py:351-371 [get_arrow_concs]. *)
Definition get_arrow_concs (par : lattice) : list Q :=
  if l_restricted par then map (fun c => if ((length c =? 4)%nat && l_arrows par)%bool then nth 3 c 0%Q else 0%Q) (l_concs par)
  else repeat 0%Q (Z.to_nat (l_nspecies par)).
(** phonons.py:326: [int(cList[i]*aconcs[i])]; where the list of fractions is too short the code raises IndexError, as
    [arrow_concs] does with the shorter list. *)
Definition displaced (a_concs : list Q) (c : list Z) : list Z := map (fun '(n, a) => Z.quot (n * Qnum a) (Zpos (Qden a))) (combine c a_concs).
(** The vectors as integers over a common denominator. *)
Definition common (l : list (list Q)) : Z := fold_right (fun q d => Z.lcm (Zpos (Qden q)) d) 1 (concat l).
Definition over (d : Z) (q : Q) : Z := Qnum q * (d / Zpos (Qden q)).
Definition vec_over (d : Z) (l : list Q) : res vec :=
  match l with [x; y; z] => Ok (over d x, over d y, over d z) | _ => Err ValueError (* numpy refuses the shapes later on *) end.
Definition mat_over (d : Z) (l : list (list Q)) : res mat :=
  do rows <- rmap (vec_over d) l;
  match rows with [r; s; t] => Ok (r, s, t) | _ => Err ValueError end.
(** A restriction as three integers (the sample files have no others); more numbers are not used by get_concs_for_size. *)
Definition conc_of (l : list Q) : res conc :=
  match l with
  | x :: y :: z :: _ => if (((Qden x =? 1) && (Qden y =? 1) && (Qden z =? 1))%positive)%bool then Ok (Qnum x, Qnum y, Qnum z) else Err ValueError (* not modelled *)
  | _ => Err IndexError
  end.
(** The point group with the tolerance of symmetry.py:197 and 271, and the basis vectors (Cartesian in the file) in lattice
    coordinates, in units of 1/D for the smallest D that [DB] |det A| gives.  The numbers enter in lowest terms, so that
    "0.50" and "0.5" are the same. *)
Definition lowest (l : list (list Q)) : list (list Q) := map (map Qred) l.
Definition gcd_all (d : Z) (l : list vec) : Z := fold_right (fun '(x, y, z) g => Z.gcd x (Z.gcd y (Z.gcd z g))) d l.
Definition setup_of (par : lattice) : res setup :=
  let vecs := lowest (l_vecs par) in
  let DL := common vecs in
  do A <- mat_over DL vecs;
  do pg <- point_group (1 # 10000000000) DL A;
  let bas0 := lowest (l_bas par) in
  let DB := common bas0 in
  do basis <- rmap (vec_over DB) bas0;
  let D := Z.abs (mdet A) * DB in
  let coords := map (fun b => vscale (DL * Z.sgn (mdet A)) (mvec (madj (transpose A)) b)) basis in
  let g := gcd_all D coords in
  do lo <- zget (l_sizes par) 0;
  do hi <- zget (l_sizes par) 1;
  do concs <- rmap (fun c => conc_of (map Qred c)) (l_concs par);
  let a_concs := get_arrow_concs par in
  Ok {| s_pg := pg; s_D := D / g; s_bas := map (fun '(x, y, z) => (x / g, y / g, z / g)) coords;
        s_species := Z.to_nat (l_nspecies par); s_lo := lo; s_hi := hi; s_restricted := l_restricted par; s_concs := concs;
        s_arrows := negb (Qeq_bool (fold_right Qplus 0%Q a_concs) 0); s_na := displaced a_concs |}.
