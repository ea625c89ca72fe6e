(** Model of the part of /repo/phenum/grouptheory.py (and symmetry.py:309-398) that turns a parent lattice, its basis and
    an HNF into a list of (site, arrow) permutations.

    Exact arithmetic in lattice coordinates throughout: a point is an integer vector in units of 1/[D] of the parent
    lattice vectors, and a rotation R (Cartesian, orthogonal) is the integer matrix C = A^-T R A^T by which it acts on
    columns of lattice coordinates, together with its rounded Cartesian matrix (used for the arrows only).  The loops
    that bring a point into the cell are modelled separately (C39); here they are reduction modulo [D]. *)
From Verif Require Import PyBase Mat3 HNFModel.
Local Open Scope Z_scope.

(** ** Member lists (grouptheory.py:73-97) *)

(** grouptheory.py:91-96: the next member, the last of the three digits running fastest. *)
Definition next_member (n p : vec) : vec :=
  let '(a, b, c) := n in
  let '(i, j, k) := p in
  let k' := (k + 1) mod c in
  if k' =? 0
  then let j' := (j + 1) mod b in
       if j' =? 0 then ((i + 1) mod a, j', k') else (i, j', k')
  else (i, j, k').
Fixpoint members_from (count : nat) (n p : vec) : list vec :=
  match count with
  | O => []
  | S count' => p :: members_from count' n (next_member n p)
  end.
(** grouptheory.py:73-97 [_make_member_list]; the float array only ever holds integers. *)
Definition make_member_list (n : vec) : list vec :=
  let '(a, b, c) := n in members_from (Z.to_nat (a * b * c)) n (0, 0, 0).

(** ** Matching lists of vectors *)

(** [np.allclose(x, y)] with the default tolerances rtol=1e-5, atol=1e-8 on numbers with integer values:
    |x - y| <= 1e-8 + 1e-5 * |y|, multiplied by 10^8. *)
Definition close_int (x y : Z) : bool := Z.abs (x - y) * 10 ^ 8 <=? 1 + 10 ^ 3 * Z.abs y.
Definition allclose (u v : vec) : bool :=
  let '(a, b, c) := u in let '(x, y, z) := v in close_int a x && close_int b y && close_int c z.

(** grouptheory.py:112-119, 228-235: for every entry of [g] the first entry of [gp], not used before, that is close to
    it; entries without partner are passed over.  [skip[jm]] is true exactly for the [jm] already in [perm]. *)
Definition match_lists {A : Type} (close : A -> A -> bool) (g gp : list A) : list nat :=
  fold_left (fun perm x =>
               match find (fun '(jm, y) => negb (existsb (Nat.eqb jm) perm) && close y x)
                          (combine (seq 0 (length g)) gp) with
               | Some (jm, _) => perm ++ [jm]
               | None => perm
               end) g [].
(** grouptheory.py:99-121 [_find_permutation_of_group]. *)
Definition find_permutation_of_group (g gp : list vec) : list nat := match_lists allclose g gp.
(** grouptheory.py:212-242 [_map_dvector_permutation]; [close] is [np.allclose(rd[iD],d[jD],atol=eps,rtol=0)]. *)
Definition map_dvector_permutation {A : Type} (close : A -> A -> bool) (rd d : list A) : res (list nat) :=
  let RP := match_lists (fun y x => close x y) rd d in
  if negb (Nat.eqb (length RP) (length d)) then Err SystemExit else Ok RP.

(** grouptheory.py:583-605, 609-616: the same search, but a table entry without partner keeps its initial 0. *)
Definition match_table {A : Type} (close : A -> A -> bool) (g gp : list A) (offset : nat) : list nat :=
  fst (fold_left (fun '(out, used) x =>
               match find (fun '(jm, y) => negb (existsb (Nat.eqb jm) used) && close y x)
                          (combine (seq 0 (length g)) gp) with
               | Some (jm, _) => (out ++ [(jm + offset)%nat], jm :: used)
               | None => (out ++ [0%nat], used)
               end) g ([], [])).

(** ** Space group (symmetry.py:274-398) *)

(** A symmetry operation: action on lattice coordinates, Cartesian matrix, fractional shift (in units of 1/D). *)
Record sg_op : Type := { rot : mat; cart : mat; shift : vec }.

Definition vsub (u v : vec) : vec := vadd u (vscale (-1) v).
Definition vmod (u m : vec) : vec :=
  let '(a, b, c) := u in let '(x, y, z) := m in (a mod x, b mod y, c mod z).
(** symmetry.py:153-195 [bring_into_cell], by its effect. *)
Definition into_cell (D : Z) (v : vec) : vec := vmod v (D, D, D).
Definition vec_eqb (u v : vec) : bool :=
  let '(a, b, c) := u in let '(x, y, z) := v in (a =? x) && (b =? y) && (c =? z).

(** symmetry.py:274-398 [get_spaceGroup] with all atoms of one type (as [get_sym_group] calls it); [pg] is the point
    group of the parent lattice, each rotation with its Cartesian matrix. *)
Definition get_spaceGroup (pg : list (mat * mat)) (D : Z) (bas : list vec) : list sg_op :=
  let atoms := map (into_cell D) bas in
  flat_map (fun '(op, car) =>
    let v := mvec op (nth 0 atoms (0, 0, 0)) in
    flat_map (fun atom_j =>
      let fract := into_cell D (vsub atom_j v) in
      let mapped := forallb (fun atom_k =>
                        existsb (vec_eqb (into_cell D (vadd (mvec op atom_k) fract))) atoms) atoms in
      if mapped then [{| rot := op; cart := car; shift := fract |}] else []) atoms) pg.

(** grouptheory.py:411-489 [_get_dvector_permutations], LatDim=3: for every operation the lattice vectors [v] that bring
    the transformed basis back into the cell and the permutation of the basis.  The code multiplies the basis vectors
    (rows) by the rotation from the right (line 454): that is the transposed, i.e. inverse, rotation. *)
Definition get_dvector_permutation (D : Z) (bas : list vec) (o : sg_op) : res (list vec * list nat) :=
  let trd := map (fun d => vadd (mvec (minv (rot o)) d) (shift o)) bas in
  let rd := map (into_cell D) trd in
  let v := map (fun '(x, y) => vsub x y) (combine rd trd) in
  do perm <- map_dvector_permutation vec_eqb rd bas;
  Ok (v, perm).
Definition get_dvector_permutations (D : Z) (bas : list vec) (ops : list sg_op) : res (list (list vec * list nat)) :=
  rmap (get_dvector_permutation D bas) ops.

(** ** Site and arrow permutations of the supercell (grouptheory.py:491-708) *)

(** grouptheory.py:526. *)
Definition arrowg : list vec := [(1, 0, 0); (-1, 0, 0); (0, 1, 0); (0, -1, 0); (0, 0, 1); (0, 0, -1)].

(** grouptheory.py:567-575: the image of the member list under one operation and one basis vector, in exact arithmetic
    L (C L^-1 g - v / D), reduced modulo the diagonal of the SNF. *)
Definition vdiv (u : vec) (D : Z) : vec := let '(a, b, c) := u in (a / D, b / D, c / D).
Definition rotated_members (D : Z) (L : mat) (diag : vec) (C : mat) (v : vec) (g : list vec) : list vec :=
  map (fun x => vmod (mvec L (vsub (mvec C (mvec (minv L) x)) (vdiv v D))) diag) g.

(** grouptheory.py:561-607, 624: the site permutation of one operation "in the long form": row [perm[iD]] of the table
    holds, for every member, jm + iD*n. *)
Definition rotation_site_perm (n : nat) (D : Z) (L : mat) (diag : vec) (g : list vec) (o : sg_op)
    (vp : list vec * list nat) : list nat :=
  let '(v, perm) := vp in
  let n_d := length perm in
  concat (fold_left (fun table iD =>
            upd table (nth iD perm 0%nat)
                (match_table allclose g (rotated_members D L diag (rot o) (nth iD v (0, 0, 0)) g) (iD * n)))
          (seq 0 n_d) (repeat (repeat 0%nat n) n_d)).

(** grouptheory.py:566, 574, 609-621: the arrow permutation of one operation; [np.matmul(arrowg, rot)] multiplies rows by
    the rotation from the right; more than one 0 in the table means failure and exit. *)
Definition rotation_arrow_perm (o : sg_op) : res (list nat) :=
  let ag := map (mvec (transpose (cart o))) arrowg in
  let dap := match_table vec_eqb arrowg ag 0 in
  if Nat.ltb 1 (length (filter (Nat.eqb 0) dap)) then Err SystemExit else Ok dap.

(** Lexicographic order of lists of numbers, and [list.sort]. *)
Fixpoint lex_leb (a b : list nat) : bool :=
  match a, b with
  | [], _ => true
  | _ :: _, [] => false
  | x :: a', y :: b' => if Nat.ltb x y then true else if Nat.eqb x y then lex_leb a' b' else false
  end.
Fixpoint lex_insert (x : list nat) (l : list (list nat)) : list (list nat) :=
  match l with
  | [] => [x]
  | y :: l' => if lex_leb x y then x :: l else y :: lex_insert x l'
  end.
Definition lex_sort (l : list (list nat)) : list (list nat) := fold_right lex_insert [] l.
(** [itertools.groupby]: one of each run of equal neighbours. *)
Fixpoint group_runs (l : list (list nat)) : list (list nat) :=
  match l with
  | [] => []
  | x :: l' => match l' with
               | [] => [x]
               | y :: _ => if nlist_eqb x y then group_runs l' else x :: group_runs l'
               end
  end.

(** grouptheory.py:637-660: duplicates removed; with arrows neighbours are compared before the sort. *)
Definition reduce_rotations (arrows : bool) (rps : list (list nat)) (aps : list (list nat)) :
    list (list nat * list nat) :=
  if Nat.leb (length rps) 1 then combine rps aps
  else if arrows
  then let nr := length (nth 0 rps []) in
       let perms := lex_sort (group_runs (map (fun '(r, a) => r ++ a) (combine rps aps))) in
       map (fun p => (firstn nr p, skipn nr p)) perms
  else let rps' := group_runs (lex_sort rps) in combine rps' (firstn (length rps') aps).

(** grouptheory.py:670-685: the permutations effected by the lattice translations inside the supercell. *)
Definition translation_perm (n n_d : nat) (diag : vec) (g : list vec) (t : vec) : list nat :=
  let tg := map (fun x => vmod (vadd x t) diag) g in
  let perm := find_permutation_of_group g tg in
  concat (map (fun il => map (fun i => (il * n + i)%nat) perm) (seq 0 n_d)).
Definition translation_perms (n n_d : nat) (diag : vec) (g : list vec) : list (list nat) :=
  map (translation_perm n n_d diag g) g.

(** grouptheory.py:491-708 [_get_rotation_perms_lists] for one HNF: entry iOp*n+it is the it-th translation after the
    iOp-th rotation; without arrows every arrow permutation is the identity of six directions. *)
Definition get_rotation_perms_list (D : Z) (L : mat) (diag : vec) (ops : list sg_op) (vps : list (list vec * list nat))
    (fixing : list nat) (n_d : nat) (arrows : bool) : res (list (list nat * list nat)) :=
  let '(a, b, c) := diag in
  let n := Z.to_nat (a * b * c) in
  let g := make_member_list diag in
  do pairs <- rmap (fun iRot =>
                      do o <- get ops iRot;
                      do vp <- get vps iRot;
                      do ap <- rotation_arrow_perm o;
                      Ok (rotation_site_perm n D L diag g o vp, ap)) fixing;
  let rots := reduce_rotations arrows (map fst pairs) (map snd pairs) in
  let trans := translation_perms n n_d diag g in
  Ok (flat_map (fun '(r, ap) =>
                  map (fun t => (map (fun i => nth i t 0%nat) r, if arrows then ap else seq 0 6)) trans) rots).

(** grouptheory.py:710-759 [get_sym_group] with LatDim=3; the left transform and the diagonal of the SNF of the HNF are
    arguments (see SNFModel.v). *)
Definition get_sym_group (pg : list (mat * mat)) (D : Z) (bas : list vec) (HNF L : mat) (diag : vec) (arrows : bool) :
    res (list (list nat * list nat)) :=
  let bas := map (into_cell D) bas in
  let ops := get_spaceGroup pg D bas in
  do vps <- get_dvector_permutations D bas ops;
  let fixing := fst (get_sLV_fixing_operations HNF (map rot ops)) in
  get_rotation_perms_list D L diag ops vps fixing (length bas) arrows.
