(** Model of /repo/phenum/HNFs.py and of grouptheory.py:123-210. *)
From Verif Require Import PyBase Mat3.
Local Open Scope Z_scope.

(** HNFs.py:4-26 [_get_HNF_diagonals]. *)
Definition get_HNF_diagonals (n : Z) : list (Z * Z * Z) :=
  flat_map (fun i =>
    if negb (n mod i =? 0) then []
    else let q := n / i in
         flat_map (fun j => if negb (q mod j =? 0) then [] else [(i, j, q / j)])
                  (range_up 1 (q + 1)))
    (range_up 1 (n + 1)).

(** HNFs.py:28-52 [find_all_HNFs]. *)
Definition find_all_HNFs (n : Z) : list mat :=
  flat_map (fun diag =>
    let '(a, c, f) := diag in
    flat_map (fun b =>
      flat_map (fun d =>
        map (fun e => ((a, 0, 0), (b, c, 0), (d, e, f))) (range_up 0 f))
        (range_up 0 f))
      (range_up 0 c))
    (get_HNF_diagonals n).

(** grouptheory.py:123-148 [_is_equiv_lattice], in exact arithmetic and in lattice coordinates: the
    code computes S = lat1^-1 lat2 with lat1 = R A H1 and lat2 = A H2 in floating point and asks
    whether |det S| = 1 and S is an integer matrix, both within eps.  S is unchanged when both
    matrices are expressed in the basis A of the parent lattice, where they are the integer matrices
    (A^-1 R A) H1 and H2; S = adj(lat1) lat2 / det lat1.  The tolerance is dropped. *)
Definition is_equiv_lattice (lat1 lat2 : mat) : bool :=
  let d := mdet lat1 in
  let N := mmul (madj lat1) lat2 in
  (Z.abs d =? Z.abs (mdet lat2)) &&
  forallb (fun i => forallb (fun j => mget N i j mod d =? 0) [0; 1; 2]%nat) [0; 1; 2]%nat.

(** HNFs.py:86-93: the two inner loops with their [break]s. *)
Definition is_duplicate (rots : list mat) (uhnfs : list mat) (hnf_i : mat) : bool :=
  existsb (fun hnf_j => existsb (fun r => is_equiv_lattice (mmul r hnf_i) hnf_j) rots) uhnfs.

(** HNFs.py:79-99: the list of symmetrically distinct lattices.  [rots] are the rotations returned by
    get_spaceGroup, in lattice coordinates. *)
Definition unique_HNFs (rots : list mat) (hnfs : list mat) : list mat :=
  if (length hnfs =? 1)%nat then hnfs
  else fold_left (fun uhnfs h => if is_duplicate rots uhnfs h then uhnfs else uhnfs ++ [h]) hnfs [].

(** grouptheory.py:176-207, the loop of [_get_sLV_fixing_operations]: indices of the rotations that fix
    the superlattice, and the list of the other lattices it is turned into ([degen_lattices]). *)
Definition fixing_step (rots : list mat) (HNF : mat) (st : list nat * list mat) (iRot : nat)
  : list nat * list mat :=
  let '(t_index, degen) := st in
  let rot_lat := mmul (nth iRot rots mid) HNF in
  if is_equiv_lattice rot_lat HNF then (t_index ++ [iRot], degen)
  else if existsb (fun l => is_equiv_lattice l rot_lat) degen then (t_index, degen)
       else (t_index, degen ++ [rot_lat]).
Definition get_sLV_fixing_operations (HNF : mat) (rots : list mat) : list nat * nat :=
  let '(t_index, degen) := fold_left (fixing_step rots HNF) (seq 0 (length rots)) ([], []) in
  (t_index, length degen).

(** HNFs.py:54-114 [remove_duplicate_lattices]: (unique HNFs, indices of the fixing rotations of each,
    degeneracies).  The shifts and basis permutations carried along are left out. *)
Definition remove_duplicate_lattices (rots : list mat) (hnfs : list mat)
  : list mat * list (list nat) * list nat :=
  let uhnfs := unique_HNFs rots hnfs in
  let fx := map (fun hnf => get_sLV_fixing_operations hnf rots) uhnfs in
  (uhnfs, map fst fx, map (fun f => (snd f + 1)%nat) fx).

(** grouptheory.py:909-926 [get_full_HNF] on a list of six entries. *)
Definition get_full_HNF (h : list Z) : list (list Z) :=
  [[nth 0 h 0; 0; 0]; [nth 1 h 0; nth 2 h 0; 0]; skipn 3 h].
