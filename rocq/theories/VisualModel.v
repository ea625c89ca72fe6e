(** Model of /repo/phenum/visualize.py:14-191 ([HNF_shapes], [HNF_atoms], [_convert_read_lat_to_system_dat]), of
    enumeration.py:6-17 [_plot_HNFs] and of the part of enumeration.py:342-391 that leads to it: the pictures of the supercells.

    A picture is the list of the segments and of the dots that are drawn, in Cartesian coordinates, exact rationals (doubles are not
    rounded).  What matplotlib makes of them is left out, and so are the colours, the view and the invisible dots that set the scale
    (lines 91-97, 177-183).  [plt.show] and [testmode] are left out: every picture is saved. *)
From Coq Require Import QArith.
From Verif Require Import TextModel PyBase Mat3 HNFModel SNFModel EnumOutModel MapModel CellModel ReduceModel LatticeInModel ScriptModel.
Local Open Scope Z_scope.

Record figure : Type := { f_edges : list (qvec * qvec); f_dots : list qvec }.
(** [array(x)+array(y)]. *)
Definition qplus3 (u v : qvec) : qvec := let '(a, b, c) := u in let '(x, y, z) := v in ((a + x)%Q, (b + y)%Q, (c + z)%Q).
Definition origin3 : qvec := (0%Q, 0%Q, 0%Q).
(** Integers over D. *)
Definition over_q (D : Z) (v : vec) : qvec := let '(x, y, z) := v in (x # Z.to_pos D, y # Z.to_pos D, z # Z.to_pos D)%Q.
Definition rows_q (D : Z) (M : mat) : qmat := let '(r, s, t) := M in (over_q D r, over_q D s, over_q D t).

(** visualize.py:54-62 and 77-88: the corners and the twelve calls of [ax.plot]; x, y, z are the rows of "sLV". *)
Definition cell_edges (sLV : qmat) : list (qvec * qvec) :=
  let '(x, y, z) := sLV in
  let xy := qplus3 x y in let xz := qplus3 x z in let yz := qplus3 y z in let xyz := qplus3 (qplus3 y x) z in
  [(origin3, x); (origin3, y); (origin3, z); (x, xz); (z, xz); (x, xy); (y, xy); (y, yz); (z, yz); (yz, xyz); (xz, xyz); (xy, xyz)].

(** ["".join(["0" for i in range(n)])], lines 49 and 151. *)
Fixpoint zeros_text (n : nat) : string := match n with O => EmptyString | Datatypes.S n' => String "0" (zeros_text n') end.
(** visualize.py:188-221: "plattice" is the list of the vectors as read (rows), "dvecs" the basis, "k" the number of species, "eps" 1E-10. *)
Definition visual_eps : Q := 1 # 10000000000.

(** Lines 36-40 and 138-142: the numbers of a line without its last one, the first six of them. *)
Definition line_numbers (line : string) : res (list Z) := do l <- rmap int_of (removelast (words line)); Ok (firstn 6 l).
(** Lines 41-53, 68-70 and 143-158; lines 93-94 of vector_utils.py: [matmul(plv,HNF)], its columns reduced.  The vectors and the
    basis are integers over D.  [lim] are the limits of the loops of [map_enumStr_to_real_space].  With fewer than three
    numbers get_full_HNF raises IndexError, with three to five numpy refuses the ragged matrix. *)
Definition figure_of (fuel : nat) (lim : mat -> limits) (shapes : bool) (par : lattice) (h : list Z) : res figure :=
  if (length h <? 3)%nat then Err IndexError else if (length h <? 6)%nat then Err ValueError else
  let H := full_HNF h in
  do (M, L, R) <- SmithNormalForm H;
  let diag := (mget M 0 0, mget M 1 1, mget M 2 2) in
  let n := mget M 0 0 * mget M 1 1 * mget M 2 2 in
  let vecs := lowest (l_vecs par) in let bas := lowest (l_bas par) in
  let D := common (vecs ++ bas) in
  do plv <- mat_over D vecs;
  do dvecs <- rmap (vec_over D) bas;
  do OUT <- minkowski_reduce visual_eps D (transpose (mmul plv H));
  do (pts, gs) <- real_space (lim H) n (length dvecs) H L diag;
  do _ <- occupants (l_nspecies par) (zeros_text (Z.to_nat n)) gs;
  let sLV := rows_q D OUT in
  (* vector_utils.py:109-110 *)
  let aBas := map (fun p => over_q D (vadd (mvec plv (snd p)) (nth (fst p) dvecs (0, 0, 0)))) pts in
  do direct <- cartesian2direct fuel sLV aBas visual_eps;
  Ok {| f_edges := if shapes then cell_edges sLV else []; f_dots := map (fun p => qvecm p sLV) direct |}.
(** Line 99: the name of the file. *)
Definition figure_name (h : list Z) : string := (join "" (map str h) ++ ".pdf")%string.
Fixpoint has_hash (s : string) : bool := match s with EmptyString => false | String c s' => Ascii.eqb c "#" || has_hash s' end.
(** Lines 34-104, 136-191: the pictures saved, in order, and how the loop ends. *)
Fixpoint plot_lines (fuel : nat) (lim : mat -> limits) (shapes : bool) (par : lattice) (ls : list string) : list (string * figure) * res unit :=
  match ls with
  | [] => ([], Ok tt)
  | l :: ls' => if has_hash l then plot_lines fuel lim shapes par ls' else
      match (do h <- line_numbers l; do f <- figure_of fuel lim shapes par h; Ok (figure_name h, f)) with
      | Err e => ([], Err e)
      | Ok p => let '(ps, r) := plot_lines fuel lim shapes par ls' in (p :: ps, r)
      end
  end.
(** [enumeration.py -visualize], with or without [-shapes], [-input], [-lattice], and no other command: lines 342-391 give "input" no
    value in that case, and [open(None)] raises TypeError; the lattice is read first (visualize.py:31, 133). *)
Definition visualize (fuel : nat) (lim : mat -> limits) (shapes : bool) (lattice_file : string) (input : option string) (d : dir) : list (string * figure) * res unit :=
  match dfile d lattice_file with
  | None => ([], Err IOError)
  | Some t => match read_lattice t with
              | Err e => ([], Err e)
              | Ok par => match input with
                          | None => ([], Err TypeError)
                          | Some f => match dfile d f with None => ([], Err IOError) | Some txt => plot_lines fuel lim shapes par (lines txt) end
                          end
              end
  end.
