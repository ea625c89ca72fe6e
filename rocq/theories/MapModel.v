(** Model of vector_utils.py:3-159 [map_enumStr_to_real_space]: from a row of enum.out to positions and occupants.

    Positions are in lattice coordinates and units of 1/D, as in LatGroupModel.v: [matmul(plv, [z1,z2,z3])] is the vector
    (z1,z2,z3), a basis vector is an integer vector over D.  [matmul(plv, HNF)] is the matrix HNF itself; the reduction of
    the supercell (line 94) changes the supercell vectors only and is modelled in ReduceModel.v. *)
From Coq Require Import SpecFloat.
From Verif Require Import TextModel PyBase Mat3 HNFModel.
Local Open Scope Z_scope.

(** ** The limits of the loops, lines 104-106 *)
(** [range(lo2 z1, hi2 z1)] and [range(lo3 z1 z2, hi3 z1 z2)].  The code computes them in doubles and truncates ([int]).
    [exact_limits]: the same expressions with exact quotients.  [double_limits]: with doubles. *)
Record limits : Type := { lo2 : Z -> Z; hi2 : Z -> Z; lo3 : Z -> Z -> Z; hi3 : Z -> Z -> Z }.
Definition exact_limits (H : mat) : limits :=
  let a := mget H 0 0 in let b := mget H 1 0 in let c := mget H 1 1 in let d := mget H 2 0 in let e := mget H 2 1 in let f := mget H 2 2 in
  {| lo2 z1 := Z.quot (b * z1) a;
     hi2 z1 := Z.quot (c * a + b * z1) a;
     lo3 z1 z2 := Z.quot (z1 * (d * c - e * b) + e * z2 * a) (a * c);
     hi3 z1 z2 := Z.quot (f * (a * c) + (z1 * (d * c - e * b) + e * z2 * a)) (a * c) |}.

(** IEEE doubles (the standard library's computable specification). *)
Definition fint (z : Z) : spec_float := binary_normalize 53 1024 z 0 false.
Definition fadd := SFadd 53 1024.
Definition fsub := SFsub 53 1024.
Definition fmul := SFmul 53 1024.
Definition fdiv := SFdiv 53 1024.
(** [int(x)] of a double. *)
Definition ftrunc (x : spec_float) : Z :=
  match x with
  | S754_finite s m e => let v := if 0 <=? e then Z.pos m * 2 ^ e else Z.pos m / 2 ^ (- e) in if s then - v else v
  | _ => 0
  end.
Definition double_limits (H : mat) : limits :=
  let a := mget H 0 0 in let b := mget H 1 0 in let c := mget H 1 1 in let d := mget H 2 0 in let e := mget H 2 1 in let f := mget H 2 2 in
  let quot p q := fdiv (fint p) (fint q) in
  let x z1 := fdiv (fmul (fint z1) (fsub (fint d) (quot (e * b) c))) (fint a) in
  {| lo2 z1 := ftrunc (quot (b * z1) a);
     hi2 z1 := ftrunc (fadd (fint c) (quot (b * z1) a));
     lo3 z1 z2 := ftrunc (fadd (x z1) (quot (e * z2) c));
     hi3 z1 z2 := ftrunc (fadd (fadd (fint f) (x z1)) (quot (e * z2) c)) |}.

(** ** Points and their numbers *)
(** Lines 101-106: the points (iD, z) in the order they are visited. *)
Definition cells (lim : limits) (a : Z) : list vec :=
  flat_map (fun z1 => flat_map (fun z2 => map (fun z3 => (z1, z2, z3)) (range_up (lo3 lim z1 z2) (hi3 lim z1 z2)))
                               (range_up (lo2 lim z1) (hi2 lim z1))) (range_up 0 a).
Definition points (lim : limits) (a : Z) (nD : nat) : list (nat * vec) :=
  flat_map (fun iD => map (pair iD) (cells lim a)) (seq 0 nD).
(** Lines 113-126.  [float] and [int] of L z are exact below 2^53: the test of [allclose] passes. *)
Definition g_index (L : mat) (S : vec) (p : nat * vec) : Z :=
  let '(s0, s1, s2) := S in let '(g0, g1, g2) := mvec L (snd p) in
  Z.of_nat (fst p) * s0 * s1 * s2 + (g0 mod s0) * s1 * s2 + (g1 mod s1) * s2 + g2 mod s2.
(** Lines 97-131: points and [g_indx]; [exit()] if their number is not [n*n_d]. *)
Definition real_space (lim : limits) (n : Z) (nD : nat) (H L : mat) (S : vec) : res (list (nat * vec) * list Z) :=
  let pts := points lim (mget H 0 0) nD in
  if Z.of_nat (length pts) =? n * Z.of_nat nD then Ok (pts, map (g_index L S) pts) else Err SystemExit.
(** Line 109-111: the position of a point. *)
Definition position (D : Z) (bas : list vec) (p : nat * vec) : vec := vadd (nth (fst p) bas (0, 0, 0)) (vscale D (snd p)).

(** ** Occupants, lines 133-154 *)
(** [int(labeling[g_indx[iAt]])]. *)
Definition label_at (labeling : string) (g : Z) : res Z := do ch <- char_at labeling g; int_of (String ch "").
(** [x[i] += 1]. *)
Definition count_up (x : list Z) (i : Z) : res (list Z) := do v <- zget x i; set x (Z.to_nat i) (v + 1).
Definition spin_of (k i : Z) : Z :=
  if k mod 2 =? 0 then let digit := i - k / 2 in if digit <? 0 then digit else digit + 1 else i - k / 2.
(** [x] before the division by [n*n_d] of line 156. *)
Definition occupants (k : Z) (labeling : string) (gs : list Z) : res (list Z * list Z) :=
  rfold (fun '(spin, x) g => do i <- label_at labeling g; do x' <- count_up x i; Ok (spin ++ [spin_of k i], x')) gs ([], repeat 0 (Z.to_nat k)).
(** The whole function: positions, [gIndx], [spin] and the numbers of atoms. *)
Record space : Type := { aBas : list vec; gIndx : list Z; spin : list Z; counts : list Z }.
Definition map_enumStr (lim : limits) (D : Z) (bas : list vec) (k n : Z) (H L : mat) (S : vec) (labeling : string) : res space :=
  do (pts, gs) <- real_space lim n (length bas) H L S;
  do (sp, x) <- occupants k labeling gs;
  Ok {| aBas := map (position D bas) pts; gIndx := gs; spin := sp; counts := x |}.
