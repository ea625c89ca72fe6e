(** Specification for C31-C34: what the file enum.out holds, in terms of the structures enumerated. *)
From Coq Require Import Permutation Sorted.
From Verif Require Import TextModel TextProofs PyBase Mat3 SNFModel SuperModel EnumOutModel.
Local Open Scope Z_scope.

(** The heading: a date without newline, three lattice vectors, at least one basis vector, numerals without blanks. *)
Definition good_params (p : params) : Prop :=
  no_newline (p_date p) /\ length (p_lat p) = 3%nat /\ p_basis p <> [] /\ 0 <= p_nspecies p /\
  Forall (fun t => solid (fst (fst t)) /\ solid (snd (fst t)) /\ solid (snd t)) (p_lat p ++ p_basis p).
Definition three (t : string * string * string) : list string := [fst (fst t); snd (fst t); snd t].
Definition system_of (p : params) : system :=
  {| s_title := rstrip ("Random structure enumeration: " ++ p_date p); s_bulksurf := if p_bulk p then "bulk" else "surface";
     s_plattice := map three (p_lat p); s_nD := Z.of_nat (length (p_basis p)); s_dvecs := map three (p_basis p);
     s_k := p_nspecies p; s_eps := "1e-7" |}.

(** The structures (HNF, configuration) enumerated, in the order of enum.in. *)
Definition nonempty (c : config) : Prop := match c with Arrowed l => l <> [] | Plain l => l <> [] end.
Definition listed (systems : list (list Z * list config)) : list (list Z * config) := flat_map (fun '(h, cs) => map (pair h) cs) systems.
Definition good_system (hc : list Z * list config) : Prop := 1 <= mdet (full_HNF (fst hc)) <= 10 ^ 5 /\ Forall nonempty (snd hc).


(** The number of parent cells. *)
Definition cells_of (hc : list Z * config) : Z := mdet (full_HNF (fst hc)).
Definition labels_of (c : config) : string := match create_labeling c with Ok (lab, _) => lab | Err _ => EmptyString end.
(** By size, then by labeling in the order of the alphabet. *)
Definition not_after (x y : list Z * config) : Prop :=
  cells_of x < cells_of y \/ cells_of x = cells_of y /\ String.leb (labels_of (snd x)) (labels_of (snd y)) = true.
(** Position [i] among the structures of its size, from 1. *)
Definition number_in_size (l : list (list Z * config)) (i : nat) : Z :=
  match nth_error l i with
  | Some x => 1 + Z.of_nat (length (filter (fun y => cells_of y =? cells_of x) (firstn i l)))
  | None => 0
  end.
(** What the dictionary for line [i] of the list [l] of structures has to hold. *)
Definition is_row (l : list (list Z * config)) (i : nat) (s : structure) : Prop :=
  exists h c, nth_error l i = Some (h, c) /\
    strN s = Z.of_nat i + 1 /\ sizeN s = number_in_size l i /\ cells s = mdet (full_HNF h) /\
    hnfN s = 1 /\ hnf_degen s = 1 /\ lab_degen s = 1 /\ tot_degen s = 1 /\ pgOps s = 1 /\
    sHNF s = full_HNF h /\ (exists M R, SmithNormalForm (full_HNF h) = Ok (M, sL s, R) /\ sdiag s = diag_of M) /\
    create_labeling c = Ok (labeling s, directions_of s).
(** HNFs as six numbers. *)
Definition is_hnf (h : list Z) : Prop :=
  exists a b c d e f, h = [a; b; c; d; e; f] /\ 0 < a /\ 0 <= b < c /\ 0 <= d < f /\ 0 <= e < f.
(** The left transform leaves room for a blank in five columns. *)
Definition short_transform (h : list Z) : Prop :=
  forall M L R i j, SmithNormalForm (full_HNF h) = Ok (M, L, R) -> (i < 3)%nat -> (j < 3)%nat -> -1000 < mget L i j < 10000.
