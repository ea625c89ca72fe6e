(** Specification for the distributions C27-C30: what is available, from the counts alone. *)
From Coq Require Import List ZArith Bool.
Import ListNotations.
Local Open Scope Z_scope.

Definition total {A} (f : A -> Z) (l : list A) : Z := fold_right Z.add 0 (map f l).
(** The number asked for under a key of the result (0 if the key is not there). *)
Definition requested {K} (eqb : K -> K -> bool) (result : list (K * Z)) (k : K) : Z :=
  match find (fun kv => eqb k (fst kv)) result with Some (_, v) => v | None => 0 end.

Section Counts.
Variables (sizes : list Z) (hnfs concs : Z -> list (list Z)) (count : Z -> list Z -> list Z -> Z).
(** How many structures there are of a size / shape / concentration; None stands for "any". *)
Definition available (k : Z * option (list Z) * option (list Z)) : Z :=
  let '(s, h, c) := k in
  match h, c with
  | Some h, Some c => count s h c
  | Some h, None => total (fun c => count s h c) (concs s)
  | None, Some c => total (fun h => count s h c) (hnfs s)
  | None, None => total (fun h => total (fun c => count s h c) (concs s)) (hnfs s)
  end.
(** The keys of a distribution over: everything, shapes, concentrations, sizes. *)
Definition kind (by_shape by_conc : bool) (k : Z * option (list Z) * option (list Z)) : Prop :=
  let '(s, h, c) := k in
  In s sizes /\
  match h with Some h => by_shape = true /\ In h (hnfs s) | None => by_shape = false end /\
  match c with Some c => by_conc = true /\ In c (concs s) | None => by_conc = false end.
Definition grand_total : Z := total (fun s => available (s, None, None)) sizes.
End Counts.
