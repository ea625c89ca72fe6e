(** Model of /repo/phenum/io_utils.py:131-179 [write_struct_enum]: the text of struct_enum.in, the input of enum.x. *)
From Verif Require Import TextModel PyBase FilesModel.
Local Open Scope Z_scope.
Local Open Scope string_scope.

(** io_utils.py:146-154: every number followed by a blank; a new line after each of the first two vectors.  The numbers are
    their texts [str(point)]. *)
Fixpoint lattice_text (i : nat) (vecs : list (list string)) : string :=
  match vecs with
  | [] => ""
  | v :: vecs' => String.concat "" (map (fun p => p ++ " ") v) ++ (if (i <? 2)%nat then String newline "" else "") ++ lattice_text (S i) vecs'
  end.
(** io_utils.py:160-165. *)
Definition occupancy (k : Z) : string := String.concat "" (map (fun i => if (i <? k - 1)%Z then str i ++ "/" else str i) (range_up 0 k)).
(** io_utils.py:131-179 [write_struct_enum]. *)
Definition write_struct_enum (bulk : bool) (lat_vecs : list (list string)) (nspecies : Z) (basis_vecs : list (list string)) (sizes : list Z) : string :=
  let nl := String newline "" in
  "System " ++ nl ++
  (if bulk then "bulk " else "surface ") ++ nl ++
  lattice_text 0 lat_vecs ++ " " ++ nl ++
  str nspecies ++ " " ++ nl ++
  str (Z.of_nat (length basis_vecs)) ++ " " ++ nl ++
  String.concat "" (map (fun v => join " " v ++ "  " ++ occupancy nspecies ++ " " ++ nl) basis_vecs) ++ " " ++ nl ++
  String.concat "" (map (fun s => str s ++ " ") sizes) ++ " " ++ nl ++
  "0.00001 " ++ nl ++
  "full " ++ nl.
