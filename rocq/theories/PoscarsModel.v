(** Model of phenumStr.py:19-52 and 162-203 for POSCARs: all the structures asked for, from enum.out to the files written. *)
From Coq Require Import QArith.
From Verif Require Import TextModel PyBase Mat3 HNFModel SNFModel EnumOutModel MapModel PoscarModel MakeStrModel FilesModel.
Local Open Scope Z_scope.

(** io_utils.py:345-348: the name of the file.  [format] puts the number in place of the first "{}"; names with further
    braces (for which it raises an exception or rewrites them) are not modelled. *)
Definition poscar_name (outfile : string) (n : Z) : string :=
  match String.index 0 "{}" outfile with
  | Some i => substring 0 i outfile ++ str n ++ substring (i + 2) (String.length outfile - (i + 2)) outfile
  | None => outfile ++ "." ++ str n
  end%string.
(** phenumStr.py:29-47 with [config] = "f" (the default), after the choice of the structures (lines 183-206): every file
    written, with its name.  The crystal is given in lattice coordinates (MakeStrModel.v); number of species and title are
    those read from the file. *)
Definition make_structures (lim : mat -> limits) (param : Z -> Q) (D : Z) (bas : list vec) (file : string) (structures : list string)
    (outfile : string) (species : option (list string)) (remove_zeros : flag) : res (list (string * poscar vec)) :=
  do r <- make_selected file structures;
  rmap (fun s => do p <- make_poscar lim param D bas (s_k (fst r)) (s_title (fst r)) s species remove_zeros; Ok (poscar_name outfile (strN s), p)) (snd r).
