(** Commands in a directory (C61 to C64): what does not hold, on the simple cubic lattice with one atom per cell. *)
From Coq Require Import QArith.
From Verif Require Import TextModel PyBase Mat3 PolyaModel EnumSysModel FilesModel EnumOutModel RunModel LatticeInModel LatticeInSpec PropertiesLatticeIn ScriptModel ScriptMain PropertiesPoint PropertiesScript.
Local Open Scope Z_scope.

(** Computing with the command: how it ends and the directory it leaves. *)
Definition run (a : args) (d : dir) : res unit * dir := let '(ws, r) := script (some_env 50 "Monday") a d in (r, after d ws).
Definition ok (r : res unit) : bool := match r with Ok _ => true | Err _ => false end.
Definition fails_value (r : res unit) : bool := match r with Err ValueError => true | _ => false end.
(** How many structures enum.out lists. *)
Definition structures_in (d : dir) (f : string) : option nat :=
  match dfile d f with Some file => match read_enum_out file None with Ok (_, structs) => Some (length structs) | Err _ => None end | None => None end.
Definition dist_args (sizes : option (Z * Z)) : args :=
  {| a_polya := false; a_enum := false; a_lattice := "lattice.in"; a_input := None; a_distribution := Some ["all"; "all"]%string; a_savedist := false; a_outfile := None;
     a_sizes := sizes; a_accept := Ok false; a_super := false; a_filter := None |}.
Definition polya_and (a : args) : args :=
  {| a_polya := true; a_enum := a_enum a; a_lattice := a_lattice a; a_input := a_input a; a_distribution := a_distribution a; a_savedist := a_savedist a; a_outfile := a_outfile a;
     a_sizes := a_sizes a; a_accept := a_accept a; a_super := a_super a; a_filter := a_filter a |}.

(** lattice.in is changed after a run (sizes 1 to 1, then 1 to 2), and [-enum] is given again: it completes, under the new
    heading, with the two crystals of the first run; in a directory with lattice.in only, there are five. *)
Definition stale : dir := dput (snd (run enum_args (sc_dir "1 1"))) "lattice.in" (sc_file "1 2").
Theorem C62_stale_refuted : exists d d', dfile d "lattice.in" = Some (sc_file "1 2") /\ dfile d' "lattice.in" = Some (sc_file "1 2") /\
  fst (run enum_args d) = Ok tt /\ fst (run enum_args d') = Ok tt /\ structures_in (snd (run enum_args d)) "enum.out" = Some 5%nat /\ structures_in (snd (run enum_args d')) "enum.out" = Some 2%nat.
Proof. exists (sc_dir "1 2"), stale. repeat (split; [vm_compute; reflexivity|]). vm_compute. reflexivity. Qed.
(** Stopped while enum.in was being written, after a whole line: the next run completes with what was there. *)
Definition torn : dir := dput (sc_dir "1 1") "enum.in" (text_lines ["# HNF                           Conc.       Number"; "  1 0 1 0 0 1                   0 1         1"]%string).
Theorem C63_torn_refuted : exists txt rest, dfile (snd (run enum_args (sc_dir "1 1"))) "enum.in" = Some (txt ++ rest)%string /\ dfile torn "enum.in" = Some txt /\
  fst (run enum_args torn) = Ok tt /\ structures_in (snd (run enum_args torn)) "enum.out" = Some 1%nat /\ structures_in (snd (run enum_args (sc_dir "1 1"))) "enum.out" = Some 2%nat.
Proof.
  exists (text_lines ["# HNF                           Conc.       Number"; "  1 0 1 0 0 1                   0 1         1"]%string), (text_lines ["  1 0 1 0 0 1                   1 0         1"]%string).
  repeat (split; [vm_compute; reflexivity|]). vm_compute. reflexivity.
Qed.
(** [-polya] with [-enum]: the list of structures is written to polya.out and there is no enum.out; the next [-distribution]
    takes polya.out for a file of counts and fails.  [-polya] with [-distribution]: enum.in is written to polya.out. *)
Theorem C64_names_refuted :
  (let (r, d) := run (polya_and enum_args) (sc_dir "1 1") in r = Ok tt /\ dfile d "enum.out" = None /\ structures_in d "polya.out" = Some 2%nat /\ fst (run (dist_args None) d) = Err ValueError) /\
  (let (r, d) := run (polya_and (dist_args None)) (sc_dir "1 1") in r = Ok tt /\ dfile d "enum.in" = None /\ dfile d "polya.out" <> None /\ fst (run (dist_args None) d) = Err ValueError).
Proof. split; vm_compute; repeat split; try reflexivity; discriminate. Qed.
(** [-sizes 1 2] leaves out size 2. *)
Theorem C64_sizes_refuted : let d := snd (run enum_args (sc_dir "1 2")) in
  fst (run (dist_args (Some (1, 2))) d) = Ok tt /\ dfile (snd (run (dist_args (Some (1, 2))) d)) "enum.in" = dfile (snd (run enum_args (sc_dir "1 1"))) "enum.in" /\
  dfile d "enum.in" <> dfile (snd (run enum_args (sc_dir "1 1"))) "enum.in".
Proof. cbv zeta. split; [vm_compute; reflexivity|]. split; [vm_compute; reflexivity|]. vm_compute. discriminate. Qed.

Print Assumptions C61_inputs_kept.
Print Assumptions C61_existing_kept.
Print Assumptions C64_names_refuted.
Print Assumptions C64_sizes_refuted.
Print Assumptions C64_one_command_partial.
Print Assumptions C62_enum_partial.
Print Assumptions C62_again_partial.
Print Assumptions C62_stale_refuted.
Print Assumptions C63_restart_partial.
Print Assumptions C63_restart_refuted.
Print Assumptions C63_torn_refuted.
