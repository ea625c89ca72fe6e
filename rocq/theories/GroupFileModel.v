(** Model of /repo/phenum/io_utils.py:2-21 [read_group] and of phonons.py:416-420, where [enum_sys] takes the symmetry group
    from a file. *)
From Coq Require Import QArith.
From Verif Require Import TextModel PyBase Spec NumericsModel PhononsModel TreeModel PolyaModel EnumSysModel FilesModel.
Local Open Scope Z_scope.

(** io_utils.py:10-20: the loop over the lines; [i] counts them, [groupi] is the list so far.  A line without the mark is
    added to the last entry, and with no entry [groupi[-1]] is an IndexError. *)
Fixpoint group_lines (i : nat) (ls : list string) (groupi : list (list Z)) : res (list (list Z)) :=
  match ls with
  | [] => Ok groupi
  | line :: ls' =>
      if (5 <? i)%nat then
        if contains "Perm #:" line then
          do entry <- rmap int_of (skipn 4 (TextModel.words line));
          group_lines (S i) ls' (groupi ++ [entry])
        else
          match groupi with
          | [] => Err IndexError
          | _ => do more <- rmap int_of (TextModel.words line);
                 group_lines (S i) ls' (removelast groupi ++ [last groupi [] ++ more])
          end
      else group_lines (S i) ls' groupi
  end.
(** io_utils.py:2-21 [read_group].  [array(groupi)-1] needs rows of one length (otherwise numpy raises an error, whose type
    depends on its version). *)
Definition read_group (text : string) : res (list (list Z)) :=
  do groupi <- group_lines 0 (lines text) [];
  if forallb (fun r => (length r =? length (nth 0 groupi []))%nat) groupi then Ok (map (map (fun x => x - 1)) groupi) else Err ValueError.

(** phonons.py:417-420: every permutation of sites with the arrow permutation [0]; numbers below zero, which Python counts
    from the end, are left out: the model stops with an error. *)
Definition group_of_file (text : string) : res (list op) :=
  do group <- read_group text;
  if forallb (forallb (fun x => 0 <=? x)) group then Ok (map (fun g => (map Z.to_nat g, [0%nat])) group) else Err IndexError.
(** phonons.py:373-498 [enum_sys] with a group file. *)
Definition enum_sys_file (v : pyversion) (draw : nat -> Z -> Z) (rnd : nat -> bool) (shuffled : list Z -> list Z) (fuel : nat) (text : string) (nbasis : nat) (concs : list nat) (na : list Z)
    (num_wanted : nat) (supers accept : bool) : res (list (list site)) :=
  if (nbasis =? 0)%nat then Err ZeroDivisionError else
  do decorations <- arrow_concs concs na;
  do agroup <- group_of_file text;
  enum_sys v draw rnd shuffled fuel agroup nbasis concs na num_wanted supers accept.
