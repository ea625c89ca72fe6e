(** Fidelity tests: inputs and expected outputs transcribed from /repo/tests/test_tree.py and
    /repo/tests/tree/brancher_out_*.txt, evaluated in the model.  Tests, not proofs. *)
From Verif Require Import PyBase PhononsModel GroupModel TreeModel.

Definition toy_1_col : list site := ([((-1),1); ((-1),2)])%Z.
Definition toy_1_trans : list (list nat) := [[0; 1]; [1; 0]].
Definition toy_1_rots : list op := [([0; 1], [0; 1; 2; 3; 4; 5]); ([1; 0], [2; 3; 0; 1; 5; 4]); ([1; 0], [2; 1; 0; 3; 5; 4]); ([0; 1], [0; 3; 2; 1; 5; 4])].
Definition toy_1_out : list (list site) := ([[((-1),1); ((-1),2)]])%Z.
Example toy_1_ok :
  (do g <- a_group toy_1_trans toy_1_rots;
   brancher (snd (how_many_arrows toy_1_col)) g toy_1_col 6 true 2 false (fun _ => false) (Z.to_nat 20000) SNone)
  = Ok toy_1_out.
Proof. vm_compute. reflexivity. Qed.


Definition toy_2_col : list site := ([((-1),1); (1,2)])%Z.
Definition toy_2_trans : list (list nat) := [[0; 1]; [1; 0]].
Definition toy_2_rots : list op := [([0; 1], [0; 1; 2; 3; 4; 5]); ([1; 0], [2; 3; 0; 1; 5; 4]); ([1; 0], [2; 1; 0; 3; 5; 4]); ([0; 1], [0; 3; 2; 1; 5; 4])].
Definition toy_2_out : list (list site) := ([[((-1),1); (0,2)]; [((-1),1); (1,2)]; [((-1),1); (4,2)]])%Z.
Example toy_2_ok :
  (do g <- a_group_gen 1000 toy_2_trans toy_2_rots;
   brancher (snd (how_many_arrows toy_2_col)) g toy_2_col 6 true 2 false (fun _ => false) (Z.to_nat 20000) SNone)
  = Ok toy_2_out.
Proof. vm_compute. reflexivity. Qed.


Definition toy_3_col : list site := ([((-1),1); (1,2)])%Z.
Definition toy_3_trans : list (list nat) := [[0; 1]; [1; 0]].
Definition toy_3_rots : list op := [([0; 1], [0; 1; 2; 3; 4; 5]); ([1; 0], [2; 3; 0; 1; 5; 4]); ([1; 0], [2; 1; 0; 3; 5; 4]); ([0; 1], [0; 3; 2; 1; 5; 4]); ([0; 1], [0; 4; 2; 5; 3; 1]); ([0; 1], [0; 5; 2; 4; 1; 3])].
Definition toy_3_out : list (list site) := ([[((-1),1); (0,2)]; [((-1),1); (1,2)]])%Z.
Example toy_3_ok :
  (do g <- a_group toy_3_trans toy_3_rots;
   brancher (snd (how_many_arrows toy_3_col)) g toy_3_col 6 true 2 false (fun _ => false) (Z.to_nat 20000) SNone)
  = Ok toy_3_out.
Proof. vm_compute. reflexivity. Qed.


Definition p1_col : list site := ([((-1),1); ((-1),2); (0,3); (0,4)])%Z.
Definition p1_trans : list (list nat) := [[0; 1; 2; 3]; [1; 0; 3; 2]; [2; 3; 0; 1]; [3; 2; 1; 0]].
Definition p1_rots : list op := [([0; 1; 2; 3], [0; 1; 2; 3]); ([0; 1; 2; 3], [2; 1; 0; 3]); ([0; 1; 2; 3], [0; 3; 2; 1]); ([0; 1; 2; 3], [2; 3; 0; 1]); ([0; 3; 2; 1], [1; 0; 3; 2]); ([0; 3; 2; 1], [3; 0; 1; 2]); ([0; 3; 2; 1], [1; 2; 3; 0]); ([0; 3; 2; 1], [3; 2; 1; 0])].
Definition p1_out : list (list site) := ([[((-1),1); ((-1),2); (0,3); (0,4)]; [((-1),1); ((-1),2); (1,3); (0,4)]; [((-1),1); ((-1),2); (2,3); (0,4)]; [((-1),1); ((-1),2); (0,3); (1,4)]; [((-1),1); ((-1),2); (1,3); (1,4)]; [((-1),1); ((-1),2); (3,3); (1,4)]; [((-1),1); ((-1),2); (0,4); (0,3)]; [((-1),1); ((-1),2); (1,4); (0,3)]; [((-1),1); ((-1),2); (2,4); (0,3)]; [((-1),1); ((-1),2); (0,4); (1,3)]; [((-1),1); ((-1),2); (1,4); (1,3)]; [((-1),1); ((-1),2); (3,4); (1,3)]; [((-1),1); (0,3); ((-1),2); (0,4)]; [((-1),1); (1,3); ((-1),2); (0,4)]; [((-1),1); (2,3); ((-1),2); (0,4)]; [((-1),1); (0,3); ((-1),2); (1,4)]; [((-1),1); (1,3); ((-1),2); (1,4)]; [((-1),1); (3,3); ((-1),2); (1,4)]])%Z.
Example p1_ok :
  (do g <- a_group p1_trans p1_rots;
   brancher (snd (how_many_arrows p1_col)) g p1_col 4 true 4 false (fun _ => false) (Z.to_nat 20000) SNone)
  = Ok p1_out.
Proof. vm_compute. reflexivity. Qed.


Definition p4_col : list site := ([(1,1); ((-1),2); ((-1),3); ((-1),3)])%Z.
Definition p4_trans : list (list nat) := [[0; 1; 2; 3]; [1; 2; 3; 0]; [2; 3; 0; 1]; [3; 0; 1; 2]].
Definition p4_rots : list op := [([0; 1; 2; 3], [0; 1; 2; 3]); ([0; 1; 2; 3], [2; 1; 0; 3]); ([0; 3; 2; 1], [0; 3; 2; 1]); ([0; 3; 2; 1], [2; 3; 0; 1])].
Definition p4_out : list (list site) := ([[(0,1); ((-1),2); ((-1),3); ((-1),3)]; [(1,1); ((-1),2); ((-1),3); ((-1),3)]; [(3,1); ((-1),2); ((-1),3); ((-1),3)]; [(0,1); ((-1),3); ((-1),2); ((-1),3)]; [(1,1); ((-1),3); ((-1),2); ((-1),3)]])%Z.
Example p4_ok :
  (do g <- a_group p4_trans p4_rots;
   brancher (snd (how_many_arrows p4_col)) g p4_col 4 true 4 false (fun _ => false) (Z.to_nat 20000) SNone)
  = Ok p4_out.
Proof. vm_compute. reflexivity. Qed.


Definition t3g_1_col : list site := ([(1,2); (1,3); (1,4); (1,4)])%Z.
Definition t3g_1_trans : list (list nat) := [[0; 1; 2; 3]; [1; 0; 3; 2]; [2; 3; 0; 1]; [3; 2; 1; 0]].
Definition t3g_1_rots : list op := [([0; 1; 2; 3], [0; 1; 2; 3; 4; 5]); ([0; 3; 2; 1], [0; 2; 1; 3; 5; 4]); ([0; 1; 2; 3], [3; 1; 2; 0; 4; 5]); ([0; 3; 2; 1], [3; 2; 1; 0; 5; 4]); ([0; 1; 2; 3], [0; 4; 2; 3; 1; 5]); ([0; 3; 2; 1], [0; 2; 4; 3; 5; 1]); ([0; 1; 2; 3], [3; 4; 2; 0; 1; 5]); ([0; 3; 2; 1], [3; 2; 4; 0; 5; 1]); ([0; 1; 2; 3], [0; 1; 5; 3; 4; 2]); ([0; 3; 2; 1], [0; 5; 1; 3; 2; 4]); ([0; 1; 2; 3], [3; 1; 5; 0; 4; 2]); ([0; 3; 2; 1], [3; 5; 1; 0; 2; 4]); ([0; 1; 2; 3], [0; 4; 5; 3; 1; 2]); ([0; 3; 2; 1], [0; 5; 4; 3; 2; 1]); ([0; 1; 2; 3], [3; 4; 5; 0; 1; 2]); ([0; 3; 2; 1], [3; 5; 4; 0; 2; 1])].
Definition t3g_1_out : list (list site) := ([[(0,2); (0,3); (0,4); (0,4)]; [(1,2); (0,3); (0,4); (0,4)]; [(2,2); (0,3); (0,4); (0,4)]; [(3,2); (0,3); (0,4); (0,4)]; [(0,2); (1,3); (0,4); (0,4)]; [(1,2); (1,3); (0,4); (0,4)]; [(2,2); (1,3); (0,4); (0,4)]; [(3,2); (1,3); (0,4); (0,4)]; [(4,2); (1,3); (0,4); (0,4)]; [(0,2); (2,3); (0,4); (0,4)]; [(1,2); (2,3); (0,4); (0,4)]; [(2,2); (2,3); (0,4); (0,4)]; [(3,2); (2,3); (0,4); (0,4)]; [(5,2); (2,3); (0,4); (0,4)]; [(0,2); (3,3); (0,4); (0,4)]; [(1,2); (3,3); (0,4); (0,4)]; [(2,2); (3,3); (0,4); (0,4)]; [(3,2); (3,3); (0,4); (0,4)]; [(0,2); (0,3); (1,4); (0,4)]; [(1,2); (0,3); (1,4); (0,4)]; [(2,2); (0,3); (1,4); (0,4)]; [(3,2); (0,3); (1,4); (0,4)]; [(4,2); (0,3); (1,4); (0,4)]; [(0,2); (1,3); (1,4); (0,4)]; [(1,2); (1,3); (1,4); (0,4)]; [(2,2); (1,3); (1,4); (0,4)]; [(3,2); (1,3); (1,4); (0,4)]; [(4,2); (1,3); (1,4); (0,4)]; [(0,2); (2,3); (1,4); (0,4)]; [(1,2); (2,3); (1,4); (0,4)]; [(2,2); (2,3); (1,4); (0,4)]; [(3,2); (2,3); (1,4); (0,4)]; [(4,2); (2,3); (1,4); (0,4)]; [(5,2); (2,3); (1,4); (0,4)]; [(0,2); (3,3); (1,4); (0,4)]; [(1,2); (3,3); (1,4); (0,4)]; [(2,2); (3,3); (1,4); (0,4)]; [(3,2); (3,3); (1,4); (0,4)]; [(4,2); (3,3); (1,4); (0,4)]; [(0,2); (4,3); (1,4); (0,4)]; [(1,2); (4,3); (1,4); (0,4)]; [(2,2); (4,3); (1,4); (0,4)]; [(3,2); (4,3); (1,4); (0,4)]; [(4,2); (4,3); (1,4); (0,4)]; [(0,2); (0,3); (2,4); (0,4)]; [(1,2); (0,3); (2,4); (0,4)]; [(2,2); (0,3); (2,4); (0,4)]; [(3,2); (0,3); (2,4); (0,4)]; [(5,2); (0,3); (2,4); (0,4)]; [(0,2); (1,3); (2,4); (0,4)]; [(1,2); (1,3); (2,4); (0,4)]; [(2,2); (1,3); (2,4); (0,4)]; [(3,2); (1,3); (2,4); (0,4)]; [(4,2); (1,3); (2,4); (0,4)]; [(5,2); (1,3); (2,4); (0,4)]; [(0,2); (2,3); (2,4); (0,4)]; [(1,2); (2,3); (2,4); (0,4)]; [(2,2); (2,3); (2,4); (0,4)]; [(3,2); (2,3); (2,4); (0,4)]; [(5,2); (2,3); (2,4); (0,4)]; [(0,2); (3,3); (2,4); (0,4)]; [(1,2); (3,3); (2,4); (0,4)]; [(2,2); (3,3); (2,4); (0,4)]; [(3,2); (3,3); (2,4); (0,4)]; [(5,2); (3,3); (2,4); (0,4)]; [(0,2); (5,3); (2,4); (0,4)]; [(1,2); (5,3); (2,4); (0,4)]; [(2,2); (5,3); (2,4); (0,4)]; [(3,2); (5,3); (2,4); (0,4)]; [(5,2); (5,3); (2,4); (0,4)]; [(0,2); (0,3); (3,4); (0,4)]; [(1,2); (0,3); (3,4); (0,4)]; [(2,2); (0,3); (3,4); (0,4)]; [(3,2); (0,3); (3,4); (0,4)]; [(0,2); (1,3); (3,4); (0,4)]; [(1,2); (1,3); (3,4); (0,4)]; [(2,2); (1,3); (3,4); (0,4)]; [(3,2); (1,3); (3,4); (0,4)]; [(4,2); (1,3); (3,4); (0,4)]; [(0,2); (2,3); (3,4); (0,4)]; [(1,2); (2,3); (3,4); (0,4)]; [(2,2); (2,3); (3,4); (0,4)]; [(3,2); (2,3); (3,4); (0,4)]; [(5,2); (2,3); (3,4); (0,4)]; [(0,2); (3,3); (3,4); (0,4)]; [(1,2); (3,3); (3,4); (0,4)]; [(2,2); (3,3); (3,4); (0,4)]; [(3,2); (3,3); (3,4); (0,4)]; [(0,2); (0,3); (0,4); (1,4)]; [(1,2); (0,3); (0,4); (1,4)]; [(2,2); (0,3); (0,4); (1,4)]; [(3,2); (0,3); (0,4); (1,4)]; [(4,2); (0,3); (0,4); (1,4)]; [(0,2); (1,3); (0,4); (1,4)]; [(1,2); (1,3); (0,4); (1,4)]; [(2,2); (1,3); (0,4); (1,4)]; [(3,2); (1,3); (0,4); (1,4)]; [(4,2); (1,3); (0,4); (1,4)]; [(0,2); (2,3); (0,4); (1,4)]; [(1,2); (2,3); (0,4); (1,4)]; [(2,2); (2,3); (0,4); (1,4)]; [(3,2); (2,3); (0,4); (1,4)]; [(4,2); (2,3); (0,4); (1,4)]; [(5,2); (2,3); (0,4); (1,4)]; [(0,2); (3,3); (0,4); (1,4)]; [(1,2); (3,3); (0,4); (1,4)]; [(2,2); (3,3); (0,4); (1,4)]; [(3,2); (3,3); (0,4); (1,4)]; [(4,2); (3,3); (0,4); (1,4)]; [(0,2); (4,3); (0,4); (1,4)]; [(1,2); (4,3); (0,4); (1,4)]; [(2,2); (4,3); (0,4); (1,4)]; [(3,2); (4,3); (0,4); (1,4)]; [(4,2); (4,3); (0,4); (1,4)]; [(0,2); (0,3); (1,4); (1,4)]; [(1,2); (0,3); (1,4); (1,4)]; [(2,2); (0,3); (1,4); (1,4)]; [(3,2); (0,3); (1,4); (1,4)]; [(4,2); (0,3); (1,4); (1,4)]; [(0,2); (1,3); (1,4); (1,4)]; [(1,2); (1,3); (1,4); (1,4)]; [(2,2); (1,3); (1,4); (1,4)]; [(4,2); (1,3); (1,4); (1,4)]; [(0,2); (2,3); (1,4); (1,4)]; [(1,2); (2,3); (1,4); (1,4)]; [(2,2); (2,3); (1,4); (1,4)]; [(4,2); (2,3); (1,4); (1,4)]; [(5,2); (2,3); (1,4); (1,4)]; [(0,2); (4,3); (1,4); (1,4)]; [(1,2); (4,3); (1,4); (1,4)]; [(2,2); (4,3); (1,4); (1,4)]; [(4,2); (4,3); (1,4); (1,4)]; [(0,2); (0,3); (2,4); (1,4)]; [(1,2); (0,3); (2,4); (1,4)]; [(2,2); (0,3); (2,4); (1,4)]; [(3,2); (0,3); (2,4); (1,4)]; [(4,2); (0,3); (2,4); (1,4)]; [(5,2); (0,3); (2,4); (1,4)]; [(0,2); (1,3); (2,4); (1,4)]; [(1,2); (1,3); (2,4); (1,4)]; [(2,2); (1,3); (2,4); (1,4)]; [(4,2); (1,3); (2,4); (1,4)]; [(5,2); (1,3); (2,4); (1,4)]; [(0,2); (2,3); (2,4); (1,4)]; [(1,2); (2,3); (2,4); (1,4)]; [(2,2); (2,3); (2,4); (1,4)]; [(4,2); (2,3); (2,4); (1,4)]; [(5,2); (2,3); (2,4); (1,4)]; [(0,2); (4,3); (2,4); (1,4)]; [(1,2); (4,3); (2,4); (1,4)]; [(2,2); (4,3); (2,4); (1,4)]; [(4,2); (4,3); (2,4); (1,4)]; [(5,2); (4,3); (2,4); (1,4)]; [(0,2); (5,3); (2,4); (1,4)]; [(1,2); (5,3); (2,4); (1,4)]; [(2,2); (5,3); (2,4); (1,4)]; [(4,2); (5,3); (2,4); (1,4)]; [(5,2); (5,3); (2,4); (1,4)]; [(0,2); (0,3); (4,4); (1,4)]; [(1,2); (0,3); (4,4); (1,4)]; [(2,2); (0,3); (4,4); (1,4)]; [(3,2); (0,3); (4,4); (1,4)]; [(4,2); (0,3); (4,4); (1,4)]; [(0,2); (1,3); (4,4); (1,4)]; [(1,2); (1,3); (4,4); (1,4)]; [(2,2); (1,3); (4,4); (1,4)]; [(4,2); (1,3); (4,4); (1,4)]; [(0,2); (2,3); (4,4); (1,4)]; [(1,2); (2,3); (4,4); (1,4)]; [(2,2); (2,3); (4,4); (1,4)]; [(4,2); (2,3); (4,4); (1,4)]; [(5,2); (2,3); (4,4); (1,4)]; [(0,2); (4,3); (4,4); (1,4)]; [(1,2); (4,3); (4,4); (1,4)]; [(2,2); (4,3); (4,4); (1,4)]; [(4,2); (4,3); (4,4); (1,4)]; [(0,2); (0,3); (0,4); (2,4)]; [(1,2); (0,3); (0,4); (2,4)]; [(2,2); (0,3); (0,4); (2,4)]; [(3,2); (0,3); (0,4); (2,4)]; [(5,2); (0,3); (0,4); (2,4)]; [(0,2); (1,3); (0,4); (2,4)]; [(1,2); (1,3); (0,4); (2,4)]; [(2,2); (1,3); (0,4); (2,4)]; [(3,2); (1,3); (0,4); (2,4)]; [(4,2); (1,3); (0,4); (2,4)]; [(5,2); (1,3); (0,4); (2,4)]; [(0,2); (2,3); (0,4); (2,4)]; [(1,2); (2,3); (0,4); (2,4)]; [(2,2); (2,3); (0,4); (2,4)]; [(3,2); (2,3); (0,4); (2,4)]; [(5,2); (2,3); (0,4); (2,4)]; [(0,2); (3,3); (0,4); (2,4)]; [(1,2); (3,3); (0,4); (2,4)]; [(2,2); (3,3); (0,4); (2,4)]; [(3,2); (3,3); (0,4); (2,4)]; [(5,2); (3,3); (0,4); (2,4)]; [(0,2); (5,3); (0,4); (2,4)]; [(1,2); (5,3); (0,4); (2,4)]; [(2,2); (5,3); (0,4); (2,4)]; [(3,2); (5,3); (0,4); (2,4)]; [(5,2); (5,3); (0,4); (2,4)]; [(0,2); (0,3); (1,4); (2,4)]; [(1,2); (0,3); (1,4); (2,4)]; [(2,2); (0,3); (1,4); (2,4)]; [(3,2); (0,3); (1,4); (2,4)]; [(4,2); (0,3); (1,4); (2,4)]; [(5,2); (0,3); (1,4); (2,4)]; [(0,2); (1,3); (1,4); (2,4)]; [(1,2); (1,3); (1,4); (2,4)]; [(2,2); (1,3); (1,4); (2,4)]; [(4,2); (1,3); (1,4); (2,4)]; [(5,2); (1,3); (1,4); (2,4)]; [(0,2); (2,3); (1,4); (2,4)]; [(1,2); (2,3); (1,4); (2,4)]; [(2,2); (2,3); (1,4); (2,4)]; [(4,2); (2,3); (1,4); (2,4)]; [(5,2); (2,3); (1,4); (2,4)]; [(0,2); (4,3); (1,4); (2,4)]; [(1,2); (4,3); (1,4); (2,4)]; [(2,2); (4,3); (1,4); (2,4)]; [(4,2); (4,3); (1,4); (2,4)]; [(5,2); (4,3); (1,4); (2,4)]; [(0,2); (5,3); (1,4); (2,4)]; [(1,2); (5,3); (1,4); (2,4)]; [(2,2); (5,3); (1,4); (2,4)]; [(4,2); (5,3); (1,4); (2,4)]; [(5,2); (5,3); (1,4); (2,4)]; [(0,2); (0,3); (2,4); (2,4)]; [(1,2); (0,3); (2,4); (2,4)]; [(2,2); (0,3); (2,4); (2,4)]; [(3,2); (0,3); (2,4); (2,4)]; [(5,2); (0,3); (2,4); (2,4)]; [(0,2); (1,3); (2,4); (2,4)]; [(1,2); (1,3); (2,4); (2,4)]; [(2,2); (1,3); (2,4); (2,4)]; [(4,2); (1,3); (2,4); (2,4)]; [(5,2); (1,3); (2,4); (2,4)]; [(0,2); (2,3); (2,4); (2,4)]; [(1,2); (2,3); (2,4); (2,4)]; [(2,2); (2,3); (2,4); (2,4)]; [(5,2); (2,3); (2,4); (2,4)]; [(0,2); (5,3); (2,4); (2,4)]; [(1,2); (5,3); (2,4); (2,4)]; [(2,2); (5,3); (2,4); (2,4)]; [(5,2); (5,3); (2,4); (2,4)]; [(0,2); (0,3); (5,4); (2,4)]; [(1,2); (0,3); (5,4); (2,4)]; [(2,2); (0,3); (5,4); (2,4)]; [(3,2); (0,3); (5,4); (2,4)]; [(5,2); (0,3); (5,4); (2,4)]; [(0,2); (1,3); (5,4); (2,4)]; [(1,2); (1,3); (5,4); (2,4)]; [(2,2); (1,3); (5,4); (2,4)]; [(4,2); (1,3); (5,4); (2,4)]; [(5,2); (1,3); (5,4); (2,4)]; [(0,2); (2,3); (5,4); (2,4)]; [(1,2); (2,3); (5,4); (2,4)]; [(2,2); (2,3); (5,4); (2,4)]; [(5,2); (2,3); (5,4); (2,4)]; [(0,2); (5,3); (5,4); (2,4)]; [(1,2); (5,3); (5,4); (2,4)]; [(2,2); (5,3); (5,4); (2,4)]; [(5,2); (5,3); (5,4); (2,4)]; [(0,2); (0,4); (0,3); (0,4)]; [(1,2); (0,4); (0,3); (0,4)]; [(3,2); (0,4); (0,3); (0,4)]; [(0,2); (1,4); (0,3); (0,4)]; [(1,2); (1,4); (0,3); (0,4)]; [(2,2); (1,4); (0,3); (0,4)]; [(3,2); (1,4); (0,3); (0,4)]; [(4,2); (1,4); (0,3); (0,4)]; [(0,2); (2,4); (0,3); (0,4)]; [(1,2); (2,4); (0,3); (0,4)]; [(2,2); (2,4); (0,3); (0,4)]; [(3,2); (2,4); (0,3); (0,4)]; [(5,2); (2,4); (0,3); (0,4)]; [(0,2); (3,4); (0,3); (0,4)]; [(1,2); (3,4); (0,3); (0,4)]; [(2,2); (3,4); (0,3); (0,4)]; [(3,2); (3,4); (0,3); (0,4)]; [(0,2); (0,4); (1,3); (0,4)]; [(1,2); (0,4); (1,3); (0,4)]; [(2,2); (0,4); (1,3); (0,4)]; [(3,2); (0,4); (1,3); (0,4)]; [(4,2); (0,4); (1,3); (0,4)]; [(0,2); (1,4); (1,3); (0,4)]; [(1,2); (1,4); (1,3); (0,4)]; [(2,2); (1,4); (1,3); (0,4)]; [(3,2); (1,4); (1,3); (0,4)]; [(4,2); (1,4); (1,3); (0,4)]; [(0,2); (2,4); (1,3); (0,4)]; [(1,2); (2,4); (1,3); (0,4)]; [(2,2); (2,4); (1,3); (0,4)]; [(3,2); (2,4); (1,3); (0,4)]; [(4,2); (2,4); (1,3); (0,4)]; [(5,2); (2,4); (1,3); (0,4)]; [(0,2); (3,4); (1,3); (0,4)]; [(1,2); (3,4); (1,3); (0,4)]; [(2,2); (3,4); (1,3); (0,4)]; [(3,2); (3,4); (1,3); (0,4)]; [(4,2); (3,4); (1,3); (0,4)]; [(0,2); (4,4); (1,3); (0,4)]; [(1,2); (4,4); (1,3); (0,4)]; [(2,2); (4,4); (1,3); (0,4)]; [(3,2); (4,4); (1,3); (0,4)]; [(4,2); (4,4); (1,3); (0,4)]; [(0,2); (1,4); (2,3); (0,4)]; [(1,2); (1,4); (2,3); (0,4)]; [(2,2); (1,4); (2,3); (0,4)]; [(3,2); (1,4); (2,3); (0,4)]; [(4,2); (1,4); (2,3); (0,4)]; [(5,2); (1,4); (2,3); (0,4)]; [(0,2); (2,4); (2,3); (0,4)]; [(1,2); (2,4); (2,3); (0,4)]; [(2,2); (2,4); (2,3); (0,4)]; [(3,2); (2,4); (2,3); (0,4)]; [(5,2); (2,4); (2,3); (0,4)]; [(0,2); (5,4); (2,3); (0,4)]; [(1,2); (5,4); (2,3); (0,4)]; [(2,2); (5,4); (2,3); (0,4)]; [(3,2); (5,4); (2,3); (0,4)]; [(5,2); (5,4); (2,3); (0,4)]; [(0,2); (0,4); (3,3); (0,4)]; [(1,2); (0,4); (3,3); (0,4)]; [(3,2); (0,4); (3,3); (0,4)]; [(0,2); (1,4); (3,3); (0,4)]; [(1,2); (1,4); (3,3); (0,4)]; [(2,2); (1,4); (3,3); (0,4)]; [(3,2); (1,4); (3,3); (0,4)]; [(4,2); (1,4); (3,3); (0,4)]; [(0,2); (2,4); (3,3); (0,4)]; [(1,2); (2,4); (3,3); (0,4)]; [(2,2); (2,4); (3,3); (0,4)]; [(3,2); (2,4); (3,3); (0,4)]; [(5,2); (2,4); (3,3); (0,4)]; [(0,2); (1,4); (0,3); (1,4)]; [(1,2); (1,4); (0,3); (1,4)]; [(2,2); (1,4); (0,3); (1,4)]; [(3,2); (1,4); (0,3); (1,4)]; [(4,2); (1,4); (0,3); (1,4)]; [(0,2); (2,4); (0,3); (1,4)]; [(1,2); (2,4); (0,3); (1,4)]; [(3,2); (2,4); (0,3); (1,4)]; [(4,2); (2,4); (0,3); (1,4)]; [(0,2); (4,4); (0,3); (1,4)]; [(1,2); (4,4); (0,3); (1,4)]; [(2,2); (4,4); (0,3); (1,4)]; [(3,2); (4,4); (0,3); (1,4)]; [(4,2); (4,4); (0,3); (1,4)]; [(0,2); (1,4); (1,3); (1,4)]; [(1,2); (1,4); (1,3); (1,4)]; [(2,2); (1,4); (1,3); (1,4)]; [(4,2); (1,4); (1,3); (1,4)]; [(0,2); (2,4); (1,3); (1,4)]; [(1,2); (2,4); (1,3); (1,4)]; [(2,2); (2,4); (1,3); (1,4)]; [(4,2); (2,4); (1,3); (1,4)]; [(5,2); (2,4); (1,3); (1,4)]; [(0,2); (4,4); (1,3); (1,4)]; [(1,2); (4,4); (1,3); (1,4)]; [(2,2); (4,4); (1,3); (1,4)]; [(4,2); (4,4); (1,3); (1,4)]; [(0,2); (1,4); (2,3); (1,4)]; [(1,2); (1,4); (2,3); (1,4)]; [(2,2); (1,4); (2,3); (1,4)]; [(4,2); (1,4); (2,3); (1,4)]; [(5,2); (1,4); (2,3); (1,4)]; [(0,2); (4,4); (2,3); (1,4)]; [(1,2); (4,4); (2,3); (1,4)]; [(2,2); (4,4); (2,3); (1,4)]; [(4,2); (4,4); (2,3); (1,4)]; [(5,2); (4,4); (2,3); (1,4)]; [(0,2); (5,4); (2,3); (1,4)]; [(1,2); (5,4); (2,3); (1,4)]; [(2,2); (5,4); (2,3); (1,4)]; [(4,2); (5,4); (2,3); (1,4)]; [(5,2); (5,4); (2,3); (1,4)]; [(0,2); (1,4); (4,3); (1,4)]; [(1,2); (1,4); (4,3); (1,4)]; [(2,2); (1,4); (4,3); (1,4)]; [(4,2); (1,4); (4,3); (1,4)]; [(0,2); (4,4); (4,3); (1,4)]; [(1,2); (4,4); (4,3); (1,4)]; [(2,2); (4,4); (4,3); (1,4)]; [(4,2); (4,4); (4,3); (1,4)]; [(0,2); (1,4); (0,3); (2,4)]; [(1,2); (1,4); (0,3); (2,4)]; [(3,2); (1,4); (0,3); (2,4)]; [(4,2); (1,4); (0,3); (2,4)]; [(0,2); (1,4); (1,3); (2,4)]; [(1,2); (1,4); (1,3); (2,4)]; [(2,2); (1,4); (1,3); (2,4)]; [(4,2); (1,4); (1,3); (2,4)]; [(5,2); (1,4); (1,3); (2,4)]; [(0,2); (4,4); (1,3); (2,4)]; [(1,2); (4,4); (1,3); (2,4)]; [(2,2); (4,4); (1,3); (2,4)]; [(4,2); (4,4); (1,3); (2,4)]; [(5,2); (4,4); (1,3); (2,4)]])%Z.
Example t3g_1_ok :
  (do g <- a_group t3g_1_trans t3g_1_rots;
   brancher (snd (how_many_arrows t3g_1_col)) g t3g_1_col 6 true 4 false (fun _ => false) (Z.to_nat 20000) SNone)
  = Ok t3g_1_out.
Proof. vm_compute. reflexivity. Qed.


Definition t3g_3_col : list site := ([(1,1); (1,2); (1,3); (1,4)])%Z.
Definition t3g_3_trans : list (list nat) := [[0; 1; 2; 3]; [1; 0; 3; 2]; [2; 3; 0; 1]; [3; 2; 1; 0]].
Definition t3g_3_rots : list op := [([0; 1; 2; 3], [0; 1; 2; 3; 4; 5]); ([0; 3; 2; 1], [0; 2; 1; 3; 5; 4]); ([0; 1; 2; 3], [3; 1; 2; 0; 4; 5]); ([0; 3; 2; 1], [3; 2; 1; 0; 5; 4]); ([0; 1; 2; 3], [0; 4; 2; 3; 1; 5]); ([0; 3; 2; 1], [0; 2; 4; 3; 5; 1]); ([0; 1; 2; 3], [3; 4; 2; 0; 1; 5]); ([0; 3; 2; 1], [3; 2; 4; 0; 5; 1]); ([0; 1; 2; 3], [0; 1; 5; 3; 4; 2]); ([0; 3; 2; 1], [0; 5; 1; 3; 2; 4]); ([0; 1; 2; 3], [3; 1; 5; 0; 4; 2]); ([0; 3; 2; 1], [3; 5; 1; 0; 2; 4]); ([0; 1; 2; 3], [0; 4; 5; 3; 1; 2]); ([0; 3; 2; 1], [0; 5; 4; 3; 2; 1]); ([0; 1; 2; 3], [3; 4; 5; 0; 1; 2]); ([0; 3; 2; 1], [3; 5; 4; 0; 2; 1])].
Definition t3g_3_out : list (list site) := ([[(0,1); (0,2); (0,3); (0,4)]; [(1,1); (0,2); (0,3); (0,4)]; [(2,1); (0,2); (0,3); (0,4)]; [(3,1); (0,2); (0,3); (0,4)]; [(0,1); (1,2); (0,3); (0,4)]; [(1,1); (1,2); (0,3); (0,4)]; [(2,1); (1,2); (0,3); (0,4)]; [(3,1); (1,2); (0,3); (0,4)]; [(4,1); (1,2); (0,3); (0,4)]; [(0,1); (2,2); (0,3); (0,4)]; [(1,1); (2,2); (0,3); (0,4)]; [(2,1); (2,2); (0,3); (0,4)]; [(3,1); (2,2); (0,3); (0,4)]; [(5,1); (2,2); (0,3); (0,4)]; [(0,1); (3,2); (0,3); (0,4)]; [(1,1); (3,2); (0,3); (0,4)]; [(2,1); (3,2); (0,3); (0,4)]; [(3,1); (3,2); (0,3); (0,4)]; [(0,1); (0,2); (1,3); (0,4)]; [(1,1); (0,2); (1,3); (0,4)]; [(2,1); (0,2); (1,3); (0,4)]; [(3,1); (0,2); (1,3); (0,4)]; [(4,1); (0,2); (1,3); (0,4)]; [(0,1); (1,2); (1,3); (0,4)]; [(1,1); (1,2); (1,3); (0,4)]; [(2,1); (1,2); (1,3); (0,4)]; [(3,1); (1,2); (1,3); (0,4)]; [(4,1); (1,2); (1,3); (0,4)]; [(0,1); (2,2); (1,3); (0,4)]; [(1,1); (2,2); (1,3); (0,4)]; [(2,1); (2,2); (1,3); (0,4)]; [(3,1); (2,2); (1,3); (0,4)]; [(4,1); (2,2); (1,3); (0,4)]; [(5,1); (2,2); (1,3); (0,4)]; [(0,1); (3,2); (1,3); (0,4)]; [(1,1); (3,2); (1,3); (0,4)]; [(2,1); (3,2); (1,3); (0,4)]; [(3,1); (3,2); (1,3); (0,4)]; [(4,1); (3,2); (1,3); (0,4)]; [(0,1); (4,2); (1,3); (0,4)]; [(1,1); (4,2); (1,3); (0,4)]; [(2,1); (4,2); (1,3); (0,4)]; [(3,1); (4,2); (1,3); (0,4)]; [(4,1); (4,2); (1,3); (0,4)]; [(0,1); (0,2); (2,3); (0,4)]; [(1,1); (0,2); (2,3); (0,4)]; [(2,1); (0,2); (2,3); (0,4)]; [(3,1); (0,2); (2,3); (0,4)]; [(5,1); (0,2); (2,3); (0,4)]; [(0,1); (1,2); (2,3); (0,4)]; [(1,1); (1,2); (2,3); (0,4)]; [(2,1); (1,2); (2,3); (0,4)]; [(3,1); (1,2); (2,3); (0,4)]; [(4,1); (1,2); (2,3); (0,4)]; [(5,1); (1,2); (2,3); (0,4)]; [(0,1); (2,2); (2,3); (0,4)]; [(1,1); (2,2); (2,3); (0,4)]; [(2,1); (2,2); (2,3); (0,4)]; [(3,1); (2,2); (2,3); (0,4)]; [(5,1); (2,2); (2,3); (0,4)]; [(0,1); (3,2); (2,3); (0,4)]; [(1,1); (3,2); (2,3); (0,4)]; [(2,1); (3,2); (2,3); (0,4)]; [(3,1); (3,2); (2,3); (0,4)]; [(5,1); (3,2); (2,3); (0,4)]; [(0,1); (5,2); (2,3); (0,4)]; [(1,1); (5,2); (2,3); (0,4)]; [(2,1); (5,2); (2,3); (0,4)]; [(3,1); (5,2); (2,3); (0,4)]; [(5,1); (5,2); (2,3); (0,4)]; [(0,1); (0,2); (3,3); (0,4)]; [(1,1); (0,2); (3,3); (0,4)]; [(2,1); (0,2); (3,3); (0,4)]; [(3,1); (0,2); (3,3); (0,4)]; [(0,1); (1,2); (3,3); (0,4)]; [(1,1); (1,2); (3,3); (0,4)]; [(2,1); (1,2); (3,3); (0,4)]; [(3,1); (1,2); (3,3); (0,4)]; [(4,1); (1,2); (3,3); (0,4)]; [(0,1); (2,2); (3,3); (0,4)]; [(1,1); (2,2); (3,3); (0,4)]; [(2,1); (2,2); (3,3); (0,4)]; [(3,1); (2,2); (3,3); (0,4)]; [(5,1); (2,2); (3,3); (0,4)]; [(0,1); (3,2); (3,3); (0,4)]; [(1,1); (3,2); (3,3); (0,4)]; [(2,1); (3,2); (3,3); (0,4)]; [(3,1); (3,2); (3,3); (0,4)]; [(0,1); (0,2); (0,3); (1,4)]; [(1,1); (0,2); (0,3); (1,4)]; [(2,1); (0,2); (0,3); (1,4)]; [(3,1); (0,2); (0,3); (1,4)]; [(4,1); (0,2); (0,3); (1,4)]; [(0,1); (1,2); (0,3); (1,4)]; [(1,1); (1,2); (0,3); (1,4)]; [(2,1); (1,2); (0,3); (1,4)]; [(3,1); (1,2); (0,3); (1,4)]; [(4,1); (1,2); (0,3); (1,4)]; [(0,1); (2,2); (0,3); (1,4)]; [(1,1); (2,2); (0,3); (1,4)]; [(2,1); (2,2); (0,3); (1,4)]; [(3,1); (2,2); (0,3); (1,4)]; [(4,1); (2,2); (0,3); (1,4)]; [(5,1); (2,2); (0,3); (1,4)]; [(0,1); (3,2); (0,3); (1,4)]; [(1,1); (3,2); (0,3); (1,4)]; [(2,1); (3,2); (0,3); (1,4)]; [(3,1); (3,2); (0,3); (1,4)]; [(4,1); (3,2); (0,3); (1,4)]; [(0,1); (4,2); (0,3); (1,4)]; [(1,1); (4,2); (0,3); (1,4)]; [(2,1); (4,2); (0,3); (1,4)]; [(3,1); (4,2); (0,3); (1,4)]; [(4,1); (4,2); (0,3); (1,4)]; [(0,1); (0,2); (1,3); (1,4)]; [(1,1); (0,2); (1,3); (1,4)]; [(2,1); (0,2); (1,3); (1,4)]; [(3,1); (0,2); (1,3); (1,4)]; [(4,1); (0,2); (1,3); (1,4)]; [(0,1); (1,2); (1,3); (1,4)]; [(1,1); (1,2); (1,3); (1,4)]; [(2,1); (1,2); (1,3); (1,4)]; [(4,1); (1,2); (1,3); (1,4)]; [(0,1); (2,2); (1,3); (1,4)]; [(1,1); (2,2); (1,3); (1,4)]; [(2,1); (2,2); (1,3); (1,4)]; [(4,1); (2,2); (1,3); (1,4)]; [(5,1); (2,2); (1,3); (1,4)]; [(0,1); (4,2); (1,3); (1,4)]; [(1,1); (4,2); (1,3); (1,4)]; [(2,1); (4,2); (1,3); (1,4)]; [(4,1); (4,2); (1,3); (1,4)]; [(0,1); (0,2); (2,3); (1,4)]; [(1,1); (0,2); (2,3); (1,4)]; [(2,1); (0,2); (2,3); (1,4)]; [(3,1); (0,2); (2,3); (1,4)]; [(4,1); (0,2); (2,3); (1,4)]; [(5,1); (0,2); (2,3); (1,4)]; [(0,1); (1,2); (2,3); (1,4)]; [(1,1); (1,2); (2,3); (1,4)]; [(2,1); (1,2); (2,3); (1,4)]; [(4,1); (1,2); (2,3); (1,4)]; [(5,1); (1,2); (2,3); (1,4)]; [(0,1); (2,2); (2,3); (1,4)]; [(1,1); (2,2); (2,3); (1,4)]; [(2,1); (2,2); (2,3); (1,4)]; [(4,1); (2,2); (2,3); (1,4)]; [(5,1); (2,2); (2,3); (1,4)]; [(0,1); (4,2); (2,3); (1,4)]; [(1,1); (4,2); (2,3); (1,4)]; [(2,1); (4,2); (2,3); (1,4)]; [(4,1); (4,2); (2,3); (1,4)]; [(5,1); (4,2); (2,3); (1,4)]; [(0,1); (5,2); (2,3); (1,4)]; [(1,1); (5,2); (2,3); (1,4)]; [(2,1); (5,2); (2,3); (1,4)]; [(4,1); (5,2); (2,3); (1,4)]; [(5,1); (5,2); (2,3); (1,4)]; [(0,1); (0,2); (4,3); (1,4)]; [(1,1); (0,2); (4,3); (1,4)]; [(2,1); (0,2); (4,3); (1,4)]; [(3,1); (0,2); (4,3); (1,4)]; [(4,1); (0,2); (4,3); (1,4)]; [(0,1); (1,2); (4,3); (1,4)]; [(1,1); (1,2); (4,3); (1,4)]; [(2,1); (1,2); (4,3); (1,4)]; [(4,1); (1,2); (4,3); (1,4)]; [(0,1); (2,2); (4,3); (1,4)]; [(1,1); (2,2); (4,3); (1,4)]; [(2,1); (2,2); (4,3); (1,4)]; [(4,1); (2,2); (4,3); (1,4)]; [(5,1); (2,2); (4,3); (1,4)]; [(0,1); (4,2); (4,3); (1,4)]; [(1,1); (4,2); (4,3); (1,4)]; [(2,1); (4,2); (4,3); (1,4)]; [(4,1); (4,2); (4,3); (1,4)]; [(0,1); (0,2); (0,3); (2,4)]; [(1,1); (0,2); (0,3); (2,4)]; [(2,1); (0,2); (0,3); (2,4)]; [(3,1); (0,2); (0,3); (2,4)]; [(5,1); (0,2); (0,3); (2,4)]; [(0,1); (1,2); (0,3); (2,4)]; [(1,1); (1,2); (0,3); (2,4)]; [(2,1); (1,2); (0,3); (2,4)]; [(3,1); (1,2); (0,3); (2,4)]; [(4,1); (1,2); (0,3); (2,4)]; [(5,1); (1,2); (0,3); (2,4)]; [(0,1); (2,2); (0,3); (2,4)]; [(1,1); (2,2); (0,3); (2,4)]; [(2,1); (2,2); (0,3); (2,4)]; [(3,1); (2,2); (0,3); (2,4)]; [(5,1); (2,2); (0,3); (2,4)]; [(0,1); (3,2); (0,3); (2,4)]; [(1,1); (3,2); (0,3); (2,4)]; [(2,1); (3,2); (0,3); (2,4)]; [(3,1); (3,2); (0,3); (2,4)]; [(5,1); (3,2); (0,3); (2,4)]; [(0,1); (5,2); (0,3); (2,4)]; [(1,1); (5,2); (0,3); (2,4)]; [(2,1); (5,2); (0,3); (2,4)]; [(3,1); (5,2); (0,3); (2,4)]; [(5,1); (5,2); (0,3); (2,4)]; [(0,1); (0,2); (1,3); (2,4)]; [(1,1); (0,2); (1,3); (2,4)]; [(2,1); (0,2); (1,3); (2,4)]; [(3,1); (0,2); (1,3); (2,4)]; [(4,1); (0,2); (1,3); (2,4)]; [(5,1); (0,2); (1,3); (2,4)]; [(0,1); (1,2); (1,3); (2,4)]; [(1,1); (1,2); (1,3); (2,4)]; [(2,1); (1,2); (1,3); (2,4)]; [(4,1); (1,2); (1,3); (2,4)]; [(5,1); (1,2); (1,3); (2,4)]; [(0,1); (2,2); (1,3); (2,4)]; [(1,1); (2,2); (1,3); (2,4)]; [(2,1); (2,2); (1,3); (2,4)]; [(4,1); (2,2); (1,3); (2,4)]; [(5,1); (2,2); (1,3); (2,4)]; [(0,1); (4,2); (1,3); (2,4)]; [(1,1); (4,2); (1,3); (2,4)]; [(2,1); (4,2); (1,3); (2,4)]; [(4,1); (4,2); (1,3); (2,4)]; [(5,1); (4,2); (1,3); (2,4)]; [(0,1); (5,2); (1,3); (2,4)]; [(1,1); (5,2); (1,3); (2,4)]; [(2,1); (5,2); (1,3); (2,4)]; [(4,1); (5,2); (1,3); (2,4)]; [(5,1); (5,2); (1,3); (2,4)]; [(0,1); (0,2); (2,3); (2,4)]; [(1,1); (0,2); (2,3); (2,4)]; [(2,1); (0,2); (2,3); (2,4)]; [(3,1); (0,2); (2,3); (2,4)]; [(5,1); (0,2); (2,3); (2,4)]; [(0,1); (1,2); (2,3); (2,4)]; [(1,1); (1,2); (2,3); (2,4)]; [(2,1); (1,2); (2,3); (2,4)]; [(4,1); (1,2); (2,3); (2,4)]; [(5,1); (1,2); (2,3); (2,4)]; [(0,1); (2,2); (2,3); (2,4)]; [(1,1); (2,2); (2,3); (2,4)]; [(2,1); (2,2); (2,3); (2,4)]; [(5,1); (2,2); (2,3); (2,4)]; [(0,1); (5,2); (2,3); (2,4)]; [(1,1); (5,2); (2,3); (2,4)]; [(2,1); (5,2); (2,3); (2,4)]; [(5,1); (5,2); (2,3); (2,4)]; [(0,1); (0,2); (5,3); (2,4)]; [(1,1); (0,2); (5,3); (2,4)]; [(2,1); (0,2); (5,3); (2,4)]; [(3,1); (0,2); (5,3); (2,4)]; [(5,1); (0,2); (5,3); (2,4)]; [(0,1); (1,2); (5,3); (2,4)]; [(1,1); (1,2); (5,3); (2,4)]; [(2,1); (1,2); (5,3); (2,4)]; [(4,1); (1,2); (5,3); (2,4)]; [(5,1); (1,2); (5,3); (2,4)]; [(0,1); (2,2); (5,3); (2,4)]; [(1,1); (2,2); (5,3); (2,4)]; [(2,1); (2,2); (5,3); (2,4)]; [(5,1); (2,2); (5,3); (2,4)]; [(0,1); (5,2); (5,3); (2,4)]; [(1,1); (5,2); (5,3); (2,4)]; [(2,1); (5,2); (5,3); (2,4)]; [(5,1); (5,2); (5,3); (2,4)]; [(0,1); (0,2); (0,4); (0,3)]; [(1,1); (0,2); (0,4); (0,3)]; [(2,1); (0,2); (0,4); (0,3)]; [(3,1); (0,2); (0,4); (0,3)]; [(0,1); (1,2); (0,4); (0,3)]; [(1,1); (1,2); (0,4); (0,3)]; [(2,1); (1,2); (0,4); (0,3)]; [(3,1); (1,2); (0,4); (0,3)]; [(4,1); (1,2); (0,4); (0,3)]; [(0,1); (2,2); (0,4); (0,3)]; [(1,1); (2,2); (0,4); (0,3)]; [(2,1); (2,2); (0,4); (0,3)]; [(3,1); (2,2); (0,4); (0,3)]; [(5,1); (2,2); (0,4); (0,3)]; [(0,1); (3,2); (0,4); (0,3)]; [(1,1); (3,2); (0,4); (0,3)]; [(2,1); (3,2); (0,4); (0,3)]; [(3,1); (3,2); (0,4); (0,3)]; [(0,1); (0,2); (1,4); (0,3)]; [(1,1); (0,2); (1,4); (0,3)]; [(2,1); (0,2); (1,4); (0,3)]; [(3,1); (0,2); (1,4); (0,3)]; [(4,1); (0,2); (1,4); (0,3)]; [(0,1); (1,2); (1,4); (0,3)]; [(1,1); (1,2); (1,4); (0,3)]; [(2,1); (1,2); (1,4); (0,3)]; [(3,1); (1,2); (1,4); (0,3)]; [(4,1); (1,2); (1,4); (0,3)]; [(0,1); (2,2); (1,4); (0,3)]; [(1,1); (2,2); (1,4); (0,3)]; [(2,1); (2,2); (1,4); (0,3)]; [(3,1); (2,2); (1,4); (0,3)]; [(4,1); (2,2); (1,4); (0,3)]; [(5,1); (2,2); (1,4); (0,3)]; [(0,1); (3,2); (1,4); (0,3)]; [(1,1); (3,2); (1,4); (0,3)]; [(2,1); (3,2); (1,4); (0,3)]; [(3,1); (3,2); (1,4); (0,3)]; [(4,1); (3,2); (1,4); (0,3)]; [(0,1); (4,2); (1,4); (0,3)]; [(1,1); (4,2); (1,4); (0,3)]; [(2,1); (4,2); (1,4); (0,3)]; [(3,1); (4,2); (1,4); (0,3)]; [(4,1); (4,2); (1,4); (0,3)]; [(0,1); (0,2); (2,4); (0,3)]; [(1,1); (0,2); (2,4); (0,3)]; [(2,1); (0,2); (2,4); (0,3)]; [(3,1); (0,2); (2,4); (0,3)]; [(5,1); (0,2); (2,4); (0,3)]; [(0,1); (1,2); (2,4); (0,3)]; [(1,1); (1,2); (2,4); (0,3)]; [(2,1); (1,2); (2,4); (0,3)]; [(3,1); (1,2); (2,4); (0,3)]; [(4,1); (1,2); (2,4); (0,3)]; [(5,1); (1,2); (2,4); (0,3)]; [(0,1); (2,2); (2,4); (0,3)]; [(1,1); (2,2); (2,4); (0,3)]; [(2,1); (2,2); (2,4); (0,3)]; [(3,1); (2,2); (2,4); (0,3)]; [(5,1); (2,2); (2,4); (0,3)]; [(0,1); (3,2); (2,4); (0,3)]; [(1,1); (3,2); (2,4); (0,3)]; [(2,1); (3,2); (2,4); (0,3)]; [(3,1); (3,2); (2,4); (0,3)]; [(5,1); (3,2); (2,4); (0,3)]; [(0,1); (5,2); (2,4); (0,3)]; [(1,1); (5,2); (2,4); (0,3)]; [(2,1); (5,2); (2,4); (0,3)]; [(3,1); (5,2); (2,4); (0,3)]; [(5,1); (5,2); (2,4); (0,3)]; [(0,1); (0,2); (3,4); (0,3)]; [(1,1); (0,2); (3,4); (0,3)]; [(2,1); (0,2); (3,4); (0,3)]; [(3,1); (0,2); (3,4); (0,3)]; [(0,1); (1,2); (3,4); (0,3)]; [(1,1); (1,2); (3,4); (0,3)]; [(2,1); (1,2); (3,4); (0,3)]; [(3,1); (1,2); (3,4); (0,3)]; [(4,1); (1,2); (3,4); (0,3)]; [(0,1); (2,2); (3,4); (0,3)]; [(1,1); (2,2); (3,4); (0,3)]; [(2,1); (2,2); (3,4); (0,3)]; [(3,1); (2,2); (3,4); (0,3)]; [(5,1); (2,2); (3,4); (0,3)]; [(0,1); (3,2); (3,4); (0,3)]; [(1,1); (3,2); (3,4); (0,3)]; [(2,1); (3,2); (3,4); (0,3)]; [(3,1); (3,2); (3,4); (0,3)]; [(0,1); (0,2); (0,4); (1,3)]; [(1,1); (0,2); (0,4); (1,3)]; [(2,1); (0,2); (0,4); (1,3)]; [(3,1); (0,2); (0,4); (1,3)]; [(4,1); (0,2); (0,4); (1,3)]; [(0,1); (1,2); (0,4); (1,3)]; [(1,1); (1,2); (0,4); (1,3)]; [(2,1); (1,2); (0,4); (1,3)]; [(3,1); (1,2); (0,4); (1,3)]; [(4,1); (1,2); (0,4); (1,3)]; [(0,1); (2,2); (0,4); (1,3)]; [(1,1); (2,2); (0,4); (1,3)]; [(2,1); (2,2); (0,4); (1,3)]; [(3,1); (2,2); (0,4); (1,3)]; [(4,1); (2,2); (0,4); (1,3)]; [(5,1); (2,2); (0,4); (1,3)]; [(0,1); (3,2); (0,4); (1,3)]; [(1,1); (3,2); (0,4); (1,3)]; [(2,1); (3,2); (0,4); (1,3)]; [(3,1); (3,2); (0,4); (1,3)]; [(4,1); (3,2); (0,4); (1,3)]; [(0,1); (4,2); (0,4); (1,3)]; [(1,1); (4,2); (0,4); (1,3)]; [(2,1); (4,2); (0,4); (1,3)]; [(3,1); (4,2); (0,4); (1,3)]; [(4,1); (4,2); (0,4); (1,3)]; [(0,1); (0,2); (1,4); (1,3)]; [(1,1); (0,2); (1,4); (1,3)]; [(2,1); (0,2); (1,4); (1,3)]; [(3,1); (0,2); (1,4); (1,3)]; [(4,1); (0,2); (1,4); (1,3)]; [(0,1); (1,2); (1,4); (1,3)]; [(1,1); (1,2); (1,4); (1,3)]; [(2,1); (1,2); (1,4); (1,3)]; [(4,1); (1,2); (1,4); (1,3)]; [(0,1); (2,2); (1,4); (1,3)]; [(1,1); (2,2); (1,4); (1,3)]; [(2,1); (2,2); (1,4); (1,3)]; [(4,1); (2,2); (1,4); (1,3)]; [(5,1); (2,2); (1,4); (1,3)]; [(0,1); (4,2); (1,4); (1,3)]; [(1,1); (4,2); (1,4); (1,3)]; [(2,1); (4,2); (1,4); (1,3)]; [(4,1); (4,2); (1,4); (1,3)]; [(0,1); (0,2); (2,4); (1,3)]; [(1,1); (0,2); (2,4); (1,3)]; [(2,1); (0,2); (2,4); (1,3)]; [(3,1); (0,2); (2,4); (1,3)]; [(4,1); (0,2); (2,4); (1,3)]; [(5,1); (0,2); (2,4); (1,3)]; [(0,1); (1,2); (2,4); (1,3)]; [(1,1); (1,2); (2,4); (1,3)]; [(2,1); (1,2); (2,4); (1,3)]; [(4,1); (1,2); (2,4); (1,3)]; [(5,1); (1,2); (2,4); (1,3)]; [(0,1); (2,2); (2,4); (1,3)]; [(1,1); (2,2); (2,4); (1,3)]; [(2,1); (2,2); (2,4); (1,3)]; [(4,1); (2,2); (2,4); (1,3)]; [(5,1); (2,2); (2,4); (1,3)]; [(0,1); (4,2); (2,4); (1,3)]; [(1,1); (4,2); (2,4); (1,3)]; [(2,1); (4,2); (2,4); (1,3)]; [(4,1); (4,2); (2,4); (1,3)]; [(5,1); (4,2); (2,4); (1,3)]; [(0,1); (5,2); (2,4); (1,3)]; [(1,1); (5,2); (2,4); (1,3)]; [(2,1); (5,2); (2,4); (1,3)]; [(4,1); (5,2); (2,4); (1,3)]; [(5,1); (5,2); (2,4); (1,3)]; [(0,1); (0,2); (4,4); (1,3)]; [(1,1); (0,2); (4,4); (1,3)]; [(2,1); (0,2); (4,4); (1,3)]; [(3,1); (0,2); (4,4); (1,3)]; [(4,1); (0,2); (4,4); (1,3)]; [(0,1); (1,2); (4,4); (1,3)]; [(1,1); (1,2); (4,4); (1,3)]; [(2,1); (1,2); (4,4); (1,3)]; [(4,1); (1,2); (4,4); (1,3)]; [(0,1); (2,2); (4,4); (1,3)]; [(1,1); (2,2); (4,4); (1,3)]; [(2,1); (2,2); (4,4); (1,3)]; [(4,1); (2,2); (4,4); (1,3)]; [(5,1); (2,2); (4,4); (1,3)]; [(0,1); (4,2); (4,4); (1,3)]; [(1,1); (4,2); (4,4); (1,3)]; [(2,1); (4,2); (4,4); (1,3)]; [(4,1); (4,2); (4,4); (1,3)]; [(0,1); (0,2); (0,4); (2,3)]; [(1,1); (0,2); (0,4); (2,3)]; [(2,1); (0,2); (0,4); (2,3)]; [(3,1); (0,2); (0,4); (2,3)]; [(5,1); (0,2); (0,4); (2,3)]; [(0,1); (1,2); (0,4); (2,3)]; [(1,1); (1,2); (0,4); (2,3)]; [(2,1); (1,2); (0,4); (2,3)]; [(3,1); (1,2); (0,4); (2,3)]; [(4,1); (1,2); (0,4); (2,3)]; [(5,1); (1,2); (0,4); (2,3)]; [(0,1); (2,2); (0,4); (2,3)]; [(1,1); (2,2); (0,4); (2,3)]; [(2,1); (2,2); (0,4); (2,3)]; [(3,1); (2,2); (0,4); (2,3)]; [(5,1); (2,2); (0,4); (2,3)]; [(0,1); (3,2); (0,4); (2,3)]; [(1,1); (3,2); (0,4); (2,3)]; [(2,1); (3,2); (0,4); (2,3)]; [(3,1); (3,2); (0,4); (2,3)]; [(5,1); (3,2); (0,4); (2,3)]; [(0,1); (5,2); (0,4); (2,3)]; [(1,1); (5,2); (0,4); (2,3)]; [(2,1); (5,2); (0,4); (2,3)]; [(3,1); (5,2); (0,4); (2,3)]; [(5,1); (5,2); (0,4); (2,3)]; [(0,1); (0,2); (1,4); (2,3)]; [(1,1); (0,2); (1,4); (2,3)]; [(2,1); (0,2); (1,4); (2,3)]; [(3,1); (0,2); (1,4); (2,3)]; [(4,1); (0,2); (1,4); (2,3)]; [(5,1); (0,2); (1,4); (2,3)]; [(0,1); (1,2); (1,4); (2,3)]; [(1,1); (1,2); (1,4); (2,3)]; [(2,1); (1,2); (1,4); (2,3)]; [(4,1); (1,2); (1,4); (2,3)]; [(5,1); (1,2); (1,4); (2,3)]; [(0,1); (2,2); (1,4); (2,3)]; [(1,1); (2,2); (1,4); (2,3)]; [(2,1); (2,2); (1,4); (2,3)]; [(4,1); (2,2); (1,4); (2,3)]; [(5,1); (2,2); (1,4); (2,3)]; [(0,1); (4,2); (1,4); (2,3)]; [(1,1); (4,2); (1,4); (2,3)]; [(2,1); (4,2); (1,4); (2,3)]; [(4,1); (4,2); (1,4); (2,3)]; [(5,1); (4,2); (1,4); (2,3)]; [(0,1); (5,2); (1,4); (2,3)]; [(1,1); (5,2); (1,4); (2,3)]; [(2,1); (5,2); (1,4); (2,3)]; [(4,1); (5,2); (1,4); (2,3)]; [(5,1); (5,2); (1,4); (2,3)]; [(0,1); (0,2); (2,4); (2,3)]; [(1,1); (0,2); (2,4); (2,3)]; [(2,1); (0,2); (2,4); (2,3)]; [(3,1); (0,2); (2,4); (2,3)]; [(5,1); (0,2); (2,4); (2,3)]; [(0,1); (1,2); (2,4); (2,3)]; [(1,1); (1,2); (2,4); (2,3)]; [(2,1); (1,2); (2,4); (2,3)]; [(4,1); (1,2); (2,4); (2,3)]; [(5,1); (1,2); (2,4); (2,3)]; [(0,1); (2,2); (2,4); (2,3)]; [(1,1); (2,2); (2,4); (2,3)]; [(2,1); (2,2); (2,4); (2,3)]; [(5,1); (2,2); (2,4); (2,3)]; [(0,1); (5,2); (2,4); (2,3)]; [(1,1); (5,2); (2,4); (2,3)]; [(2,1); (5,2); (2,4); (2,3)]; [(5,1); (5,2); (2,4); (2,3)]; [(0,1); (0,2); (5,4); (2,3)]; [(1,1); (0,2); (5,4); (2,3)]; [(2,1); (0,2); (5,4); (2,3)]; [(3,1); (0,2); (5,4); (2,3)]; [(5,1); (0,2); (5,4); (2,3)]; [(0,1); (1,2); (5,4); (2,3)]; [(1,1); (1,2); (5,4); (2,3)]; [(2,1); (1,2); (5,4); (2,3)]; [(4,1); (1,2); (5,4); (2,3)]; [(5,1); (1,2); (5,4); (2,3)]; [(0,1); (2,2); (5,4); (2,3)]; [(1,1); (2,2); (5,4); (2,3)]; [(2,1); (2,2); (5,4); (2,3)]; [(5,1); (2,2); (5,4); (2,3)]; [(0,1); (5,2); (5,4); (2,3)]; [(1,1); (5,2); (5,4); (2,3)]; [(2,1); (5,2); (5,4); (2,3)]; [(5,1); (5,2); (5,4); (2,3)]; [(0,1); (0,3); (0,2); (0,4)]; [(1,1); (0,3); (0,2); (0,4)]; [(2,1); (0,3); (0,2); (0,4)]; [(3,1); (0,3); (0,2); (0,4)]; [(0,1); (1,3); (0,2); (0,4)]; [(1,1); (1,3); (0,2); (0,4)]; [(2,1); (1,3); (0,2); (0,4)]; [(3,1); (1,3); (0,2); (0,4)]; [(4,1); (1,3); (0,2); (0,4)]; [(0,1); (2,3); (0,2); (0,4)]; [(1,1); (2,3); (0,2); (0,4)]; [(2,1); (2,3); (0,2); (0,4)]; [(3,1); (2,3); (0,2); (0,4)]; [(5,1); (2,3); (0,2); (0,4)]; [(0,1); (3,3); (0,2); (0,4)]; [(1,1); (3,3); (0,2); (0,4)]; [(2,1); (3,3); (0,2); (0,4)]; [(3,1); (3,3); (0,2); (0,4)]; [(0,1); (0,3); (1,2); (0,4)]; [(1,1); (0,3); (1,2); (0,4)]; [(2,1); (0,3); (1,2); (0,4)]; [(3,1); (0,3); (1,2); (0,4)]; [(4,1); (0,3); (1,2); (0,4)]; [(0,1); (1,3); (1,2); (0,4)]; [(1,1); (1,3); (1,2); (0,4)]; [(2,1); (1,3); (1,2); (0,4)]; [(3,1); (1,3); (1,2); (0,4)]; [(4,1); (1,3); (1,2); (0,4)]; [(0,1); (2,3); (1,2); (0,4)]; [(1,1); (2,3); (1,2); (0,4)]; [(2,1); (2,3); (1,2); (0,4)]; [(3,1); (2,3); (1,2); (0,4)]; [(4,1); (2,3); (1,2); (0,4)]; [(5,1); (2,3); (1,2); (0,4)]; [(0,1); (3,3); (1,2); (0,4)]; [(1,1); (3,3); (1,2); (0,4)]; [(2,1); (3,3); (1,2); (0,4)]; [(3,1); (3,3); (1,2); (0,4)]; [(4,1); (3,3); (1,2); (0,4)]; [(0,1); (4,3); (1,2); (0,4)]; [(1,1); (4,3); (1,2); (0,4)]; [(2,1); (4,3); (1,2); (0,4)]; [(3,1); (4,3); (1,2); (0,4)]; [(4,1); (4,3); (1,2); (0,4)]; [(0,1); (0,3); (2,2); (0,4)]; [(1,1); (0,3); (2,2); (0,4)]; [(2,1); (0,3); (2,2); (0,4)]; [(3,1); (0,3); (2,2); (0,4)]; [(5,1); (0,3); (2,2); (0,4)]; [(0,1); (1,3); (2,2); (0,4)]; [(1,1); (1,3); (2,2); (0,4)]; [(2,1); (1,3); (2,2); (0,4)]; [(3,1); (1,3); (2,2); (0,4)]; [(4,1); (1,3); (2,2); (0,4)]; [(5,1); (1,3); (2,2); (0,4)]; [(0,1); (2,3); (2,2); (0,4)]; [(1,1); (2,3); (2,2); (0,4)]; [(2,1); (2,3); (2,2); (0,4)]; [(3,1); (2,3); (2,2); (0,4)]; [(5,1); (2,3); (2,2); (0,4)]; [(0,1); (3,3); (2,2); (0,4)]; [(1,1); (3,3); (2,2); (0,4)]; [(2,1); (3,3); (2,2); (0,4)]; [(3,1); (3,3); (2,2); (0,4)]; [(5,1); (3,3); (2,2); (0,4)]; [(0,1); (5,3); (2,2); (0,4)]; [(1,1); (5,3); (2,2); (0,4)]; [(2,1); (5,3); (2,2); (0,4)]; [(3,1); (5,3); (2,2); (0,4)]; [(5,1); (5,3); (2,2); (0,4)]; [(0,1); (0,3); (3,2); (0,4)]; [(1,1); (0,3); (3,2); (0,4)]; [(2,1); (0,3); (3,2); (0,4)]; [(3,1); (0,3); (3,2); (0,4)]; [(0,1); (1,3); (3,2); (0,4)]; [(1,1); (1,3); (3,2); (0,4)]; [(2,1); (1,3); (3,2); (0,4)]; [(3,1); (1,3); (3,2); (0,4)]; [(4,1); (1,3); (3,2); (0,4)]; [(0,1); (2,3); (3,2); (0,4)]; [(1,1); (2,3); (3,2); (0,4)]; [(2,1); (2,3); (3,2); (0,4)]; [(3,1); (2,3); (3,2); (0,4)]; [(5,1); (2,3); (3,2); (0,4)]; [(0,1); (3,3); (3,2); (0,4)]; [(1,1); (3,3); (3,2); (0,4)]; [(2,1); (3,3); (3,2); (0,4)]; [(3,1); (3,3); (3,2); (0,4)]; [(0,1); (0,3); (0,2); (1,4)]; [(1,1); (0,3); (0,2); (1,4)]; [(2,1); (0,3); (0,2); (1,4)]; [(3,1); (0,3); (0,2); (1,4)]; [(4,1); (0,3); (0,2); (1,4)]; [(0,1); (1,3); (0,2); (1,4)]; [(1,1); (1,3); (0,2); (1,4)]; [(2,1); (1,3); (0,2); (1,4)]; [(3,1); (1,3); (0,2); (1,4)]; [(4,1); (1,3); (0,2); (1,4)]; [(0,1); (2,3); (0,2); (1,4)]; [(1,1); (2,3); (0,2); (1,4)]; [(2,1); (2,3); (0,2); (1,4)]; [(3,1); (2,3); (0,2); (1,4)]; [(4,1); (2,3); (0,2); (1,4)]; [(5,1); (2,3); (0,2); (1,4)]; [(0,1); (3,3); (0,2); (1,4)]; [(1,1); (3,3); (0,2); (1,4)]; [(2,1); (3,3); (0,2); (1,4)]; [(3,1); (3,3); (0,2); (1,4)]; [(4,1); (3,3); (0,2); (1,4)]; [(0,1); (4,3); (0,2); (1,4)]; [(1,1); (4,3); (0,2); (1,4)]; [(2,1); (4,3); (0,2); (1,4)]; [(3,1); (4,3); (0,2); (1,4)]; [(4,1); (4,3); (0,2); (1,4)]; [(0,1); (0,3); (1,2); (1,4)]; [(1,1); (0,3); (1,2); (1,4)]; [(2,1); (0,3); (1,2); (1,4)]; [(3,1); (0,3); (1,2); (1,4)]; [(4,1); (0,3); (1,2); (1,4)]; [(0,1); (1,3); (1,2); (1,4)]; [(1,1); (1,3); (1,2); (1,4)]; [(2,1); (1,3); (1,2); (1,4)]; [(4,1); (1,3); (1,2); (1,4)]; [(0,1); (2,3); (1,2); (1,4)]; [(1,1); (2,3); (1,2); (1,4)]; [(2,1); (2,3); (1,2); (1,4)]; [(4,1); (2,3); (1,2); (1,4)]; [(5,1); (2,3); (1,2); (1,4)]; [(0,1); (4,3); (1,2); (1,4)]; [(1,1); (4,3); (1,2); (1,4)]; [(2,1); (4,3); (1,2); (1,4)]; [(4,1); (4,3); (1,2); (1,4)]; [(0,1); (0,3); (2,2); (1,4)]; [(1,1); (0,3); (2,2); (1,4)]; [(2,1); (0,3); (2,2); (1,4)]; [(3,1); (0,3); (2,2); (1,4)]; [(4,1); (0,3); (2,2); (1,4)]; [(5,1); (0,3); (2,2); (1,4)]; [(0,1); (1,3); (2,2); (1,4)]; [(1,1); (1,3); (2,2); (1,4)]; [(2,1); (1,3); (2,2); (1,4)]; [(4,1); (1,3); (2,2); (1,4)]; [(5,1); (1,3); (2,2); (1,4)]; [(0,1); (2,3); (2,2); (1,4)]; [(1,1); (2,3); (2,2); (1,4)]; [(2,1); (2,3); (2,2); (1,4)]; [(4,1); (2,3); (2,2); (1,4)]; [(5,1); (2,3); (2,2); (1,4)]; [(0,1); (4,3); (2,2); (1,4)]; [(1,1); (4,3); (2,2); (1,4)]; [(2,1); (4,3); (2,2); (1,4)]; [(4,1); (4,3); (2,2); (1,4)]; [(5,1); (4,3); (2,2); (1,4)]; [(0,1); (5,3); (2,2); (1,4)]; [(1,1); (5,3); (2,2); (1,4)]; [(2,1); (5,3); (2,2); (1,4)]; [(4,1); (5,3); (2,2); (1,4)]; [(5,1); (5,3); (2,2); (1,4)]; [(0,1); (0,3); (4,2); (1,4)]; [(1,1); (0,3); (4,2); (1,4)]; [(2,1); (0,3); (4,2); (1,4)]; [(3,1); (0,3); (4,2); (1,4)]; [(4,1); (0,3); (4,2); (1,4)]; [(0,1); (1,3); (4,2); (1,4)]; [(1,1); (1,3); (4,2); (1,4)]; [(2,1); (1,3); (4,2); (1,4)]; [(4,1); (1,3); (4,2); (1,4)]; [(0,1); (2,3); (4,2); (1,4)]; [(1,1); (2,3); (4,2); (1,4)]; [(2,1); (2,3); (4,2); (1,4)]; [(4,1); (2,3); (4,2); (1,4)]; [(5,1); (2,3); (4,2); (1,4)]; [(0,1); (4,3); (4,2); (1,4)]; [(1,1); (4,3); (4,2); (1,4)]; [(2,1); (4,3); (4,2); (1,4)]; [(4,1); (4,3); (4,2); (1,4)]; [(0,1); (0,3); (0,2); (2,4)]; [(1,1); (0,3); (0,2); (2,4)]; [(2,1); (0,3); (0,2); (2,4)]; [(3,1); (0,3); (0,2); (2,4)]; [(5,1); (0,3); (0,2); (2,4)]; [(0,1); (1,3); (0,2); (2,4)]; [(1,1); (1,3); (0,2); (2,4)]; [(2,1); (1,3); (0,2); (2,4)]; [(3,1); (1,3); (0,2); (2,4)]; [(4,1); (1,3); (0,2); (2,4)]; [(5,1); (1,3); (0,2); (2,4)]; [(0,1); (2,3); (0,2); (2,4)]; [(1,1); (2,3); (0,2); (2,4)]; [(2,1); (2,3); (0,2); (2,4)]; [(3,1); (2,3); (0,2); (2,4)]; [(5,1); (2,3); (0,2); (2,4)]; [(0,1); (3,3); (0,2); (2,4)]; [(1,1); (3,3); (0,2); (2,4)]; [(2,1); (3,3); (0,2); (2,4)]; [(3,1); (3,3); (0,2); (2,4)]; [(5,1); (3,3); (0,2); (2,4)]; [(0,1); (5,3); (0,2); (2,4)]; [(1,1); (5,3); (0,2); (2,4)]; [(2,1); (5,3); (0,2); (2,4)]; [(3,1); (5,3); (0,2); (2,4)]; [(5,1); (5,3); (0,2); (2,4)]; [(0,1); (0,3); (1,2); (2,4)]; [(1,1); (0,3); (1,2); (2,4)]; [(2,1); (0,3); (1,2); (2,4)]; [(3,1); (0,3); (1,2); (2,4)]; [(4,1); (0,3); (1,2); (2,4)]; [(5,1); (0,3); (1,2); (2,4)]; [(0,1); (1,3); (1,2); (2,4)]; [(1,1); (1,3); (1,2); (2,4)]; [(2,1); (1,3); (1,2); (2,4)]; [(4,1); (1,3); (1,2); (2,4)]; [(5,1); (1,3); (1,2); (2,4)]; [(0,1); (2,3); (1,2); (2,4)]; [(1,1); (2,3); (1,2); (2,4)]; [(2,1); (2,3); (1,2); (2,4)]; [(4,1); (2,3); (1,2); (2,4)]; [(5,1); (2,3); (1,2); (2,4)]; [(0,1); (4,3); (1,2); (2,4)]; [(1,1); (4,3); (1,2); (2,4)]; [(2,1); (4,3); (1,2); (2,4)]; [(4,1); (4,3); (1,2); (2,4)]; [(5,1); (4,3); (1,2); (2,4)]; [(0,1); (5,3); (1,2); (2,4)]; [(1,1); (5,3); (1,2); (2,4)]; [(2,1); (5,3); (1,2); (2,4)]; [(4,1); (5,3); (1,2); (2,4)]; [(5,1); (5,3); (1,2); (2,4)]; [(0,1); (0,3); (2,2); (2,4)]; [(1,1); (0,3); (2,2); (2,4)]; [(2,1); (0,3); (2,2); (2,4)]; [(3,1); (0,3); (2,2); (2,4)]; [(5,1); (0,3); (2,2); (2,4)]; [(0,1); (1,3); (2,2); (2,4)]; [(1,1); (1,3); (2,2); (2,4)]; [(2,1); (1,3); (2,2); (2,4)]; [(4,1); (1,3); (2,2); (2,4)]; [(5,1); (1,3); (2,2); (2,4)]; [(0,1); (2,3); (2,2); (2,4)]; [(1,1); (2,3); (2,2); (2,4)]; [(2,1); (2,3); (2,2); (2,4)]; [(5,1); (2,3); (2,2); (2,4)]; [(0,1); (5,3); (2,2); (2,4)]; [(1,1); (5,3); (2,2); (2,4)]; [(2,1); (5,3); (2,2); (2,4)]; [(5,1); (5,3); (2,2); (2,4)]; [(0,1); (0,3); (5,2); (2,4)]; [(1,1); (0,3); (5,2); (2,4)]; [(2,1); (0,3); (5,2); (2,4)]; [(3,1); (0,3); (5,2); (2,4)]; [(5,1); (0,3); (5,2); (2,4)]; [(0,1); (1,3); (5,2); (2,4)]; [(1,1); (1,3); (5,2); (2,4)]; [(2,1); (1,3); (5,2); (2,4)]; [(4,1); (1,3); (5,2); (2,4)]; [(5,1); (1,3); (5,2); (2,4)]; [(0,1); (2,3); (5,2); (2,4)]; [(1,1); (2,3); (5,2); (2,4)]; [(2,1); (2,3); (5,2); (2,4)]; [(5,1); (2,3); (5,2); (2,4)]; [(0,1); (5,3); (5,2); (2,4)]; [(1,1); (5,3); (5,2); (2,4)]; [(2,1); (5,3); (5,2); (2,4)]; [(5,1); (5,3); (5,2); (2,4)]])%Z.
Example t3g_3_ok :
  (do g <- a_group t3g_3_trans t3g_3_rots;
   brancher (snd (how_many_arrows t3g_3_col)) g t3g_3_col 6 true 4 false (fun _ => false) (Z.to_nat 20000) SNone)
  = Ok t3g_3_out.
Proof. vm_compute. reflexivity. Qed.


