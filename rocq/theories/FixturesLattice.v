(** Examples from /repo/tests/test_HNFs.py evaluated in the model (fidelity tests, not proofs). *)
From Verif Require Import PyBase Mat3 HNFModel PropertiesLattice.
Local Open Scope Z_scope.
(** test_HNFs.py TestGetHNFDiagonals.test_1, test_2 *)
Example diagonals_4 : get_HNF_diagonals 4 = [(1,1,4);(1,2,2);(1,4,1);(2,1,2);(2,2,1);(4,1,1)].
Proof. reflexivity. Qed.
Example diagonals_15 : get_HNF_diagonals 15 = [(1,1,15);(1,3,5);(1,5,3);(1,15,1);(3,1,5);(3,5,1);(5,1,3);(5,3,1);(15,1,1)].
Proof. reflexivity. Qed.
(** test_HNFs.py TestGetHNFs.test_get_HNFs1: the 23 symmetry-distinct superlattices of index 10 of the
    simple cubic lattice. *)
Example get_HNFs1 : unique_HNFs cubic (find_all_HNFs 10) =
  [((1, 0, 0), (0, 1, 0), (0, 0, 10));
   ((1, 0, 0), (0, 1, 0), (0, 1, 10));
   ((1, 0, 0), (0, 1, 0), (0, 2, 10));
   ((1, 0, 0), (0, 1, 0), (0, 3, 10));
   ((1, 0, 0), (0, 1, 0), (0, 4, 10));
   ((1, 0, 0), (0, 1, 0), (0, 5, 10));
   ((1, 0, 0), (0, 1, 0), (1, 1, 10));
   ((1, 0, 0), (0, 1, 0), (1, 2, 10));
   ((1, 0, 0), (0, 1, 0), (1, 3, 10));
   ((1, 0, 0), (0, 1, 0), (1, 4, 10));
   ((1, 0, 0), (0, 1, 0), (1, 5, 10));
   ((1, 0, 0), (0, 1, 0), (2, 2, 10));
   ((1, 0, 0), (0, 1, 0), (2, 3, 10));
   ((1, 0, 0), (0, 1, 0), (2, 4, 10));
   ((1, 0, 0), (0, 1, 0), (2, 5, 10));
   ((1, 0, 0), (0, 1, 0), (3, 5, 10));
   ((1, 0, 0), (0, 1, 0), (4, 4, 10));
   ((1, 0, 0), (0, 1, 0), (4, 5, 10));
   ((1, 0, 0), (0, 1, 0), (5, 5, 10));
   ((1, 0, 0), (0, 2, 0), (0, 0, 5));
   ((1, 0, 0), (0, 2, 0), (1, 0, 5));
   ((1, 0, 0), (0, 2, 0), (2, 0, 5));
   ((1, 0, 0), (1, 2, 0), (0, 0, 5))].
Proof. vm_compute. reflexivity. Qed.
