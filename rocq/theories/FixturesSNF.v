(** The repository's own SmithNormalForm tests (tests/test_grouptheory.py:280-399), replayed on the model. *)
From Verif Require Import PyBase Mat3 SNFModel.
Local Open Scope Z_scope.

Example snf_2 : SmithNormalForm ((1,0,0),(0,1,0),(0,1,2)) =
  Ok (((1,0,0),(0,1,0),(0,0,2)), ((1,0,0),(0,1,0),(0,-1,1)), ((1,0,0),(0,1,0),(0,0,1))).
Proof. vm_compute. reflexivity. Qed.
Example snf_6 : SmithNormalForm ((1,0,0),(0,1,0),(2,3,6)) =
  Ok (((1,0,0),(0,1,0),(0,0,6)), ((1,0,0),(0,1,0),(-2,-3,1)), ((1,0,0),(0,1,0),(0,0,1))).
Proof. vm_compute. reflexivity. Qed.
Example snf_8 : SmithNormalForm ((1,0,0),(1,2,0),(1,0,4)) =
  Ok (((1,0,0),(0,2,0),(0,0,4)), ((1,0,0),(-1,1,0),(-1,0,1)), ((1,0,0),(0,1,0),(0,0,1))).
Proof. vm_compute. reflexivity. Qed.
Example snf_11 : SmithNormalForm ((-1,0,0),(0,1,0),(0,0,1)) = Err ValueError.
Proof. vm_compute. reflexivity. Qed.
Example snf_12 : SmithNormalForm ((0,1,0),(0,0,1),(1,0,0)) =
  Ok (((1,0,0),(0,1,0),(0,0,1)), ((0,0,1),(1,0,0),(0,1,0)), ((1,0,0),(0,1,0),(0,0,1))).
Proof. vm_compute. reflexivity. Qed.
Example snf_13 : SmithNormalForm ((1,-1,-2),(1,2,-3),(1,2,4)) =
  Ok (((1,0,0),(0,1,0),(0,0,21)), ((1,0,0),(-1,1,0),(-7,6,1)), ((1,-2,7),(0,0,1),(0,-1,3))).
Proof. vm_compute. reflexivity. Qed.
Example snf_14 : SmithNormalForm ((-1,-2,-3),(-1,-1,-2),(-1,-2,-4)) =
  Ok (((1,0,0),(0,1,0),(0,0,1)), ((1,0,0),(-1,1,0),(-1,0,1)), ((-1,-2,1),(0,1,1),(0,0,-1))).
Proof. vm_compute. reflexivity. Qed.
Example snf_16 : SmithNormalForm ((2,0,0),(0,2,0),(0,0,1)) =
  Ok (((1,0,0),(0,2,0),(0,0,2)), ((1,0,1),(0,1,0),(-1,0,0)), ((0,0,-1),(0,1,0),(1,0,2))).
Proof. vm_compute. reflexivity. Qed.
Example snf_17 : SmithNormalForm ((41,0,0),(0,21,0),(0,0,41)) =
  Ok (((1,0,0),(0,41,0),(0,0,861)), ((1,1,0),(-42,-41,1),(42,41,0)), ((-1,0,21),(2,0,-41),(0,1,21))).
Proof. vm_compute. reflexivity. Qed.
