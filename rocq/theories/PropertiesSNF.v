(** C19: the Smith normal form. *)
From Verif Require Import PyBase Mat3 LatSpec SNFModel SNFTop.
Local Open Scope Z_scope.

(** C19: for every integer matrix of determinant at least 1 (and below 2^25, the size from which the cap of 99 passes
    might be met) the routine returns a diagonal matrix with positive entries, each dividing the next, together with
    two integer matrices of determinant 1 or -1 that transform the input into it. *)
Theorem C19_smith_normal_form : forall H : mat, 1 <= mdet H < 2 ^ 25 ->
  exists M A B a b c, SmithNormalForm H = Ok (M, A, B) /\
    mmul (mmul A H) B = M /\ unimodular A /\ unimodular B /\
    M = ((a, 0, 0), (0, b, 0), (0, 0, c)) /\ 0 < a /\ 0 < b /\ 0 < c /\ (a | b) /\ (b | c).
Proof.
  intros H Hd. destruct (SmithNormalForm_ok H Hd) as (M & A & B & E & H1 & H2 & H3 & a & b & c & HM & Ha).
  exists M, A, B, a, b, c. cbn [diagonal] in HM. tauto.
Qed.

(** C19, without a bound: whatever it returns is right, and the only error is the RuntimeError of the cap. *)
Theorem C19_any_determinant : forall H : mat, 1 <= mdet H ->
  SmithNormalForm H = Err RuntimeError \/
  exists M A B a b c, SmithNormalForm H = Ok (M, A, B) /\
    mmul (mmul A H) B = M /\ unimodular A /\ unimodular B /\
    M = ((a, 0, 0), (0, b, 0), (0, 0, c)) /\ 0 < a /\ 0 < b /\ 0 < c /\ (a | b) /\ (b | c).
Proof.
  intros H Hd. destruct (SmithNormalForm_any H Hd) as [E|(M & A & B & E & H1 & H2 & H3 & a & b & c & HM & Ha)]; [now left|].
  right. exists M, A, B, a, b, c. cbn [diagonal] in HM. tauto.
Qed.

(** C19: determinant below 1 is refused. *)
Theorem C19_refuses : forall H : mat, mdet H < 1 -> SmithNormalForm H = Err ValueError.
Proof. intros H Hd. unfold SmithNormalForm. apply Z.ltb_lt in Hd. now rewrite Hd. Qed.

(** C19: the product of the diagonal is the number of cells, as get_sym_group and the g-space conversion assume. *)
Theorem C19_volume : forall H M A B a b c, 1 <= mdet H -> SmithNormalForm H = Ok (M, A, B) ->
  M = ((a, 0, 0), (0, b, 0), (0, 0, c)) -> a * b * c = mdet H.
Proof.
  intros H M A B a b c Hd E HM.
  destruct (SmithNormalForm_any H Hd) as [E'|(M' & A' & B' & E' & H1 & H2 & H3 & a' & b' & c' & HM' & Ha)]; [congruence|].
  rewrite E in E'. injection E' as <- <- <-. rewrite HM in HM'. injection HM' as <- <- <-.
  assert (Hm : mdet M = a * b * c) by (rewrite HM; cbn [mdet]; ring).
  assert (Hu : mdet M = mdet H \/ mdet M = - mdet H).
  { rewrite <- H1, !mdet_mmul. destruct H2 as [->| ->], H3 as [->| ->]; lia. }
  assert (0 < a * b * c) by (destruct Ha as (A1 & A2 & A3 & _); apply Z.mul_pos_pos; auto; now apply Z.mul_pos_pos). lia.
Qed.

(** Non-vacuity: a matrix that is not triangular and needs both kinds of swap; and one that is refused. *)
Example C19_case : 1 <= mdet ((2, 3, 4), (6, 0, 9), (8, 2, 0)) < 2 ^ 25.
Proof. vm_compute. split; [discriminate|reflexivity]. Qed.
Example C19_case_result : exists A B, SmithNormalForm ((2, 3, 4), (6, 0, 9), (8, 2, 0)) = Ok (((1,0,0),(0,1,0),(0,0,228)), A, B).
Proof. eexists. eexists. vm_compute. reflexivity. Qed.
Example C19_refused : mdet ((0, 1, 0), (1, 0, 0), (0, 0, 1)) < 1.
Proof. reflexivity. Qed.

Print Assumptions C19_smith_normal_form.
Print Assumptions C19_any_determinant.
Print Assumptions C19_refuses.
Print Assumptions C19_volume.
