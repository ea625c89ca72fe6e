(** Specification for C35: which matrices are Hermite normal forms, and which of them the loops of makeStr get wrong. *)
From Verif Require Import TextModel PyBase Mat3 HNFModel MapModel.
Local Open Scope Z_scope.

Definition hnf_form (H : mat) : Prop :=
  exists a b c d e f, H = ((a, 0, 0), (b, c, 0), (d, e, f)) /\ 0 < a /\ 0 <= b < c /\ 0 <= d < f /\ 0 <= e < f.
(** The loops give every column of points its full length. *)
Definition full (lim : limits) (H : mat) : Prop :=
  forall z1, 0 <= z1 < mget H 0 0 -> hi2 lim z1 - lo2 lim z1 = mget H 1 1 /\
    forall z2, lo2 lim z1 <= z2 < hi2 lim z1 -> hi3 lim z1 z2 - lo3 lim z1 z2 = mget H 2 2.

(** With exact quotients: the lower limit of the innermost loop, x/(a*c), can be negative and not whole; [int] rounds it up,
    and the column is a point short. *)
(** The numerator of the lower limit of the third loop; the denominator is a*c. *)
Definition third_limit (H : mat) (z1 z2 : Z) : Z :=
  z1 * (mget H 2 0 * mget H 1 1 - mget H 2 1 * mget H 1 0) + mget H 2 1 * z2 * mget H 0 0.
Definition loses_a_point (H : mat) : Prop :=
  exists z1 z2, 0 <= z1 < mget H 0 0 /\ mget H 1 0 * z1 / mget H 0 0 <= z2 < mget H 1 1 + mget H 1 0 * z1 / mget H 0 0 /\
    third_limit H z1 z2 < 0 /\ ~ (mget H 0 0 * mget H 1 1 | third_limit H z1 z2).
