(** 3x3 integer matrices and the lattices their columns span (specification level).  Python's lists of
    three lists of three entries become triples of triples: the code indexes them with 0, 1, 2 only. *)
From Coq Require Import List ZArith Lia Bool.
Import ListNotations.
Local Open Scope Z_scope.

Definition vec : Type := Z * Z * Z.
Definition mat : Type := vec * vec * vec.

Definition vget (v : vec) (i : nat) : Z :=
  let '(x, y, z) := v in match i with O => x | S O => y | _ => z end.
(** Row [i] of [M]. *)
Definition mrow (M : mat) (i : nat) : vec :=
  let '(r, s, t) := M in match i with O => r | S O => s | _ => t end.
Definition mget (M : mat) (i j : nat) : Z := vget (mrow M i) j.

Definition vadd (u v : vec) : vec := let '(a, b, c) := u in let '(x, y, z) := v in (a + x, b + y, c + z).
Definition vscale (k : Z) (u : vec) : vec := let '(a, b, c) := u in (k * a, k * b, k * c).
Definition vdot (u v : vec) : Z := let '(a, b, c) := u in let '(x, y, z) := v in a * x + b * y + c * z.

Definition transpose (M : mat) : mat :=
  let '((a, b, c), (d, e, f), (g, h, i)) := M in ((a, d, g), (b, e, h), (c, f, i)).
(** Matrix times column vector. *)
Definition mvec (M : mat) (v : vec) : vec := let '(r, s, t) := M in (vdot r v, vdot s v, vdot t v).
Definition mmul (M N : mat) : mat :=
  let '(x, y, z) := transpose N in transpose (mvec M x, mvec M y, mvec M z).
Definition mdet (M : mat) : Z :=
  let '((a, b, c), (d, e, f), (g, h, i)) := M in
  a * (e * i - f * h) - b * (d * i - f * g) + c * (d * h - e * g).
(** Adjugate: [mmul M (madj M)] is [mdet M] times the identity. *)
Definition madj (M : mat) : mat :=
  let '((a, b, c), (d, e, f), (g, h, i)) := M in
  ((e * i - f * h, c * h - b * i, b * f - c * e),
   (f * g - d * i, a * i - c * g, c * d - a * f),
   (d * h - e * g, b * g - a * h, a * e - b * d)).
Definition mid : mat := ((1, 0, 0), (0, 1, 0), (0, 0, 1)).

Definition unimodular (M : mat) : Prop := mdet M = 1 \/ mdet M = -1.

(** The vectors of the lattice spanned by the columns of [M]. *)
Definition in_lattice (M : mat) (v : vec) : Prop := exists k : vec, v = mvec M k.
(** Two matrices whose columns span the same lattice. *)
Definition same_lattice (M N : mat) : Prop := forall v, in_lattice M v <-> in_lattice N v.
(** [N] spans the image of the lattice of [M] under one of the linear maps [R]. *)
Definition image_of (R : list mat) (N M : mat) : Prop := exists r, In r R /\ same_lattice (mmul r M) N.
(** A finite group of linear maps. *)
Definition mat_group (R : list mat) : Prop :=
  In mid R /\ (forall r s, In r R -> In s R -> In (mmul r s) R) /\
  (forall r, In r R -> unimodular r) /\
  (forall r, In r R -> exists s, In s R /\ mmul r s = mid /\ mmul s r = mid).

(** ** Algebra *)
Definition mscale (k : Z) (M : mat) : mat := let '(r, s, t) := M in (vscale k r, vscale k s, vscale k t).
Ltac mat_destruct :=
  repeat match goal with
         | M : mat |- _ => destruct M as [[[[? ?] ?] [[? ?] ?]] [[? ?] ?]]
         | v : vec |- _ => destruct v as [[? ?] ?]
         end.
Ltac mat_unfold := cbv beta iota zeta delta [mmul transpose mvec vdot mdet madj mid mscale vscale vadd mrow vget mget].
Ltac mat_ring := intros; mat_destruct; mat_unfold;
  repeat match goal with |- (?a, ?b) = (?c, ?d) => apply (f_equal2 pair) end; try ring; try reflexivity.

Lemma mmul_assoc A B C : mmul (mmul A B) C = mmul A (mmul B C).
Proof. mat_ring. Qed.
Lemma mmul_id_l A : mmul mid A = A.
Proof. mat_ring. Qed.
Lemma mmul_id_r A : mmul A mid = A.
Proof. mat_ring. Qed.
Lemma mvec_mmul A B v : mvec (mmul A B) v = mvec A (mvec B v).
Proof. mat_ring. Qed.
Lemma mdet_mmul A B : mdet (mmul A B) = mdet A * mdet B.
Proof. mat_ring. Qed.
Lemma mdet_id : mdet mid = 1.
Proof. reflexivity. Qed.
Lemma mvec_id v : mvec mid v = v.
Proof. mat_ring. Qed.
Lemma madj_r M : mmul M (madj M) = mscale (mdet M) mid.
Proof. mat_ring. Qed.
Lemma madj_l M : mmul (madj M) M = mscale (mdet M) mid.
Proof. mat_ring. Qed.
Lemma mscale_mmul_l k A B : mmul (mscale k A) B = mscale k (mmul A B).
Proof. mat_ring. Qed.
Lemma mscale_mmul_r k A B : mmul A (mscale k B) = mscale k (mmul A B).
Proof. mat_ring. Qed.
Lemma mscale_1 M : mscale 1 M = M.
Proof. mat_ring. Qed.
Lemma mscale_mscale k l M : mscale k (mscale l M) = mscale (k * l) M.
Proof. mat_ring. Qed.
Lemma mscale_vec k M v : mvec (mscale k M) v = vscale k (mvec M v).
Proof. mat_ring. Qed.
Lemma mvec_vscale k M v : mvec M (vscale k v) = vscale k (mvec M v).
Proof. mat_ring. Qed.
Lemma vscale_inj k u v : k <> 0 -> vscale k u = vscale k v -> u = v.
Proof.
  intros Hk. destruct u as [[a b] c], v as [[x y] z]. cbn. intros H. injection H as H1 H2 H3.
  apply Z.mul_cancel_l in H1; auto. apply Z.mul_cancel_l in H2; auto. apply Z.mul_cancel_l in H3; auto. congruence.
Qed.
Lemma mscale_inj k A B : k <> 0 -> mscale k A = mscale k B -> A = B.
Proof.
  intros Hk. destruct A as [[r s] t], B as [[x y] z]. cbn. intros H. injection H as H1 H2 H3.
  apply vscale_inj in H1; auto. apply vscale_inj in H2; auto. apply vscale_inj in H3; auto. congruence.
Qed.
Lemma mmul_cancel_l A B C : mdet A <> 0 -> mmul A B = mmul A C -> B = C.
Proof.
  intros H E. apply (f_equal (mmul (madj A))) in E. rewrite <- !mmul_assoc, madj_l, !mscale_mmul_l, !mmul_id_l in E.
  eapply mscale_inj; eauto.
Qed.
Lemma mmul_cancel_r A B C : mdet A <> 0 -> mmul B A = mmul C A -> B = C.
Proof.
  intros H E. apply (f_equal (fun X => mmul X (madj A))) in E. rewrite !mmul_assoc, madj_r, !mscale_mmul_r, !mmul_id_r in E.
  eapply mscale_inj; eauto.
Qed.
Lemma mvec_cancel A u v : mdet A <> 0 -> mvec A u = mvec A v -> u = v.
Proof.
  intros H E. apply (f_equal (mvec (madj A))) in E. rewrite <- !mvec_mmul, madj_l, !mscale_vec, !mvec_id in E.
  eapply vscale_inj; eauto.
Qed.

(** inverse of a unimodular matrix *)
Definition minv (M : mat) : mat := mscale (mdet M) (madj M).
Lemma minv_r M : unimodular M -> mmul M (minv M) = mid.
Proof.
  intros H. unfold minv. rewrite mscale_mmul_r, madj_r, mscale_mscale.
  destruct H as [->| ->]; reflexivity.
Qed.
Lemma minv_l M : unimodular M -> mmul (minv M) M = mid.
Proof.
  intros H. unfold minv. rewrite mscale_mmul_l, madj_l, mscale_mscale.
  destruct H as [->| ->]; reflexivity.
Qed.
Lemma unimodular_mmul A B : unimodular A -> unimodular B -> unimodular (mmul A B).
Proof. unfold unimodular. rewrite mdet_mmul. intros [->| ->] [->| ->]; auto. Qed.
Lemma unimodular_minv M : unimodular M -> unimodular (minv M).
Proof.
  intros H. pose proof (minv_r M H) as E. apply (f_equal mdet) in E. rewrite mdet_mmul, mdet_id in E.
  unfold unimodular in *. destruct H as [H|H]; rewrite H in E; lia.
Qed.

(** ** Lattices *)
Lemma same_lattice_refl M : same_lattice M M.
Proof. intros v; tauto. Qed.
Lemma same_lattice_sym M N : same_lattice M N -> same_lattice N M.
Proof. intros H v; symmetry; apply H. Qed.
Lemma same_lattice_trans M N P : same_lattice M N -> same_lattice N P -> same_lattice M P.
Proof. intros H1 H2 v. rewrite (H1 v). apply H2. Qed.

Definition vcol (M : mat) (j : nat) : vec := mrow (transpose M) j.
Definition of_cols (u v w : vec) : mat := transpose (u, v, w).
Lemma vcol_mvec M j : (j < 3)%nat -> vcol M j = mvec M (mrow mid j).
Proof. destruct j as [|[|[|]]]; intros; try lia; unfold vcol; mat_ring. Qed.
Lemma transpose_involutive M : transpose (transpose M) = M.
Proof. mat_ring. Qed.

(** containment of lattices is divisibility of matrices *)
Lemma lattice_sub_factor M N : (forall v, in_lattice M v -> in_lattice N v) -> exists U, M = mmul N U.
Proof.
  intros H.
  assert (forall j, exists k, (j < 3)%nat -> vcol M j = mvec N k) as Hc.
  { intros j. destruct (Compare_dec.lt_dec j 3) as [Hj|Hj]; [|exists (0, 0, 0); tauto].
    destruct (H (vcol M j)) as [k Hk]; [|exists k; auto]. exists (mrow mid j). apply vcol_mvec; auto. }
  destruct (Hc 0%nat) as [k0 H0], (Hc 1%nat) as [k1 H1], (Hc 2%nat) as [k2 H2].
  specialize (H0 ltac:(lia)). specialize (H1 ltac:(lia)). specialize (H2 ltac:(lia)).
  exists (of_cols k0 k1 k2). unfold mmul, of_cols. rewrite transpose_involutive.
  rewrite <- H0, <- H1, <- H2. unfold vcol. clear. mat_ring.
Qed.
Lemma factor_lattice_sub M N U : M = mmul N U -> forall v, in_lattice M v -> in_lattice N v.
Proof. intros -> v [k ->]. exists (mvec U k). apply mvec_mmul. Qed.

Lemma same_lattice_unimodular M N : mdet N <> 0 ->
  (same_lattice M N <-> exists U, unimodular U /\ M = mmul N U).
Proof.
  intros HN. split.
  - intros H. destruct (lattice_sub_factor M N) as [U HU]; [intros v; apply H|].
    destruct (lattice_sub_factor N M) as [V HV]; [intros v; apply H|].
    exists U. split; auto.
    assert (mmul U V = mid) as E.
    { apply (mmul_cancel_l N); auto. rewrite mmul_id_r, <- mmul_assoc, <- HU. auto. }
    apply (f_equal mdet) in E. rewrite mdet_mmul, mdet_id in E. unfold unimodular.
    apply Z.mul_eq_1 in E. auto.
  - intros [U [HU ->]] v. split.
    + apply factor_lattice_sub with U; auto.
    + apply factor_lattice_sub with (minv U). rewrite mmul_assoc, minv_r, mmul_id_r; auto.
Qed.
Lemma same_lattice_det M N : mdet N <> 0 -> same_lattice M N -> Z.abs (mdet M) = Z.abs (mdet N).
Proof.
  intros HN H. apply same_lattice_unimodular in H; auto. destruct H as [U [HU ->]].
  rewrite mdet_mmul, Z.abs_mul. destruct HU as [->| ->]; cbn; lia.
Qed.
Lemma same_lattice_map r M N : same_lattice M N -> same_lattice (mmul r M) (mmul r N).
Proof.
  intros H v. unfold in_lattice. split; intros [k ->]; rewrite mvec_mmul.
  - destruct (proj1 (H (mvec M k))) as [k' E]; [exists k; auto|]. exists k'. rewrite E, mvec_mmul; auto.
  - destruct (proj2 (H (mvec N k))) as [k' E]; [exists k; auto|]. exists k'. rewrite E, mvec_mmul; auto.
Qed.
Lemma same_lattice_mmul_r M U : unimodular U -> same_lattice (mmul M U) M.
Proof.
  intros HU v. split.
  - apply factor_lattice_sub with U; auto.
  - apply factor_lattice_sub with (minv U). rewrite mmul_assoc, minv_r, mmul_id_r; auto.
Qed.
