(** The permutations returned by [get_sym_group] form a group (C48). *)
From Verif Require Import PyBase Spec ListFacts PermFacts CanonProofs Mat3 HNFModel HNFProofs LatSpec LatGroupModel LatFacts LatSites LatProofs LatMain LatTop.
Local Open Scope Z_scope.

Lemma turns_comp R S a b : turns R a -> turns S b -> turns (mmul R S) (comp b a).
Proof.
  intros [A1 A2] [B1 B2]. split; [apply comp_perm; auto|]. intros k Hk. unfold comp.
  rewrite nth_map_lt with (d := 0%nat) by (destruct B1 as [-> _]; auto). rewrite A2.
  - rewrite B2 by auto. rewrite mvec_mmul. auto.
  - apply B1, nth_In. destruct B1 as [-> _]; auto.
Qed.
Lemma turns_id : turns mid (idperm 6).
Proof.
  split; [apply idperm_is_perm|]. intros k Hk. rewrite mvec_id. unfold idperm. rewrite seq_nth by auto. auto.
Qed.

(** The rotations, each with its Cartesian matrix, form a group. *)
Definition rotation_group (pg : list (mat * mat)) : Prop :=
  In (mid, mid) pg /\ forall C R C' R', In (C, R) pg -> In (C', R') pg -> In (mmul C C', mmul R R') pg.

Section Groups.
Variables (pg : list (mat * mat)) (D : Z) (bas : list vec) (H L B : mat) (diag : vec).
Hypothesis HD : 0 < D.
Hypothesis Hred : forall d, In d bas -> reduced (D, D, D) d.
Hypothesis Hnd : NoDup bas.
Hypothesis Huni : forall C R, In (C, R) pg -> unimodular C.
Hypothesis HL : unimodular L.
Hypothesis HB : unimodular B.
Hypothesis Hsnf : mmul (mmul L H) B = diagonal diag.
Hypothesis Hpos : positive diag.
Hypothesis Hpg : rotation_group pg.
Notation n := (Z.to_nat (volume diag)).
Notation N := (length bas * n)%nat.
Notation induces := (induces D bas L diag).

Lemma supercell_comp C R s C' R' s' : supercell_symmetry pg D bas H C R s -> supercell_symmetry pg D bas H C' R' s' ->
  supercell_symmetry pg D bas H (mmul C C') (mmul R R') (affine C s s').
Proof.
  intros [A1 [A2 A3]] [B1 [B2 B3]]. split; [apply Hpg; auto|]. split; [apply (fixes_comp H); auto|apply symmetry_comp; auto].
Qed.
Lemma supercell_id : supercell_symmetry pg D bas H mid mid (0, 0, 0).
Proof. split; [apply Hpg|]. split; [apply fixes_id|apply symmetry_id]. Qed.
Lemma supercell_perm C R s p : supercell_symmetry pg D bas H C R s -> induces (affine C s) p -> is_perm N p.
Proof. intros [A1 [A2 A3]] Hp. apply (induces_perm D bas H L B diag HD Hred Hnd HL HB Hsnf Hpos C s p); eauto. Qed.
Lemma supercell_induces_comp C R s C' R' s' p p' : supercell_symmetry pg D bas H C R s -> supercell_symmetry pg D bas H C' R' s' ->
  induces (affine C s) p -> induces (affine C' s') p' -> induces (affine (mmul C C') (affine C s s')) (comp p p').
Proof.
  intros [A1 [A2 A3]] [B1 [B2 B3]] Hp Hp'. apply (induces_ext D bas L diag (fun x => affine C s (affine C' s' x))); [intros; apply affine_comp|].
  apply induces_comp; auto. intros x. apply B3.
Qed.
Lemma arrows_group G : (forall p a, In (p, a) G <-> exists C R s, supercell_symmetry pg D bas H C R s /\ induces (affine C s) p /\ turns R a) -> op_group N 6 G.
Proof.
  intros HG. split; [|split].
  - intros [p a] Hpa. apply HG in Hpa. destruct Hpa as [C [R [s [Hs [Hp Ha]]]]]. cbn. split; [eapply supercell_perm; eauto|apply Ha].
  - apply HG. exists mid, mid, (0, 0, 0). split; [apply supercell_id|]. split; [apply induces_id; auto|apply turns_id].
  - intros [p a] [q b] Hp Hq. apply HG in Hp, Hq. destruct Hp as [C [R [s [Hs [Hp Ha]]]]], Hq as [C' [R' [s' [Hs' [Hp' Ha']]]]].
    apply HG. cbn [fst snd]. exists (mmul C C'), (mmul R R'), (affine C s s'). split; [apply supercell_comp; auto|].
    split; [eapply supercell_induces_comp; eauto|apply turns_comp; auto].
Qed.
Lemma plain_group G : (forall p a, In (p, a) G <-> a = idperm 6 /\ exists C R s, supercell_symmetry pg D bas H C R s /\ induces (affine C s) p) -> op_group N 6 G.
Proof.
  intros HG. split; [|split].
  - intros [p a] Hpa. apply HG in Hpa. destruct Hpa as [-> [C [R [s [Hs Hp]]]]]. cbn [fst snd]. split; [eapply supercell_perm; eauto|apply idperm_is_perm].
  - apply HG. split; auto. exists mid, mid, (0, 0, 0). split; [apply supercell_id|apply induces_id; auto].
  - intros [p a] [q b] Hp Hq. apply HG in Hp, Hq. destruct Hp as [-> [C [R [s [Hs Hp]]]]], Hq as [-> [C' [R' [s' [Hs' Hp']]]]].
    apply HG. cbn [fst snd]. split; [apply comp_id_l; apply seq_length|].
    exists (mmul C C'), (mmul R R'), (affine C s s'). split; [apply supercell_comp; auto|eapply supercell_induces_comp; eauto].
Qed.
End Groups.

(** One atom at the origin. *)
Lemma self_inverse_origin pg D H : self_inverse_on_basis pg D [(0, 0, 0)] H.
Proof.
  intros C R s d _ _ [<-|[]]. exists (0, 0, 0). split; [rewrite !mvec_0; vec_ring|intros _; apply lattice_0].
Qed.
