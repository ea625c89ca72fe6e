(** C35 with doubles: up to 12 cells the loops run over the same points as with exact quotients. *)
From Verif Require Import TextModel PyBase ListFacts TreeSearch Mat3 HNFModel HNFProofs MapModel MapSpec MapProofs.
Local Open Scope Z_scope.

Definition same_limits (H : mat) : bool :=
  let x := double_limits H in let y := exact_limits H in
  forallb (fun z1 => (lo2 x z1 =? lo2 y z1) && (hi2 x z1 =? hi2 y z1) &&
    forallb (fun z2 => (lo3 x z1 z2 =? lo3 y z1 z2) && (hi3 x z1 z2 =? hi3 y z1 z2)) (range_up (lo2 y z1) (hi2 y z1))) (range_up 0 (mget H 0 0)).
Lemma all_same : forallb (fun n => forallb same_limits (find_all_HNFs n)) (range_up 1 13) = true.
Proof. vm_cast_no_check (eq_refl true). Qed.
Lemma flat_map_ext_in {A B} (f g : A -> list B) l : (forall x, In x l -> f x = g x) -> flat_map f l = flat_map g l.
Proof. induction l as [|a l IH]; intros H; [auto|]. cbn. rewrite (H a (or_introl eq_refl)), IH; auto. intros; apply H; right; auto. Qed.
Lemma same_cells H : same_limits H = true -> MapModel.cells (double_limits H) (mget H 0 0) = MapModel.cells (exact_limits H) (mget H 0 0).
Proof.
  intros Hs. unfold same_limits in Hs. rewrite forallb_forall in Hs. unfold MapModel.cells. apply flat_map_ext_in. intros z1 Hz. specialize (Hs z1 Hz).
  apply andb_true_iff in Hs as [Hs H3]. apply andb_true_iff in Hs as [H1 H2]. apply Z.eqb_eq in H1, H2. rewrite H1, H2. apply flat_map_ext_in. intros z2 Hz2.
  rewrite forallb_forall in H3. specialize (H3 z2 Hz2). apply andb_true_iff in H3 as [H3 H4]. apply Z.eqb_eq in H3, H4. rewrite H3, H4. auto.
Qed.
Lemma doubles_exact H : hnf_form H -> mdet H <= 12 -> MapModel.cells (double_limits H) (mget H 0 0) = MapModel.cells (exact_limits H) (mget H 0 0).
Proof.
  intros Hh Hd. apply same_cells. pose proof all_same as Ha. rewrite forallb_forall in Ha.
  assert (is_HNF (mdet H) H) as Hi.
  { destruct Hh as [a [b [c [d [e [f [-> [H1 [H2 [H3 H4]]]]]]]]]]. exists a, b, c, d, e, f. repeat (split; auto). mat_unfold. ring. }
  assert (0 < mdet H) as Hpos by (destruct Hi as [a [b [c [d [e [f [_ [H1 [H2 [H3 [H4 <-]]]]]]]]]]]; assert (0 < a * c) by nia; nia).
  specialize (Ha (mdet H) ltac:(apply in_range_up; lia)). rewrite forallb_forall in Ha. apply Ha. apply in_find_all. exact Hi.
Qed.
