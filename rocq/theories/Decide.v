(** Boolean versions of the specification predicates, for the non-vacuity examples. *)
From Coq Require Import Permutation.
From Verif Require Import PyBase Spec ListFacts.

Fixpoint nodupb {A} (eqb : A -> A -> bool) (l : list A) : bool :=
  match l with [] => true | a :: l' => negb (existsb (eqb a) l') && nodupb eqb l' end.
Lemma nodupb_spec {A} (eqb : A -> A -> bool) (H : forall x y, eqb x y = true <-> x = y) l :
  nodupb eqb l = true -> NoDup l.
Proof.
  induction l as [|a l IH]; cbn; [constructor|]. rewrite andb_true_iff. intros [H1 H2]. constructor; auto.
  intros Hin. apply negb_true_iff in H1. assert (existsb (eqb a) l = true) as E.
  { apply existsb_exists. exists a. split; auto. apply H; auto. }
  congruence.
Qed.

Definition is_permb (n : nat) (p : list nat) : bool :=
  (length p =? n) && nodupb Nat.eqb p && forallb (fun i => i <? n) p.
Lemma is_permb_spec n p : is_permb n p = true -> is_perm n p.
Proof.
  unfold is_permb, is_perm. rewrite !andb_true_iff, Nat.eqb_eq, forallb_forall. intros [[H1 H2] H3].
  split; auto. split; [eapply nodupb_spec; eauto using Nat.eqb_eq|]. intros i Hi. apply H3 in Hi.
  apply Nat.ltb_lt in Hi. auto.
Qed.

Definition perm_groupb (n : nat) (G : list (list nat)) : bool :=
  forallb (is_permb n) G && existsb (nlist_eqb (idperm n)) G &&
  forallb (fun p => forallb (fun q => existsb (nlist_eqb (comp p q)) G) G) G.
Lemma existsb_nlist p G : existsb (nlist_eqb p) G = true -> In p G.
Proof. rewrite existsb_exists. intros [x [Hx E]]. apply nlist_eqb_spec in E. subst; auto. Qed.
Lemma perm_groupb_spec n G : perm_groupb n G = true -> perm_group n G.
Proof.
  unfold perm_groupb, perm_group. rewrite !andb_true_iff, !forallb_forall. intros [[H1 H2] H3].
  split; [intros; apply is_permb_spec; auto|]. split; [apply existsb_nlist; auto|].
  intros p q Hp Hq. apply existsb_nlist. specialize (H3 p Hp). rewrite forallb_forall in H3. auto.
Qed.

Definition op_eqb (g h : list nat * list nat) : bool := nlist_eqb (fst g) (fst h) && nlist_eqb (snd g) (snd h).
Lemma op_eqb_spec g h : op_eqb g h = true <-> g = h.
Proof.
  unfold op_eqb. rewrite andb_true_iff, !nlist_eqb_spec. destruct g, h; cbn. split.
  - intros [-> ->]; auto.
  - intros E; inversion E; auto.
Qed.
Definition op_groupb (n m : nat) (G : list (list nat * list nat)) : bool :=
  forallb (fun g => is_permb n (fst g) && is_permb m (snd g)) G &&
  existsb (op_eqb (idperm n, idperm m)) G &&
  forallb (fun g => forallb (fun h => existsb (op_eqb (comp (fst g) (fst h), comp (snd h) (snd g))) G) G) G.
Lemma existsb_op g G : existsb (op_eqb g) G = true -> In g G.
Proof. rewrite existsb_exists. intros [x [Hx E]]. apply op_eqb_spec in E. subst; auto. Qed.
Lemma op_groupb_spec n m G : op_groupb n m G = true -> op_group n m G.
Proof.
  unfold op_groupb, op_group. rewrite !andb_true_iff, !forallb_forall. intros [[H1 H2] H3].
  split.
  - intros g Hg. specialize (H1 g Hg). apply andb_true_iff in H1. destruct H1. split; apply is_permb_spec; auto.
  - split; [apply existsb_op; auto|]. intros g h Hg Hh. apply existsb_op.
    specialize (H3 g Hg). rewrite forallb_forall in H3. auto.
Qed.
