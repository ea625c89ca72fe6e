(** Facts about transversals. *)
From Coq Require Import Permutation.
From Verif Require Import PyBase Spec ListFacts.

Lemma FOP_app {A} (R : A -> A -> Prop) l1 l2 :
  ForallOrdPairs R (l1 ++ l2) <->
  ForallOrdPairs R l1 /\ ForallOrdPairs R l2 /\ forall a b, In a l1 -> In b l2 -> R a b.
Proof.
  induction l1 as [|x l1 IH]; cbn.
  - split; [intros H; repeat split; auto; try constructor; tauto|tauto].
  - split.
    + intros H. inversion H as [|? ? Hx Hl]; subst. apply IH in Hl. destruct Hl as [H1 [H2 H3]].
      rewrite Forall_app, !Forall_forall in Hx. destruct Hx as [Hx1 Hx2].
      split; [constructor; auto; apply Forall_forall; auto|]. split; auto.
      intros a b [<-|Ha] Hb; auto.
    + intros [H1 [H2 H3]]. inversion H1 as [|? ? Hx Hl]; subst. constructor.
      * rewrite Forall_forall in *. intros b Hb. apply in_app_or in Hb. destruct Hb; auto.
      * apply IH. split; auto.
Qed.
Lemma FOP_map {A B} (f : A -> B) (R : B -> B -> Prop) l :
  ForallOrdPairs R (map f l) <-> ForallOrdPairs (fun a b => R (f a) (f b)) l.
Proof.
  induction l as [|x l IH]; cbn; split; intros H; try constructor; inversion H; subst.
  - rewrite Forall_forall in *. intros y Hy. apply H2, in_map; auto.
  - apply IH; auto.
  - rewrite Forall_forall in *. intros y Hy. apply in_map_iff in Hy. destruct Hy as [z [<- Hz]]. auto.
  - apply IH; auto.
Qed.
Lemma FOP_impl {A} (R S : A -> A -> Prop) l : (forall a b, In a l -> In b l -> R a b -> S a b) ->
  ForallOrdPairs R l -> ForallOrdPairs S l.
Proof.
  intros H HR. induction HR as [|x l Hx HR IH]; constructor.
  - rewrite Forall_forall in *. intros y Hy. apply H; cbn; auto.
  - apply IH. intros; apply H; cbn; auto.
Qed.
Lemma FOP_NoDup {A} (l : list A) : NoDup l <-> ForallOrdPairs (fun a b => a <> b) l.
Proof.
  induction l as [|x l IH]; split; intros H; try constructor; inversion H; subst.
  - apply Forall_forall. intros y Hy ->. tauto.
  - apply IH; auto.
  - rewrite Forall_forall in *. intros Hx. apply (H2 x Hx); auto.
  - apply IH; auto.
Qed.

(** a relation that sends inequivalent elements to different ones *)
Lemma pigeon_rel {A B} (R : A -> B -> Prop) (l1 : list A) : forall (l2 : list B),
  (forall a, In a l1 -> exists b, In b l2 /\ R a b) ->
  ForallOrdPairs (fun a a' => forall b, In b l2 -> R a b -> R a' b -> False) l1 ->
  length l1 <= length l2.
Proof.
  induction l1 as [|a l1 IH]; intros l2 Ht Hp; cbn; [lia|].
  inversion Hp as [|? ? Ha Hl]; subst. rewrite Forall_forall in Ha.
  destruct (Ht a) as [b [Hb Hab]]; [cbn; auto|].
  destruct (in_split _ _ Hb) as [m1 [m2 ->]]. rewrite app_length. cbn.
  enough (length l1 <= length (m1 ++ m2)) by (rewrite app_length in *; lia).
  apply IH.
  - intros a' Ha'. destruct (Ht a') as [b' [Hb' Hab']]; [cbn; auto|]. exists b'. split; auto.
    apply in_app_or in Hb'. apply in_or_app. destruct Hb' as [?|[<-|?]]; auto.
    exfalso. eapply (Ha a'); eauto.
  - eapply FOP_impl; [|exact Hl]. intros x y _ _ H c Hc. apply H.
    apply in_app_or in Hc. apply in_or_app. cbn. tauto.
Qed.

(** two transversals of the same equivalence have the same length *)
Lemma transversal_length {X} (all : X -> Prop) (eqv : X -> X -> Prop) l1 l2 :
  (forall x y, all x -> all y -> eqv x y -> eqv y x) ->
  (forall x y z, all x -> all y -> all z -> eqv x y -> eqv y z -> eqv x z) ->
  transversal all eqv l1 -> transversal all eqv l2 -> length l1 = length l2.
Proof.
  intros Hs Ht.
  assert (forall l1 l2, transversal all eqv l1 -> transversal all eqv l2 -> length l1 <= length l2) as Hle.
  { clear l1 l2. intros l1 l2 [H1 [_ H3]] [K1 [K2 _]]. apply (pigeon_rel eqv).
    - intros a Ha. apply K2; auto.
    - eapply FOP_impl; [|exact H3]. intros a a' Ha Ha' Hne b Hb E1 E2. apply Hne.
      apply (Ht a b a'); auto. }
  intros; apply Nat.le_antisymm; auto.
Qed.
