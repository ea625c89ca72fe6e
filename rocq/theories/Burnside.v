(** Burnside's lemma for an action given by finite lists. *)
From Coq Require Import Permutation.
From Verif Require Import PyBase Spec ListFacts TransFacts.

Definition b2n (b : bool) : nat := if b then 1 else 0.
Definition sumf {A} (f : A -> nat) (l : list A) : nat := sum_nat (map f l).

Arguments sumf {A} f l : simpl never.

Lemma sumf_cons {A} (f : A -> nat) a l : sumf f (a :: l) = f a + sumf f l.
Proof. reflexivity. Qed.
Lemma sumf_app {A} (f : A -> nat) l1 l2 : sumf f (l1 ++ l2) = sumf f l1 + sumf f l2.
Proof. induction l1; cbn; auto. rewrite !sumf_cons, IHl1. lia. Qed.
Lemma sumf_ext {A} (f g : A -> nat) l : (forall a, In a l -> f a = g a) -> sumf f l = sumf g l.
Proof. intros H. unfold sumf. f_equal. apply map_ext_in; auto. Qed.
Lemma sumf_zero {A} (l : list A) : sumf (fun _ => 0) l = 0.
Proof. induction l; auto. Qed.
Lemma sumf_const {A} c (l : list A) : sumf (fun _ => c) l = length l * c.
Proof. induction l; cbn [length]; auto. rewrite !sumf_cons, IHl. lia. Qed.
Lemma sumf_add {A} (f g : A -> nat) l : sumf (fun a => f a + g a) l = sumf f l + sumf g l.
Proof. induction l; cbn; auto. rewrite !sumf_cons. lia. Qed.
Lemma sumf_mul_l {A} c (f : A -> nat) l : sumf (fun a => c * f a) l = c * sumf f l.
Proof. induction l; cbn; [unfold sumf; cbn; lia|]. rewrite !sumf_cons, IHl. lia. Qed.
Lemma sumf_swap {A B} (f : A -> B -> nat) l1 l2 :
  sumf (fun a => sumf (f a) l2) l1 = sumf (fun b => sumf (fun a => f a b) l1) l2.
Proof.
  induction l1 as [|a l1 IH]; cbn.
  - unfold sumf at 1. cbn. rewrite sumf_zero. auto.
  - rewrite sumf_cons, IH, <- sumf_add. apply sumf_ext. intros. rewrite sumf_cons. auto.
Qed.
Lemma sumf_map {A B} (g : A -> B) (f : B -> nat) l : sumf f (map g l) = sumf (fun a => f (g a)) l.
Proof. unfold sumf. rewrite map_map. auto. Qed.
Lemma sumf_perm {A} (f : A -> nat) l1 l2 : Permutation l1 l2 -> sumf f l1 = sumf f l2.
Proof. induction 1; auto; rewrite ?sumf_cons in *; lia. Qed.
Lemma sumf_filter {A} (f : A -> nat) p l : sumf f (filter p l) = sumf (fun a => if p a : bool then f a else 0) l.
Proof. induction l; cbn; auto. destruct (p a) eqn:E; rewrite !sumf_cons, ?E; lia. Qed.
Lemma length_filter_sumf {A} (p : A -> bool) l : length (filter p l) = sumf (fun a => b2n (p a)) l.
Proof. induction l; cbn; auto. rewrite sumf_cons. destruct (p a); cbn; lia. Qed.
Lemma sumf_flat_map {A B} (g : A -> list B) (f : B -> nat) l :
  sumf f (flat_map g l) = sumf (fun a => sumf f (g a)) l.
Proof. induction l; cbn; auto. rewrite sumf_app, sumf_cons. lia. Qed.
Lemma sumf_le {A} (f g : A -> nat) l : (forall a, In a l -> f a <= g a) -> sumf f l <= sumf g l.
Proof. induction l; intros H; [unfold sumf; cbn; lia|]. rewrite !sumf_cons. pose proof (H a (or_introl eq_refl)).
  assert (sumf f l <= sumf g l) by (apply IHl; intros; apply H; right; auto). lia. Qed.
Lemma sumf_In_le {A} (f : A -> nat) l a : In a l -> f a <= sumf f l.
Proof. induction l; intros H; [destruct H|]. rewrite sumf_cons. destruct H as [->|H]; [lia|]. specialize (IHl H). lia. Qed.

(** Exactly one entry of a duplicate-free list equals a given member. *)
Lemma sumf_one {A} (eqb : A -> A -> bool) (Heq : forall a b, eqb a b = true <-> a = b) l x : NoDup l -> In x l ->
  sumf (fun y => b2n (eqb y x)) l = 1.
Proof.
  induction l as [|a l IH]; intros Hnd Hin; [destruct Hin|]. inversion Hnd; subst. rewrite sumf_cons.
  destruct (eqb a x) eqn:E.
  - apply Heq in E. subst a. cbn. rewrite (sumf_ext _ (fun _ => 0)); [rewrite sumf_zero; auto|].
    intros y Hy. destruct (eqb y x) eqn:E'; auto. apply Heq in E'. subst. contradiction.
  - destruct Hin as [->|Hin]; [|cbn; rewrite IH; auto].
    assert (eqb x x = true) by (apply Heq; auto). congruence.
Qed.
Lemma sumf_none {A} (eqb : A -> A -> bool) (Heq : forall a b, eqb a b = true <-> a = b) l x : ~ In x l ->
  sumf (fun y => b2n (eqb y x)) l = 0.
Proof.
  intros H. rewrite (sumf_ext _ (fun _ => 0)); [apply sumf_zero|]. intros y Hy.
  destruct (eqb y x) eqn:E; auto. apply Heq in E. subst. contradiction.
Qed.

(** An injective map of a finite duplicate-free list into itself permutes it. *)
Lemma inj_perm {A} (f : A -> A) l : NoDup l -> (forall a, In a l -> In (f a) l) ->
  (forall a b, In a l -> In b l -> f a = f b -> a = b) -> Permutation (map f l) l.
Proof.
  intros Hnd Hin Hinj. apply NoDup_Permutation_bis.
  - clear Hin. induction l as [|a l IH]; cbn; constructor.
    + intros Hf. apply in_map_iff in Hf. destruct Hf as [b [E Hb]].
      assert (b = a) by (apply Hinj; cbn; auto). subst. inversion Hnd; auto.
    + inversion Hnd; subst. apply IH; auto. intros. apply Hinj; cbn; auto.
  - rewrite map_length. lia.
  - intros b Hb. apply in_map_iff in Hb. destruct Hb as [a [<- Ha]]. auto.
Qed.

Section Burnside.
  Context {X G : Type} (xeqb : X -> X -> bool) (xeqb_spec : forall a b, xeqb a b = true <-> a = b).
  Variables (act : G -> X -> X) (mul : G -> G -> G) (Gs : list G) (Xs : list X).
  Hypothesis G_nodup : NoDup Gs.
  Hypothesis X_nodup : NoDup Xs.
  Hypothesis act_in : forall g x, In g Gs -> In x Xs -> In (act g x) Xs.
  Hypothesis act_inj : forall g x y, In g Gs -> In x Xs -> In y Xs -> act g x = act g y -> x = y.
  Hypothesis mul_in : forall g h, In g Gs -> In h Gs -> In (mul g h) Gs.
  Hypothesis mul_inj : forall g h k, In g Gs -> In h Gs -> In k Gs -> mul g h = mul g k -> h = k.
  Hypothesis act_mul : forall g h x, In g Gs -> In h Gs -> In x Xs -> act (mul g h) x = act g (act h x).

  Definition eqv (x y : X) : Prop := exists g, In g Gs /\ y = act g x.

  Lemma stab_shift h x : In h Gs -> In x Xs ->
    sumf (fun g => b2n (xeqb (act g x) (act h x))) Gs = sumf (fun g => b2n (xeqb (act g x) x)) Gs.
  Proof.
    intros Hh Hx.
    rewrite <- (sumf_perm _ _ _ (inj_perm (mul h) Gs G_nodup (fun g Hg => mul_in h g Hh Hg)
                                  (fun g k Hg Hk => mul_inj h g k Hh Hg Hk))).
    rewrite sumf_map. apply sumf_ext. intros g Hg. f_equal.
    rewrite act_mul by auto. apply eq_true_iff_eq. rewrite !xeqb_spec. split.
    - intros E. apply (act_inj h) in E; auto.
    - intros ->. auto.
  Qed.

  (** Number of group elements times number of classes = total number of fixed points. *)
  Theorem burnside reps : transversal (fun x => In x Xs) eqv reps ->
    (forall x, In x Xs -> eqv x x) -> (forall x y, In x Xs -> In y Xs -> eqv x y -> eqv y x) ->
    (forall x y z, In x Xs -> In y Xs -> In z Xs -> eqv x y -> eqv y z -> eqv x z) ->
    sumf (fun g => length (filter (fun x => xeqb (act g x) x) Xs)) Gs = length Gs * length reps.
  Proof.
    intros [Hr [Hex Hop]] Hrefl Hsym Htrans.
    rewrite (sumf_ext _ (fun g => sumf (fun x => b2n (xeqb (act g x) x)) Xs))
      by (intros; apply length_filter_sumf).
    rewrite sumf_swap.
    rewrite (sumf_ext _ (fun x => sumf (fun r => sumf (fun g => b2n (xeqb (act g x) r)) Gs) reps)).
    - rewrite sumf_swap.
      rewrite (sumf_ext _ (fun _ => length Gs)).
      + rewrite sumf_const. lia.
      + intros r Hrr. rewrite sumf_swap. rewrite (sumf_ext _ (fun _ => 1)).
        * rewrite sumf_const. lia.
        * intros g Hg.
          rewrite <- (sumf_map (act g) (fun y => b2n (xeqb y r))).
          rewrite (sumf_perm _ _ Xs).
          -- apply (sumf_one xeqb xeqb_spec); auto.
          -- apply inj_perm; auto. intros a b Ha Hb. apply act_inj; auto.
    - intros x Hx. destruct (Hex x Hx) as [r [Hrin [h [Hh E]]]].
      assert (Hnd : NoDup reps).
      { apply FOP_NoDup. eapply FOP_impl; [|exact Hop]. intros a b Ha Hb Hn Eab. subst b. auto. }
      rewrite (sumf_ext _ (fun s => sumf (fun g => b2n (xeqb (act g x) x)) Gs * b2n (xeqb s r))).
      + rewrite sumf_mul_l, (sumf_one xeqb xeqb_spec); auto. lia.
      + intros s Hs. destruct (xeqb s r) eqn:Esr; cbn [b2n].
        * apply xeqb_spec in Esr. subst s. rewrite E, stab_shift; auto. lia.
        * rewrite (sumf_ext _ (fun _ => 0)); [rewrite sumf_zero; lia|].
          intros g Hg. destruct (xeqb (act g x) s) eqn:Egs; auto. exfalso. apply xeqb_spec in Egs.
          assert (s <> r) by (intros ->; assert (xeqb r r = true) by (apply xeqb_spec; auto); congruence).
          assert (eqv x s) as Hxs by (exists g; auto). assert (eqv x r) as Hxr by (exists h; auto).
          assert (eqv r s /\ eqv s r) as [Hrs Hsr].
          { split; [apply (Htrans r x s)|apply (Htrans s x r)]; auto. }
          clear - Hop Hs Hrin H Hrs Hsr. induction Hop as [|a l Hf Hl IH]; [destruct Hrin|].
          rewrite Forall_forall in Hf.
          destruct Hs as [->|Hs], Hrin as [->|Hr].
          -- congruence.
          -- exact (Hf r Hr Hsr).
          -- exact (Hf s Hs Hrs).
          -- apply IH; auto.
  Qed.
End Burnside.
