(** Facts about the joint action. *)
From Coq Require Import Permutation.
From Verif Require Import PyBase Spec ListFacts PermFacts PhononsModel.
Local Open Scope Z_scope.

Lemma act_op_length g w : length (act_op g w) = length (fst g).
Proof. unfold act_op. rewrite map_length, act_length. auto. Qed.

Lemma turn_skeleton sg s : skeleton (turn sg s) = skeleton s.
Proof.
  unfold skeleton, turn, has_arrow. destruct (0 <=? fst s) eqn:E; cbn [fst snd]; [|rewrite E; auto].
  destruct (Z.leb_spec 0 (Z.of_nat (nth (Z.to_nat (fst s)) sg 0%nat))); [auto|lia].
Qed.
Lemma turn_arrow sg s : has_arrow (turn sg s) = has_arrow s.
Proof.
  unfold turn, has_arrow. destruct (0 <=? fst s) eqn:E; cbn [fst]; auto.
  apply Z.leb_le. lia.
Qed.

Lemma act_op_skeleton g w : (forall j, In j (fst g) -> (j < length w)%nat) ->
  map skeleton (act_op g w) = act (-1, 0) (fst g) (map skeleton w).
Proof.
  intros H. unfold act_op. rewrite map_map.
  rewrite (map_ext (fun x => skeleton (turn (snd g) x)) skeleton) by (intros; apply turn_skeleton).
  symmetry. apply act_map. auto.
Qed.

Lemma turn_id m dim s : Z.of_nat m = dim -> fst s < dim -> turn (idperm m) s = s.
Proof.
  intros Hm Hs. unfold turn, has_arrow. destruct (Z.leb_spec 0 (fst s)); auto.
  unfold idperm. rewrite seq_nth by lia. destruct s as [a b]; cbn in *. f_equal. lia.
Qed.

Lemma act_op_id n m dim w : Z.of_nat m = dim -> length w = n -> directions_below dim w ->
  act_op (idperm n, idperm m) w = w.
Proof.
  intros Hm Hl Hw. unfold act_op. cbn [fst snd]. subst n. rewrite act_id.
  rewrite <- map_id. apply map_ext_in. intros s Hs. eapply turn_id; eauto.
Qed.

Lemma turn_comp m dim g h s : Z.of_nat m = dim -> is_perm m g -> is_perm m h -> fst s < dim ->
  turn g (turn h s) = turn (comp h g) s.
Proof.
  intros Hm [Hgl [_ Hg]] [Hhl [_ Hh]] Hs. unfold turn, has_arrow.
  destruct (0 <=? fst s) eqn:E; cbn [fst snd]; [|rewrite E; auto].
  apply Z.leb_le in E.
  destruct (Z.leb_spec 0 (Z.of_nat (nth (Z.to_nat (fst s)) h 0%nat))); [|lia].
  rewrite Nat2Z.id. unfold comp. rewrite nth_map_lt with (d := 0%nat) by lia. auto.
Qed.

Lemma act_op_comp n m dim g h w : Z.of_nat m = dim ->
  is_perm n (fst g) -> is_perm n (fst h) -> is_perm m (snd g) -> is_perm m (snd h) ->
  length w = n -> directions_below dim w ->
  act_op (comp (fst g) (fst h), comp (snd h) (snd g)) w = act_op g (act_op h w).
Proof.
  intros Hm Hg1 Hh1 Hg2 Hh2 Hl Hw. unfold act_op at 1. cbn [fst snd].
  rewrite (act_comp _ n) by auto.
  unfold act_op. rewrite <- act_map with (d := (-1, 0)) (e := (-1, 0)).
  2:{ intros j Hj. rewrite act_length. destruct Hh1 as [-> _]. apply Hg1; auto. }
  unfold act at 1 3. rewrite !map_map. apply map_ext_in. intros j Hj.
  assert (j < n)%nat as Hjn by (apply Hg1; auto).
  assert (j < length (fst h))%nat as Hjh by (destruct Hh1 as [-> _]; auto).
  rewrite !nth_map_lt with (d := (-1, 0)) by (rewrite act_length; auto).
  rewrite nth_act by auto.
  symmetry. eapply turn_comp; eauto. apply Hw. apply nth_In. rewrite Hl. apply Hh1, nth_In. auto.
Qed.

Lemma act_op_below n m dim g w : Z.of_nat m = dim -> is_perm n (fst g) -> is_perm m (snd g) ->
  length w = n -> directions_below dim w -> directions_below dim (act_op g w).
Proof.
  intros Hm Hg1 [Hgl [_ Hg2]] Hl Hw s Hs. unfold act_op in Hs. apply in_map_iff in Hs as [s' [<- Hs']].
  assert (In s' w) as Hin by (apply (act_In (-1, 0) n (fst g)); auto).
  specialize (Hw s' Hin). unfold turn, has_arrow. destruct (Z.leb_spec 0 (fst s')); auto. cbn [fst].
  assert (nth (Z.to_nat (fst s')) (snd g) 0 < m)%nat; [|lia]. apply Hg2, nth_In. lia.
Qed.

Section OpGroup.
  Variables (n m : nat) (dim : Z) (G : list op).
  Hypothesis Hm : Z.of_nat m = dim.
  Hypothesis HG : op_group n m G.

  Lemma op_group_perm_group : perm_group n (map fst G).
  Proof.
    destruct HG as [Hp [Hid Hc]]. split; [|split].
    - intros p Hp'. apply in_map_iff in Hp' as [g [<- Hg]]. apply Hp; auto.
    - apply in_map_iff. exists (idperm n, idperm m). auto.
    - intros p q H1 H2. apply in_map_iff in H1 as [g [<- Hg]]. apply in_map_iff in H2 as [h [<- Hh]].
      apply in_map_iff. exists (comp (fst g) (fst h), comp (snd h) (snd g)). auto.
  Qed.

  (** inverses *)
  Lemma op_cancel a b g : In a G -> In b G -> In g G ->
    (comp (fst a) (fst g), comp (snd g) (snd a)) = (comp (fst b) (fst g), comp (snd g) (snd b)) -> a = b.
  Proof.
    intros Ha Hb Hg E. destruct HG as [Hp _].
    destruct (Hp a Ha), (Hp b Hb), (Hp g Hg). injection E as E1 E2.
    apply (comp_cancel_r n) in E1; auto. apply (comp_cancel_l m) in E2; auto.
    destruct a, b; cbn in *; congruence.
  Qed.
  Definition opdec : forall a b : op, {a = b} + {a <> b}.
  Proof. decide equality; apply (list_eq_dec Nat.eq_dec). Defined.

  Lemma op_inverse g : In g G -> exists h, In h G /\
    comp (fst h) (fst g) = idperm n /\ comp (snd g) (snd h) = idperm m.
  Proof.
    intros Hg. set (G' := nodup opdec G).
    assert (forall q, In q G' <-> In q G) as HG' by (intros; apply nodup_In).
    assert (incl G' (map (fun q => (comp (fst q) (fst g), comp (snd g) (snd q))) G')) as Hincl.
    { apply NoDup_length_incl.
      - apply NoDup_map_inj; [|apply NoDup_nodup].
        intros a b Ha Hb E. apply HG' in Ha, Hb. apply (op_cancel a b g); auto.
      - rewrite map_length; auto.
      - intros q Hq. apply in_map_iff in Hq as [r [<- Hr]]. apply HG' in Hr. apply HG'.
        apply HG; auto. }
    destruct HG as [_ [Hid _]]. apply HG', Hincl, in_map_iff in Hid as [h [E Hh]].
    injection E as E1 E2. exists h. split; [apply HG'; auto|auto].
  Qed.

  Definition okw (w : list site) : Prop := length w = n /\ directions_below dim w.

  Lemma okw_act g w : In g G -> okw w -> okw (act_op g w).
  Proof.
    intros Hg [H1 H2]. destruct HG as [Hp _]. destruct (Hp g Hg) as [Hp1 Hp2]. split.
    - rewrite act_op_length. apply Hp1.
    - eapply act_op_below; eauto.
  Qed.
  Lemma op_equiv_refl w : okw w -> op_equiv G w w.
  Proof.
    intros [H1 H2]. exists (idperm n, idperm m). split; [apply HG|]. symmetry. eapply act_op_id; eauto.
  Qed.
  Lemma op_equiv_trans u v w : okw u -> op_equiv G u v -> op_equiv G v w -> op_equiv G u w.
  Proof.
    intros [H1 H2] [g [Hg ->]] [h [Hh ->]]. destruct HG as [Hp [_ Hc]].
    exists (comp (fst h) (fst g), comp (snd g) (snd h)). split; [apply Hc; auto|].
    destruct (Hp g Hg), (Hp h Hh). symmetry. eapply act_op_comp; eauto.
  Qed.
  Lemma op_equiv_sym u v : okw u -> op_equiv G u v -> op_equiv G v u.
  Proof.
    intros Hu [g [Hg ->]]. destruct (op_inverse g Hg) as [h [Hh [E1 E2]]]. exists h. split; auto.
    destruct HG as [Hp _]. destruct (Hp g Hg), (Hp h Hh), Hu.
    rewrite <- (act_op_comp n m dim) by auto. rewrite E1, E2. symmetry. eapply act_op_id; eauto.
  Qed.
End OpGroup.

(** a list without repetition whose equivalent members are equal has pairwise inequivalent members *)
Lemma pairwise_of_NoDup {X} (R : X -> X -> Prop) l : NoDup l ->
  (forall x y, In x l -> In y l -> R x y -> x = y) -> ForallOrdPairs (fun x y => ~ R x y) l.
Proof.
  induction 1 as [|a l Ha Hnd IH]; intros H; constructor.
  - apply Forall_forall. intros y Hy Hr. apply Ha. rewrite (H a y); cbn; auto.
  - apply IH. intros; apply H; cbn; auto.
Qed.
