(** Lexicographically minimal codes: the mathematical content of the tree search. *)
From Coq Require Import Permutation.
From Verif Require Import PyBase Spec ListFacts PermFacts NumericsModel NumericsProofs PhononsModel
  TreeModel HashProofs.
Local Open Scope Z_scope.

Definition gx (g : op) (x : list nat) : list nat := act 0%nat (fst g) x.
Definition lvl_rank (j : nat) (x : list nat) : Z := rank (mask j x).

(** ** The level data depends on the truncation only *)

Lemma trunc_length j x : length (trunc j x) = length x.
Proof. apply map_length. Qed.

Definition tmask (i : nat) (t : list nat) : list nat :=
  map (fun y => if (y =? S i)%nat then 1%nat else 0%nat)
      (filter (fun y => (y =? 0)%nat || (y =? S i)%nat) t).

Lemma mask_trunc i x : positive x -> mask i x = tmask i (trunc (S i) x).
Proof.
  induction x as [|a x IH]; intros Hp; [reflexivity|].
  assert (positive x) as Hpx by (intros b Hb; apply Hp; cbn; auto).
  assert (1 <= a)%nat as Ha by (apply Hp; cbn; auto).
  rewrite mask_cons, trunc_cons, IH by auto. unfold tmask. cbn [filter].
  destruct (Nat.ltb_spec (S i) a).
  - destruct (Nat.ltb_spec i a); [|lia]. cbn [orb Nat.eqb map].
    destruct (Nat.eqb_spec a (S i)); [lia|]. reflexivity.
  - destruct (Nat.ltb_spec i a).
    + assert (a = S i) as -> by lia. rewrite Nat.eqb_refl. rewrite orb_true_r. cbn [map].
      rewrite Nat.eqb_refl. reflexivity.
    + destruct (Nat.eqb_spec a 0); [lia|]. destruct (Nat.eqb_spec a (S i)); [lia|]. reflexivity.
Qed.

Lemma trunc_trunc i j x : (i <= j)%nat -> trunc i (trunc j x) = trunc i x.
Proof.
  intros H. unfold trunc. rewrite map_map. apply map_ext. intros a.
  destruct (Nat.ltb_spec j a), (Nat.ltb_spec i a); try lia; auto.
Qed.

Lemma trunc_mono i j x y : (i <= j)%nat -> trunc j x = trunc j y -> trunc i x = trunc i y.
Proof. intros H E. rewrite <- (trunc_trunc i j x), <- (trunc_trunc i j y), E; auto. Qed.

Lemma trunc_S_iff i x y : positive x -> positive y ->
  trunc (S i) x = trunc (S i) y <-> trunc i x = trunc i y /\ mask i x = mask i y.
Proof.
  intros Hx Hy. split.
  - intros E. split; [eapply trunc_mono; [|exact E]; lia|]. rewrite !mask_trunc, E; auto.
  - intros [E1 E2]. pose proof (fill_trunc i x Hx) as F1. pose proof (fill_trunc i y Hy) as F2.
    rewrite E1, E2, F2 in F1. congruence.
Qed.

Lemma trunc_0_eq x y : positive x -> positive y -> length x = length y -> trunc 0 x = trunc 0 y.
Proof. intros. rewrite !trunc_0 by auto. congruence. Qed.

Lemma mask0_trunc1 x : positive x -> mask 0 x = trunc 1 x.
Proof.
  intros Hp. rewrite mask_trunc by auto. unfold tmask, trunc. rewrite filter_all.
  - rewrite map_map. apply map_ext_in. intros a Ha. specialize (Hp a Ha).
    destruct (Nat.ltb_spec 1 a); [reflexivity|]. assert (a = 1%nat) by lia. subst; reflexivity.
  - intros y Hy. apply in_map_iff in Hy as [a [<- Ha]]. specialize (Hp a Ha).
    destruct (Nat.ltb_spec 1 a); [reflexivity|]. assert (a = 1%nat) by lia. subst; reflexivity.
Qed.

Section Canon.
  Variable c : list nat.
  Variable G : list op.
  Notation n := (sum_nat c).
  Notation k := (length c).
  Hypothesis HG : perm_group n (map fst G).

  Lemma G_perm g : In g G -> is_perm n (fst g).
  Proof. intros H. destruct HG as [Hp _]. apply Hp. apply in_map; auto. Qed.

  Lemma gx_concs g x : In g G -> has_concs c x -> has_concs c (gx g x).
  Proof. intros Hg Hx. eapply act_has_concs; eauto. apply G_perm; auto. Qed.

  Lemma concs_length x : has_concs c x -> length x = n.
  Proof. intros [H _]; auto. Qed.

  Lemma gx_idx g x : In g G -> has_concs c x -> forall j, In j (fst g) -> (j < length x)%nat.
  Proof.
    intros Hg Hx j Hj. rewrite (concs_length x Hx). apply (G_perm g Hg); auto.
  Qed.

  Lemma permute_gx g x : In g G -> has_concs c x -> permute x g = Ok (gx g x).
  Proof. intros Hg Hx. unfold permute, gx. apply rmap_get. apply gx_idx; auto. Qed.

  Lemma trunc_gx j g x y : In g G -> has_concs c x -> has_concs c y ->
    trunc j x = trunc j y -> trunc j (gx g x) = trunc j (gx g y).
  Proof.
    intros Hg Hx Hy E. unfold gx, trunc in *.
    rewrite <- !act_map with (e := 0%nat); try (apply gx_idx; auto).
    rewrite E. reflexivity.
  Qed.

  Lemma lvl_rank_trunc i x y : positive x -> positive y -> trunc (S i) x = trunc (S i) y ->
    lvl_rank i x = lvl_rank i y.
  Proof. intros Hx Hy E. unfold lvl_rank. rewrite !mask_trunc, E by auto. auto. Qed.

  Lemma lvl_rank_inj i x y : has_concs c x -> has_concs c y -> (i < k)%nat ->
    trunc i x = trunc i y -> lvl_rank i x = lvl_rank i y -> trunc (S i) x = trunc (S i) y.
  Proof.
    intros Hx Hy Hi Et Er. pose proof (has_concs_positive c x Hx). pose proof (has_concs_positive c y Hy).
    apply trunc_S_iff; auto. split; auto.
    apply rank_inj; auto using mask_bits.
    - rewrite !mask_length.
      assert (forall z, positive z -> length (filter (fun a => (i <? a)%nat) z) = occ 0 (trunc i z)) as F.
      { induction z as [|a z IH]; intros Hz; auto.
        assert (1 <= a)%nat by (apply Hz; cbn; auto).
        assert (positive z) as Hz' by (intros b Hb; apply Hz; cbn; auto).
        rewrite trunc_cons, occ_cons, <- IH by auto. cbn [filter].
        destruct (Nat.ltb_spec i a); [reflexivity|]. destruct a; [lia|]. reflexivity. }
      rewrite !F, Et by auto. auto.
    - rewrite !mask_occ. destruct Hx as [_ Hx], Hy as [_ Hy]. rewrite Hx, Hy; auto.
  Qed.

  (** stabilizer of the first [j] colours, and of everything *)
  Definition stab_lvl (j : nat) (x : list nat) : list op :=
    filter (fun g => nlist_eqb (trunc j (gx g x)) (trunc j x)) G.
  Definition stab_full (x : list nat) : list op := filter (fun g => nlist_eqb x (gx g x)) G.

  (** level [j] of [x] cannot be made smaller by the stabilizer of the lower levels *)
  Definition uniq_lvl (j : nat) (x : list nat) : bool :=
    forallb (fun g => lvl_rank j x <=? lvl_rank j (gx g x)) (stab_lvl j x).

  Lemma stab_lvl_In j x g : In g (stab_lvl j x) <-> In g G /\ trunc j (gx g x) = trunc j x.
  Proof. unfold stab_lvl. rewrite filter_In, nlist_eqb_spec. tauto. Qed.
  Lemma stab_full_In x g : In g (stab_full x) <-> In g G /\ gx g x = x.
  Proof. unfold stab_full. rewrite filter_In, nlist_eqb_spec. intuition. Qed.
  Lemma uniq_lvl_spec j x : uniq_lvl j x = true <->
    forall g, In g G -> trunc j (gx g x) = trunc j x -> lvl_rank j x <= lvl_rank j (gx g x).
  Proof.
    unfold uniq_lvl. rewrite forallb_forall. split; intros H g.
    - intros Hg Ht. apply Z.leb_le, H, stab_lvl_In; auto.
    - intros Hg. apply stab_lvl_In in Hg as [Hg Ht]. apply Z.leb_le. auto.
  Qed.

  Lemma stab_lvl_ext j x y : has_concs c x -> has_concs c y -> trunc j x = trunc j y ->
    stab_lvl j x = stab_lvl j y.
  Proof.
    intros Hx Hy E. unfold stab_lvl. apply filter_ext_in. intros g Hg.
    rewrite (trunc_gx j g x y) by auto. rewrite E. auto.
  Qed.
  Lemma uniq_lvl_ext j x y : has_concs c x -> has_concs c y -> trunc (S j) x = trunc (S j) y ->
    uniq_lvl j x = uniq_lvl j y.
  Proof.
    intros Hx Hy E.
    assert (trunc j x = trunc j y) as Ej by (eapply trunc_mono; [|exact E]; lia).
    unfold uniq_lvl. rewrite (stab_lvl_ext j x y) by auto.
    assert (forall l, incl l G ->
      forallb (fun g => lvl_rank j x <=? lvl_rank j (gx g x)) l =
      forallb (fun g => lvl_rank j y <=? lvl_rank j (gx g y)) l) as F.
    { induction l as [|g l IH]; intros Hl; auto. cbn [forallb].
      assert (In g G) as Hg by (apply Hl; cbn; auto).
      f_equal; [|apply IH; intros z Hz; apply Hl; cbn; auto].
      rewrite (lvl_rank_trunc j x y), (lvl_rank_trunc j (gx g x) (gx g y)); auto.
      - apply (has_concs_positive c), gx_concs; auto.
      - apply (has_concs_positive c), gx_concs; auto.
      - apply trunc_gx; auto.
      - apply (has_concs_positive c); auto.
      - apply (has_concs_positive c); auto. }
    apply F. intros g Hg. apply stab_lvl_In in Hg. tauto.
  Qed.

  Lemma uniq_lvl_zero j x : (j < k)%nat -> has_concs c x -> lvl_rank j x = 0 -> uniq_lvl j x = true.
  Proof.
    intros Hj Hx E. apply uniq_lvl_spec. intros g Hg _. rewrite E.
    apply (rank_range (mask j (gx g x)) (mask_bits _ _)).
  Qed.

  (** ** canonical labelings *)

  (** lexicographic order on codes *)
  Fixpoint lex_leb (a b : list Z) : bool :=
    match a, b with
    | [], _ => true
    | _ :: _, [] => false
    | x :: a', y :: b' => if x <? y then true else if y <? x then false else lex_leb a' b'
    end.

  Lemma lex_leb_refl a : lex_leb a a = true.
  Proof. induction a as [|x a IH]; cbn; auto. rewrite Z.ltb_irrefl. auto. Qed.
  Lemma lex_leb_total a b : lex_leb a b = true \/ lex_leb b a = true.
  Proof.
    revert b; induction a as [|x a IH]; intros [|y b]; cbn; auto.
    destruct (Z.ltb_spec x y), (Z.ltb_spec y x); auto.
  Qed.
  Lemma lex_leb_antisym a b : lex_leb a b = true -> lex_leb b a = true -> a = b.
  Proof.
    revert b; induction a as [|x a IH]; intros [|y b]; cbn; auto; try discriminate.
    destruct (Z.ltb_spec x y), (Z.ltb_spec y x); try lia; try discriminate.
    intros H1 H2. f_equal; [lia|auto].
  Qed.
  Lemma lex_leb_trans a b d : lex_leb a b = true -> lex_leb b d = true -> lex_leb a d = true.
  Proof.
    revert b d; induction a as [|x a IH]; intros [|y b] [|z d]; cbn; auto; try discriminate.
    destruct (Z.ltb_spec x y), (Z.ltb_spec y x), (Z.ltb_spec y z), (Z.ltb_spec z y),
      (Z.ltb_spec x z), (Z.ltb_spec z x); try lia; try discriminate; auto.
    apply IH.
  Qed.

  Definition code (x : list nat) : list Z := encode k x.
  Definition canonb (x : list nat) : bool := forallb (fun g => lex_leb (code x) (code (gx g x))) G.
  Definition canon (x : list nat) : Prop :=
    forall g, In g G -> lex_leb (code x) (code (gx g x)) = true.
  Lemma canonb_spec x : canonb x = true <-> canon x.
  Proof. unfold canonb, canon. apply forallb_forall. Qed.

  (** comparing codes level by level from level [j] on *)
  Lemma lex_suffix m : forall j x y, has_concs c x -> has_concs c y -> (j + m = k)%nat ->
    trunc j x = trunc j y ->
    (forall i, (j <= i < k)%nat -> trunc i x = trunc i y -> lvl_rank i x <= lvl_rank i y) ->
    lex_leb (map (fun i => lvl_rank i x) (seq j m)) (map (fun i => lvl_rank i y) (seq j m)) = true.
  Proof.
    induction m as [|m IH]; intros j x y Hx Hy Hj Et H; [reflexivity|].
    cbn [seq map lex_leb]. pose proof (H j ltac:(lia) Et) as Hle.
    destruct (Z.ltb_spec (lvl_rank j x) (lvl_rank j y)); auto.
    destruct (Z.ltb_spec (lvl_rank j y) (lvl_rank j x)); [lia|].
    apply IH; auto; try lia.
    - apply lvl_rank_inj; auto; lia.
    - intros i Hi. apply H. lia.
  Qed.

  Lemma lex_prefix_equal m : forall j x y, 
    lex_leb (map (fun i => lvl_rank i x) (seq j m)) (map (fun i => lvl_rank i y) (seq j m)) = true ->
    forall i, (j <= i < j + m)%nat -> (forall i', (j <= i' < i)%nat -> lvl_rank i' x = lvl_rank i' y) ->
    lvl_rank i x <= lvl_rank i y.
  Proof.
    induction m as [|m IH]; intros j x y H i Hi He; [lia|].
    cbn [seq map lex_leb] in H.
    destruct (Nat.eq_dec i j) as [->|Hne].
    - destruct (Z.ltb_spec (lvl_rank j x) (lvl_rank j y)); [lia|].
      destruct (Z.ltb_spec (lvl_rank j y) (lvl_rank j x)); [discriminate|lia].
    - pose proof (He j ltac:(lia)) as Ej.
      rewrite Ej, Z.ltb_irrefl in H. apply (IH (S j)); auto; [lia|].
      intros i' Hi'. apply He; lia.
  Qed.

  Lemma canon_uniq x : has_concs c x ->
    canon x <-> forall j, (j < k)%nat -> uniq_lvl j x = true.
  Proof.
    intros Hx. split.
    - intros H j Hj. apply uniq_lvl_spec. intros g Hg Ht. specialize (H g Hg).
      apply (lex_prefix_equal k 0 x (gx g x) H j); [lia|].
      intros i Hi. apply lvl_rank_trunc.
      + apply (has_concs_positive c); auto.
      + apply (has_concs_positive c), gx_concs; auto.
      + eapply trunc_mono; [|symmetry; exact Ht]. lia.
    - intros H g Hg. apply lex_suffix; auto using gx_concs.
      + apply trunc_0_eq.
        * apply (has_concs_positive c); auto.
        * apply (has_concs_positive c), gx_concs; auto.
        * rewrite !concs_length; auto using gx_concs.
      + intros i Hi Ht. specialize (H i ltac:(lia)). rewrite uniq_lvl_spec in H.
        apply H; auto.
  Qed.

  (** ** orbits *)

  Definition equiv (x y : list nat) : Prop := exists g, In g G /\ y = gx g x.

  Lemma G_id : exists g, In g G /\ fst g = idperm n.
  Proof.
    destruct HG as [_ [Hid _]]. apply in_map_iff in Hid as [g [E Hg]]. eauto.
  Qed.
  Lemma gx_id g x : fst g = idperm n -> has_concs c x -> gx g x = x.
  Proof.
    intros E Hx. unfold gx. rewrite E. rewrite <- (concs_length x Hx). apply act_id.
  Qed.
  Lemma equiv_refl x : has_concs c x -> equiv x x.
  Proof.
    intros Hx. destruct G_id as [g [Hg E]]. exists g. split; auto. symmetry. apply gx_id; auto.
  Qed.
  Lemma equiv_sym x y : has_concs c x -> equiv x y -> equiv y x.
  Proof.
    intros Hx [g [Hg ->]].
    assert (In (invp n (fst g)) (map fst G)) as Hi by (apply group_inv; auto; apply in_map; auto).
    apply in_map_iff in Hi as [h [Eh Hh]]. exists h. split; auto. unfold gx. rewrite Eh.
    rewrite <- (act_comp 0%nat n) by (auto using invp_perm, G_perm).
    rewrite comp_invp_l by (apply G_perm; auto). rewrite <- (concs_length x Hx). symmetry. apply act_id.
  Qed.
  Lemma equiv_trans x y z : equiv x y -> equiv y z -> equiv x z.
  Proof.
    intros [g [Hg ->]] [h [Hh ->]].
    destruct HG as [_ [_ Hc]].
    specialize (Hc (fst h) (fst g) (in_map _ _ _ Hh) (in_map _ _ _ Hg)).
    apply in_map_iff in Hc as [f [Ef Hf]]. exists f. split; auto. unfold gx. rewrite Ef.
    symmetry. apply (act_comp 0%nat n); apply G_perm; auto.
  Qed.

  Lemma min_exists (l : list (list nat)) : l <> [] ->
    exists x, In x l /\ forall y, In y l -> lex_leb (code x) (code y) = true.
  Proof.
    induction l as [|a l IH]; intros H; [congruence|].
    destruct l as [|b l].
    - exists a. split; [cbn; auto|]. intros y [<-|[]]. apply lex_leb_refl.
    - destruct IH as [m [Hm Hmin]]; [congruence|].
      destruct (lex_leb_total (code a) (code m)) as [H1|H1].
      + exists a. split; [cbn; auto|]. intros y [<-|Hy]; [apply lex_leb_refl|].
        eapply lex_leb_trans; eauto.
      + exists m. split; [cbn; cbn in Hm; tauto|]. intros y [<-|Hy]; auto.
  Qed.

  Lemma canon_exists x : has_concs c x -> exists y, equiv x y /\ has_concs c y /\ canon y.
  Proof.
    intros Hx. destruct (min_exists (map (fun g => gx g x) G)) as [y [Hy Hmin]].
    { destruct G_id as [g [Hg _]]. destruct G; [destruct Hg|discriminate]. }
    apply in_map_iff in Hy as [g [<- Hg]].
    exists (gx g x). split; [exists g; auto|]. split; [apply gx_concs; auto|].
    intros h Hh. apply Hmin.
    assert (equiv x (gx h (gx g x))) as [f [Hf Ef]].
    { eapply equiv_trans; [exists g; eauto|exists h; eauto]. }
    rewrite Ef. apply in_map_iff. eauto.
  Qed.

  Lemma canon_unique x y : has_concs c x -> has_concs c y -> canon x -> canon y -> equiv x y -> x = y.
  Proof.
    intros Hx Hy Cx Cy E. destruct (equiv_sym x y Hx E) as [h [Hh Eh]]. destruct E as [g [Hg Eg]].
    apply (encode_inj c); auto. apply lex_leb_antisym.
    - rewrite Eg. apply Cx; auto.
    - rewrite Eh. apply Cy; auto.
  Qed.
End Canon.
