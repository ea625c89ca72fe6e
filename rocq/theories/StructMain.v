(** All superlattices of one index together (C50). *)
From Coq Require Import Permutation.
From Verif Require Import Decide PyBase Spec ListFacts PermFacts CanonProofs TransFacts PhononsModel TreeModel DecoFacts BranchTheorems Mat3 HNFModel HNFProofs.
From Verif Require Import LatSpec LatGroupModel LatFacts LatSites LatProofs LatMain LatTop LatGroupThm TransPerm LatNoDup LatFirst.
From Verif Require Import SNFModel SuperModel StructSpec StructProofs StructThm PropertiesTree PropertiesLattice PropertiesGroup.
Local Open Scope Z_scope.

(** ** A finite closed set of unimodular matrices is a group *)
Definition mat_dec (M N : mat) : {M = N} + {M <> N}.
Proof. repeat decide equality. Defined.
Lemma finite_mat_group R : In mid R -> (forall r s, In r R -> In s R -> In (mmul r s) R) -> (forall r, In r R -> unimodular r) -> mat_group R.
Proof.
  intros Hid Hc Hu. split; auto. split; auto. split; auto. intros r Hr.
  set (S := nodup mat_dec R). assert (NoDup S) as HS by apply NoDup_nodup.
  assert (NoDup (map (mmul r) S)) as HS'.
  { apply NoDup_map_inj; auto. intros x y _ _ E. apply (f_equal (mmul (minv r))) in E. rewrite <- !mmul_assoc in E.
    rewrite (minv_l r) in E by auto. rewrite !mmul_id_l in E. auto. }
  assert (In mid (map (mmul r) S)) as Hm.
  { assert (incl S (map (mmul r) S)) as Hi; [apply NoDup_length_incl; auto|apply Hi, nodup_In; auto].
    - rewrite map_length. auto.
    - intros x Hx. apply in_map_iff in Hx. destruct Hx as [y [<- Hy]]. apply nodup_In in Hy. apply nodup_In. auto. }
  apply in_map_iff in Hm. destruct Hm as [s [E Hs]]. apply nodup_In in Hs. exists s. split; auto. split; auto.
  assert (s = minv r) as ->.
  { apply (f_equal (mmul (minv r))) in E. rewrite <- mmul_assoc, (minv_l r), mmul_id_l, mmul_id_r in E; auto. }
  apply minv_l; auto.
Qed.

(** ** Concatenations *)
Lemma FOP_concat {A B} (R : B -> B -> Prop) (f : A -> list B) (l : list A) :
  (forall a, In a l -> ForallOrdPairs R (f a)) ->
  ForallOrdPairs (fun a b => forall x y, In x (f a) -> In y (f b) -> R x y) l ->
  ForallOrdPairs R (concat (map f l)).
Proof.
  intros H1 H2. induction H2 as [|a l Ha H2 IH]; cbn; [constructor|]. apply FOP_app. split; [apply H1; cbn; auto|]. split; [apply IH; intros; apply H1; cbn; auto|].
  intros x y Hx Hy. apply in_concat in Hy. destruct Hy as [m [Hm Hy]]. apply in_map_iff in Hm. destruct Hm as [b [<- Hb]].
  rewrite Forall_forall in Ha. eapply Ha; eauto.
Qed.
Lemma rmap_each {A B} (f : A -> nat -> res B) (l : list A) : (forall a, In a l -> exists b fuel0, forall fuel, (fuel0 <= fuel)%nat -> f a fuel = Ok b) ->
  forall P : A -> B -> Prop, (forall a b fuel0, In a l -> (forall fuel, (fuel0 <= fuel)%nat -> f a fuel = Ok b) -> P a b) ->
  exists bs fuel0, Forall2 P l bs /\ forall fuel, (fuel0 <= fuel)%nat -> rmap (fun a => f a fuel) l = Ok bs.
Proof.
  intros H P HP. induction l as [|a l IH].
  - exists [], 0%nat. split; [constructor|auto].
  - destruct (H a) as [b [f1 Hb]]; [cbn; auto|]. destruct IH as [bs [f2 [F Hbs]]]; [intros; apply H; cbn; auto|intros; eapply HP; cbn; eauto|].
    exists (b :: bs), (f1 + f2)%nat. split; [constructor; auto; eapply HP; cbn; eauto|]. intros fuel Hf. cbn [rmap]. rewrite Hb by lia. cbn [rbind]. rewrite Hbs by lia. auto.
Qed.
Lemma concs_count cwa : exists x y, how_many_arrows cwa = (x, y, map (multiplicity site_eqb cwa) (first_occurrences site_eqb cwa)).
Proof.
  unfold how_many_arrows. eexists _, _. f_equal. rewrite C43_find_concentrations by (intros; apply ColorProofs.site_eqb_spec).
  assert (somes (map Some cwa) = cwa) as ->; auto. clear. unfold somes. induction cwa as [|a l IH]; cbn; congruence.
Qed.

(** ** Periods *)
Section Periods.
Variables (D : Z) (bas : list vec).
Notation point := (crystal_point D bas).
Notation period := (period D bas).
Lemma period_add f k m : period f k -> period f m -> period f (vadd k m).
Proof.
  intros Hk Hm x Hx. replace (vadd x (vscale D (vadd k m))) with (vadd (vadd x (vscale D k)) (vscale D m)) by (rewrite vscale_vadd; vec_ring).
  rewrite Hm by (apply same_site_point; auto). apply Hk; auto.
Qed.
Lemma period_neg f k : period f k -> period f (vsub (0, 0, 0) k).
Proof.
  intros Hk x Hx. pose proof (Hk (vadd x (vscale D (vsub (0, 0, 0) k))) ltac:(apply same_site_point; auto)) as E.
  replace (vadd (vadd x (vscale D (vsub (0, 0, 0) k))) (vscale D k)) with x in E by (rewrite vscale_vsub; vec_ring). auto.
Qed.
(** Symmetry operations move the periods along. *)
Lemma rotated_inj R a a' b b' : orthogonal R -> fst a < 6 -> fst a' < 6 -> rotated R a b -> rotated R a' b' -> b = b' -> a = a'.
Proof.
  intros HR Ha Ha' [E1 H1] [E2 H2] <-. destruct a as [k c], a' as [k' c'], b as [l e]. cbn [fst snd] in *. subst c c'. f_equal.
  unfold has_arrow in *. cbn [fst] in *. destruct (Z.leb_spec 0 k), (Z.leb_spec 0 k').
  - destruct H1 as [_ H1], H2 as [_ H2]. rewrite H2 in H1. apply (f_equal (mvec (transpose R))) in H1. rewrite <- !mvec_mmul, (proj2 HR), !mvec_id in H1.
    apply directions_nth_inj in H1; lia.
  - destruct H1 as [H1 _]. apply Z.leb_le in H1. lia.
  - destruct H2 as [H2 _]. apply Z.leb_le in H2. lia.
  - congruence.
Qed.
Lemma rotated_fun R a b b' : orthogonal R -> fst b < 6 -> fst b' < 6 -> rotated R a b -> rotated R a b' -> b = b'.
Proof.
  intros HR Hb Hb' [E1 H1] [E2 H2]. destruct a as [k c], b as [l e], b' as [l' e']. cbn [fst snd] in *. subst e e'. f_equal.
  unfold has_arrow in *. cbn [fst] in *. destruct (Z.leb_spec 0 k).
  - destruct H1 as [L1 H1], H2 as [L2 H2]. rewrite <- H2 in H1. apply Z.leb_le in L1, L2. apply directions_nth_inj in H1; lia.
  - congruence.
Qed.
Lemma carried_period C R s f g k : unimodular C -> orthogonal R -> crystal_symmetry D bas C s -> six_directions D bas f -> six_directions D bas g ->
  carries D bas C R s f g -> (period f k <-> period g (mvec C k)).
Proof.
  intros HC HR Hs Hf Hg Hc.
  assert (forall x, affine C s (vadd x (vscale D k)) = vadd (affine C s x) (vscale D (mvec C k))) as Ea by (intros; rewrite affine_add, mvec_vscale; auto).
  split.
  - intros Hk y Hy. destruct (symmetry_onto D bas C s y HC Hs Hy) as [x [Hx <-]]. rewrite <- Ea. assert (point (vadd x (vscale D k))) as Hx' by (apply same_site_point; auto).
    pose proof (Hc x Hx) as H1. pose proof (Hc _ Hx') as H2. rewrite (Hk x Hx) in H2. apply (rotated_fun R (f x)); auto; apply Hg; apply (proj1 (Hs _)); auto.
  - intros Hk x Hx. assert (point (vadd x (vscale D k))) as Hx' by (apply same_site_point; auto).
    apply (rotated_inj R _ _ _ _ HR (Hf _ Hx') (Hf _ Hx) (Hc _ Hx') (Hc _ Hx)). rewrite Ea. apply Hk. apply (proj1 (Hs _)); auto.
Qed.
Lemma carried_primitive C R s f g H K : unimodular C -> orthogonal R -> crystal_symmetry D bas C s -> six_directions D bas f -> six_directions D bas g ->
  carries D bas C R s f g -> primitive D bas H f -> primitive D bas K g <-> same_lattice (mmul C H) K.
Proof.
  intros HC HR Hs Hf Hg Hc HH. pose proof (fun k => carried_period C R s f g k HC HR Hs Hf Hg Hc) as Hk.
  assert (forall v, in_lattice (mmul C H) v <-> period g v) as Key.
  { intros v. rewrite <- (minv_vec_r C v HC) at 2. rewrite <- Hk, <- (HH _). split.
    - intros [u ->]. exists u. rewrite mvec_mmul, minv_vec_l; auto.
    - intros [u E]. exists u. rewrite mvec_mmul, <- E, minv_vec_r; auto. }
  unfold primitive, same_lattice. split; intros E v; specialize (E v); rewrite Key in *; tauto.
Qed.
End Periods.

Section Prim.
Variables (pg : list (mat * mat)) (D : Z) (bas : list vec) (H L B : mat) (diag : vec).
Hypothesis HD : 0 < D.
Hypothesis Hne : bas <> [].
Hypothesis Hred : forall d, In d bas -> reduced (D, D, D) d.
Hypothesis Hnd : NoDup bas.
Hypothesis Hpg : forall C R, In (C, R) pg -> unimodular C /\ orthogonal R.
Hypothesis Hid : In (mid, mid) pg.
Hypothesis HL : unimodular L.
Hypothesis HB : unimodular B.
Hypothesis Hsnf : mmul (mmul L H) B = diagonal diag.
Hypothesis Hpos : positive diag.
Hypothesis Hsmall : forall i, (i < 3)%nat -> vget diag i <= 10 ^ 5.
Hypothesis Hself : self_inverse_on_basis pg D bas H.
Notation n := (Z.to_nat (volume diag)).
Notation N := (length bas * n)%nat.
Notation g := (make_member_list diag).
Notation tperm := (translation_perm n (length bas) diag g).

Lemma members_tail t : In t (skipn 1 g) <-> reduced diag t /\ t <> (0, 0, 0).
Proof.
  pose proof (member_nodup diag Hpos) as Hn. pose proof (volume_pos diag Hpos) as Hv.
  assert (reduced diag (0, 0, 0)) as H0.
  { intros i Hi. destruct diag as [[a b] c]. cbn in Hpos. destruct i as [|[|[|]]]; cbn; lia. }
  assert (nth 0 g (0, 0, 0) = (0, 0, 0)) as Hfirst.
  { pose proof (member_nth_rank diag (0, 0, 0) Hpos H0) as E. replace (rank diag (0, 0, 0)) with 0 in E; auto. destruct diag as [[a b] c]. cbn. lia. }
  pose proof (fun x => member_in diag x Hpos) as Hin. pose proof (member_length diag Hpos) as Hl.
  destruct g as [|h l] eqn:E; [cbn in Hl; lia|]. cbn [nth] in Hfirst. subst h. cbn [skipn]. rewrite <- Hin. cbn [In]. inversion Hn; subst. split.
  - intros Hx. split; auto. intros ->. auto.
  - intros [[<-|Hx] Hz]; auto. congruence.
Qed.
Lemma translations_eq G : get_sym_group pg D bas H L diag false = Ok G -> forall p, In p (translations G n) <-> exists t, reduced diag t /\ t <> (0, 0, 0) /\ p = tperm t.
Proof.
  intros EG p. destruct (first_operations pg D bas H L B diag HD Hne Hred Hnd Hpg Hid HL HB Hsnf Hpos Hsmall Hself G EG) as [E _].
  unfold translations. rewrite E. rewrite filter_In, skipn_map, map_map. cbn [fst]. unfold translation_perms. rewrite skipn_map, map_map, in_map_iff. cbn [fst].
  pose proof (n_pos diag Hpos) as Hn. assert (0 < length bas)%nat as Hb by (destruct bas; [congruence|cbn; lia]).
  split.
  - intros [[t [<- Ht]] _]. apply members_tail in Ht. exists t. tauto.
  - intros [t [Ht [Hz ->]]]. split; [exists t; split; auto; apply members_tail; auto|]. apply negb_true_iff. destruct (nlist_eqb _ _) eqn:En; auto. exfalso.
    apply nlist_eqb_spec in En. apply Hz. assert (length bas = 1)%nat as H1.
    { apply (f_equal (@length nat)) in En. rewrite (tperm_length diag (length bas) Hpos Hsmall) in En. unfold idperm in En. rewrite seq_length in En. nia. }
    apply (tperm_inj diag (length bas) Hpos Hsmall t (0, 0, 0) 0%nat 0%nat); auto.
    + intros i Hi. destruct diag as [[a b] c]. cbn in Hpos. destruct i as [|[|[|]]]; cbn; lia.
    + rewrite En, (tperm_id diag (length bas) Hpos Hsmall), H1, Nat.mul_1_l. auto.
Qed.
Lemma primitive_iff G w f : get_sym_group pg D bas H L diag false = Ok G -> length w = N -> describes D bas L diag w f ->
  primitive D bas H f <-> ~ fixed_by_some (translations G n) w.
Proof.
  intros EG Hl Hd. assert (periodic D bas H f) as Hper by (apply (describes_periodic D bas H L B diag HL HB Hsnf Hpos w f); auto).
  assert (forall t, period D bas f (mvec (minv L) t) <-> act (-1, 0) (tperm t) w = w) as Ht.
  { intros t. apply (period_act D bas L diag HL Hpos); auto. apply translation_ok; auto. }
  split.
  - intros Hp [p [Hin E]]. apply (translations_eq G EG) in Hin. destruct Hin as [t [Hr [Hz ->]]]. apply Ht, Hp in E.
    apply Hz. apply (reduced_unique diag); auto.
    + intros i Hi. destruct diag as [[a b] c]. cbn in Hpos. destruct i as [|[|[|]]]; cbn; lia.
    + apply (L_lattice H L B diag HL HB Hsnf Hpos) in E. rewrite minv_vec_r in E; auto.
  - intros Hnf k. split; [apply Hper|]. intros Hk. set (t := vmod (mvec L k) diag).
    assert (in_lattice H (vsub k (mvec (minv L) t))) as Hd1.
    { apply (L_lattice H L B diag HL HB Hsnf Hpos). rewrite mvec_vsub, minv_vec_r by auto. rewrite <- congruent_diff. apply vmod_congruent; auto. }
    destruct (vec_eqb t (0, 0, 0)) eqn:Et.
    + apply vec_eqb_spec in Et. rewrite Et, mvec_0 in Hd1. replace k with (vsub k (0, 0, 0)) by vec_ring. auto.
    + exfalso. apply Hnf. exists (tperm t). split.
      * apply (translations_eq G EG). exists t. split; [apply vmod_reduced; auto|]. split; auto. intros E. rewrite E in Et. discriminate.
      * apply Ht. replace (mvec (minv L) t) with (vadd k (vsub (0, 0, 0) (vsub k (mvec (minv L) t)))).
        -- apply period_add; auto. apply period_neg. apply Hper. auto.
        -- generalize (mvec (minv L) t). vec_ring.
Qed.
End Prim.
