(** With an atom at the origin [get_sym_group] lists every operation once, whatever the other atoms (C48). *)
From Coq Require Import Permutation.
From Verif Require Import PyBase Spec ListFacts PermFacts CanonProofs Mat3 HNFModel HNFProofs LatSpec LatGroupModel LatFacts LatSites LatProofs LatMain LatTop LatGroupThm TransPerm LatNoDup.
Local Open Scope Z_scope.

Lemma short_flat_map {A B} (f : A -> list B) l m : (forall x, In x l -> (length (f x) <= m)%nat) -> (length (flat_map f l) <= length l * m)%nat.
Proof. induction l as [|x l IH]; intros H; cbn [flat_map length]; [lia|]. rewrite app_length. specialize (IH ltac:(intros; apply H; cbn; auto)). specialize (H x ltac:(cbn; auto)). lia. Qed.

Section Basis.
Variables (pg : list (mat * mat)) (D : Z) (bas : list vec) (H L B : mat) (diag : vec).
Hypothesis HD : 0 < D.
Hypothesis Hred : forall d, In d bas -> reduced (D, D, D) d.
Hypothesis Hnd : NoDup bas.
Hypothesis Hzero : In (0, 0, 0) bas.
Hypothesis Huni : forall C R, In (C, R) pg -> unimodular C.
Hypothesis HL : unimodular L.
Hypothesis HB : unimodular B.
Hypothesis Hsnf : mmul (mmul L H) B = diagonal diag.
Hypothesis Hpos : positive diag.
Hypothesis Hsmall : forall i, (i < 3)%nat -> vget diag i <= 10 ^ 5.
Hypothesis Hself : self_inverse_on_basis pg D bas H.
Hypothesis Horth : forall C R, In (C, R) pg -> orthogonal R.
Hypothesis Hdiff : NoDup (map snd pg).
Notation n := (Z.to_nat (volume diag)).
Notation N := (length bas * n)%nat.
Notation g := (make_member_list diag).
Notation induces := (induces D bas L diag).
Notation tperm := (translation_perm n (length bas) diag g).

Lemma bas_ne : bas <> [].
Proof. intros E. rewrite E in Hzero. destruct Hzero. Qed.
Lemma ops_short : (length (get_spaceGroup pg D bas) <= length pg * length bas)%nat.
Proof.
  unfold get_spaceGroup. apply short_flat_map. intros [C R] _. rewrite <- (Nat.mul_1_r (length bas)). rewrite <- (map_length (into_cell D) bas).
  apply short_flat_map. intros d _. destruct (forallb _ _); cbn; lia.
Qed.
Lemma ops_NoDup : NoDup (get_spaceGroup pg D bas).
Proof.
  unfold get_spaceGroup. rewrite (cell_bas D bas HD Hred). apply NoDup_flat_map.
  - apply NoDup_map_snd; auto.
  - intros [C R] Hin. apply NoDup_flat_map; auto.
    + intros d _. destruct (forallb _ _); repeat constructor; auto.
    + intros d e o Hd He Ho Ho'. destruct (forallb _ _) in Ho; [|destruct Ho]. destruct (forallb _ _) in Ho'; [|destruct Ho']. destruct Ho as [<-|[]]. destruct Ho' as [E|[]]. inversion E as [E1].
      set (v := mvec C (nth 0 bas (0, 0, 0))) in *.
      assert (forall u, congruent (D, D, D) u (into_cell D u)) as Hc by (intros u; apply vmod_congruent; cbn; lia).
      apply (reduced_unique (D, D, D)); auto. 
      assert (congruent (D, D, D) (vsub d v) (vsub e v)) as Hde.
      { eapply congruent_trans; [apply Hc|]. rewrite <- E1. apply congruent_sym, Hc. }
      rewrite <- (vsub_vadd d v), <- (vsub_vadd e v). apply congruent_add; auto. apply congruent_refl.
  - intros [C R] [C' R'] o Hin Hin' Ho Ho'. apply in_flat_map in Ho, Ho'. destruct Ho as [d [_ Ho]], Ho' as [e [_ Ho']].
    destruct (forallb _ _) in Ho; [|destruct Ho]. destruct (forallb _ _) in Ho'; [|destruct Ho']. destruct Ho as [<-|[]]. destruct Ho' as [E|[]]. inversion E. auto.
Qed.

(** Two operations that differ by a translation. *)
Lemma site_zero : exists b, (b < length bas)%nat /\ nth b bas (0, 0, 0) = (0, 0, 0).
Proof. destruct (In_nth bas (0, 0, 0) (0, 0, 0) Hzero) as [b [Hb E]]. eauto. Qed.
Lemma shifts_same C s C' s' r r' t t' : unimodular C' -> crystal_symmetry D bas C s -> crystal_symmetry D bas C' s' -> reduced (D, D, D) s -> reduced (D, D, D) s' ->
  induces (affine C s) r -> induces (affine C' s') r' -> reduced diag t -> reduced diag t' -> is_perm N r -> is_perm N r' ->
  comp r (tperm t) = comp r' (tperm t') -> s = s' /\ r = r' /\ t = t'.
Proof.
  intros HC' Hs Hs' Rs Rs' [_ Hr] [_ Hr'] Ht Ht' Pr Pr' E.
  destruct site_zero as [b [Hb Eb]].
  assert (crystal_point D bas (0, 0, 0)) as P0 by (exists (0, 0, 0), (0, 0, 0); split; auto; rewrite vscale_0, vadd_0_r; auto).
  assert (affine C s (0, 0, 0) = s) as E0 by (unfold affine; rewrite mvec_0, vadd_0_l; auto).
  assert (affine C' s' (0, 0, 0) = s') as E0' by (unfold affine; rewrite mvec_0, vadd_0_l; auto).
  assert (crystal_point D bas s) as Ps by (rewrite <- E0; apply (proj1 (Hs (0, 0, 0))); auto).
  destruct (site_exists D bas L diag Hpos _ P0) as [i0 [Hi0 S0]].
  destruct (site_exists D bas L diag Hpos _ Ps) as [j [Hj Sj]].
  destruct (symmetry_onto D bas C' s' s HC' Hs' Ps) as [x [Px Ex]].
  destruct (site_exists D bas L diag Hpos _ Px) as [i [Hi Si]].
  assert (nth j r 0%nat = i0) as A1 by (apply (Hr (0, 0, 0)); auto; rewrite E0; auto).
  assert (nth j r' 0%nat = i) as A2 by (apply (Hr' x); auto; rewrite Ex; auto).
  pose proof (f_equal (fun l => nth j l 0%nat) E) as Ej. unfold comp in Ej. rewrite !nth_map_lt with (d := 0%nat) in Ej by (rewrite (proj1 Pr) || rewrite (proj1 Pr'); auto). rewrite A1, A2 in Ej.
  apply (site_iff D bas L diag Hpos) in S0. destruct S0 as [b0 [z0 [Hb0 [Ez0 Ei0]]]].
  apply (site_iff D bas L diag Hpos) in Si. destruct Si as [bi [zi [Hbi [Ezi Eii]]]].
  subst i0 i. unfold si in Ej. rewrite !tperm_nth in Ej by (auto; apply cellnr_lt; auto).
  assert (b0 = bi) as <-.
  { pose proof (back_lt diag Hpos t (cellnr L diag z0)). pose proof (back_lt diag Hpos t' (cellnr L diag zi)). nia. }
  assert (s = s') as <-.
  { assert (exists w, s = vadd s' (vscale D w)) as [w Ew].
    { exists (mvec C' (vsub zi z0)). rewrite <- Ex. unfold affine.
      assert (x = vscale D (vsub zi z0)) as ->.
      { rewrite Ezi. rewrite vscale_vsub. assert (forall a b c : vec, (0, 0, 0) = vadd a b -> vadd a c = vsub c b) as Hv.
        { intros [[a1 a2] a3] [[b1 b2] b3] [[c1 c2] c3] Hq. unfold vadd, vsub in *. injection Hq as Q1 Q2 Q3. assert (a1 + c1 = c1 - b1) as -> by lia. assert (a2 + c2 = c2 - b2) as -> by lia. assert (a3 + c3 = c3 - b3) as -> by lia. auto. }
        apply Hv. exact Ez0. }
      rewrite mvec_vscale. apply vadd_comm. }
    apply (reduced_unique (D, D, D)); auto. apply congruent_D. eauto. }
  assert (x = (0, 0, 0)) as ->.
  { rewrite <- (minv_vec_l C' x HC'). replace (mvec C' x) with ((0, 0, 0) : vec); [apply mvec_0|].
    unfold affine in Ex. clear - Ex. destruct (mvec C' x) as [[a b] c], s as [[d e] f]. unfold vadd in Ex. injection Ex as Q1 Q2 Q3. assert (a = 0) as -> by lia. assert (b = 0) as -> by lia. assert (c = 0) as -> by lia. auto. }
  destruct (pt_inj D bas HD Hred Hnd b0 z0 b0 zi) as [_ <-]; auto; [congruence|].
  split; auto. assert (t = t') as <-.
  { apply (tperm_inj diag (length bas) Hpos Hsmall t t' b0 (cellnr L diag z0)); auto; [apply cellnr_lt; auto|]. rewrite !tperm_nth by (auto; apply cellnr_lt; auto). lia. }
  split; auto. eapply (comp_cancel_r N); [auto|auto|apply tperm_perm; auto|exact E].
Qed.

Theorem basis_nodup arrows : exists G, get_sym_group pg D bas H L diag arrows = Ok G /\ NoDup G /\ (length G <= length pg * length bas * n)%nat.
Proof.
  destruct (sym_group_shape pg D bas HD Hred Hnd bas_ne Huni H L B diag HL HB Hsnf Hpos Hsmall Hself arrows Horth) as [pairs [E [Hp HF]]].
  cbv zeta in *. eexists. split; [exact E|]. clear E.
  assert (forall r a, In (r, a) pairs -> exists C R s, In (C, R) pg /\ crystal_symmetry D bas C s /\ reduced (D, D, D) s /\ induces (affine C s) r /\ turns R a /\ is_perm N r) as Hr.
  { intros r a Hra. apply Hp in Hra. destruct Hra as [o [Ho [Hf [Hi Ha]]]]. pose proof Ho as Ho'. apply (spaceGroup_in pg D bas HD Hred Hnd bas_ne Huni) in Ho'. destruct Ho' as [Ho1 [Ho2 Ho3]].
    exists (rot o), (cart o), (shift o). do 5 (split; auto).
    apply (induces_perm D bas H L B diag HD Hred Hnd HL HB Hsnf Hpos (rot o) (shift o)); auto. eapply Huni; eauto. }
  assert (forall r a r' a' t t', In (r, a) pairs -> In (r', a') pairs -> reduced diag t -> reduced diag t' -> comp r (tperm t) = comp r' (tperm t') -> r = r' /\ t = t') as Hinj.
  { intros r a r' a' t t' H1 H2 Ht Ht' E. destruct (Hr r a H1) as [C [R [s [A1 [A2 [A3 [A4 [A5 A6]]]]]]]]. destruct (Hr r' a' H2) as [C' [R' [s' [B1 [B2 [B3 [B4 [B5 B6]]]]]]]].
    destruct (shifts_same C s C' s' r r' t t') as [_ HX]; auto. eapply Huni; eauto. }
  assert (NoDup pairs) as Hndp.
  { set (fixing := fst (get_sLV_fixing_operations H (map rot (get_spaceGroup pg D bas)))) in *.
    assert (length fixing = length pairs) as Hlen by (clear - HF; induction HF; cbn; auto).
    assert (NoDup fixing) as Hndf.
    { apply subseq_NoDup with (seq 0 (length (map rot (get_spaceGroup pg D bas)))); [|apply seq_NoDup]. apply fixing_subseq.
      - intros r Hr'. apply in_map_iff in Hr'. destruct Hr' as [o [<- Ho]]. apply (spaceGroup_in pg D bas HD Hred Hnd bas_ne Huni) in Ho. destruct Ho as [Ho _]. eauto.
      - apply (det_H H L B diag); auto. }
    apply (proj2 (NoDup_nth pairs ([], []))). intros i j Hi Hj Eij.
    assert (forall k, (k < length pairs)%nat -> exists o, nth_error (get_spaceGroup pg D bas) (nth k fixing 0%nat) = Some o /\ induces (affine (rot o) (shift o)) (fst (nth k pairs ([], []))) /\ turns (cart o) (snd (nth k pairs ([], [])))) as Hk.
    { intros k Hk. destruct (Forall2_nth_error _ _ _ k (nth k fixing 0%nat) HF) as [ra [Ek [o [Eo [Ho1 Ho2]]]]].
      - apply nth_error_nth'. lia.
      - exists o. split; auto. rewrite (nth_error_nth _ _ _ Ek). auto. }
    destruct (Hk i Hi) as [o1 [E1 [I1 T1]]]. destruct (Hk j Hj) as [o2 [E2 [I2 T2]]]. rewrite Eij in I1, T1.
    pose proof (turns_matrix _ _ _ T1 T2) as Ec.
    pose proof (nth_error_In _ _ E1) as J1. pose proof (nth_error_In _ _ E2) as J2.
    apply (spaceGroup_in pg D bas HD Hred Hnd bas_ne Huni) in J1, J2. destruct J1 as [A1 [A2 A3]], J2 as [B1 [B2 B3]].
    assert ((rot o1, cart o1) = (rot o2, cart o2)) as Eo by (apply (NoDup_map_inj_in snd pg); auto).
    assert (nth j pairs ([], []) = (fst (nth j pairs ([], [])), snd (nth j pairs ([], [])))) as Enp by apply surjective_pairing.
    assert (In (fst (nth j pairs ([], [])), snd (nth j pairs ([], []))) pairs) as Hjp by (rewrite <- Enp; apply nth_In; auto).
    destruct (Hr _ _ Hjp) as [_ [_ [_ [_ [_ [_ [_ [_ Pj]]]]]]]].
    assert (reduced diag (0, 0, 0)) as R0 by (destruct diag as [[d1 d2] d3]; cbn in Hpos; intros q Hq; destruct q as [|[|[|]]]; cbn; lia).
    destruct (shifts_same (rot o1) (shift o1) (rot o2) (shift o2) (fst (nth j pairs ([], []))) (fst (nth j pairs ([], []))) (0, 0, 0) (0, 0, 0)) as [Es _]; auto; [eapply Huni; eauto|].
    assert (o1 = o2) as Eoo by (destruct o1, o2; cbn in *; congruence). subst o2.
    apply (proj1 (NoDup_nth fixing 0%nat) Hndf); try lia. apply (proj1 (NoDup_nth_error (get_spaceGroup pg D bas)) ops_NoDup); [apply nth_error_Some; congruence|congruence]. }
  assert (forall r, In r (map fst pairs) -> length r = N) as Hrl.
  { intros r Hin. apply in_map_iff in Hin. destruct Hin as [[r' a'] [<- Hin]]. destruct (Hr _ _ Hin) as [_ [_ [_ [_ [_ [_ [_ [_ Pr]]]]]]]]. apply Pr. }
  set (rd := reduce_rotations arrows (map fst pairs) (map snd pairs)).
  assert (forall r a, In (r, a) rd -> exists a', In (r, a') pairs) as Hrd.
  { intros r a Hx. unfold rd in Hx. destruct arrows.
    - apply (reduce_arrows _ _ N) in Hx; auto; [|rewrite !map_length; auto]. rewrite combine_fst_snd in Hx. eauto.
    - apply (in_map fst) in Hx. apply reduce_plain in Hx; [|rewrite !map_length; auto]. apply in_map_iff in Hx. destruct Hx as [[r' a'] [E Hx]]. cbn in E. subst r'. eauto. }
  assert (length rd <= length pg * length bas)%nat as Hlrd.
  { assert (length pairs <= length pg * length bas)%nat as Hlp.
    { etransitivity; [|apply ops_short]. assert (length pairs = length (fst (get_sLV_fixing_operations H (map rot (get_spaceGroup pg D bas))))) as -> by (clear - HF; induction HF; cbn; auto).
      assert (forall (l m : list nat), subseq l m -> (length l <= length m)%nat) as Hss by (induction 1; cbn; lia).
      etransitivity; [apply Hss, fixing_subseq|rewrite seq_length, map_length; auto].
      - intros r Hr'. apply in_map_iff in Hr'. destruct Hr' as [o [<- Ho]]. apply (spaceGroup_in pg D bas HD Hred Hnd bas_ne Huni) in Ho. destruct Ho as [Ho _]. eauto.
      - apply (det_H H L B diag); auto. }
    etransitivity; [|exact Hlp]. unfold rd, reduce_rotations. rewrite combine_fst_snd. destruct (Nat.leb _ _); auto. destruct arrows.
    - rewrite map_length, lex_sort_length. etransitivity; [apply group_runs_length|]. rewrite map_length. auto.
    - rewrite combine_length. pose proof (group_runs_length (lex_sort (map fst pairs))). rewrite lex_sort_length, map_length in *. lia. }
  split.
  - assert (NoDup rd) as Hnrd.
    { unfold rd. destruct arrows; [apply (reduce_arrows_nodup _ N); auto|]. apply NoDup_map_fst. apply reduce_plain_nodup. rewrite !map_length; auto. }
    apply NoDup_flat_map; auto.
    + intros [r a] Hra. destruct (Hrd r a Hra) as [a' Hra']. unfold translation_perms. rewrite map_map.
      apply NoDup_map_inj; [|apply member_nodup; auto]. intros t u Ht Hu Eq. inversion Eq as [[E1]]. apply member_in in Ht, Hu; auto.
      apply (Hinj r a' r a' t u); auto.
    + intros [r a] [r' a'] [p b] Hra Hra' Hin Hin'. destruct (Hrd _ _ Hra) as [a1 K1]. destruct (Hrd _ _ Hra') as [a2 K2].
      apply in_map_iff in Hin. destruct Hin as [tp [E1 Htp]]. apply in_map_iff in Hin'. destruct Hin' as [tp' [E2 Htp']].
      apply in_map_iff in Htp, Htp'. destruct Htp as [t [<- Ht]], Htp' as [t' [<- Ht']]. apply member_in in Ht, Ht'; auto.
      inversion E1; subst p b. inversion E2 as [[E3 E4]].
      destruct (Hinj r' a2 r a1 t' t) as [E5 _]; auto. subst r'. destruct arrows; [f_equal; auto|].
      unfold rd in Hra, Hra'. apply (NoDup_map_inj_in fst (reduce_rotations false (map fst pairs) (map snd pairs))); auto. apply reduce_plain_nodup. rewrite !map_length; auto.
  - transitivity (length rd * n)%nat; [|apply Nat.mul_le_mono; auto]. apply short_flat_map. intros [r a] _. rewrite map_length. unfold translation_perms. rewrite map_length, member_length; auto.
Qed.
End Basis.
