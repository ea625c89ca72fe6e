(** Counting and enumerating one system in which some species are displaced (C60). *)
From Coq Require Import Permutation.
From Verif Require Import TextModel PyBase Spec ListFacts PermFacts CanonProofs TransFacts NumericsModel PhononsModel TreeModel TreeSearch ColorProofs DecoFacts DecoBij BranchRun BranchProofs BranchTheorems SuperProofs MultiProofs Mat3 HNFModel HNFProofs.
From Verif Require Import PolyaModel PolyaSpec PolyaUse EnumSysModel DecoProofs EnumSysProofs.
From Verif Require Import LatSpec LatGroupModel LatFacts LatSites LatProofs LatMain LatTop LatGroupThm LatNoDup LatFirst SNFModel SuperModel StructSpec StructProofs StructThm StructMain StructAll StructArrows ArrowSuper PropertiesGroup PropertiesArrowSuper.
From Verif Require Import RunModel RunProofs RunSystem RunSpec RunMain RunArrowDeco.
Local Open Scope Z_scope.

(** ** The possible sites *)
Definition letters (fl : list bool) : list (Z * Z) :=
  flat_map (fun l => if nth (l - 1) fl false then map (fun a => (Z.of_nat a, Z.of_nat l)) (seq 0 6) else [(-1, Z.of_nat l)]) (seq 1 (length fl)).
Lemma letters_few fl : (length (letters fl) <= 6 * length fl)%nat.
Proof.
  unfold letters. rewrite <- (seq_length (length fl) 1) at 2. induction (seq 1 (length fl)) as [|l s IH]; cbn [flat_map length]; [lia|].
  rewrite app_length. assert (length (if nth (l - 1) fl false then map (fun a => (Z.of_nat a, Z.of_nat l)) (seq 0 6) else [(-1, Z.of_nat l)%Z]) <= 6)%nat by (destruct (nth (l - 1) fl false); cbn; lia). lia.
Qed.
Lemma letters_in fl a : 1 <= snd a <= Z.of_nat (length fl) -> fits fl a -> In a (letters fl).
Proof.
  intros Hs Hf. unfold letters. apply in_flat_map. exists (Z.to_nat (snd a)). split; [apply in_seq; lia|]. unfold fits in Hf. rewrite Z2Nat.id by lia. destruct a as [d x]. cbn [fst snd] in *.
  destruct (nth (Z.to_nat x - 1) fl false).
  - apply in_map_iff. exists (Z.to_nat d). split; [f_equal; lia|apply in_seq; lia].
  - subst. left. auto.
Qed.
Lemma word_sites fl c w : length fl = length c -> Permutation (map skeleton w) (map skeleton (decosF fl c)) -> directions_below 6 w ->
  forall a, In a w -> 1 <= snd a <= Z.of_nat (length fl) /\ fits fl a.
Proof.
  intros Hl Hp Hb a Ha. rewrite (decosF_skeleton fl c Hl) in Hp. pose proof (in_map skeleton w a Ha) as Hi. apply (Permutation_in _ Hp) in Hi. apply in_map_iff in Hi. destruct Hi as [l [E Hi]].
  apply runs_of_range in Hi. destruct (bare_fits fl l a) as [E1 E2]; [lia|apply Hb; auto|auto|]. split; auto. rewrite Hl. lia.
Qed.
Lemma word_counted fl c w : length fl = length c -> Permutation (map skeleton w) (map skeleton (decosF fl c)) -> directions_below 6 w ->
  In w (Spec.words (letters fl) (sum_nat c)).
Proof.
  intros Hl Hp Hb. apply in_words. split; [rewrite <- (decosF_length fl c Hl), <- (map_length skeleton), (Permutation_length Hp), map_length; auto|].
  intros a Ha. destruct (word_sites fl c w Hl Hp Hb a Ha). apply letters_in; auto.
Qed.

(** ** One system *)
Section SystemA.
Variables (pg : list (mat * mat)) (D : Z) (bas : list vec) (lo hi : Z).
Hypothesis HD : 0 < D.
Hypothesis Hpg : forall C R, In (C, R) pg -> unimodular C /\ orthogonal R.
Hypothesis Hgr : rotation_group pg.
Hypothesis Hdiff : NoDup (map snd pg).
Hypothesis Hgb : good_basis pg D bas lo hi.
Variables (n : Z) (fl : list bool) (c : list nat).
Hypothesis Hfl : length fl = length c.
Hypothesis Hlen : (2 <= length c <= 3)%nat.
Notation sites := (n * Z.of_nat (length bas)).
Hypothesis Hn : 1 <= n /\ lo <= n <= hi /\ (6 * Z.of_nat (length c)) ^ sites <= 10 ^ 8.
Hypothesis Hsum : Z.of_nat (sum_nat c) = sites.
Notation cwa := (decosF fl c).
Notation na := (moved_counts fl c).
Notation concs := (map (multiplicity site_eqb cwa) (first_occurrences site_eqb cwa)).

Notation bpos := (gb_pos pg D bas lo hi Hgb).
Notation bne := (gb_ne pg D bas lo hi Hgb).
Notation bnd := (gb_nd pg D bas lo hi Hgb).
Notation bred := (gb_red pg D bas lo hi Hgb).
Notation bself := (gb_self pg D bas lo hi Hgb).
Lemma sites_small : n <= sites <= 7.
Proof.
  pose proof bpos. split; [nia|]. destruct (Z.le_gt_cases sites 7) as [|Hg]; auto. exfalso. destruct Hn as [_ [_ Hb]].
  assert (12 ^ 8 <= (6 * Z.of_nat (length c)) ^ sites).
  { transitivity (12 ^ sites); [apply Z.pow_le_mono_r; lia|apply Z.pow_le_mono_l; lia]. }
  assert (12 ^ 8 = 429981696) as E by reflexivity. assert (10 ^ 8 = 100000000) as E2 by reflexivity. lia.
Qed.
Lemma arrows_few : (Z.to_nat (fold_right Z.add 0%Z na) <= sum_nat c)%nat.
Proof.
  assert (forall fl0 c0, fold_right Z.add 0 (moved_counts fl0 c0) <= Z.of_nat (sum_nat c0)) as H; [|specialize (H fl c); lia].
  clear. intros fl0. induction fl0 as [|b fl0 IH]; intros [|x c0]; try (cbn; lia). unfold moved_counts in *. cbn [combine map fold_right fst snd]. specialize (IH c0). change (sum_nat (x :: c0)) with (x + sum_nat c0)%nat. destruct b; lia.
Qed.
Lemma system_size : Z.of_nat (length (labelings concs) * 6 ^ Z.to_nat (fold_right Z.add 0%Z na)) <= 10 ^ 8.
Proof.
  etransitivity; [|apply (proj2 (proj2 Hn))]. rewrite Nat2Z.inj_mul, Nat2Z.inj_pow. change (Z.of_nat 6) with 6.
  transitivity (Z.of_nat (length c) ^ sites * 6 ^ sites); [|rewrite Z.pow_mul_l; lia].
  apply Z.mul_le_mono_nonneg; try lia.
  - etransitivity; [apply labelings_bound|]. pose proof (cwa_sum cwa) as Es. unfold cwa_concs in Es. rewrite Es, decosF_length, Hsum by auto. apply Z.pow_le_mono_l. split; [lia|]. rewrite map_length. apply inj_le. apply decosF_kinds. auto.
  - apply Z.pow_le_mono_r; [lia|]. pose proof arrows_few. lia.
Qed.
Lemma plain_size : Z.of_nat (length (labelings c)) <= 100000.
Proof.
  etransitivity; [apply labelings_bound|]. rewrite Hsum. pose proof sites_small. transitivity (3 ^ sites); [apply Z.pow_le_mono_l; lia|]. transitivity (3 ^ 7); [apply Z.pow_le_mono_r; lia|]. discriminate.
Qed.

Lemma first_same H Gt Gf : 1 <= mdet H <= 10 ^ 5 -> lo <= mdet H <= hi -> sym_group pg D bas H true = Ok Gt -> sym_group pg D bas H false = Ok Gf ->
  firstn (Z.to_nat (mdet H)) Gt = firstn (Z.to_nat (mdet H)) Gf /\ (Z.to_nat (mdet H) <= length Gt)%nat.
Proof.
  intros Hd Hlh Et Ef. destruct (snf_facts H Hd) as [M [L [B [E [HL [HB [Hs [Hp [Hsm Hv]]]]]]]]]. unfold sym_group in Et, Ef. rewrite E in Et, Ef. cbn [rbind] in Et, Ef.
  destruct (first_operations_arrows pg D bas H L B (diag_of M) HD bne bred bnd Hpg (proj1 Hgr) HL HB Hs Hp Hsm (bself H Hlh) Gt Et) as [E1 L1].
  destruct (first_operations pg D bas H L B (diag_of M) HD bne bred bnd Hpg (proj1 Hgr) HL HB Hs Hp Hsm (bself H Hlh) Gf Ef) as [E2 L2].
  rewrite Hv in *. split; [congruence|auto].
Qed.
Lemma same_perms H Gt Gf : 1 <= mdet H <= 10 ^ 5 -> lo <= mdet H <= hi -> sym_group pg D bas H true = Ok Gt -> sym_group pg D bas H false = Ok Gf ->
  forall p, In p (map fst Gt) <-> In p (map fst Gf).
Proof.
  intros Hd Hlh Et Ef. destruct (snf_facts H Hd) as [M [L [B [E [HL [HB [Hs [Hp [Hsm Hv]]]]]]]]]. unfold sym_group in Et, Ef. rewrite E in Et, Ef. cbn [rbind] in Et, Ef.
  destruct (C48_symmetry_group_partial pg D bas H L B (diag_of M) HD bne bnd bred Hpg HL HB Hs Hp Hsm (bself H Hlh)) as [G1 [E1 H1]].
  destruct (C48_symmetry_group_plain_partial pg D bas H L B (diag_of M) HD bne bnd bred Hpg HL HB Hs Hp Hsm (bself H Hlh)) as [G2 [E2 H2]].
  rewrite Et in E1. rewrite Ef in E2. injection E1 as <-. injection E2 as <-. intros p. rewrite !in_map_iff. split; intros [[p' a] [<- Hg]]; cbn [fst].
  - apply H1 in Hg. destruct Hg as [C [R [s [S1 [S2 S3]]]]]. exists (p', idperm 6). split; auto. apply H2; split; auto; exists C, R, s; auto.
  - apply H2 in Hg. destruct Hg as [-> [C [R [s [S1 S2]]]]]. destruct (turns_exists R) as [b Hb]; [apply (Hpg C R); apply S1|]. exists (p', b). split; auto. apply H1; exists C, R, s; auto.
Qed.
Lemma colourings_same d Gt Gf : (forall p, In p (map fst Gt) <-> In p (map fst Gf)) -> colourings d Gt = colourings d Gf.
Proof.
  intros Hs. unfold colourings, canonicals. f_equal. f_equal. apply filter_ext. intros x. unfold canon_code, canonb. apply eq_true_iff_eq. rewrite !forallb_forall. split; intros H g Hg.
  - destruct (proj1 (in_map_iff fst Gt (fst g)) (proj2 (Hs _) (in_map fst _ _ Hg))) as [g' [E Hg']]. specialize (H g' Hg'). unfold gx in *. rewrite E in H. auto.
  - destruct (proj1 (in_map_iff fst Gf (fst g)) (proj1 (Hs _) (in_map fst _ _ Hg))) as [g' [E Hg']]. specialize (H g' Hg'). unfold gx in *. rewrite E in H. auto.
Qed.

(** What is to be shown of the list of a system. *)
Definition listA (H : mat) (l : list (list site)) : Prop :=
  sound_listA pg D bas cwa H (map (fun w => (H, w)) l) /\ complete_listA pg D bas cwa H (map (fun w => (H, w)) l) /\
  forall w, In w l -> Permutation (map skeleton w) (map skeleton cwa) /\ directions_below 6 w.
Definition systemA (H : mat) (rnd : nat -> bool) : Prop := exists Gt num l fuel0,
  sym_group pg D bas H true = Ok Gt /\
  (forall v f, f (map Z.of_nat c) = na -> count_conc v f (map Z.of_nat c) Gt = Ok (Z.of_nat num, Gt)) /\ 0 < Z.of_nat num <= 10 ^ 8 /\
  (forall v draw shuffled fuel, (fuel0 <= fuel)%nat -> enum_sys v draw rnd shuffled fuel Gt (length bas) c na num false false = Ok l) /\ listA H l.

Lemma c_ne : c <> [].
Proof. destruct c; [cbn in Hlen; lia|discriminate]. Qed.
Lemma c_multinomialA : NumericsModel.multinomial (map Z.of_nat c) = Ok (Z.of_nat (length (labelings c))).
Proof. apply multinomial_int64; [apply c_ne|]. pose proof plain_size. rewrite Hsum. pose proof sites_small. assert (2 ^ 53 = 9007199254740992) by reflexivity. nia. Qed.
Lemma back_c : map Z.to_nat (map Z.of_nat c) = c.
Proof. rewrite map_map, (map_ext (fun x => Z.to_nat (Z.of_nat x)) (fun x => x)), map_id; auto. intros; apply Nat2Z.id. Qed.

(** Some atom is displaced. *)
Lemma system_moved H rnd : In H (find_all_HNFs n) -> 0 < fold_right Z.add 0 na -> systemA H rnd.
Proof.
  intros Hin Hpos. assert (mdet H = n) as Hdet by (apply find_det; auto; lia). pose proof sites_small as Hn7. pose proof bpos as Hbp. assert (lo <= mdet H <= hi) as Hlh by lia.
  assert (length cwa = length bas * Z.to_nat n)%nat as Hcl by (rewrite decosF_length by auto; lia).
  pose proof (moved_ok fl c Hfl) as Hna. pose proof (decosF_ok fl c Hfl) as HDc.
  assert (exists s, In s cwa /\ has_arrow s = true) as Harr by (apply (D_arrow c na cwa Hna HDc); auto).
  destruct (some_arrow cwa Harr) as [Hne Hnar].
  destruct (basis_group pg D bas lo hi HD Hpg Hgr Hdiff Hgb H true ltac:(lia) Hlh) as [Gt [Et [Nt [Ot Lt]]]].
  destruct (basis_group pg D bas lo hi HD Hpg Hgr Hdiff Hgb H false ltac:(lia) Hlh) as [Gf [Ef _]].
  destruct (first_same H Gt Gf ltac:(lia) Hlh Et Ef) as [_ Hcell].
  rewrite Hdet, <- Hcl in Ot. rewrite Hdet in Lt, Hcell.
  pose proof (decosF_cons fl c) as Hcons.
  pose proof (all_structures_transversal cwa Gt 6 6 eq_refl ltac:(lia) Ot (fun s t => Hcons s t Hfl)) as Htr.
  destruct (D_sorted c na cwa Hna HDc) as [l0 El0].
  pose proof (decosF_counts fl c Hfl) as Hc.
  set (t := length (filter (fun a => 0 <? a) na)) in *.
  assert ((t =? 0)%nat = false) as Ht.
  { destruct (t =? 0)%nat eqn:E; auto. apply (na_types c na Hna) in E. lia. }
  assert (forall v, polya v concs Gt t = Ok (Z.of_nat (length (all_structures cwa Gt 6)), Gt)) as Hp.
  { intros v. pose proof (polya_cwa v cwa l0 Gt 6 (all_structures cwa Gt 6) El0 Hne ltac:(lia) Ot Nt (fun s t => Hcons s t Hfl) Htr) as Hp.
    rewrite Hc in Hp. apply Hp. pose proof system_size as Hsz. assert (Z.of_nat (max (length cwa) (length Gt)) <= 336) by lia.
    assert (2 ^ 53 = 9007199254740992) by reflexivity. assert (10 ^ 8 = 100000000) by reflexivity. nia. }
  set (num := length (all_structures cwa Gt 6)) in *.
  destruct (arrows_every cwa Gt 6 6 eq_refl ltac:(lia) Ot false (Z.to_nat n) Hne (fun _ => Hcell) rnd (SList []) Hnar eq_refl) as [f0 Hf0].
  destruct (arrows_every cwa Gt 6 6 eq_refl ltac:(lia) Ot false (Z.to_nat n) Hne (fun _ => Hcell) rnd SNone Hnar eq_refl) as [f1 Hf1].
  assert (1 <= n <= 10 ^ 5) as Hn5 by lia.
  destruct (one_supercell_arrows pg D bas HD bne bnd bred Hpg Hgr n cwa Hn5 Hcl Harr (fun s t => Hcons s t Hfl) rnd H Hin (bself H Hlh))
    as [l [f2 [Hrun [Hsound Hcomp]]]].
  set (ws := structures cwa Gt 6 false (Z.to_nat n)) in *.
  assert (l = map (fun w => (H, w)) ws) as ->.
  { specialize (Hrun (f1 + f2)%nat ltac:(lia)). rewrite Et in Hrun. cbn [rbind] in Hrun. rewrite Hf1 in Hrun by lia. cbn [rbind] in Hrun. congruence. }
  assert (forall w, In w ws -> Permutation (map skeleton w) (map skeleton cwa) /\ directions_below 6 w) as Hws.
  { intros w Hw. unfold ws in Hw. rewrite structures_reduced in Hw. apply filter_In in Hw. apply (proj1 Htr). apply Hw. }
  exists Gt, num, ws, f0. split; auto. split; [|split; [|split]].
  - intros v f Hf. unfold count_conc. rewrite back_c, Hf, HDc. cbn [rbind]. rewrite Hc, Ht. cbn [negb orb]. apply Hp.
  - split.
    + destruct (proj1 (proj2 Htr) cwa) as [r [Hr _]].
      * split; auto. intros s Hs. destruct (decosF_in fl c s Hfl Hs) as [l [_ ->]]. unfold kind. cbn [fst]. destruct (nth (l - 1) fl false); lia.
      * unfold num. destruct (all_structures cwa Gt 6); [destruct Hr|cbn [length]; lia].
    + etransitivity; [|apply Hn]. transitivity (Z.of_nat (length (Spec.words (letters fl) (sum_nat c)))).
      * apply inj_le, NoDup_incl_length.
        -- apply FOP_NoDup. eapply FOP_impl; [|apply Htr]. cbv beta. intros a b Ha _ Hn' <-. apply Hn'. apply (op_equiv_refl (length cwa) 6 6); auto. apply (decorated_okw cwa 6). apply (proj1 Htr); auto.
        -- intros w Hw. apply (proj1 Htr) in Hw. destruct Hw. apply word_counted; auto.
      * rewrite length_words, Nat2Z.inj_pow, Hsum. apply Z.pow_le_mono_l. split; [lia|]. pose proof (letters_few fl). lia.
  - intros v draw shuffled fuel Hfu. unfold enum_sys. cbn [Nat.eqb]. rewrite HDc. cbn [rbind]. rewrite Hc.
    unfold plan. rewrite c_multinomialA. cbn [rbind]. pose proof plain_size as Hps.
    assert (skip_count (Z.of_nat (length (labelings c))) t (sum_nat c) num = false) as Hskip.
    { unfold skip_count. destruct (Z.ltb_spec 100000 (Z.of_nat (length (labelings c)))); [lia|]. destruct (Nat.leb_spec 12 (sum_nat c)); [lia|]. rewrite andb_false_r. auto. }
    rewrite Hskip, Ht. cbn [negb]. rewrite Hp. cbn [rbind]. rewrite Z.ltb_irrefl.
    destruct (Nat.eqb_spec (length c) 1); [lia|]. rewrite andb_false_r. replace (sum_nat c / length bas)%nat with (Z.to_nat n); [destruct (Nat.eqb_spec (length bas) 0); [lia|]; apply Hf0; auto|]. replace (sum_nat c) with (Z.to_nat n * length bas)%nat by nia. rewrite Nat.div_mul; lia.
  - split; auto. split; auto. apply Hcomp. intros s t'. apply decosF_uniform; auto.
Qed.

(** None is, and the group is the one with the directions (phonons.py:403-409 looks at all species). *)
Lemma plain_skeletons d : Forall (fun s : Z * Z => fst s = -1) d -> map skeleton d = d.
Proof. induction 1 as [|[a x] d H _ IH]; auto. cbn [map]. rewrite IH. cbn [fst] in H. subst a. auto. Qed.
Lemma system_still H rnd : In H (find_all_HNFs n) -> fold_right Z.add 0 na = 0 -> systemA H rnd.
Proof.
  intros Hin Hzero. unfold systemA, listA. rewrite (decosF_zero fl c Hfl Hzero), (moved_zero fl c Hfl Hzero).
  assert (mdet H = n) as Hdet by (apply find_det; auto; lia). pose proof sites_small as Hn7. pose proof bpos as Hbp. assert (lo <= mdet H <= hi) as Hlh by lia.
  assert (length (decos c) = length bas * Z.to_nat n)%nat as Hcl by (rewrite decos_length; lia).
  assert (decos c <> []) as Hcne by (intros E; rewrite E in Hcl; cbn in Hcl; lia).
  destruct (basis_group pg D bas lo hi HD Hpg Hgr Hdiff Hgb H true ltac:(lia) Hlh) as [Gt [Et [Nt [Ot Lt]]]].
  destruct (basis_group pg D bas lo hi HD Hpg Hgr Hdiff Hgb H false ltac:(lia) Hlh) as [Gf [Ef [Nf [Of Lf]]]].
  destruct (first_same H Gt Gf ltac:(lia) Hlh Et Ef) as [Efirst Hcell].
  pose proof (same_perms H Gt Gf ltac:(lia) Hlh Et Ef) as Hsame.
  assert (Z.to_nat (mdet H) <= length Gf)%nat as Hcellf by (destruct (basis_same pg D bas lo hi HD Hpg Hgr Hgb H Gt Gf ltac:(lia) Hlh Et Ef) as [_ Hx]; auto).
  rewrite Hdet, <- Hcl in Ot, Lt, Of, Lf. rewrite Hdet in Efirst, Hcell, Hcellf.
  assert (perm_group (length (decos c)) (map fst Gf)) as HPf by (eapply op_group_perm_group; eauto).
  assert (perm_group (length (decos c)) (map fst Gt)) as HPt by (eapply op_group_perm_group; eauto).
  pose proof (colourings_transversal (decos c) Gt HPt) as Tt.
  pose proof (decos_perm c) as Hperm. pose proof (decos_plain c) as Hplain.
  assert (SuperProofs.reduced (decos c) Gt (Z.to_nat n) = SuperProofs.reduced (decos c) Gf (Z.to_nat n)) as Ered.
  { destruct (reduced_short (decos c) Gt (Z.to_nat n) HPt Hcne Hplain Hcell) as [k1 [E1 K1]]; [rewrite map_length; etransitivity; [apply decos_kinds|lia]|].
    destruct (reduced_short (decos c) Gf (Z.to_nat n) HPf Hcne Hplain Hcellf) as [k2 [E2 K2]]; [rewrite map_length; etransitivity; [apply decos_kinds|lia]|].
    rewrite E1, E2. rewrite (colourings_same (decos c) Gt Gf Hsame) in *. apply filter_ext_in. intros w Hw. apply eq_true_iff_eq. rewrite (K1 w Hw), (K2 w Hw). unfold moves. rewrite Efirst. tauto. }
  destruct (super_run_any (decos c) Gt (Z.to_nat n) HPt Hcne Hplain ltac:(lia) 6 rnd (SList []) eq_refl) as [f0 Hf0].
  destruct (super_run_any (decos c) Gf (Z.to_nat n) HPf Hcne Hplain ltac:(lia) 6 rnd SNone eq_refl) as [f1 Hf1].
  rewrite Ered in Hf0.
  assert (1 <= n <= 10 ^ 5) as Hn5 by lia.
  destruct (one_supercell pg D bas HD bne bnd bred Hpg Hgr n (decos c) Hn5 Hcl Hplain rnd H Hin (bself H Hlh)) as [l [f2 [Hrun [Hsound Hcomp]]]].
  set (ws := SuperProofs.reduced (decos c) Gf (Z.to_nat n)) in *.
  assert (l = map (fun w => (H, w)) ws) as ->.
  { specialize (Hrun (f1 + f2)%nat ltac:(lia)). rewrite Ef in Hrun. cbn [rbind] in Hrun. rewrite Hf1 in Hrun by lia. cbn [rbind] in Hrun. congruence. }
  assert (forall w, In w ws -> Permutation w (decos c)) as Hws.
  { intros w Hw. eapply reduced_sound in Hw; eauto. apply (colourings_transversal (decos c) Gf HPf), Hw. }
  pose proof plain_size as Hps.
  assert (forall v, polya v c Gt 0 = Ok (Z.of_nat (length (colourings (decos c) Gt)), Gt)) as Pt.
  { intros v. eapply (polya_plain v c (decos c) Gt 6); eauto; [lia|]. assert (Z.of_nat (max (length (decos c)) (length Gt)) <= 336) by lia. assert (2 ^ 53 = 9007199254740992) by reflexivity. nia. }
  set (num := length (colourings (decos c) Gt)) in *.
  pose proof (plain_skeletons _ Hplain) as Esk.
  exists Gt, num, ws, f0. split; auto. split; [|split; [|split; [|split; [|split]]]].
  - intros v f Hf. unfold count_conc. rewrite back_c, Hf, decos_ok. cbn [rbind]. rewrite decos_counts. cbn [negb orb Nat.eqb]. apply Pt.
  - split.
    + destruct (proj1 (proj2 Tt) (decos c) (Permutation_refl _)) as [r [Hr _]]. unfold num. destruct (colourings (decos c) Gt); [destruct Hr|cbn [length]; lia].
    + transitivity (Z.of_nat (length (labelings c))); [|lia]. apply inj_le. apply (classes_bound c (decos c)); auto; [apply Tt|]. apply FOP_NoDup. eapply FOP_impl; [|apply Tt]. cbv beta. intros a b Ha _ Hn' <-. apply Hn'.
      exists (idperm (length (decos c)), idperm 6). split; [apply Ot|]. cbn [fst]. rewrite <- (Permutation_length (proj1 Tt a Ha)). symmetry. apply act_id.
  - intros v draw shuffled fuel Hfu. unfold enum_sys. cbn [Nat.eqb]. rewrite decos_ok. cbn [rbind]. rewrite decos_counts.
    unfold plan. rewrite c_multinomialA. cbn [rbind].
    assert (skip_count (Z.of_nat (length (labelings c))) 0 (sum_nat c) num = false) as Hskip.
    { unfold skip_count. cbn [negb Nat.eqb andb]. rewrite orb_false_r. destruct (Z.ltb_spec 100000 (Z.of_nat (length (labelings c)))); [lia|auto]. }
    rewrite Hskip. cbn [Nat.eqb negb]. rewrite Pt. cbn [rbind]. rewrite Z.ltb_irrefl.
    destruct (Nat.eqb_spec (length c) 1); [lia|]. rewrite andb_false_r. replace (sum_nat c / length bas)%nat with (Z.to_nat n); [destruct (Nat.eqb_spec (length bas) 0); [lia|]; apply Hf0; auto|]. replace (sum_nat c) with (Z.to_nat n * length bas)%nat by nia. rewrite Nat.div_mul; lia.
  - destruct Hsound as [S1 S2]. split; [|exact S2]. intros e He. destruct (S1 e He) as [A1 [A2 A3]]. split; auto. split; auto. intros f Hf. destruct (A3 f Hf) as [W1 W2]. split; auto. split.
    + destruct W2 as [pts [T P]]. exists pts. split; auto. apply (Permutation_map skeleton) in P. rewrite map_map in P. auto.
    + intros x Hx. destruct W2 as [pts [[T1 [T2 T3]] P]]. destruct (T2 x Hx) as [y [Hy [t [Ht ->]]]]. assert (In (f x) (decos c)) as Hi.
      { eapply Permutation_in; [exact P|]. apply in_map_iff. exists (vadd x (vscale D t)). split; auto. apply (W1 t); auto. }
      rewrite Forall_forall in Hplain. rewrite (Hplain _ Hi). lia.
  - assert (complete_list pg D bas (decos c) H (map (fun w => (H, w)) ws)) as Hc by (apply Hcomp; etransitivity; [apply decos_kinds|lia]).
    intros f [W1 [W2 W3]]. apply Hc. split; auto. rewrite Esk in W2. destruct W2 as [pts [T P]]. exists pts. split; auto.
    assert (forall x, In x pts -> skeleton (f x) = f x) as Ex.
    { intros x Hx. assert (In (skeleton (f x)) (decos c)) as Hi by (eapply Permutation_in; [exact P|]; apply (in_map (fun x => skeleton (f x))); auto). rewrite Forall_forall in Hplain. specialize (Hplain _ Hi).
      unfold skeleton, has_arrow in *. destruct (f x) as [a b]. cbn [fst snd] in *. destruct (Z.leb_spec 0 a); [lia|auto]. }
    rewrite (map_ext_in _ _ _ Ex) in P. auto.
  - intros w Hw. rewrite (Permutation_map skeleton (Hws w Hw)). split; auto. intros s Hs. apply (Permutation_in _ (Hws w Hw)) in Hs. rewrite Forall_forall in Hplain. rewrite (Hplain _ Hs). lia.
Qed.
Theorem one_systemA H rnd : In H (find_all_HNFs n) -> systemA H rnd.
Proof.
  intros Hin. pose proof (moved_sum fl c). destruct (Z.eq_dec (fold_right Z.add 0 na) 0); [apply system_still; auto|apply system_moved; auto; lia].
Qed.
End SystemA.
