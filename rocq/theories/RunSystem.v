(** Counting and enumerating one system (C60): the count written to polya.out.<size> is the number of classes, and asking for
    that many gives the list that C49 is about. *)
From Coq Require Import Permutation.
From Verif Require Import TextModel PyBase Spec ListFacts PermFacts TransFacts NumericsModel PhononsModel TreeModel ColorProofs DecoFacts DecoBij BranchRun BranchProofs BranchTheorems SuperProofs MultiProofs Mat3 HNFModel HNFProofs.
From Verif Require Import PolyaModel PolyaSpec PolyaUse EnumSysModel DecoProofs EnumSysProofs.
From Verif Require Import LatSpec LatGroupModel LatFacts LatSites LatProofs LatMain LatTop LatGroupThm LatNoDup LatFirst SNFModel SuperModel StructSpec StructProofs StructThm StructMain StructAll PropertiesGroup.
From Verif Require Import RunModel RunSpec RunProofs.
Local Open Scope Z_scope.

Lemma runs_length c : forall m, length (runs_of m c) = sum_nat c.
Proof. induction c as [|k c IH]; intros m; auto. change (runs_of m (k :: c)) with (repeat m k ++ runs_of (S m) c). rewrite app_length, repeat_length, IH. auto. Qed.
Lemma perm_labeling c w : Permutation w (plain_sites c) -> exists x, In x (labelings c) /\ w = as_sites x.
Proof.
  intros H. rewrite plain_runs in H. unfold as_sites in H. apply Permutation_map_inv in H. destruct H as [x [-> Hp]]. apply Permutation_sym in Hp. exists x. split; auto.
  assert (forall l, occ l x = occ l (runs_of 1 c)) as Ho by (intros l; unfold occ; revert l; apply (Permutation_count_occ Nat.eq_dec); auto).
  assert (length x = sum_nat c) as Hl by (rewrite (Permutation_length Hp); apply runs_length).
  unfold labelings. apply filter_In. split.
  - apply in_words. split; auto. intros l Hi. apply occ_pos in Hi. rewrite Ho, runs_occ in Hi. apply in_seq.
    destruct (Nat.leb_spec 1 l), (Nat.ltb_spec l (1 + length c)); cbn [andb] in Hi; lia.
  - unfold has_concsb. apply andb_true_iff. split; [apply Nat.eqb_eq; auto|]. apply forallb_forall. intros i Hi. apply in_seq in Hi. apply Nat.eqb_eq. rewrite Ho, runs_occ.
    destruct (Nat.leb_spec 1 (S i)), (Nat.ltb_spec (S i) (1 + length c)); cbn [andb]; try lia. f_equal. lia.
Qed.
Lemma NoDup_short {A B} (f : A -> B) (l : list A) (m : list B) : NoDup l -> (forall x, In x l -> exists y, In y m /\ f x = y) -> (forall x y, In x l -> In y l -> f x = f y -> x = y) ->
  (length l <= length m)%nat.
Proof.
  intros Hn Hi Hj. rewrite <- (map_length f l). apply NoDup_incl_length; [apply NoDup_map_inj; auto|]. intros y Hy. apply in_map_iff in Hy. destruct Hy as [x [<- Hx]]. destruct (Hi x Hx) as [y [Hy ->]]. auto.
Qed.
Lemma as_sites_inj x y : as_sites x = as_sites y -> x = y.
Proof. revert y. unfold as_sites. induction x as [|a x IH]; intros [|b y] E; cbn in *; try discriminate; auto. injection E as E1 E2. f_equal; [lia|auto]. Qed.
Lemma classes_bound concs cwa (reps : list (list site)) : Permutation cwa (plain_sites concs) -> (forall r, In r reps -> Permutation r cwa) -> NoDup reps -> (length reps <= length (labelings concs))%nat.
Proof.
  intros Hp Hr Hn. set (back := map (fun s : site => Z.to_nat (snd s))).
  assert (forall x, back (as_sites x) = x) as Hb by (intros x; unfold back, as_sites; rewrite map_map; cbn [snd]; induction x as [|a x IH]; cbn [map]; [auto|rewrite Nat2Z.id, IH; auto]).
  assert (forall r, In r reps -> exists x, In x (labelings concs) /\ r = as_sites x) as Hx by (intros r Hi; apply perm_labeling; apply Permutation_trans with cwa; auto).
  apply (NoDup_short back); auto.
  - intros r Hi. destruct (Hx r Hi) as [x [Hl E]]. exists x. split; auto. rewrite E. apply Hb.
  - intros r s Hi Hj E. destruct (Hx r Hi) as [x [_ E1]], (Hx s Hj) as [y [_ E2]]. rewrite E1, E2 in *. rewrite !Hb in E. congruence.
Qed.

Definition zeros (c : list nat) : list Z := map (fun _ => 0) c.
Lemma zeros_ok c : nonneg_at_most c (zeros c).
Proof. unfold zeros. split; [apply map_length|]. intros i Hi. replace (nth i (map (fun _ => 0) c) 0) with 0; [lia|]. revert i Hi. induction c; intros [|i]; cbn; auto. intros; apply IHc; lia. Qed.
Lemma zeros_sum c : fold_right Z.add 0 (zeros c) = 0.
Proof. induction c; cbn; auto. Qed.
Definition decos (c : list nat) : list site := col_sort (runs (deco_runs c (zeros c))).
Lemma decos_ok c : arrow_concs c (zeros c) = Ok (decos c).
Proof. apply arrow_concs_runs, zeros_ok. Qed.
Lemma decos_perm c : Permutation (decos c) (plain_sites c).
Proof. apply (D_plain c (zeros c)); [apply zeros_ok|apply decos_ok|apply zeros_sum]. Qed.
Lemma decos_length c : length (decos c) = sum_nat c.
Proof. apply (D_length c (zeros c)); [apply zeros_ok|apply decos_ok]. Qed.
Lemma decos_plain c : Forall (fun s => fst s = -1) (decos c).
Proof. apply Forall_forall. intros s Hs. apply (Permutation_in _ (decos_perm c)) in Hs. rewrite plain_runs in Hs. apply in_map_iff in Hs. destruct Hs as [l [<- _]]. auto. Qed.
Lemma decos_counts c : how_many_arrows (decos c) = (0%nat, 0%nat, map (multiplicity site_eqb (decos c)) (first_occurrences site_eqb (decos c))).
Proof.
  rewrite (D_counts c (zeros c) _ (zeros_ok c) (decos_ok c)), zeros_sum.
  pose proof (proj2 (na_types c (zeros c) (zeros_ok c)) (zeros_sum c)) as Ht. apply Nat.eqb_eq in Ht. rewrite Ht. auto.
Qed.
Lemma decos_kinds c : (length (first_occurrences site_eqb (decos c)) <= length c)%nat.
Proof.
  assert (incl (first_occurrences site_eqb (decos c)) (map (fun i => (-1, Z.of_nat i)) (seq 1 (length c)))) as Hi.
  { intros s Hs. apply (proj1 (first_occ_In site_eqb site_eqb_spec _ _)) in Hs. apply (Permutation_in _ (decos_perm c)) in Hs. rewrite plain_runs in Hs. apply in_map_iff in Hs. destruct Hs as [l [<- Hl]]. apply (in_map (fun i => (-1, Z.of_nat i))).
    apply occ_pos in Hl. rewrite runs_occ in Hl. apply in_seq. destruct (Nat.leb_spec 1 l), (Nat.ltb_spec l (1 + length c)); cbn [andb] in Hl; lia. }
  apply NoDup_incl_length in Hi; [rewrite map_length, seq_length in Hi; auto|]. apply (first_occ_NoDup site_eqb site_eqb_spec).
Qed.

Lemma find_det n H : 1 <= n -> In H (find_all_HNFs n) -> mdet H = n.
Proof. intros Hn Hin. apply in_find_all in Hin. destruct Hin as [a [b [c [d [e [f [-> [_ [_ [_ [_ <-]]]]]]]]]]]. cbn. ring. Qed.

(** ** One system *)
Section System.
Variables (pg : list (mat * mat)) (D : Z) (bas : list vec) (lo hi : Z).
Hypothesis HD : 0 < D.
Hypothesis Hpg : forall C R, In (C, R) pg -> unimodular C /\ orthogonal R.
Hypothesis Hgr : rotation_group pg.
Hypothesis Hdiff : NoDup (map snd pg).
Hypothesis Hgb : good_basis pg D bas lo hi.
Variables (n : Z) (c : list nat).
Hypothesis Hn : 1 <= n /\ lo <= n <= hi /\ n * Z.of_nat (length bas) <= 20.
Hypothesis Hlen : (2 <= length c <= 3)%nat.
Hypothesis Hsum : Z.of_nat (sum_nat c) = n * Z.of_nat (length bas).
Notation cwa := (decos c).
Notation concs := (map (multiplicity site_eqb cwa) (first_occurrences site_eqb cwa)).

Lemma n_20 : n <= 20.
Proof. pose proof (gb_pos pg D bas lo hi Hgb). nia. Qed.
Lemma c_labelings : Z.of_nat (length (labelings c)) <= 3 ^ 20.
Proof.
  etransitivity; [apply labelings_bound|]. transitivity (3 ^ Z.of_nat (sum_nat c)).
  - apply Z.pow_le_mono_l. lia.
  - apply Z.pow_le_mono_r; lia.
Qed.
Lemma c_multinomial : NumericsModel.multinomial (map Z.of_nat c) = Ok (Z.of_nat (length (labelings c))).
Proof. apply multinomial_int64; [destruct c; [cbn in Hlen; lia|discriminate]|]. pose proof c_labelings. rewrite Hsum. assert (3 ^ 20 = 3486784401) as E by reflexivity. rewrite E in *. nia. Qed.

(** The count, the same for the two groups, and the list. *)
Lemma one_system H rnd : In H (find_all_HNFs n) -> exists Gt Gf num l fuel0,
  sym_group pg D bas H true = Ok Gt /\ sym_group pg D bas H false = Ok Gf /\
  (forall v, count_conc v (fun c => map (fun _ => 0) c) (map Z.of_nat c) Gt = Ok (Z.of_nat num, Gt)) /\ (num <= length (labelings c))%nat /\
  (0 < num)%nat /\
  (forall v draw shuffled fuel, (fuel0 <= fuel)%nat -> enum_sys v draw rnd shuffled fuel Gf (length bas) c (zeros c) num false false = Ok l) /\
  sound_list pg D bas cwa H (map (fun w => (H, w)) l) /\ complete_list pg D bas cwa H (map (fun w => (H, w)) l) /\ forall w, In w l -> Permutation w cwa.
Proof.
  intros Hin. assert (mdet H = n) as Hdet by (apply find_det; auto; lia).
  pose proof n_20 as Hn20. pose proof (gb_pos pg D bas lo hi Hgb) as Hbp. assert (length cwa = length bas * Z.to_nat n)%nat as Hcl by (rewrite decos_length; lia).
  assert (1 <= length cwa <= 20)%nat as Hc20 by (rewrite Hcl; nia).
  assert (cwa <> []) as Hcne by (intros E; rewrite E in Hcl; cbn in Hcl; lia).
  destruct (basis_group pg D bas lo hi HD Hpg Hgr Hdiff Hgb H true ltac:(lia) ltac:(lia)) as [Gt [Et [Nt [Ot Lt]]]].
  destruct (basis_group pg D bas lo hi HD Hpg Hgr Hdiff Hgb H false ltac:(lia) ltac:(lia)) as [Gf [Ef [Nf [Of Lf]]]].
  destruct (basis_same pg D bas lo hi HD Hpg Hgr Hgb H Gt Gf ltac:(lia) ltac:(lia) Et Ef) as [Hsame Hcell].
  rewrite Hdet, <- Hcl in Ot, Lt, Of, Lf. rewrite Hdet in Hcell.
  assert (perm_group (length cwa) (map fst Gf)) as HPf by (eapply op_group_perm_group; eauto).
  assert (perm_group (length cwa) (map fst Gt)) as HPt by (eapply op_group_perm_group; eauto).
  pose proof (colourings_transversal cwa Gf HPf) as Tf.
  assert (transversal (fun w => Permutation w cwa) (site_equiv Gt) (colourings cwa Gf)) as Tt.
  { destruct Tf as [T1 [T2 T3]]. split; auto. split; [intros x Hx; destruct (T2 x Hx) as [r [Hr He]]; exists r; split; auto; apply Hsame; auto|].
    eapply FOP_impl; [|exact T3]. cbv beta. intros x y _ _ Hxy Hs. apply Hxy, Hsame; auto. }
  set (num := length (colourings cwa Gf)).
  pose proof (decos_perm c) as Hperm. pose proof (decos_plain c) as Hplain.
  pose proof (orbit_bound c cwa Gf (colourings cwa Gf) Hperm HPf Tf) as Hob. fold num in Hob.
  pose proof c_labelings as Hlab. assert (3 ^ 20 = 3486784401) as E320 by reflexivity. assert (2 ^ 53 = 9007199254740992) as E253 by reflexivity.
  assert (forall G : list op, (length G <= 48 * length cwa)%nat -> Z.of_nat (max (length cwa) (length G)) * Z.of_nat (length (labelings c)) < 2 ^ 53) as Hsmall.
  { intros G HG. rewrite E320, E253 in *. assert (Z.of_nat (max (length cwa) (length G)) <= 960) by lia. nia. }
  assert (forall v, polya v c Gt 0 = Ok (Z.of_nat num, Gt)) as Pt by (intros v; eapply (polya_plain v c cwa Gt 6); eauto; lia).
  assert (forall v, polya v c Gf 0 = Ok (Z.of_nat num, Gf)) as Pf by (intros v; eapply (polya_plain v c cwa Gf 6); eauto; lia).
  destruct (super_run_any cwa Gf (Z.to_nat n) HPf Hcne Hplain ltac:(lia) 6 rnd (SList []) eq_refl) as [f0 Hf0].
  destruct (super_run_any cwa Gf (Z.to_nat n) HPf Hcne Hplain ltac:(lia) 6 rnd SNone eq_refl) as [f1 Hf1].
  assert (1 <= n <= 10 ^ 5) as Hn5 by lia.
  destruct (one_supercell pg D bas HD (gb_ne pg D bas lo hi Hgb) (gb_nd pg D bas lo hi Hgb) (gb_red pg D bas lo hi Hgb) Hpg Hgr n cwa Hn5 Hcl Hplain rnd H Hin (gb_self pg D bas lo hi Hgb H ltac:(lia))) as [l [f2 [Hrun [Hsound Hcomp]]]].
  assert (l = map (fun w => (H, w)) (SuperProofs.reduced cwa Gf (Z.to_nat n))) as ->.
  { specialize (Hrun (f1 + f2)%nat ltac:(lia)). rewrite Ef in Hrun. cbn [rbind] in Hrun. rewrite Hf1 in Hrun by lia. cbn [rbind] in Hrun. congruence. }
  exists Gt, Gf, num, (SuperProofs.reduced cwa Gf (Z.to_nat n)), f0. split; auto. split; auto. split; [|split; [|split; [|split; [|split; [|split]]]]].
  - intros v. unfold count_conc. rewrite map_map. rewrite (map_ext (fun x => Z.to_nat (Z.of_nat x)) (fun x => x)), map_id by (intros; apply Nat2Z.id).
    rewrite map_map. cbn beta. fold (zeros c). rewrite decos_ok. cbn [rbind]. rewrite decos_counts. cbn [negb orb Nat.eqb]. apply Pt.
  - apply (classes_bound c cwa); auto; [apply Tf|]. apply FOP_NoDup. eapply FOP_impl; [|apply Tf]. cbv beta. intros a b Ha _ Hn' <-. apply Hn'.
    exists (idperm (length cwa), idperm 6). split; [apply Of|]. cbn [fst]. rewrite <- (Permutation_length (proj1 Tf a Ha)). symmetry. apply act_id.
  - destruct (proj1 (proj2 Tf) cwa (Permutation_refl _)) as [r [Hr _]]. unfold num. destruct (colourings cwa Gf); [destruct Hr|cbn; lia].
  - intros v draw shuffled fuel Hfu. unfold enum_sys. cbn [Nat.eqb]. rewrite decos_ok. cbn [rbind]. rewrite decos_counts.
    unfold plan. rewrite c_multinomial. cbn [rbind].
    assert (skip_count (Z.of_nat (length (labelings c))) 0 (sum_nat c) num = false) as Hskip.
    { unfold skip_count. cbn [negb Nat.eqb andb]. rewrite orb_false_r. destruct (Z.ltb_spec 100000 (Z.of_nat (length (labelings c)))); [|auto]. destruct (Nat.leb_spec num 100); [|auto]. exfalso.
      assert (length (labelings c) <= 100 * (48 * 20))%nat by (etransitivity; [exact Hob|]; apply Nat.mul_le_mono; lia). lia. }
    rewrite Hskip. cbn [Nat.eqb negb]. rewrite Pf. cbn [rbind]. rewrite Z.ltb_irrefl.
    destruct (Nat.eqb_spec (length c) 1); [lia|]. rewrite andb_false_r. replace (sum_nat c / length bas)%nat with (Z.to_nat n); [destruct (Nat.eqb_spec (length bas) 0); [lia|]; apply Hf0; auto|]. replace (sum_nat c) with (Z.to_nat n * length bas)%nat by nia. rewrite Nat.div_mul; lia.
  - auto.
  - apply Hcomp. etransitivity; [apply decos_kinds|]. lia.
  - intros w Hw. eapply reduced_sound in Hw; eauto. apply Tf, Hw.
Qed.
End System.
