(** A run with an enum.in that asks for a part of the structures (C76): the lines, the file and what is read back. *)
From Coq Require Import Permutation.
From Verif Require Import TextModel TextProofs PyBase Spec ListFacts PermFacts TransFacts NumericsModel PhononsModel TreeModel HashProofs TreeSearch ArrowProofs ColorProofs DecoFacts DecoBij BranchRun BranchProofs BranchTheorems SuperProofs MultiProofs SampleSuper
  Mat3 HNFModel HNFProofs PolyaModel PolyaSpec PolyaUse EnumSysModel DecoProofs EnumSysProofs ConcsModel ConcsProofs.
From Verif Require Import LatSpec LatGroupModel LatFacts LatSites LatProofs LatMain LatTop LatGroupThm LatNoDup LatFirst SNFModel SuperModel StructSpec StructProofs StructThm StructMain StructAll PropertiesGroup PropertiesConcs.
From Verif Require Import DistModel DistSpec FilesModel FilesMain PropertiesFiles EnumOutModel EnumOutSpec EnumOutMain PropertiesEnumOut RunModel RunProofs RunSystem RunSpec RunMain RunTop.
From Verif Require MakeStrSpec MapSpec.
Local Open Scope Z_scope.

(** Up to 19 sites of two species and 13 of three, nothing is ever too many to count. *)
Lemma few_colourings c : length c = 2%nat /\ (sum_nat c <= 19)%nat \/ length c = 3%nat /\ (sum_nat c <= 13)%nat ->
  exists m, NumericsModel.multinomial (map Z.of_nat c) = Ok m /\ m <= 100000.
Proof.
  set (ok := fun c => match NumericsModel.multinomial (map Z.of_nat c) with Ok m => m <=? 100000 | Err _ => false end).
  intros H. enough (ok c = true) as E by (unfold ok in E; destruct (NumericsModel.multinomial (map Z.of_nat c)) as [m|]; [exists m; split; auto; apply Z.leb_le; auto|discriminate]).
  destruct H as [[Hl Hs]|[Hl Hs]].
  - destruct c as [|a [|b [|]]]; try discriminate Hl. unfold sum_nat in Hs. cbn [fold_right] in Hs.
    assert (forallb (fun a => forallb (fun b => negb (a + b <=? 19)%nat || ok [a; b]) (seq 0 20)) (seq 0 20) = true) as H by (vm_compute; reflexivity).
    rewrite forallb_forall in H. specialize (H a ltac:(apply in_seq; lia)). rewrite forallb_forall in H. specialize (H b ltac:(apply in_seq; lia)).
    destruct (Nat.leb_spec (a + b) 19); [exact H|lia].
  - destruct c as [|a [|b [|d [|]]]]; try discriminate Hl. unfold sum_nat in Hs. cbn [fold_right] in Hs.
    assert (forallb (fun a => forallb (fun b => forallb (fun d => negb (a + b + d <=? 13)%nat || ok [a; b; d]) (seq 0 14)) (seq 0 14)) (seq 0 14) = true) as H by (vm_compute; reflexivity).
    rewrite forallb_forall in H. specialize (H a ltac:(apply in_seq; lia)). rewrite forallb_forall in H. specialize (H b ltac:(apply in_seq; lia)). rewrite forallb_forall in H. specialize (H d ltac:(apply in_seq; lia)).
    destruct (Nat.leb_spec (a + b + d) 13); [exact H|lia].
Qed.

(** The structures of one system, in the order of the program. *)
Definition full_list (pg : list (mat * mat)) (D : Z) (bas : list vec) (H : mat) (c : list nat) : list (list site) :=
  match sym_group pg D bas H false with Ok G => SuperProofs.reduced (decos c) G (Z.to_nat (mdet H)) | Err _ => [] end.

Lemma subseq_length {A} (l m : list A) : subseq l m -> (length l <= length m)%nat.
Proof. induction 1; cbn; lia. Qed.
Lemma subseq_NoDup' {A} (l m : list A) : subseq l m -> NoDup m -> NoDup l.
Proof. induction 1; intros H'; inversion H'; subst; auto. constructor; auto. intros K. eapply subseq_In in K; eauto. Qed.

(** ** One system *)
Section System.
Variables (pg : list (mat * mat)) (D : Z) (bas : list vec) (lo hi : Z).
Hypothesis HD : 0 < D.
Hypothesis Hpg : forall C R, In (C, R) pg -> unimodular C /\ orthogonal R.
Hypothesis Hgr : rotation_group pg.
Hypothesis Hdiff : NoDup (map snd pg).
Hypothesis Hgb : good_basis pg D bas lo hi.
Variables (n : Z) (c : list nat).
Hypothesis Hn : 1 <= n /\ lo <= n <= hi /\ n * Z.of_nat (length bas) <= 20.
Hypothesis Hlen : (2 <= length c <= 3)%nat.
Hypothesis Hsum : Z.of_nat (sum_nat c) = n * Z.of_nat (length bas).
Hypothesis Hfew : exists m, NumericsModel.multinomial (map Z.of_nat c) = Ok m /\ m <= 100000.
Notation cwa := (decos c).
Notation R H := (full_list pg D bas H c).

Lemma one_sample H rnd : In H (find_all_HNFs n) -> exists Gt Gf num,
  sym_group pg D bas H true = Ok Gt /\ sym_group pg D bas H false = Ok Gf /\
  (forall v, count_conc v (fun c => map (fun _ => 0) c) (map Z.of_nat c) Gt = Ok (Z.of_nat num, Gt)) /\
  sound_list pg D bas cwa H (map (fun w => (H, w)) (R H)) /\ complete_list pg D bas cwa H (map (fun w => (H, w)) (R H)) /\ (forall w, In w (R H) -> Permutation w cwa) /\ NoDup (R H) /\
  forall v draw shuffled x, (forall l : list Z, Permutation (shuffled l) l) -> exists l fuel0,
    (forall fuel, (fuel0 <= fuel)%nat -> enum_sys v draw rnd shuffled fuel Gf (length bas) c (zeros c) x false false = Ok l) /\
    subseq l (R H) /\ ((0 < x)%nat -> (length l <= x)%nat) /\ (x = 0%nat \/ (num <= x)%nat -> l = R H).
Proof.
  intros Hin. assert (mdet H = n) as Hdet by (apply find_det; auto; lia).
  pose proof (gb_pos pg D bas lo hi Hgb) as Hbp. assert (n <= 20) as Hn20 by nia. assert (length cwa = length bas * Z.to_nat n)%nat as Hcl by (rewrite decos_length; lia).
  assert (1 <= length cwa <= 20)%nat as Hc20 by (rewrite Hcl; nia).
  assert (cwa <> []) as Hcne by (intros E; rewrite E in Hcl; cbn in Hcl; lia).
  destruct (basis_group pg D bas lo hi HD Hpg Hgr Hdiff Hgb H true ltac:(lia) ltac:(lia)) as [Gt [Et [Nt [Ot Lt]]]].
  destruct (basis_group pg D bas lo hi HD Hpg Hgr Hdiff Hgb H false ltac:(lia) ltac:(lia)) as [Gf [Ef [Nf [Of Lf]]]].
  destruct (basis_same pg D bas lo hi HD Hpg Hgr Hgb H Gt Gf ltac:(lia) ltac:(lia) Et Ef) as [Hsame Hcell].
  rewrite Hdet, <- Hcl in Ot, Lt, Of, Lf. rewrite Hdet in Hcell.
  assert (perm_group (length cwa) (map fst Gf)) as HPf by (eapply op_group_perm_group; eauto).
  assert (perm_group (length cwa) (map fst Gt)) as HPt by (eapply op_group_perm_group; eauto).
  pose proof (colourings_transversal cwa Gf HPf) as Tf.
  assert (transversal (fun w => Permutation w cwa) (site_equiv Gt) (colourings cwa Gf)) as Tt.
  { destruct Tf as [T1 [T2 T3]]. split; auto. split; [intros x Hx; destruct (T2 x Hx) as [r [Hr He]]; exists r; split; auto; apply Hsame; auto|].
    eapply FOP_impl; [|exact T3]. cbv beta. intros x y _ _ Hxy Hs. apply Hxy, Hsame; auto. }
  set (num := length (colourings cwa Gf)).
  pose proof (decos_perm c) as Hperm. pose proof (decos_plain c) as Hplain.
  destruct Hfew as [m [Em Hm]]. pose proof (c_multinomial bas lo hi n c Hn ltac:(lia) Hsum) as Em'. assert (m = Z.of_nat (length (labelings c))) as Hlab by congruence.
  assert (2 ^ 53 = 9007199254740992) as E253 by reflexivity.
  assert (forall G : list op, (length G <= 48 * length cwa)%nat -> Z.of_nat (max (length cwa) (length G)) * Z.of_nat (length (labelings c)) < 2 ^ 53) as Hsmall.
  { intros G HG. rewrite E253 in *. assert (Z.of_nat (max (length cwa) (length G)) <= 960) by lia. nia. }
  assert (forall v, polya v c Gt 0 = Ok (Z.of_nat num, Gt)) as Pt by (intros v; eapply (polya_plain v c cwa Gt 6); eauto; lia).
  assert (forall v, polya v c Gf 0 = Ok (Z.of_nat num, Gf)) as Pf by (intros v; eapply (polya_plain v c cwa Gf 6); eauto; lia).
  assert (num <= length (labelings c))%nat as Hnum.
  { apply (classes_bound c cwa); auto; [apply Tf|]. apply FOP_NoDup. eapply FOP_impl; [|apply Tf]. cbv beta. intros a b Ha _ Hn' <-. apply Hn'.
    exists (idperm (length cwa), idperm 6). split; [apply Of|]. cbn [fst]. rewrite <- (Permutation_length (proj1 Tf a Ha)). symmetry. apply act_id. }
  destruct (super_run_any cwa Gf (Z.to_nat n) HPf Hcne Hplain ltac:(lia) 6 rnd (SList []) eq_refl) as [f0 Hf0].
  destruct (super_run_any cwa Gf (Z.to_nat n) HPf Hcne Hplain ltac:(lia) 6 rnd SNone eq_refl) as [f1 Hf1].
  assert (1 <= n <= 10 ^ 5) as Hn5 by lia.
  destruct (one_supercell pg D bas HD (gb_ne pg D bas lo hi Hgb) (gb_nd pg D bas lo hi Hgb) (gb_red pg D bas lo hi Hgb) Hpg Hgr n cwa Hn5 Hcl Hplain rnd H Hin (gb_self pg D bas lo hi Hgb H ltac:(lia))) as [l [f2 [Hrun [Hsound Hcomp]]]].
  assert (R H = SuperProofs.reduced cwa Gf (Z.to_nat n)) as ER by (unfold full_list; rewrite Ef, Hdet; auto).
  assert (l = map (fun w => (H, w)) (R H)) as ->.
  { rewrite ER. specialize (Hrun (f1 + f2)%nat ltac:(lia)). rewrite Ef in Hrun. cbn [rbind] in Hrun. rewrite Hf1 in Hrun by lia. cbn [rbind] in Hrun. congruence. }
  destruct (reduced_sound cwa Gf (Z.to_nat n) HPf Hcne Hplain ltac:(lia)) as [Hrn Hrs].
  exists Gt, Gf, num. split; auto. split; auto. split; [|split; [exact Hsound|split; [|split; [|split]]]].
  - intros v. unfold count_conc. rewrite map_map. rewrite (map_ext (fun x => Z.to_nat (Z.of_nat x)) (fun x => x)), map_id by (intros; apply Nat2Z.id).
    rewrite map_map. cbn beta. fold (zeros c). rewrite decos_ok. cbn [rbind]. rewrite decos_counts. cbn [negb orb Nat.eqb]. apply Pt.
  - apply Hcomp. etransitivity; [apply decos_kinds|]. lia.
  - intros w Hw. rewrite ER in Hw. apply Tf, Hrs, Hw.
  - rewrite ER. auto.
  - intros v draw shuffled x Hsh.
    assert (forall fuel, enum_sys v draw rnd shuffled fuel Gf (length bas) c (zeros c) x false false =
      brancher (map (multiplicity site_eqb cwa) (first_occurrences site_eqb cwa)) Gf cwa 6 false (Z.to_nat n) false rnd fuel
        (if Z.of_nat x <? Z.of_nat num then SList (firstn x (shuffled (range_up 1 (Z.of_nat num + 1)))) else SList [])) as Eq.
    { intros fuel. unfold enum_sys. replace (sum_nat c / length bas)%nat with (Z.to_nat n).
      2:{ replace (sum_nat c) with (Z.to_nat n * length bas)%nat by nia. rewrite Nat.div_mul; lia. }
      destruct (Nat.eqb_spec (length bas) 0); [lia|]. rewrite decos_ok. cbn [rbind]. rewrite decos_counts. unfold plan. rewrite Em. cbn [rbind].
      assert (skip_count m 0 (sum_nat c) x = false) as Hskip.
      { unfold skip_count. cbn [negb Nat.eqb andb]. rewrite orb_false_r. destruct (Z.ltb_spec 100000 m); [lia|auto]. }
      rewrite Hskip. cbn [Nat.eqb negb]. rewrite Pf. cbn [rbind].
      destruct (Nat.eqb_spec (length c) 1); [lia|]. destruct (Z.ltb_spec 100000 m); [lia|]. cbn [orb andb].
      destruct (Z.of_nat x <? Z.of_nat num); [|auto]. destruct (Z.ltb_spec (Z.of_nat num) 1000000); [auto|lia]. }
    assert (length (R H) <= num)%nat as Hrl.
    { rewrite ER. apply NoDup_incl_length; auto. intros w Hw. apply Hrs; auto. }
    destruct (Z.ltb_spec (Z.of_nat x) (Z.of_nat num)) as [Hlt|Hge].
    + destruct (Nat.eq_dec x 0) as [->|Hx].
      * exists (R H), f0. split; [intros fuel Hfu; rewrite Eq, ER; apply Hf0; auto|]. split; [apply subseq_refl|]. split; [lia|auto].
      * destruct (sample_spec shuffled Hsh x (Z.of_nat num) ltac:(lia) ltac:(lia)) as [S1 [S2 [S3 S4]]].
        destruct (super_sub cwa Gf (Z.to_nat n) HPf Hcne Hplain ltac:(lia) _ 6 rnd S1) as [l [f3 [H3 [H4 [H5 H6]]]]].
        exists l, f3. split; [intros fuel Hfu; rewrite Eq; apply H3; auto|]. rewrite ER. split; auto. split; [rewrite S3 in H5; auto|]. lia.
    + exists (R H), f0. split; [intros fuel Hfu; rewrite Eq, ER; apply Hf0; auto|]. split; [apply subseq_refl|]. split; [lia|auto].
Qed.
End System.

(** ** What the program does with an enum.in *)
(** The lines of an enum.in that the run can meet: matrices and compositions of the run, any number. *)
Definition are_asked (su : setup) (asked : list (list Z * list Z * Z)) : Prop :=
  NoDup (map fst asked) /\ forall h c x, In (h, c, x) asked -> 0 <= x /\ exists s H, In s (run_sizes su) /\ In H (run_hnfs su s) /\ h = six H /\ In c (run_concs su s).
(** The rows of a file: the matrix, and the species of the sites. *)
Definition row_of (s : structure) : list Z * config := (six (sHNF s), Arrowed (row_sites (labeling s) (directions_of s))).
(** A row with the matrix [h] whose cell has the composition [c]. *)
Definition in_line (h c : list Z) (s : structure) : Prop :=
  sHNF s = full_HNF h /\ length (row_sites (labeling s) (directions_of s)) = sum_nat (map Z.to_nat c) /\
  forall i, (i < length c)%nat -> amount (row_sites (labeling s) (directions_of s)) (Z.of_nat i + 1) = nth i c 0.

Section Sampled.
Variables (su : setup) (v : pyversion).
Hypothesis HD : 0 < s_D su.
Hypothesis Hgb : good_basis (s_pg su) (s_D su) (s_bas su) (s_lo su) (s_hi su).
Hypothesis Hpg : forall C R, In (C, R) (s_pg su) -> unimodular C /\ orthogonal R.
Hypothesis Hgr : rotation_group (s_pg su).
Hypothesis Hdiff : NoDup (map snd (s_pg su)).
Hypothesis Hsizes : 1 <= s_lo su <= s_hi su /\ (s_species su = 2%nat /\ s_hi su * Z.of_nat (length (s_bas su)) <= 19 \/ s_species su = 3%nat /\ s_hi su * Z.of_nat (length (s_bas su)) <= 13).
Hypothesis Hplain : usable_ranges (s_species su) (ranges_of su) /\ s_arrows su = false /\ forall c, length c = s_species su -> s_na su c = map (fun _ => 0) c.
Notation pg := (s_pg su).
Notation D := (s_D su).
Notation bas := (s_bas su).
Notation k := (s_species su).
Notation R h c := (full_list pg D bas (full_HNF h) (map Z.to_nat c)).
Let HkS : (2 <= s_species su <= 3)%nat.
Proof. lia. Qed.
Let HsizesS : 1 <= s_lo su <= s_hi su /\ s_hi su * Z.of_nat (length (s_bas su)) <= 20.
Proof. lia. Qed.
Let HsizesT : 1 <= s_lo su <= s_hi su /\ (s_species su = 2%nat /\ s_hi su * Z.of_nat (length (s_bas su)) <= 20 \/ s_species su = 3%nat /\ s_hi su * Z.of_nat (length (s_bas su)) <= 15).
Proof. lia. Qed.
Lemma back_nat c : map Z.to_nat (map Z.of_nat c) = c.
Proof. rewrite map_map; transitivity (map (fun x => x) c); [apply map_ext; intros; lia|apply map_id]. Qed.

Lemma system_sample s H c rnd : In s (run_sizes su) -> In H (run_hnfs su s) -> In c (run_concs su s) -> exists Gf,
  sym_group pg D bas H false = Ok Gf /\
  sound_list pg D bas (decos (map Z.to_nat c)) H (map (fun w => (H, w)) (R (six H) c)) /\ complete_list pg D bas (decos (map Z.to_nat c)) H (map (fun w => (H, w)) (R (six H) c)) /\
  (forall w, In w (R (six H) c) -> Permutation w (decos (map Z.to_nat c))) /\ NoDup (R (six H) c) /\
  forall draw shuffled x, (forall l : list Z, Permutation (shuffled l) l) -> 0 <= x -> exists l fuel0,
    (forall fuel, (fuel0 <= fuel)%nat -> enum_sys v draw rnd shuffled fuel Gf (length bas) (map Z.to_nat c) (s_na su c) (Z.to_nat x) false false = Ok l) /\
    subseq l (R (six H) c) /\ (0 < x -> Z.of_nat (length l) <= x) /\ (x = 0 \/ run_count su v (six H) c <= x -> l = R (six H) c).
Proof.
  intros Hs HH Hc. destruct (concs_facts su Hgb HkS HsizesS Hplain s c Hs Hc) as [c' [-> [Hl E]]]. destruct (hnfs_facts su HD Hgb Hpg Hgr HkS HsizesS Hplain s Hs) as [_ [Hf _]]. specialize (Hf H HH). pose proof Hs as Hs'. apply (in_sizes su HkS) in Hs'.
  assert (1 <= s /\ s * Z.of_nat (length bas) <= s_hi su * Z.of_nat (length bas)) as Hr1 by (pose proof (gb_pos _ _ _ _ _ Hgb); nia).
  assert (s * Z.of_nat (length bas) <= 20) as Hr2 by (destruct Hr1, HsizesS; eapply Z.le_trans; eauto).
  assert (exists m, NumericsModel.multinomial (map Z.of_nat c') = Ok m /\ m <= 100000) as Hfew by (apply few_colourings; lia).
  destruct (one_sample pg D bas _ _ HD Hpg Hgr Hdiff Hgb s c' (conj (proj1 Hr1) (conj Hs' Hr2)) ltac:(lia) E Hfew H rnd Hf) as [Gt [Gf [num [Et [Ef [Hcount [Hsound [Hcomp [Hp [Hnd Hrun]]]]]]]]]].
  rewrite back_nat, (six_full s H Hf).
  assert (count_conc v (s_na su) (map Z.of_nat c') Gt = Ok (Z.of_nat num, Gt)) as Ec by (rewrite <- (Hcount v); unfold count_conc; destruct Hplain as [_ [_ ->]]; [auto|rewrite map_length; auto]).
  assert (run_count su v (six H) (map Z.of_nat c') = Z.of_nat num) as En by (unfold run_count; rewrite (six_full s H Hf), Et; cbn [rbind]; rewrite Ec; auto).
  exists Gf. repeat (split; [auto; fail|]). intros draw shuffled x Hsh Hx. destruct (Hrun v draw shuffled (Z.to_nat x) Hsh) as [l [f0 [H1 [H2 [H3 H4]]]]].
  exists l, f0. split; [|split; auto; split; [lia|rewrite En; intros K; apply H4; lia]].
  intros fuel Hfu. destruct Hplain as [_ [_ ->]]; [|rewrite map_length; auto]. rewrite map_map. apply H1. auto.
Qed.

(** *** The lines *)
Definition sample_line (y : list Z * list Z * Z) (e : list Z * list config) : Prop :=
  fst e = fst (fst y) /\ exists l, snd e = map Arrowed l /\ subseq l (R (fst (fst y)) (snd (fst y))) /\ (0 < snd y -> Z.of_nat (length l) <= snd y) /\
    (snd y = 0 \/ run_count su v (fst (fst y)) (snd (fst y)) <= snd y -> l = R (fst (fst y)) (snd (fst y))).
Lemma sample_lines_ok draw rnd shuffled asked : (forall i (l : list Z), Permutation (shuffled i l) l) -> are_asked su asked ->
  exists found fuel0, (forall fuel, (fuel0 <= fuel)%nat -> enum_lines v draw rnd shuffled fuel su false false asked = Ok found) /\ Forall2 sample_line asked found.
Proof.
  intros Hsh [_ Hask]. unfold enum_lines.
  set (step := fun (y : nat * (list Z * list Z * Z)) (fuel : nat) =>
    let '(i, (h, c, num)) := y in
    do G <- sym_group pg D (s_bas su) (full_HNF h) (s_arrows su);
    do configs <- enum_sys v (draw i) (rnd i) (shuffled i) fuel G (length (s_bas su)) (map Z.to_nat c) (s_na su c) (Z.to_nat num) false false;
    Ok (h, map Arrowed configs)).
  assert (forall y, In y (combine (seq 0 (length asked)) asked) -> exists l fuel0, (forall fuel, (fuel0 <= fuel)%nat -> step y fuel = Ok (fst (fst (snd y)), map Arrowed l)) /\
    sample_line (snd y) (fst (fst (snd y)), map Arrowed l)) as Hstep.
  { intros [i [[h c] x]] Hy. apply in_combine_r in Hy. apply Hask in Hy. destruct Hy as [Hx [s [H [Hs [HH [-> Hc]]]]]].
    destruct (system_sample s H c (rnd i) Hs HH Hc) as [Gf [Ef [_ [_ [_ [_ Hrun]]]]]]. destruct (Hrun (draw i) (shuffled i) x (Hsh i) Hx) as [l [f0 [H1 [H2 [H3 H4]]]]].
    destruct (hnfs_facts su HD Hgb Hpg Hgr HkS HsizesS Hplain s Hs) as [_ [Hf _]]. pose proof (six_full s H (Hf H HH)) as E6.
    exists l, f0. split.
    - intros fuel Hfu. unfold step. rewrite E6. destruct Hplain as [_ [-> _]]. rewrite Ef. cbn [rbind length]. rewrite H1 by auto. auto.
    - split; auto. exists l. cbn [fst snd]. auto. }
  destruct (rmap_each step (combine (seq 0 (length asked)) asked)) with (P := fun (y : nat * (list Z * list Z * Z)) e => sample_line (snd y) e) as [found [f0 [HF Hrun]]].
  { intros y Hy. destruct (Hstep y Hy) as [l [f0 [H1 _]]]. eauto. }
  { intros y b f0 Hy Hr. destruct (Hstep y Hy) as [l [f1 [H1 H2]]]. specialize (Hr (f0 + f1)%nat ltac:(lia)). rewrite H1 in Hr by lia. injection Hr as <-. auto. }
  exists found, f0. split; [|apply (Forall2_combine sample_line (seq 0 (length asked))); auto; apply seq_length].
  intros fuel Hfu. rewrite <- (Hrun fuel Hfu). f_equal.
Qed.

(** *** The rows are some of the rows of a full run *)
Lemma full_run : exists systems found, are_systems su v systems /\ NoDup (map fst systems) /\ Forall2 (good_line su) systems found /\
  forall s H c w, In s (run_sizes su) -> In H (run_hnfs su s) -> In c (run_concs su s) -> In w (R (six H) c) -> In (six H, Arrowed w) (listed found).
Proof.
  destruct (enum_in_ok su v HD Hgb Hpg Hgr Hdiff HkS HsizesS Hplain [] (fun l => l) (fun _ => false)) as [text [systems [_ [_ [Hnd Hsys]]]]]; [auto|constructor|intros f []|].
  set (line := fun y : list Z * list Z * Z => (fst (fst y), map Arrowed (R (fst (fst y)) (snd (fst y))))).
  exists systems, (map line systems). split; auto. split; auto. split.
  - assert (forall ys, (forall y, In y ys -> In y systems) -> Forall2 (good_line su) ys (map line ys)) as Hg; [|apply Hg; auto].
    induction ys as [|[[h c] x] ys IH]; intros Hin; cbn [map]; constructor; [|apply IH; intros; apply Hin; cbn; auto].
    destruct (proj1 (Hsys h c x) (Hin _ (or_introl eq_refl))) as [s [H [Hs [HH [-> [Hc _]]]]]]. destruct (system_sample s H c (fun _ => false) Hs HH Hc) as [Gf [_ [K1 [K2 [K3 _]]]]].
    destruct (hnfs_facts su HD Hgb Hpg Hgr HkS HsizesS Hplain s Hs) as [_ [Hf _]]. pose proof (six_full s H (Hf H HH)) as E6.
    split; [auto|]. exists (R (six H) c). cbn [fst snd line]. split; auto. rewrite E6 in *. auto.
  - intros s H c w Hs HH Hc Hw. unfold listed. apply in_flat_map. exists (line (six H, c, run_count su v (six H) c)). split; [|cbn [line fst snd]; apply in_map, in_map; auto].
    apply in_map. apply Hsys. exists s, H. auto.
Qed.

Section Lines.
Variables (asked : list (list Z * list Z * Z)) (found : list (list Z * list config)).
Hypothesis Hask : are_asked su asked.
Hypothesis HF : Forall2 sample_line asked found.
Lemma sample_row r : In r (listed found) -> exists h c x s H w, In (h, c, x) asked /\ In s (run_sizes su) /\ In H (run_hnfs su s) /\ h = six H /\ In c (run_concs su s) /\ r = (h, Arrowed w) /\ In w (R h c).
Proof.
  intros Hr. unfold listed in Hr. apply in_flat_map in Hr. destruct Hr as [[h cs] [He Hr]]. apply in_map_iff in Hr. destruct Hr as [cfg [<- Hcfg]].
  assert (exists y, In y asked /\ sample_line y (h, cs)) as [[[h' c] x] [Hy [E1 [l [E2 [Hl _]]]]]].
  { clear - HF He. induction HF as [|y e ys es H HF' IH]; [destruct He|]. destruct He as [->|He]; [exists y; cbn; auto|]. destruct (IH HF' He) as [y' [A B]]. exists y'. cbn; auto. }
  cbn [fst snd] in *. subst h'. destruct (proj2 Hask h c x Hy) as [_ [s [H [Hs [HH [-> Hc]]]]]]. rewrite E2 in Hcfg. apply in_map_iff in Hcfg. destruct Hcfg as [w [<- Hw]].
  exists (six H), c, x, s, H, w. do 6 (split; auto). eapply subseq_In; eauto.
Qed.
Lemma same_species c c' d : length c = length c' -> Permutation d (decos c) -> Permutation d (decos c') -> c = c'.
Proof.
  intros Hl H1 H2. apply (plain_sites_inj su HkS); auto. apply Permutation_trans with (decos c); [apply Permutation_sym, decos_perm|]. apply Permutation_trans with d; [apply Permutation_sym; auto|]. apply Permutation_trans with (decos c'); auto. apply decos_perm.
Qed.
Lemma line_keys s H c s' H' c' w : In s (run_sizes su) -> In H (run_hnfs su s) -> In c (run_concs su s) -> In s' (run_sizes su) -> In H' (run_hnfs su s') -> In c' (run_concs su s') ->
  six H = six H' -> In w (R (six H) c) -> In w (R (six H') c') -> c = c'.
Proof.
  intros Hs HH Hc Hs' HH' Hc' _ Hw Hw'. destruct (system_sample s H c (fun _ => false) Hs HH Hc) as [_ [_ [_ [_ [K3 _]]]]]. destruct (system_sample s' H' c' (fun _ => false) Hs' HH' Hc') as [_ [_ [_ [_ [K3' _]]]]].
  destruct (concs_facts su Hgb HkS HsizesS Hplain s c Hs Hc) as [d [-> [Ld _]]]. destruct (concs_facts su Hgb HkS HsizesS Hplain s' c' Hs' Hc') as [d' [-> [Ld' _]]].
  rewrite back_nat in K3, K3'. f_equal. apply (same_species d d' w); [congruence|apply K3; auto|apply K3'; auto]. all: rewrite back_nat in *; auto.
Qed.
Lemma sampled_NoDup : NoDup (listed found).
Proof.
  unfold listed. destruct Hask as [Hnd Hin].
  assert (forall ys es, Forall2 sample_line ys es -> NoDup (map fst ys) -> (forall y, In y ys -> In y asked) -> NoDup (flat_map (fun '(h, cs) => map (pair h) cs) es) /\
    forall r, In r (flat_map (fun '(h, cs) => map (pair h) cs) es) -> exists y w, In y ys /\ r = (fst (fst y), Arrowed w) /\ In w (R (fst (fst y)) (snd (fst y)))) as Hgen; [|apply (Hgen asked found); auto].
  intros ys es HF'. induction HF' as [|[[h c] x] [h' cs] ys es [E1 [l [E2 [Hl _]]]] HF' IH]; intros Hn Hi; [split; [constructor|intros r []]|].
  cbn [fst snd map] in *. subst h' cs. inversion Hn as [|? ? Hnot Hn']; subst. destruct (IH Hn' ltac:(intros; apply Hi; cbn; auto)) as [I1 I2]. cbn [flat_map].
  destruct (Hin h c x ltac:(apply Hi; cbn; auto)) as [_ [s [H [Hs [HH [-> Hc]]]]]]. destruct (system_sample s H c (fun _ => false) Hs HH Hc) as [_ [_ [_ [_ [K3 [K4 _]]]]]].
  split.
  - apply NoDup_app_intro; auto.
    + rewrite map_map. apply NoDup_map_inj; [intros a b _ _ E; congruence|]. eapply subseq_NoDup'; eauto.
    + intros r Hr Hr'. rewrite map_map in Hr. apply in_map_iff in Hr. destruct Hr as [w [<- Hw]]. destruct (I2 _ Hr') as [[[h2 c2] x2] [w' [Hy [E Hw']]]]. cbn [fst snd] in *. injection E as <- <-.
      destruct (Hin _ _ _ (Hi _ (or_intror Hy))) as [_ [s2 [H2 [Hs2 [HH2 [E6 Hc2]]]]]]. apply Hnot. apply in_map_iff. exists (six H, c2, x2). split; auto. cbn [fst]. f_equal. symmetry.
      rewrite E6 in Hw'. apply (line_keys s H c s2 H2 c2 w); auto. eapply subseq_In; eauto.
  - intros r Hr. apply in_app_iff in Hr. destruct Hr as [Hr|Hr].
    + rewrite map_map in Hr. apply in_map_iff in Hr. destruct Hr as [w [<- Hw]]. exists (six H, c, x), w. cbn [fst snd]. split; [left; auto|]. split; auto. eapply subseq_In; eauto.
    + destruct (I2 r Hr) as [y [w [A B]]]. exists y, w. split; [right; auto|auto].
Qed.
Lemma sampled_facts : (forall r, In r (listed found) -> exists f, row_means su r f) /\
  (forall r f, In r (listed found) -> row_means su r f -> run_structures D bas k (s_lo su) (s_hi su) (ranges_of su) f /\ primitive D bas (full_HNF (fst r)) f) /\
  ForallOrdPairs (fun a b => forall f g, row_means su a f -> row_means su b g -> ~ same_structure pg D bas f g) (listed found) /\
  Z.of_nat (length (listed found)) < 10 ^ 10.
Proof.
  destruct full_run as [systems [full [Hsys [Hnd [HG Hfull]]]]]. pose proof (catalogue_found su v HD Hgb Hpg Hgr HkS HsizesS Hplain systems full Hsys Hnd HG) as [C1 [C2 [C3 C4]]].
  assert (incl (listed found) (listed full)) as Hincl.
  { intros r Hr. destruct (sample_row r Hr) as [h [c [x [s [H [w [_ [Hs [HH [-> [Hc [-> Hw]]]]]]]]]]]]. eapply Hfull; eauto. }
  split; [intros r Hr; apply C1; auto|]. split; [|split].
  - intros r f Hr Hm. split; [apply (C2 r); auto|]. destruct (listed_line su systems full r HG (Hincl r Hr)) as [y [e [lw [Hy [He [Hg [E3 [w [Hw Er]]]]]]]]]. subst r. cbn [fst].
    destruct (line_wanted su v HD Hgb Hpg Hgr HkS HsizesS Hplain systems y e (fst e, Arrowed w) f Hsys Hy Hg) as [s' [H [Hs' [HH [E1 [Hc [Pf _]]]]]]]; auto.
    + destruct e as [h cs]. cbn [fst snd] in *. rewrite E3. apply in_map, in_map. auto.
    + assert (full_HNF (fst e) = H) as ->; auto. destruct Hg as [E _]. rewrite E, E1. apply (six_full s'). destruct (hnfs_facts su HD Hgb Hpg Hgr HkS HsizesS Hplain s' Hs') as [_ [Hf _]]. auto.
  - pose proof sampled_NoDup as Hn. revert Hincl Hn. generalize (listed found). clear - C2 C4 Hpg Hgr. induction l as [|a l IH]; intros Hi Hn; constructor.
    + inversion Hn as [|? ? Hna _]; subst. apply Forall_forall. intros b Hb f g Hf Hg Hsame.
      destruct (ForallOrdPairs_In C4 a b (Hi _ (or_introl eq_refl)) (Hi _ (or_intror Hb))) as [E|[K|K]]; [subst; auto|apply (K f g); auto|apply (K g f); auto].
      destruct (C2 a f (Hi _ (or_introl eq_refl)) Hf) as [Nf _]. destruct (C2 b g (Hi _ (or_intror Hb)) Hg) as [Ng _]. apply same_structure_sym; auto; intros x Hx; [apply Nf|apply Ng]; auto.
    + inversion Hn; subst. apply IH; auto. intros x Hx. apply Hi. right; auto.
  - pose proof (rows_few su v HD Hgb Hpg Hgr HsizesT Hplain systems full Hsys Hnd HG). pose proof (NoDup_incl_length sampled_NoDup Hincl). lia.
Qed.
Lemma rows_where : forall ys es, Forall2 sample_line ys es -> forall r, In r (listed es) -> exists y w, In y ys /\ r = (fst (fst y), Arrowed w) /\ In w (R (fst (fst y)) (snd (fst y))).
Proof.
  intros ys es HF'. induction HF' as [|[[h c] x] [h' cs] ys es [E1 [l [E2 [Hl _]]]] HF' IH]; intros r Hr; [destruct Hr|]. cbn [fst snd] in *. subst h' cs. unfold listed in Hr. cbn [flat_map] in Hr. apply in_app_iff in Hr. destruct Hr as [Hr|Hr].
  - rewrite map_map in Hr. apply in_map_iff in Hr. destruct Hr as [w [<- Hw]]. exists (h, c, x), w. cbn [fst snd]. split; [left; auto|]. split; auto. eapply subseq_In; eauto.
  - destruct (IH r Hr) as [y [w [A B]]]. exists y, w. split; [right; auto|auto].
Qed.
Lemma asked_keys h c x h' c' x' w : In (h, c, x) asked -> In (h', c', x') asked -> h = h' -> In w (R h c) -> In w (R h' c') -> c = c'.
Proof.
  intros Hy Hy' E Hw Hw'. destruct (proj2 Hask h c x Hy) as [_ [s [H [Hs [HH [E6 Hc]]]]]]. destruct (proj2 Hask h' c' x' Hy') as [_ [s' [H' [Hs' [HH' [E6' Hc']]]]]].
  rewrite E6 in Hw. rewrite E6' in Hw'. apply (line_keys s H c s' H' c' w); auto. congruence.
Qed.
Lemma line_rows h c x : In (h, c, x) asked -> exists lw, (0 < x -> Z.of_nat (length lw) <= x) /\ forall w, In (h, Arrowed w) (listed found) -> In w (R h c) -> In w lw.
Proof.
  destruct Hask as [Hnd _]. assert (forall ys es, Forall2 sample_line ys es -> NoDup (map fst ys) -> (forall y, In y ys -> In y asked) -> In (h, c, x) ys ->
    exists lw, (0 < x -> Z.of_nat (length lw) <= x) /\ forall w, In (h, Arrowed w) (listed es) -> In w (R h c) -> In w lw) as Hgen; [|apply (Hgen asked found); auto].
  intros ys es HF'. induction HF' as [|[[h1 c1] x1] [h' cs] ys es Hl1 HF' IH]; intros Hn Hi Hy; [destruct Hy|].
  pose proof Hl1 as [E1 [l [E2 [Hl [Hle _]]]]]. cbn [fst snd map] in *. subst h' cs. inversion Hn as [|? ? Hnot Hn']; subst. destruct Hy as [E|Hy].
  - injection E as -> -> ->. exists l. split; auto. intros w Hw HR. unfold listed in Hw. cbn [flat_map] in Hw. apply in_app_iff in Hw. destruct Hw as [Hw|Hw].
    + rewrite map_map in Hw. apply in_map_iff in Hw. destruct Hw as [w' [E Hw]]. congruence.
    + exfalso. destruct (rows_where ys es HF' _ Hw) as [[[h2 c2] x2] [w' [Hy2 [E Hw']]]]. cbn [fst snd] in *. injection E as <- <-. apply Hnot. apply in_map_iff. exists (h, c2, x2). split; auto. cbn [fst]. f_equal.
      apply (asked_keys h c2 x2 h c x w); auto; apply Hi; [right; auto|left; auto].
  - destruct (IH Hn' ltac:(intros; apply Hi; right; auto) Hy) as [lw [A B]]. exists lw. split; auto. intros w Hw HR. unfold listed in Hw. cbn [flat_map] in Hw. apply in_app_iff in Hw. destruct Hw as [Hw|Hw]; [|apply B; auto].
    exfalso. rewrite map_map in Hw. apply in_map_iff in Hw. destruct Hw as [w' [E Hw]]. injection E as -> ->. apply Hnot. apply in_map_iff. exists (h, c, x). split; auto. cbn [fst]. f_equal.
    apply (asked_keys h c x h c1 x1 w); auto; [apply Hi; right; auto|apply Hi; left; auto|eapply subseq_In; eauto].
Qed.
Lemma sample_row_facts h cf : In (h, cf) (listed found) -> exists s H w, In s (run_sizes su) /\ In H (run_hnfs su s) /\ h = six H /\ cf = Arrowed w /\ length w = (length bas * Z.to_nat s)%nat /\
  forall a x, In (a, x) w -> a = -1 /\ 1 <= x <= Z.of_nat k.
Proof.
  intros Hin. destruct (sample_row _ Hin) as [h' [c [x [s [H [w [_ [Hs [HH [Eh [Hc [E Hw]]]]]]]]]]]]. injection E as -> ->. subst h'. exists s, H, w. do 4 (split; auto).
  destruct (system_sample s H c (fun _ => false) Hs HH Hc) as [_ [_ [_ [_ [K3 _]]]]]. pose proof (K3 w Hw) as Hp. destruct (concs_facts su Hgb HkS HsizesS Hplain s _ Hs Hc) as [c' [Ec [Lc Sc]]]. rewrite Ec, back_nat in Hp.
  split; [rewrite (Permutation_length Hp), decos_length; lia|]. intros a y Hi. apply (Permutation_in _ Hp) in Hi. apply (decos_species su HkS) in Hi. cbn [fst snd] in Hi. rewrite Lc in Hi. auto.
Qed.
Lemma sample_systems h cs : In (h, cs) found -> is_hnf h /\ mdet (full_HNF h) <= 20 /\ 1 <= mdet (full_HNF h) /\ Forall nonempty cs.
Proof.
  intros He.
  assert (exists y, In y asked /\ sample_line y (h, cs)) as [[[h' c] x] [Hy [E1 [l [E2 [Hl _]]]]]].
  { clear - HF He. induction HF as [|y e ys es H HF' IH]; [destruct He|]. destruct He as [->|He]; [exists y; cbn; auto|]. destruct (IH HF' He) as [y' [A B]]. exists y'. cbn; auto. }
  cbn [fst snd] in *. subst h'. destruct (proj2 Hask h c x Hy) as [_ [s [H [Hs [HH [-> Hc]]]]]].
  destruct (hnfs_facts su HD Hgb Hpg Hgr HkS HsizesS Hplain s Hs) as [_ [Hf _]]. specialize (Hf H HH). rewrite (six_full s H Hf). pose proof Hs as Hs'. apply (in_sizes su HkS) in Hs'. pose proof (hi20 su Hgb HsizesT) as H20. pose proof (nb1 su Hgb) as Hnb1.
  rewrite (find_det s H) by (auto; lia). split; [apply (six_hnf s); auto; lia|]. split; [lia|]. split; [lia|].
  apply Forall_forall. intros cf Hcf. rewrite E2 in Hcf. apply in_map_iff in Hcf. destruct Hcf as [w [<- Hw]].
  destruct (sample_row_facts (six H) (Arrowed w)) as [s2 [H2 [w2 [Hs2 [_ [_ [Ew [Lw _]]]]]]]].
  { unfold listed. apply in_flat_map. exists (six H, cs). split; auto. rewrite E2. apply in_map, in_map. auto. }
  injection Ew as <-. apply (in_sizes su HkS) in Hs2. intros ->. cbn in Lw. nia.
Qed.
Lemma sampled_read p : good_params p -> asked <> [] -> exists file structs, enum_out_file p found = Ok file /\ read_enum_out file None = Ok (system_of p, structs) /\
  Permutation (map row_of structs) (listed found) /\ (forall s f, In s structs -> row_means su (row_of s) f <-> row_says D bas s f) /\
  (forall s, In s structs -> sHNF s = full_HNF (fst (row_of s))) /\
  (forall s, In s structs -> makeable_for (length bas) k (s_lo su) (s_hi su) s) /\ forall i s, nth_error structs i = Some s -> strN s = Z.of_nat i + 1.
Proof.
  intros Hp Hne. assert (found <> []) as Hne' by (intros E; apply Hne; rewrite E in HF; inversion HF; auto).
  destruct (C33_written p found Hne') as [file Efile].
  { apply Forall_forall. intros [h cs] Hin. destruct (sample_systems h cs Hin) as [_ [A [B C]]]. split; auto. cbn [fst]. lia. }
  destruct (C32_up_to_30_cells p found file Hp) as [l [HP [_ [structs [Er [Hlen [Hrow _]]]]]]]; auto.
  { intros h cs Hin. destruct (sample_systems h cs Hin) as [A [B [_ C]]]. split; auto. split; [lia|auto]. }
  { apply sampled_facts. }
  exists file, structs. split; auto. split; auto.
  assert (forall i r s, nth_error l i = Some r -> nth_error structs i = Some s -> r = row_of s /\ sHNF s = full_HNF (fst r) /\ (forall f, row_means su r f <-> row_says D bas s f) /\ makeable_for (length bas) k (s_lo su) (s_hi su) s) as Hsame.
  { intros i [h c] s Er' Es'. destruct (Hrow i s Es') as [h' [c' [E [_ [_ [_ [_ [_ [_ [_ [_ [EH [[M [R' [ES Ed]]] Elab]]]]]]]]]]]]]. rewrite Er' in E. assert (h' = h /\ c' = c) as [-> ->] by (split; congruence).
    assert (In (h, c) (listed found)) as Hin by (apply (Permutation_in _ HP), (nth_error_In _ _ Er')).
    destruct (sample_row_facts h c Hin) as [sz [H [w [Hs [HH [-> [-> [Lw Hw]]]]]]]].
    destruct (hnfs_facts su HD Hgb Hpg Hgr HkS HsizesS Hplain sz Hs) as [_ [Hf _]]. specialize (Hf H HH). pose proof (six_full sz H Hf) as EH2.
    assert (row_sites (labeling s) (directions_of s) = w) as Ew by (apply labels_say; auto; intros a x Hi; destruct (Hw a x Hi) as [-> Hx]; lia).
    split; [unfold row_of; rewrite EH, EH2, Ew; auto|]. split; auto. split; cycle 1.
    { pose proof Hs as Hs'. apply (in_sizes su HkS) in Hs'. pose proof (find_det sz H ltac:(lia) Hf) as Edet.
      exists w. rewrite Ew. rewrite EH, EH2. split; [|split; [auto|split]].
      - rewrite EH2 in *. unfold MakeStrSpec.row_for. split; [destruct (Hrow i s Es') as [h1 [c1 [E1 [_ [_ [Ec _]]]]]]; rewrite Er' in E1; congruence|]. split; auto. split; [eauto|]. split; auto. cbn [MakeStrSpec.decorated]. rewrite Edet, Lw. split; [lia|].
        intros a x Hi. destruct (Hw a x Hi) as [-> Hx]. lia.
      - destruct (proj1 (six_hnf sz H ltac:(lia) Hf)) as [a [b [c0 [d [e [f0 [E6 Hr]]]]]]]. exists a, b, c0, d, e, f0. split; auto. rewrite <- EH2, E6. reflexivity.
      - lia. }
    intros f. unfold row_means, row_says, means. cbn [fst snd]. rewrite Ew, Ed. split.
    - intros [w' [E' [M' [L' [B' [ES' Hd]]]]]]. rewrite ES in ES'. assert (w' = w /\ M' = M /\ L' = sL s) as [-> [-> ->]] by (split; [|split]; congruence). auto.
    - intros Hd. exists w. split; auto. exists M, (sL s), R'. auto. }
  assert (map row_of structs = l) as Emap.
  { clear - Hsame Hlen. revert structs Hlen Hsame. induction l as [|r l IH]; intros [|s structs] Hlen Hsame; cbn in Hlen; try discriminate; auto. cbn [map]. f_equal.
    - symmetry. apply (Hsame 0%nat r s); auto.
    - apply IH; [lia|]. intros i r' s' Hr Hs. apply (Hsame (Datatypes.S i) r' s' Hr Hs). }
  assert (forall s, In s structs -> exists i, nth_error l i = Some (row_of s) /\ nth_error structs i = Some s) as Hi.
  { intros s Hs. apply In_nth_error in Hs. destruct Hs as [i Hi]. exists i. split; auto. rewrite <- Emap, nth_error_map, Hi. auto. }
  split; [rewrite Emap; auto|]. split; [|split; [|split]].
  - intros s f Hs. destruct (Hi s Hs) as [i [A B]]. apply (Hsame i _ s A B).
  - intros s Hs. destruct (Hi s Hs) as [i [A B]]. apply (Hsame i _ s A B).
  - intros s Hs. destruct (Hi s Hs) as [i [A B]]. apply (Hsame i _ s A B).
  - intros i s Hi'. destruct (Hrow i s Hi') as [? [? [_ [? _]]]]; auto.
Qed.

(** *** What is asked for, and what is found *)
(** The crystals of a line: no displacements, the matrix describes the primitive cell, which has the composition. *)
Definition of_line (h c : list Z) (f : decoration) : Prop :=
  (forall x, crystal_point D bas x -> fst (f x) = -1 /\ 1 <= snd (f x) <= Z.of_nat k) /\ primitive D bas (full_HNF h) f /\
  exists cell, contents D bas (full_HNF h) f cell /\ forall i, (i < length c)%nat -> amount cell (Z.of_nat i + 1) = nth i c 0.
Lemma amounts_perm cell c : (forall a : Z * Z, In a cell -> fst a = -1 /\ 1 <= snd a <= Z.of_nat (length c)) -> (forall i, (i < length c)%nat -> amount cell (Z.of_nat i + 1) = Z.of_nat (nth i c 0%nat)) -> Permutation cell (decos c).
Proof.
  intros H1 H2. destruct (composition su HkS cell (length c) H1) as [c' [Lc [_ Pc]]]. assert (c' = c) as ->.
  { apply nth_ext with 0%nat 0%nat; auto. intros i Hi. rewrite Lc in Hi. specialize (H2 i Hi). rewrite (amount_perm _ _ _ Pc), amount_sites in H2 by lia. lia. }
  apply Permutation_trans with (plain_sites c); auto. apply Permutation_sym, decos_perm.
Qed.
Lemma nth_back c i : nth i (map Z.of_nat c) 0 = Z.of_nat (nth i c 0%nat).
Proof. apply (map_nth Z.of_nat c 0%nat i). Qed.
Lemma line_full h c x f : In (h, c, x) asked -> x = 0 \/ run_count su v h c <= x -> of_line h c f -> exists r g, In r (listed found) /\ row_means su r g /\ same_structure pg D bas f g.
Proof.
  intros Hy Hx [Hf1 [Hf2 [cell [Hf3 Hf4]]]]. destruct (proj2 Hask h c x Hy) as [_ [s [H [Hs [HH [-> Hc]]]]]].
  destruct (hnfs_facts su HD Hgb Hpg Hgr HkS HsizesS Hplain s Hs) as [_ [Hf _]]. pose proof (six_full s H (Hf H HH)) as E6. rewrite E6 in *.
  destruct (system_sample s H c (fun _ => false) Hs HH Hc) as [_ [_ [_ [K2 _]]]]. destruct (concs_facts su Hgb HkS HsizesS Hplain s _ Hs Hc) as [c' [-> [Lc Sc]]].
  assert (Permutation cell (decos c')) as Hp.
  { apply amounts_perm; [|intros i Hi; rewrite Hf4 by (rewrite map_length; auto); apply nth_back]. intros a Ha. destruct Hf3 as [pts [[T1 _] P]]. apply Permutation_sym in P. apply (Permutation_in _ P) in Ha. apply in_map_iff in Ha. destruct Ha as [y [<- Hy2]].
    rewrite Lc. apply Hf1, T1; auto. }
  destruct (K2 f) as [[H' w] [g [Hin [Hm Hs']]]].
  { split; auto. destruct Hf3 as [pts [T P]]. exists pts. split; auto. rewrite back_nat. apply Permutation_trans with cell; auto. }
  apply in_map_iff in Hin. destruct Hin as [w' [E Hw]]. injection E as <- <-.
  exists (six H, Arrowed w'), g. split; [|split].
  - assert (exists e, In e found /\ sample_line (six H, map Z.of_nat c', x) e) as [e [He [E1 [l [E2 [_ [_ Hall]]]]]]].
    { clear - HF Hy. induction HF as [|y e ys es Hg HF' IH]; [destruct Hy|]. destruct Hy as [->|Hy]; [exists e; cbn; auto|]. destruct (IH HF' Hy) as [e' [A A']]. exists e'. cbn; auto. }
    cbn [fst snd] in *. rewrite Hall in E2 by auto. unfold listed. apply in_flat_map. exists e. split; auto. destruct e as [h cs]. cbn [fst snd] in *. rewrite E1, E2. apply in_map, in_map. auto.
  - exists w'. cbn [fst snd]. rewrite E6. auto.
  - destruct Hs' as [C [R' [t [[S1 [S2 S3]] Hc2]]]]. exists C, R', t. auto.
Qed.
Definition sampled_rows (structs : list structure) : Prop :=
  (forall s, In s structs -> exists f, row_says D bas s f) /\
  (forall s f, In s structs -> row_says D bas s f -> run_structures D bas k (s_lo su) (s_hi su) (ranges_of su) f /\ primitive D bas (sHNF s) f) /\
  ForallOrdPairs (fun s t => forall f g, row_says D bas s f -> row_says D bas t g -> ~ same_structure pg D bas f g) structs /\
  (forall s, In s structs -> exists h c x, In (h, c, x) asked /\ in_line h c s) /\
  (forall h c x, In (h, c, x) asked -> 0 < x -> forall l, NoDup l -> (forall s, In s l -> In s structs /\ in_line h c s) -> Z.of_nat (length l) <= x) /\
  (forall h c x, In (h, c, x) asked -> x = 0 \/ run_count su v h c <= x -> forall f, of_line h c f -> exists s g, In s structs /\ row_says D bas s g /\ same_structure pg D bas f g).
Lemma sampled_ok structs : Permutation (map row_of structs) (listed found) -> (forall s f, In s structs -> row_means su (row_of s) f <-> row_says D bas s f) ->
  (forall s, In s structs -> sHNF s = full_HNF (fst (row_of s))) -> sampled_rows structs.
Proof.
  intros HP Hsay Hhnf. destruct sampled_facts as [F1 [F2 [F3 _]]].
  assert (forall s, In s structs -> In (row_of s) (listed found)) as Hin by (intros s Hs; eapply Permutation_in; [exact HP|]; apply in_map; auto).
  assert (NoDup (map row_of structs)) as Hnd by (eapply Permutation_NoDup; [apply Permutation_sym; exact HP|apply sampled_NoDup]).
  assert (forall s h c x sz H w, In s structs -> In (h, c, x) asked -> In sz (run_sizes su) -> In H (run_hnfs su sz) -> h = six H -> In c (run_concs su sz) -> row_of s = (h, Arrowed w) -> In w (R h c) -> in_line h c s) as Hline.
  { intros s h c x sz H w Hs Hy Hsz HH Eh Hc Er Hw. unfold in_line. rewrite (Hhnf s Hs), Er. cbn [fst]. split; auto. unfold row_of in Er. assert (row_sites (labeling s) (directions_of s) = w) as -> by congruence.
    rewrite Eh in Hw. destruct (system_sample sz H c (fun _ => false) Hsz HH Hc) as [_ [_ [_ [_ [K3 _]]]]]. pose proof (K3 w Hw) as Hp.
    destruct (concs_facts su Hgb HkS HsizesS Hplain sz _ Hsz Hc) as [c' [-> [Lc Sc]]]. rewrite back_nat in *. split; [rewrite (Permutation_length Hp); apply decos_length|].
    intros i Hi. rewrite map_length in Hi. assert (Permutation w (plain_sites c')) as Hp2 by (apply Permutation_trans with (decos c'); auto; apply decos_perm). rewrite (amount_perm _ _ _ Hp2), amount_sites, nth_back by auto. auto. }
  split; [|split; [|split; [|split; [|split]]]].
  - intros s Hs. destruct (F1 _ (Hin s Hs)) as [f Hf]. exists f. apply Hsay; auto.
  - intros s f Hs Hf. rewrite (Hhnf s Hs). apply F2; auto. apply Hsay; auto.
  - apply (FOP_perm _ _ (map row_of structs)) in F3; [|apply Permutation_sym; auto|].
    + apply FOP_map in F3. eapply FOP_impl; [|exact F3]. cbv beta. intros a b Ha Hb H f g Hf Hg. apply H; apply Hsay; auto.
    + intros a b Ha Hb H f g Hf Hg Hs. apply (H g f); auto. destruct (F2 a g Ha Hg) as [[Ng _] _]. destruct (F2 b f Hb Hf) as [[Nf _] _]. apply same_structure_sym; auto; intros y Hy; [apply Nf|apply Ng]; auto.
  - intros s Hs. destruct (sample_row _ (Hin s Hs)) as [h [c [x [sz [H [w [Hy [Hsz [HH [Eh [Hc [Er Hw]]]]]]]]]]]]. exists h, c, x. split; auto. eapply Hline; eauto.
  - intros h c x Hy Hx l Hl Hls.
    destruct (line_rows h c x Hy) as [lw [Hle Hlw]].
    specialize (Hle Hx). etransitivity; [|exact Hle]. apply inj_le. rewrite <- (map_length row_of), <- (map_length (fun w => (h, Arrowed w)) lw). apply NoDup_incl_length.
    + apply NoDup_map_inj; auto. intros a b Ha Hb E. destruct (Hls a Ha) as [Ia _], (Hls b Hb) as [Ib _]. clear - Hnd Ia Ib E. induction structs as [|s l IH]; [destruct Ia|]. inversion Hnd as [|? ? Hn Hnd']; subst.
      destruct Ia as [->|Ia], Ib as [->|Ib]; auto; exfalso; apply Hn; [rewrite E|rewrite <- E]; apply in_map; auto.
    + intros r Hr. apply in_map_iff in Hr. destruct Hr as [s [<- Hs]]. destruct (Hls s Hs) as [Is [L1 [L2 L3]]].
      destruct (sample_row _ (Hin s Is)) as [h2 [c2 [x2 [sz [H [w [Hy2 [Hsz [HH [Eh [Hc [Er Hw]]]]]]]]]]]].
      destruct (proj2 Hask h c x Hy) as [_ [sz1 [H1 [Hsz1 [HH1 [Eh1 Hc1]]]]]].
      destruct (hnfs_facts su HD Hgb Hpg Hgr HkS HsizesS Hplain sz Hsz) as [_ [Hf _]]. specialize (Hf H HH). destruct (hnfs_facts su HD Hgb Hpg Hgr HkS HsizesS Hplain sz1 Hsz1) as [_ [Hf1 _]]. specialize (Hf1 H1 HH1).
      assert (h2 = h) as ->.
      { unfold row_of in Er. assert (six (sHNF s) = h2) as <- by congruence. rewrite L1, Eh1, (six_full sz1 H1 Hf1). auto. }
      assert (row_sites (labeling s) (directions_of s) = w) as Erw by (unfold row_of in Er; congruence). rewrite Erw in L3.
      assert (c2 = c) as ->.
      { pose proof (Hline s h c2 x2 sz H w Is Hy2 Hsz HH Eh Hc Er Hw) as [_ [_ L3']]. rewrite Erw in L3'. destruct (concs_facts su Hgb HkS HsizesS Hplain sz _ Hsz Hc) as [d2 [-> [Ld2 _]]]. destruct (concs_facts su Hgb HkS HsizesS Hplain sz1 _ Hsz1 Hc1) as [d1 [-> [Ld1 _]]].
        rewrite !map_length in *. apply nth_ext with 0 0; [rewrite !map_length; congruence|]. intros i Hi. rewrite map_length in Hi. rewrite <- L3, <- L3' by (rewrite ?Ld1, ?Ld2 in *; auto). auto. }
      rewrite Er. apply (in_map (fun w => (h, Arrowed w))). apply Hlw; auto. rewrite <- Er. apply Hin; auto.
  - intros h c x Hy Hx f Hf. destruct (line_full h c x f Hy Hx Hf) as [r [g [Hr [Hm Hsm]]]]. apply Permutation_sym in HP. apply (Permutation_in _ HP) in Hr. apply in_map_iff in Hr. destruct Hr as [s [<- Hs]].
    exists s, g. split; auto. split; auto. apply Hsay; auto.
Qed.
End Lines.
End Sampled.
