(** A run from scratch with displaced species, up to the file and back (C68). *)
From Coq Require Import Permutation.
From Verif Require Import TextModel TextProofs PyBase Spec ListFacts PermFacts TransFacts PhononsModel TreeModel HashProofs TreeSearch ArrowProofs DecoFacts EnumSysModel EnumSysProofs Mat3 HNFModel HNFProofs PolyaModel PolyaSpec ConcsModel ConcsProofs.
From Verif Require Import LatSpec LatGroupModel LatFacts LatSites LatProofs LatMain LatTop LatGroupThm LatNoDup LatFirst SNFModel SuperModel StructSpec StructProofs StructThm StructMain StructAll StructArrows PropertiesGroup PropertiesConcs.
From Verif Require Import DistModel DistSpec FilesModel FilesMain PropertiesFiles EnumOutModel EnumOutSpec EnumOutMain PropertiesEnumOut RunModel RunProofs RunSystem RunSpec RunMain RunTop RunArrowDeco RunArrowSystem RunArrowSpec RunArrowMain.
Local Open Scope Z_scope.

(** ** The same structure, backwards *)
Lemma group_inverse_both pg C R : (forall C R, In (C, R) pg -> unimodular C /\ orthogonal R) -> rotation_group pg -> In (C, R) pg -> exists C' R', In (C', R') pg /\ mmul C C' = mid /\ mmul R R' = mid.
Proof.
  intros Hpg [Hid Hcl] Hin. set (l := nodup ops_dec pg).
  assert (forall g, In g l <-> In g pg) as Hl by (intros g; apply nodup_In).
  assert (NoDup (map (fun g : mat * mat => (mmul C (fst g), mmul R (snd g))) l)) as Hnd.
  { apply NoDup_map_inj; [|apply NoDup_nodup]. intros [A S] [A' S'] _ _ E. cbn [fst snd] in E. assert (mmul C A = mmul C A') as E1 by congruence. assert (mmul R S = mmul R S') as E2 by congruence.
    destruct (Hpg C R Hin) as [HC HR]. f_equal; [apply (mat_cancel C); auto|].
    rewrite <- (mmul_id_l S), <- (mmul_id_l S'), <- (proj2 HR), !mmul_assoc, E2. auto. }
  assert (incl l (map (fun g : mat * mat => (mmul C (fst g), mmul R (snd g))) l)) as Hincl.
  { apply NoDup_length_incl; auto; [rewrite map_length; lia|]. intros g Hg. apply in_map_iff in Hg. destruct Hg as [[A S] [<- HA]]. apply Hl. apply Hl in HA. apply Hcl; auto. }
  specialize (Hincl (mid, mid) (proj2 (Hl _) Hid)). apply in_map_iff in Hincl. destruct Hincl as [[C' R'] [E HC']]. cbn [fst snd] in E. exists C', R'. split; [apply Hl; auto|]. split; congruence.
Qed.
Lemma rotated_back R R' a b : mmul R R' = mid -> orthogonal R -> rotated R a b -> rotated R' b a.
Proof.
  intros E HR [E1 H]. assert (mmul R' R = mid) as E'.
  { assert (R' = transpose R) as ->; [|apply HR]. rewrite <- (mmul_id_l R'), <- (proj2 HR), mmul_assoc, E, mmul_id_r. auto. }
  split; [congruence|]. destruct (has_arrow a) eqn:Ea.
  - destruct H as [Hb H]. rewrite Hb. split; auto. rewrite H, <- mvec_mmul, E', mvec_id. auto.
  - assert (has_arrow b = false) as -> by (unfold has_arrow in *; rewrite H; auto). congruence.
Qed.
Lemma same_displaced_sym pg D bas f g : (forall C R, In (C, R) pg -> unimodular C /\ orthogonal R) -> rotation_group pg ->
  same_structure pg D bas f g -> same_structure pg D bas g f.
Proof.
  intros Hpg Hgr [C [R [s [HC [Hs Hc]]]]]. destruct (group_inverse_both pg C R Hpg Hgr HC) as [C' [R' [HC' [E E2]]]].
  set (t := mvec C' (vscale (-1) s)).
  assert (forall x, affine C s (affine C' t x) = x) as Ei.
  { intros x. unfold affine, t. rewrite !mvec_vadd, <- !mvec_mmul, E, !mvec_id. vec_ring. }
  exists C', R', t. split; auto. split; [intros x; rewrite (Hs (affine C' t x)), Ei; tauto|]. intros x Hx.
  apply (rotated_back R); auto; [apply (Hpg C R HC)|]. specialize (Hc (affine C' t x)). rewrite Ei in Hc. apply Hc. apply Hs. rewrite Ei. auto.
Qed.
Lemma same_displaced_refl pg D bas f : rotation_group pg -> same_structure pg D bas f f.
Proof.
  intros [Hid _]. exists mid, mid, (0, 0, 0). split; auto. split; [apply symmetry_id|]. intros x _. rewrite affine_id. split; auto. destruct (has_arrow (f x)) eqn:E; auto. split; auto. rewrite mvec_id. auto.
Qed.

Lemma nine_HNFs n : 1 <= n <= 9 -> (length (find_all_HNFs n) <= 155)%nat.
Proof.
  intros Hn. assert (forallb (fun i => (length (find_all_HNFs (Z.of_nat i)) <=? 155)%nat) (seq 1 9) = true) as H by (vm_compute; reflexivity).
  rewrite forallb_forall in H. specialize (H (Z.to_nat n)). rewrite Z2Nat.id in H by lia. apply Nat.leb_le, H. apply in_seq. lia.
Qed.

(** Some size has a composition. *)
Lemma possible_someB su : (1 <= s_species su <= 3)%nat -> 1 <= s_lo su <= s_hi su /\ s_hi su * Z.of_nat (length (s_bas su)) <= 20 ->
  good_basis (s_pg su) (s_D su) (s_bas su) (s_lo su) (s_hi su) ->
  usable_ranges (s_species su) (ranges_of su) -> possible_sites (Z.of_nat (length (s_bas su))) (s_lo su) (s_hi su) (ranges_of su) -> exists s c, In s (run_sizes su) /\ In c (run_concs su s).
Proof.
  intros Hk Hsizes Hgb Hu Hposs. pose proof Hu as Hu'. destruct (s_restricted su) eqn:Er.
  - unfold ranges_of in Hu', Hposs. rewrite Er in Hu', Hposs. destruct Hposs as [n [c [Hn [Hsum HF]]]]. destruct Hu' as [Hl [d [Hd Hu']]].
    assert (In n (run_sizes su)) as Hin by (apply (in_sizesB su Hk); auto). exists n, c. split; auto. apply (concs_iffB su Hgb Hk Hsizes Hu n c Hin).
    split; [rewrite <- Hl; symmetry; eapply Forall2_length; eauto|]. split; [|split; [exact Hsum|auto]].
    apply (within_nonneg d (n * Z.of_nat (length (s_bas su))) (s_concs su)); auto; [nia|]. intros [[x y] z] Hi. apply Hu'; auto.
  - assert (In (s_lo su) (run_sizes su)) as Hin by (apply (in_sizesB su Hk); lia).
    exists (s_lo su), (map Z.of_nat ((Z.to_nat (s_lo su) * length (s_bas su))%nat :: repeat 0%nat (s_species su - 1))). split; auto. apply (concs_inB su Hgb Hk Hsizes Hu); auto.
    + cbn [length]. rewrite repeat_length. lia.
    + change (sum_nat ((Z.to_nat (s_lo su) * length (s_bas su))%nat :: repeat 0%nat (s_species su - 1))) with (Z.to_nat (s_lo su) * length (s_bas su) + sum_nat (repeat 0%nat (s_species su - 1)))%nat.
      assert (forall m, sum_nat (repeat 0%nat m) = 0%nat) as -> by (induction m as [|m IH]; auto). lia.
    + rewrite Er. discriminate.
Qed.

(** Sizes for which all numbers stay small. *)
Definition small_run (k : nat) (hi : Z) : Prop := k = 1%nat /\ hi <= 9 \/ k = 2%nat /\ hi <= 7 \/ k = 3%nat /\ hi <= 6.
Section TopA.
Variables (su : setup) (v : pyversion) (fl : list bool).
Hypothesis HD : 0 < s_D su.
Hypothesis Hgb : good_basis (s_pg su) (s_D su) (s_bas su) (s_lo su) (s_hi su).
Hypothesis Hpg : forall C R, In (C, R) (s_pg su) -> unimodular C /\ orthogonal R.
Hypothesis Hgr : rotation_group (s_pg su).
Hypothesis Hdiff : NoDup (map snd (s_pg su)).
Hypothesis Hlo : 1 <= s_lo su <= s_hi su.
Hypothesis Hsmall : small_run (s_species su) (s_hi su * Z.of_nat (length (s_bas su))).
Hypothesis Hur : usable_ranges (s_species su) (ranges_of su).
Hypothesis Hfl : length fl = s_species su.
Hypothesis Harr : s_arrows su = true.
Hypothesis Hna : forall c, length c = s_species su -> s_na su (map Z.of_nat c) = moved_counts fl c.
Hypothesis Hsystem : forall s H c rnd, In s (run_sizes su) -> In H (find_all_HNFs s) -> length c = s_species su -> Z.of_nat (sum_nat c) = s * Z.of_nat (length (s_bas su)) -> systemA (s_pg su) (s_D su) (s_bas su) fl c H rnd.
Hypothesis Hsome : exists s c, In s (run_sizes su) /\ In c (run_concs su s).
Notation pg := (s_pg su).
Notation D := (s_D su).
Notation bas := (s_bas su).
Notation k := (s_species su).
Lemma Hk1 : (1 <= s_species su <= 3)%nat.
Proof. unfold small_run in Hsmall. lia. Qed.
Lemma Hsizes1 : 1 <= s_lo su <= s_hi su /\ s_hi su * Z.of_nat (length (s_bas su)) <= 20.
Proof. unfold small_run in Hsmall. lia. Qed.
Lemma nbA : (1 <= length bas)%nat.
Proof. apply (gb_pos _ _ _ _ _ Hgb). Qed.
Lemma hi9 : s_hi su <= 9.
Proof. pose proof nbA. unfold small_run in Hsmall. nia. Qed.
Notation good_line := (good_lineA su fl).
Notation hnfs_facts := (hnfs_factsB su HD Hgb Hpg Hgr Hk1 Hsizes1).
Notation concs_facts := (concs_factsB su Hgb Hk1 Hsizes1 Hur).
Notation in_sizes := (in_sizesB su Hk1).

Section LinesA.
Variables (systems : list (list Z * list Z * Z)) (found : list (list Z * list config)).
Hypothesis Hsys : are_systems su v systems.
Hypothesis Hnd : NoDup (map fst systems).
Hypothesis HF : Forall2 good_line systems found.
Lemma HcatA : catalogue (displaced_run_structures D bas fl (s_lo su) (s_hi su) (ranges_of su)) (same_structure pg D bas) (row_means su) (listed found).
Proof. pose proof Hk1. pose proof Hsizes1. eapply catalogue_foundA; eauto. Qed.

Lemma row_factsA h c : In (h, c) (listed found) -> exists s H w, In s (run_sizes su) /\ In H (run_hnfs su s) /\ h = six H /\ c = Arrowed w /\ (length w = length bas * Z.to_nat s)%nat /\
  forall a, In a w -> 1 <= snd a <= Z.of_nat k /\ fits fl a.
Proof.
  intros Hin. destruct (listed_lineA su fl systems found (h, c) HF Hin) as [y [e [l [w [Hy [He [E1 [E2 [[_ [_ Hp]] [Hw E4]]]]]]]]]].
  destruct (line_systemA su v fl HD Hgb Hpg Hgr Hk1 Hsizes1 Hur Hfl systems y Hsys Hy) as [s [H [Hs [HH [E5 [E6 [Hc Hl]]]]]]].
  exists s, H, w. do 2 (split; auto). assert (h = fst e /\ c = Arrowed w) as [-> ->] by (split; congruence). split; [congruence|]. split; auto.
  destruct (Hp w Hw) as [P1 P2]. destruct (concs_facts s _ Hs Hc) as [c' [Ec [Lc Sc]]]. rewrite Ec, back_nat in P1.
  split.
  - rewrite <- (map_length skeleton), (Permutation_length P1), map_length, decosF_length by congruence. lia.
  - rewrite <- Hfl. apply (word_sites fl c'); auto. congruence.
Qed.
Lemma rows_NoDupA : NoDup (listed found).
Proof.
  apply FOP_NoDup. destruct HcatA as [H1 [H2 [H3 H4]]]. eapply FOP_impl; [|exact H4]. cbv beta. intros a b Ha Hb Hab <-. destruct (H1 a Ha) as [f Hf]. apply (Hab f f Hf Hf). apply same_displaced_refl; auto.
Qed.
Lemma rows_fewA : Z.of_nat (length (listed found)) < 10 ^ 10.
Proof.
  set (all := fun s => flat_map (fun H => map (fun w => (six H, Arrowed w)) (Spec.words (letters fl) (length bas * Z.to_nat s))) (find_all_HNFs s)).
  assert (forall s, 1 <= s -> Z.of_nat (length (all s)) <= Z.of_nat (length (find_all_HNFs s)) * ((6 * Z.of_nat k) ^ Z.of_nat (length bas)) ^ s) as Hlen.
  { intros s Hs. assert (Z.of_nat (length (letters fl)) <= 6 * Z.of_nat k) as Hle by (pose proof (letters_few fl); lia). clear - Hs Hle. unfold all. induction (find_all_HNFs s) as [|H l IH]; [cbn; lia|]. cbn [flat_map length]. rewrite app_length, map_length, length_words, !Nat2Z.inj_add, Nat2Z.inj_pow, Nat2Z.inj_mul, Z2Nat.id, <- Z.pow_mul_r in * by lia.
    assert (Z.of_nat (length (letters fl)) ^ (Z.of_nat (length bas) * s) <= (6 * Z.of_nat k) ^ (Z.of_nat (length bas) * s)) by (apply Z.pow_le_mono_l; lia). lia. }
  assert (incl (listed found) (flat_map all (map Z.of_nat (seq 1 (Z.to_nat (s_hi su)))))) as Hincl.
  { intros [h c] Hin. destruct (row_factsA h c Hin) as [s [H [w [Hs [HH [-> [-> [Lw Hw]]]]]]]]. destruct (hnfs_facts s Hs) as [_ [Hf _]]. specialize (Hf H HH). apply in_sizes in Hs.
    apply in_flat_map. exists s. split; [apply in_map_iff; exists (Z.to_nat s); split; [lia|apply in_seq; lia]|]. unfold all. apply in_flat_map. exists H. split; auto. apply in_map_iff. exists w. split; auto.
    apply in_words. split; auto. intros a Ha. destruct (Hw a Ha). apply letters_in; auto. rewrite Hfl. auto. }
  pose proof (NoDup_incl_length rows_NoDupA Hincl) as Hle. set (q := 6 * Z.of_nat k) in *.
  assert (Z.of_nat (length (flat_map all (map Z.of_nat (seq 1 (Z.to_nat (s_hi su)))))) <= 155 * powers (q ^ Z.of_nat (length bas)) (Z.to_nat (s_hi su))) as Hb.
  { apply total_powers; try lia. intros s Hs. pose proof (Hlen s ltac:(lia)). pose proof (nine_HNFs s ltac:(pose proof hi9; lia)). fold q in H. assert (0 <= (q ^ Z.of_nat (length bas)) ^ s) by (apply Z.pow_nonneg, Z.pow_nonneg; unfold q; lia). nia. }
  pose proof nbA as Hnb. pose proof (powers_pow q (length bas) (Z.to_nat (s_hi su)) ltac:(lia) Hnb) as Hpp.
  assert (10 ^ 10 = 10000000000) as E10 by reflexivity. rewrite E10.
  assert (powers 6 9%nat = 12093234) as P1 by (vm_compute; reflexivity). assert (powers 12 7%nat = 39089244) as P2 by (vm_compute; reflexivity). assert (powers 18 6%nat = 36012942) as P3 by (vm_compute; reflexivity).
  assert (155 * powers q (length bas * Z.to_nat (s_hi su)) < 10000000000).
  { unfold q. destruct Hsmall as [[-> Hh]|[[-> Hh]|[-> Hh]]].
    - pose proof (powers_le 6 (length bas * Z.to_nat (s_hi su)) 9 ltac:(lia) ltac:(lia)). change (6 * Z.of_nat 1) with 6. lia.
    - pose proof (powers_le 12 (length bas * Z.to_nat (s_hi su)) 7 ltac:(lia) ltac:(lia)). change (6 * Z.of_nat 2) with 12. lia.
    - pose proof (powers_le 18 (length bas * Z.to_nat (s_hi su)) 6 ltac:(lia) ltac:(lia)). change (6 * Z.of_nat 3) with 18. lia. }
  unfold vec in *. lia.
Qed.

(** *** The rows read back *)
Lemma good_systemsA h cs : In (h, cs) found -> is_hnf h /\ mdet (full_HNF h) <= 20 /\ 1 <= mdet (full_HNF h) /\ Forall nonempty cs.
Proof.
  intros Hin. destruct (found_line su fl systems found (h, cs) HF Hin) as [y [Hy [E1 [l [E2 [_ [_ Hp]]]]]]].
  cbn [fst snd] in *. destruct (line_systemA su v fl HD Hgb Hpg Hgr Hk1 Hsizes1 Hur Hfl systems y Hsys Hy) as [s [H' [Hs [HH [E5 [E6 [Hc Hl]]]]]]].
  destruct (hnfs_facts s Hs) as [_ [Hf _]]. specialize (Hf H' HH). rewrite E1, E6, E5. pose proof Hs as Hs'. apply in_sizes in Hs'. pose proof Hsizes1. pose proof hi9. pose proof nbA. rewrite (find_det s H') by (auto; lia). split; [apply (six_hnf s); auto; lia|]. split; [lia|]. split; [lia|].
  rewrite E2. apply Forall_forall. intros c Hic. apply in_map_iff in Hic. destruct Hic as [w [<- Hw]]. destruct (Hp w Hw) as [P1 _]. destruct (concs_facts s _ Hs Hc) as [c' [Ec [Lc Sc]]].
  rewrite Ec, back_nat in P1. apply Permutation_length in P1. rewrite !map_length, decosF_length in P1 by congruence. intros ->. cbn in P1. pose proof nbA. pose proof Hs as Hs2. apply in_sizes in Hs2. nia.
Qed.
Lemma lines_readA p : good_params p -> exists file structs, enum_out_file p found = Ok file /\ read_enum_out file None = Ok (system_of p, structs) /\
  catalogue (displaced_run_structures D bas fl (s_lo su) (s_hi su) (ranges_of su)) (same_structure pg D bas) (row_says D bas) structs /\
  forall s f, In s structs -> row_says D bas s f -> primitive D bas (sHNF s) f.
Proof.
  intros Hp. assert (found <> []) as Hne.
  { destruct Hsome as [s [c [Hs Hc]]]. destruct (hnfs_facts s Hs) as [_ [_ [_ [_ [_ Hn]]]]].
    destruct (run_hnfs su s) as [|H l] eqn:EH; [congruence|].
    intros ->. inversion HF as [E|]. assert (In (six H, c, run_count su v (six H) c) systems) as Hin; [|rewrite <- E in Hin; destruct Hin].
    apply Hsys. exists s, H. split; auto. split; [rewrite EH; cbn; auto|auto]. }
  destruct (C33_written p found Hne) as [file Efile].
  { apply Forall_forall. intros [h cs] Hin. destruct (good_systemsA h cs Hin) as [_ [A [B C]]]. split; auto. cbn [fst]. lia. }
  destruct (C32_up_to_30_cells p found file Hp) as [l [HP [_ [structs [Er [Hlen [Hrow _]]]]]]]; auto.
  { intros h cs Hin. destruct (good_systemsA h cs Hin) as [A [B [_ C]]]. split; auto. split; [lia|auto]. }
  { apply rows_fewA. }
  exists file, structs. split; auto. split; auto.
  assert (forall i r s, nth_error l i = Some r -> nth_error structs i = Some s -> In r (listed found) /\ sHNF s = full_HNF (fst r) /\ forall f, row_means su r f <-> row_says D bas s f) as Hsame.
  { intros i [h c] s Er' Es'. destruct (Hrow i s Es') as [h' [c' [E [_ [_ [_ [_ [_ [_ [_ [_ [EH [[M [R [ES Ed]]] Elab]]]]]]]]]]]]]. rewrite Er' in E. assert (h' = h /\ c' = c) as [-> ->] by (split; congruence).
    assert (In (h, c) (listed found)) as Hin by (apply (Permutation_in _ HP), (nth_error_In _ _ Er')). split; auto. split; auto.
    destruct (row_factsA h c Hin) as [sz [H [w [Hs [HH [-> [-> [Lw Hw]]]]]]]].
    assert (row_sites (labeling s) (directions_of s) = w) as Ew.
    { apply labels_say; auto; intros a x Hi; destruct (Hw (a, x) Hi) as [Hx Hd]. cbn [snd] in Hx. unfold fits in Hd. cbn [fst snd] in Hd. pose proof Hk1. destruct (nth (Z.to_nat x - 1) fl false); lia. }
    intros f. unfold row_means, row_says, means. cbn [fst snd]. rewrite Ew, Ed. split.
    - intros [w' [E' [M' [L' [B' [ES' Hd]]]]]]. rewrite ES in ES'. assert (w' = w /\ M' = M /\ L' = sL s) as [-> [-> ->]] by (split; [|split]; congruence). auto.
    - intros Hd. exists w. split; auto. exists M, (sL s), R. auto. }
  split.
  - apply (catalogue_map _ _ (row_means su) (row_says D bas) l).
    + clear - Hsame Hlen. revert structs Hlen Hsame. induction l as [|r l IH]; intros [|s structs] Hlen Hsame; cbn in Hlen; try discriminate; constructor.
      * apply (Hsame 0%nat r s); auto.
      * apply IH; [lia|]. intros i r' s' Hr Hs. destruct (Hsame (S i) r' s' Hr Hs) as [A [B C]]. split; auto.
    + apply (catalogue_perm _ _ _ (listed found)); [apply Permutation_sym; auto| |apply HcatA].
      intros f g _ _. apply same_displaced_sym; auto.
  - intros s f Hs Hm. apply In_nth_error in Hs. destruct Hs as [i Hi]. destruct (nth_error l i) as [r|] eqn:Er'; [|apply nth_error_None in Er'; assert (nth_error structs i <> None) as Hn by congruence; apply nth_error_Some in Hn; lia].
    destruct (Hsame i r s Er' Hi) as [Hin [EH Hiff]]. apply Hiff in Hm.
    destruct (row_wanted su v fl HD Hgb Hpg Hgr Hk1 Hsizes1 Hur Hfl systems found r f Hsys HF Hin Hm) as [y [s' [H [Hy [Hs' [HH [E1 [E2 [Hc [Pf _]]]]]]]]]].
    rewrite EH, E1. replace (full_HNF (six H)) with H; auto. symmetry. apply (six_full s'). destruct (hnfs_facts s' Hs') as [_ [Hf _]]. auto.
Qed.
End LinesA.

Theorem from_scratchA others listdir rnd0 draw rnd shuffled p : (forall l : list string, Permutation (listdir l) l) -> NoDup others ->
  (forall f, In f others -> contains "polya.out" f = false \/ first_char f <> first_char "polya.out") -> good_params p ->
  exists file fuel0 structs, (forall fuel, (fuel0 <= fuel)%nat -> run_from_scratch v others listdir rnd0 draw rnd shuffled fuel p su false false = Ok file) /\
    read_enum_out file None = Ok (system_of p, structs) /\
    catalogue (displaced_run_structures D bas fl (s_lo su) (s_hi su) (ranges_of su)) (same_structure pg D bas) (row_says D bas) structs /\
    forall s f, In s structs -> row_says D bas s f -> primitive D bas (sHNF s) f.
Proof.
  intros Hls Hno Hoth Hp.
  pose proof (counts_rightA su v fl HD Hgb Hpg Hgr Hk1 Hsizes1 Hur Hfl Hna Hsystem) as Hcount.
  destruct (enum_in_okB su v HD Hgb Hpg Hgr Hk1 Hsizes1 Hur Hcount others listdir rnd0 Hls Hno Hoth) as [text [systems [E1 [E2 [Hnd Hsys]]]]].
  destruct (enum_lines_okA su v fl HD Hgb Hpg Hgr Hk1 Hsizes1 Hur Hfl Harr Hna Hsystem draw rnd shuffled systems Hsys) as [found [f0 [Hrun HF]]].
  destruct (lines_readA systems found Hsys Hnd HF p Hp) as [file [structs [Ef [Er Hx]]]].
  destruct (polya_out_okB su v HD Hgb Hpg Hgr Hdiff Hk1 Hsizes1 Hur Hcount) as [f1 Hpo].
  exists file, (f0 + f1)%nat, structs. split; [|split; auto]. intros fuel Hfu. unfold run_from_scratch. rewrite (Hpo fuel) by lia. cbn [rbind]. fold (run_files su v). rewrite E1. cbn [rbind]. rewrite E2. cbn [rbind]. rewrite Hrun by lia. cbn [rbind]. auto.
Qed.
End TopA.
