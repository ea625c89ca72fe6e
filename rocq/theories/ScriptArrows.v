(** Commands in a directory, with displaced species (C62, C63): [-enum] in directories with some of its files. *)
From Coq Require Import Permutation QArith.
From Verif Require Import TextModel TextProofs PyBase ListFacts TreeSearch Spec PhononsModel TreeModel Mat3 HNFModel PolyaModel LatSpec LatGroupModel LatGroupThm SuperModel StructSpec StructAll EnumSysModel DistModel FilesModel FilesProofs FilesMain PropertiesFiles EnumOutModel EnumOutSpec PropertiesEnumOut RunModel RunSpec RunProofs RunMain RunTop.
From Verif Require Import LatticeInModel LatticeInSpec RunArrowDeco RunArrowSystem RunArrowSpec RunArrowMain RunArrowTop PropertiesRunArrows ScriptModel ScriptProofs ScriptMain.
Local Open Scope Z_scope.

(** What [-enum] needs; [fl] says which species are displaced. *)
Record usableA (fl : list bool) (su : setup) : Prop := {
  uA_D : 0 < s_D su; uA_bas : good_basis (s_pg su) (s_D su) (s_bas su) (s_lo su) (s_hi su); uA_pg : forall C R, In (C, R) (s_pg su) -> unimodular C /\ orthogonal R;
  uA_group : rotation_group (s_pg su); uA_diff : NoDup (map snd (s_pg su));
  uA_sizes : 1 <= s_lo su <= s_hi su /\ small_run (s_species su) (s_hi su * Z.of_nat (length (s_bas su)));
  uA_displaced : usable_ranges (s_species su) (ranges_of su) /\ s_arrows su = true /\ length fl = s_species su /\ In true fl /\
    forall c, length c = s_species su -> s_na su (map Z.of_nat c) = moved_counts fl c }.
Lemma usableA_upto fl su t : usableA fl su -> s_lo su <= t <= s_hi su -> usableA fl (upto su t).
Proof.
  intros [A B C D E F G] H. constructor; cbn [upto s_D s_bas s_pg s_lo s_hi s_species s_restricted s_arrows s_na]; auto; [eapply good_basis_sub; eauto; lia|]. split; [lia|]. unfold small_run in *.
  assert (t * Z.of_nat (length (s_bas su)) <= s_hi su * Z.of_nat (length (s_bas su))) by nia. lia.
Qed.
Lemma usableA_system fl su : usableA fl su -> forall s H c rnd, In s (run_sizes su) -> In H (find_all_HNFs s) -> length c = s_species su -> Z.of_nat (sum_nat c) = s * Z.of_nat (length (s_bas su)) -> systemA (s_pg su) (s_D su) (s_bas su) fl c H rnd.
Proof.
  intros [A B C D E [F1 F2] [G1 [G2 [G3 [G4 G5]]]]] s H c rnd Hs HH Hl Hsum. unfold run_sizes in Hs. apply TreeSearch.in_range_up in Hs.
  apply small_systems with (lo := s_lo su) (hi := s_hi su) (s := s); auto; try congruence; try lia. rewrite G3. unfold small_run in *.
  assert (s * Z.of_nat (length (s_bas su)) <= s_hi su * Z.of_nat (length (s_bas su))) by nia. lia.
Qed.
(** The rows of the file that is written list the crystals of the sizes lo to hi. *)
Definition lists_displaced (fl : list bool) (su : setup) (p : params) (file : string) : Prop :=
  exists structs, read_enum_out file None = Ok (system_of p, structs) /\
    catalogue (displaced_run_structures (s_D su) (s_bas su) fl (s_lo su) (s_hi su) (ranges_of su)) (same_structure (s_pg su) (s_D su) (s_bas su)) (row_says (s_D su) (s_bas su)) structs /\
    forall s f, In s structs -> row_says (s_D su) (s_bas su) s f -> primitive (s_D su) (s_bas su) (sHNF s) f.

Section MainA.
Variables (su : setup) (par : lattice) (ltext : string) (v : pyversion) (fl : list bool).
Hypothesis Hu : usableA fl su.
Hypothesis Hread : read_lattice ltext = Ok par.
Hypothesis Hsetup : setup_of par = Ok su.
Hypothesis Hshape : length (l_vecs par) = 3%nat /\ l_bas par <> [] /\ 0 <= l_nspecies par.
Notation good_env := (good_env v).
Notation asks_all := (asks_all su v).
Notation counts := (counts su v).
Notation last_files := (last_files par).
Notation in_dir := (in_dir ltext).
Notation counted := (counted su v).
Lemma enum_out_withA e d t txt : s_lo su <= t <= s_hi su -> some_upto su t -> good_env e -> dfile d "lattice.in" = Some ltext -> dfile d "enum.in" = Some txt -> asks_all t txt ->
  exists file fuel0, lists_displaced fl (upto su t) (params_of (e_date e) par) file /\
    (forall fuel, (fuel0 <= fuel)%nat -> enum_out_step (with_fuel e fuel) enum_args "enum.in" "enum.out" d = ([("enum.out", text (header (params_of (e_date e) par))); ("enum.out", file)]%string, Ok tt)).
Proof.
  intros Ht Hso He Hl Hi [systems [Es [Hn Hsys]]]. pose proof (usableA_upto fl su t Hu Ht) as [A1 A2 A3 A4 A5 A6 A7]. pose proof He as [Hv [Hls Hd]].
  pose proof (usableA_system fl (upto su t) (usableA_upto fl su t Hu Ht)) as Hsystem. destruct A6 as [B1 B2], A7 as [G1 [G2 [G3 [G4 G5]]]].
  assert ((1 <= s_species (upto su t) <= 3)%nat) as K1 by (unfold small_run in B2; lia). assert (1 <= s_lo (upto su t) <= s_hi (upto su t) /\ s_hi (upto su t) * Z.of_nat (length (s_bas (upto su t))) <= 20) as K2 by (unfold small_run in B2; lia).
  destruct (enum_lines_okA (upto su t) v fl A1 A2 A3 A4 K1 K2 G1 G3 G2 G5 Hsystem (e_draw e) (e_rnd e) (e_shuffled e) systems Hsys) as [found [f0 [Hrun HF]]].
  destruct (lines_readA (upto su t) v fl A1 A2 A3 A4 B1 B2 G1 G3 Hso systems found Hsys Hn HF (params_of (e_date e) par) (par_good par v Hshape e He)) as [file [structs [Ef [Er Hc]]]].
  exists file, f0. split; [exists structs; auto|]. intros fuel Hfu. unfold enum_out_step, lattice_step. cbn [enum_args a_lattice a_super a_accept a_distribution].
  erewrite bind_quiet; [|erewrite bind_quiet by (apply read_ok; eauto); unfold lift; rewrite Hread; erewrite bind_quiet by reflexivity; rewrite Hsetup; erewrite bind_quiet by reflexivity; reflexivity]. cbn beta iota.
  erewrite bind_quiet; [|unfold alook; rewrite Hi; reflexivity]. erewrite bind_quiet by reflexivity. erewrite bind_quiet by (apply read_ok; eauto). erewrite bind_quiet by (unfold lift; rewrite Es; reflexivity).
  eapply (bind_then _ _ _ [_] _ [_]); [reflexivity|]. erewrite bind_quiet by reflexivity.
  cbn [with_fuel e_version e_draw e_rnd e_shuffled e_fuel e_date].
  change (enum_lines (e_version e) (e_draw e) (e_rnd e) (e_shuffled e) fuel su false false systems) with (enum_lines (e_version e) (e_draw e) (e_rnd e) (e_shuffled e) fuel (upto su t) false false systems).
  rewrite Hv, Hrun by auto. cbn [rbind]. erewrite bind_quiet by (unfold lift; rewrite Ef; reflexivity). reflexivity.
Qed.
Lemma enum_in_withA e d t : s_lo su <= t <= s_hi su -> good_env e -> NoDup (names d) ->
  (forall s, s_lo su <= s <= t -> dfile d (polya_name s) = Some (count_file v su s)) ->
  (forall f, In f (names d) -> harmless f \/ exists s, s_lo su <= s <= t /\ f = polya_name s) ->
  exists txt, asks_all t txt /\ forall fuel, enum_in_step (with_fuel e fuel) enum_args "polya.out" "enum.in" ["all"; "all"]%string d = ([("enum.in"%string, txt)], Ok tt).
Proof.
  intros Ht [Hv [Hls _]] Hnd Hf Hoth. pose proof (usableA_upto fl su t Hu Ht) as [A1 A2 A3 A4 A5 A6 A7].
  pose proof (usableA_system fl (upto su t) (usableA_upto fl su t Hu Ht)) as Hsystem. destruct A6 as [B1 B2], A7 as [G1 [G2 [G3 [G4 G5]]]].
  assert ((1 <= s_species (upto su t) <= 3)%nat) as K1 by (unfold small_run in B2; lia). assert (1 <= s_lo (upto su t) <= s_hi (upto su t) /\ s_hi (upto su t) * Z.of_nat (length (s_bas (upto su t))) <= 20) as K2 by (unfold small_run in B2; lia).
  pose proof (counts_rightA (upto su t) v fl A1 A2 A3 A4 K1 K2 G1 G3 G5 Hsystem) as Hcount.
  assert (forall s, In s (run_sizes (upto su t)) <-> s_lo su <= s <= t) as Hrs by (intros s; apply (in_sizesB (upto su t) K1)).
  set (others := filter (fun f => negb (contains "polya.out"%string f && match first_char f, first_char "polya.out"%string with Some a, Some b => Ascii.eqb a b | _, _ => false end)) (names d)).
  assert (forall s, ~ harmless (polya_name s)) as Hnh.
  { intros s [E|E]; [|apply E; reflexivity]. pose proof (contains_app "polya.out"%string ("." ++ str s)%string) as E'. change (contains "polya.out"%string (polya_name s) = true) in E'. congruence. }
  assert (forall f, (contains "polya.out"%string f && match first_char f, first_char "polya.out"%string with Some a, Some b => Ascii.eqb a b | _, _ => false end)%bool = false <-> harmless f) as Hh.
  { intros f. unfold harmless. rewrite andb_false_iff. destruct (first_char f) as [c|]; cbn [first_char]; [|split; [intros _; right; discriminate|auto]]. split; (intros [E|E]; [auto|right]).
    - apply Ascii.eqb_neq in E. congruence.
    - apply Ascii.eqb_neq. congruence. }
  destruct (enum_in_filesB (upto su t) v A1 A2 A3 A4 K1 K2 G1 Hcount (fun s => dfile d (sized "polya.out" s)) others (e_listdir e (names d)) (e_rnd0 e) false) as [sizes [txt [systems [E0 [E1 [E2 [N H]]]]]]].
  - intros s Hs. rewrite (files_get (upto su t) v) by auto. apply Hrs in Hs. apply (Hf s Hs).
  - eapply Permutation_NoDup; [apply Permutation_sym, Hls|auto].
  - intros f. transitivity (In f (names d)); [split; apply Permutation_in; [apply Hls|apply Permutation_sym, Hls]|]. unfold others. rewrite filter_In, negb_true_iff, Hh. split.
    + intros Hi. destruct (Hoth f Hi) as [Hb|[s [Hs ->]]]; [auto|]. right. exists s. split; [apply Hrs; auto|auto].
    + intros [[Hi _]|[s [Hs ->]]]; auto. apply dfile_names. exists (count_file v su s). apply Hf, Hrs. auto.
  - intros f Hi. unfold others in Hi. apply filter_In in Hi. destruct Hi as [_ Hi]. apply negb_true_iff, Hh in Hi. exact Hi.
  - exists txt. split; [exists systems; auto|]. intros fuel. unfold enum_in_step.
    assert (globbed "polya.out" d = true) as Hg.
    { apply globbed_iff. exists (str t). change (In (polya_name t) (names d)). apply dfile_names. exists (count_file v su t). apply Hf. lia. }
    erewrite bind_quiet by (unfold alook; rewrite Hg; reflexivity). erewrite bind_quiet by reflexivity. cbn [lower_all]. erewrite bind_quiet by reflexivity. erewrite bind_quiet by reflexivity.
    cbn [enum_args a_sizes a_filter a_savedist with_fuel e_listdir e_rnd0]. erewrite bind_quiet by (unfold lift; rewrite E0; reflexivity). erewrite bind_quiet by reflexivity. erewrite bind_quiet by reflexivity. erewrite bind_quiet by reflexivity.
    erewrite bind_quiet by (unfold lift; rewrite E1; reflexivity). reflexivity.
Qed.
Lemma polya_step_okA e : good_env e -> exists fuel0, forall fuel d, (fuel0 <= fuel)%nat -> polya_step (with_fuel e fuel) su "polya.out" d = (map (fun s => (polya_name s, count_file v su s)) (range_up (s_lo su) (s_hi su + 1)), Ok tt).
Proof.
  intros [Hv _]. pose proof (usableA_system fl su Hu) as Hsystem. destruct Hu as [A1 A2 A3 A4 A5 [B1 B2] [G1 [G2 [G3 [G4 G5]]]]].
  assert ((1 <= s_species su <= 3)%nat) as K1 by (unfold small_run in B2; lia). assert (1 <= s_lo su <= s_hi su /\ s_hi su * Z.of_nat (length (s_bas su)) <= 20) as K2 by (unfold small_run in B2; lia).
  pose proof (counts_rightA su v fl A1 A2 A3 A4 K1 K2 G1 G3 G5 Hsystem) as Hcount.
  destruct (fuel_for_all (fun s fuel => polya_of_size v fuel su s = Ok (count_file v su s)) (run_sizes su) (polya_of_size_okB su v A1 A2 A3 A4 A5 K1 K2 G1 Hcount)) as [f0 H].
  exists f0. intros fuel d Hfu. unfold polya_step. apply (each_writes polya_name (count_file v su)). intros s d' Hs.
  destruct (hnfs_factsB su A1 A2 A3 A4 K1 K2 s Hs) as [E _]. cbn [with_fuel e_version e_fuel]. rewrite E, Hv. rewrite (H fuel Hfu s Hs). reflexivity.
Qed.
Lemma run_countedA e d t : s_lo su <= t <= s_hi su -> some_upto su t -> good_env e -> in_dir d -> dfile d "enum.in" = None -> counted d t ->
  exists txt file fuel0, asks_all t txt /\ lists_displaced fl (upto su t) (params_of (e_date e) par) file /\
    forall fuel, (fuel0 <= fuel)%nat -> enum_out_step (with_fuel e fuel) enum_args "enum.in" "enum.out" d = (last_files e txt file, Ok tt).
Proof.
  intros Ht Hso He [Hnd Hl] Hi [Hc Hn]. destruct (enum_in_withA e d t Ht He Hnd Hc Hn) as [txt [Ha Hw]].
  destruct (enum_out_withA e (after d [("enum.in"%string, txt)]) t txt Ht Hso He) as [file [f0 [Hf Hr]]]; auto.
  { rewrite after_other; auto. constructor; [discriminate|constructor]. }
  exists txt, file, f0. split; auto. split; auto. intros fuel Hfu. rewrite (enum_out_missing su par ltext Hread Hsetup (with_fuel e fuel) d [("enum.in"%string, txt)]); auto.
  - rewrite Hr by auto. reflexivity.
  - erewrite bind_quiet; [|unfold alook; replace (globbed "polya.out" d) with true; [reflexivity|]].
    + erewrite bind_quiet by reflexivity. apply Hw.
    + symmetry. apply globbed_iff. exists (str t). change (In (polya_name t) (names d)). apply dfile_names. exists (count_file v su t). apply Hc. lia.
  - exists txt. apply dfile_same.
  - rewrite after_other; auto. constructor; [discriminate|constructor].
Qed.
Lemma run_scratchA e d : some_upto su (s_hi su) -> good_env e -> in_dir d -> dfile d "enum.in" = None -> (forall f, In f (names d) -> harmless f) ->
  exists txt file fuel0, asks_all (s_hi su) txt /\ lists_displaced fl su (params_of (e_date e) par) file /\
    forall fuel, (fuel0 <= fuel)%nat -> enum_out_step (with_fuel e fuel) enum_args "enum.in" "enum.out" d = (counts (s_hi su) ++ last_files e txt file, Ok tt)%list.
Proof.
  intros Hso He [Hnd Hl] Hi Hh. pose proof (proj1 (uA_sizes _ _ Hu)) as Hs. destruct (polya_step_okA e He) as [f1 Hps]. set (d1 := after d (counts (s_hi su))).
  assert (dfile d1 "lattice.in" = Some ltext /\ dfile d1 "enum.in" = None) as [Hl1 Hi1] by (split; [unfold d1; rewrite (after_counts su v); auto; intros s E; symmetry in E; revert E; apply name_not_enum ..]).
  assert (NoDup (names d1)) as Hnd1 by (apply after_NoDup; auto). pose proof (counts_counted su v d (s_hi su) Hh) as Hc1. fold d1 in Hc1. destruct Hc1 as [Hc1 Hn1].
  destruct (enum_in_withA e d1 (s_hi su) ltac:(lia) He Hnd1 Hc1 Hn1) as [txt [Ha Hw]].
  destruct (enum_out_withA e (after d1 [("enum.in"%string, txt)]) (s_hi su) txt ltac:(lia) Hso He) as [file [f0 [Hf Hr]]]; auto.
  { rewrite after_other; auto. constructor; [discriminate|constructor]. }
  exists txt, file, (f0 + f1)%nat. split; auto. split.
  { destruct Hf as [structs Hf]. exists structs. exact Hf. }
  intros fuel Hfu. rewrite (enum_out_missing su par ltext Hread Hsetup (with_fuel e fuel) d (counts (s_hi su) ++ [("enum.in"%string, txt)])); auto.
  - rewrite after_app. fold d1. rewrite Hr by lia. cbn [fst snd]. rewrite <- app_assoc. reflexivity.
  - erewrite bind_quiet by (unfold alook; rewrite (not_counted d Hh); reflexivity). cbn iota. eapply bind_then; [apply Hps; lia|]. fold (counts (s_hi su)). fold d1. apply Hw.
  - exists txt. rewrite after_app. apply dfile_same.
  - rewrite after_app. fold d1. rewrite after_other; auto. constructor; [discriminate|constructor].
Qed.
End MainA.
