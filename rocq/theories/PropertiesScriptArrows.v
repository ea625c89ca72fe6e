(** Commands in a directory, with displaced species (C62, C63): the properties. *)
From Coq Require Import Permutation QArith.
From Verif Require Import TextModel TextProofs PyBase ListFacts TreeSearch Spec PhononsModel TreeModel EnumSysModel Mat3 PolyaModel HNFModel LatSpec LatGroupModel LatGroupThm SuperModel StructSpec StructAll.
From Verif Require MapProofs.
From Verif Require Import FilesModel FilesProofs EnumOutModel EnumOutSpec PropertiesEnumOut PointGroupModel PointGroupSpec PointGroupProofs PointGroupMain PropertiesPoint BoxLattice RunModel RunSpec RunProofs RunMain RunTop PropertiesRun.
From Verif Require Import LatticeInModel LatticeInSpec LatticeInProofs PropertiesLatticeIn RunText PropertiesRunText PropertiesSetup SetupBasis.
From Verif Require Import RunArrowDeco RunArrowSystem RunArrowSpec RunArrowOne RunArrowMain RunArrowTop PropertiesRunArrows RunArrowText PropertiesRunArrowsText PropertiesBasisText.
From Verif Require Import ScriptModel ScriptProofs ScriptMain PropertiesScript PropertiesScriptBasis ScriptArrows.
Local Open Scope Z_scope.

(** A lattice.in file for sizes lo to hi, the lattice vectors A (in some unit), one atom per cell, and one line for each species with
    the range of its concentration and whether its atoms are displaced (some species is). *)
Definition displaced_file (text : string) (A : mat) (lines : list (Z * Z * Z * bool)) (lo hi : Z) : Prop := exists bulk vecs DL m concs,
  file_says text [lo; hi] bulk vecs (Z.of_nat (length lines)) [[0; 0; 0]]%Q true true concs /\ same_numbers vecs (rows_over DL A) /\
  displaced_lines lines concs /\ In true (map snd lines) /\ usable_ranges (length lines) (Some (map fst lines)) /\
  0 < DL /\ mdet A <> 0 /\ tolerable (1 # 10000000000) DL A m /\ fine (1 # 10000000000) A /\ integer_rotations A /\
  1 <= lo <= hi /\ small_run (length lines) hi.
(** The same with atoms at the points [bas] (multiples of 1/D of the lattice vectors, in lowest terms; one of them at the
    origin); the symmetries of the lattice are their own inverses. *)
Definition displaced_atoms_file (text : string) (A : mat) (D : Z) (bas : list vec) (lines : list (Z * Z * Z * bool)) (lo hi : Z) : Prop := exists bulk vecs DL m basq concs,
  file_says text [lo; hi] bulk vecs (Z.of_nat (length lines)) basq true true concs /\ same_numbers vecs (rows_over DL A) /\
  Forall2 (fun q u => at_coordinates (rows_over DL A) D u q) basq bas /\ lowest_terms D bas /\ 0 < D /\ NoDup bas /\ (forall d, In d bas -> reduced (D, D, D) d) /\ In (0, 0, 0) bas /\
  displaced_lines lines concs /\ In true (map snd lines) /\ usable_ranges (length lines) (Some (map fst lines)) /\
  0 < DL /\ mdet A <> 0 /\ tolerable (1 # 10000000000) DL A m /\ fine (1 # 10000000000) A /\ integer_rotations A /\ (forall C, keeps_lengths A C -> mmul C C = mid) /\
  1 <= lo <= hi /\ small_run (length lines) (hi * Z.of_nat (length bas)).
(** The text of an enum.out file that lists the crystals with displaced atoms, with lo to hi parent cells per primitive cell, up
    to isometry (which moves the displacements), each once. *)
Definition catalogued_displaced (A : mat) (D : Z) (bas : list vec) (lines : list (Z * Z * Z * bool)) (lo hi : Z) (file : string) : Prop := exists sys structs, read_enum_out file None = Ok (sys, structs) /\
  catalogue (displaced_run_structures D bas (map snd lines) lo hi (Some (map fst lines))) (congruent_displaced A D bas) (row_says D bas) structs /\
  forall s f, In s structs -> row_says D bas s f -> primitive D bas (sHNF s) f.

(** ** The proofs *)
Definition settledA (fl : list bool) (text : string) (lo hi : Z) (poss : Z -> Prop) (good : Z -> string -> Prop) : Prop := (forall t t', t <= t' -> poss t -> poss t') /\
  exists par su, read_lattice text = Ok par /\ setup_of par = Ok su /\ usableA fl su /\ s_lo su = lo /\ s_hi su = hi /\
  (length (l_vecs par) = 3%nat /\ l_bas par <> [] /\ 0 <= l_nspecies par) /\ (forall t, lo <= t <= hi -> poss t -> some_upto su t) /\ forall t date file, lists_displaced fl (upto su t) (params_of date par) file -> good t file.
Lemma enum_settledA : forall fl text lo hi (poss : Z -> Prop) (good : Z -> string -> Prop) v e d, settledA fl text lo hi poss good -> poss hi -> proper v e -> fresh d text ->
  exists fuel0 file d', (forall fuel, (fuel0 <= fuel)%nat -> ends (script (with_fuel e fuel) enum_args) d d') /\ dfile d' "enum.out" = Some file /\ good hi file /\
    (forall f, In f (names d') <-> In f (names d) \/ f = "enum.in"%string \/ f = "enum.out"%string \/ exists s, lo <= s <= hi /\ f = ("polya.out." ++ str s)%string).
Proof.
  intros fl text lo hi poss good v e d [Hmore Hp] Hpos He [Hn [Hl [Hi Hh]]]. destruct Hp as [par [su [E1 [E2 [Hu [El [Eh [Hs [Hso Hc]]]]]]]]].
  assert (some_upto su (s_hi su)) as Hsh by (rewrite Eh; apply Hso; auto; pose proof (uA_sizes fl su Hu); lia).
  destruct (run_scratchA su par text v fl Hu E1 E2 Hs e d Hsh He (conj Hn Hl) Hi Hh) as [txt [file [f0 [_ [Hf Hr]]]]].
  exists f0, file, (after d (counts su v (s_hi su) ++ last_files par e txt file)). split; [|split; [|split]].
  - intros fuel Hfu. eexists. split; [rewrite script_enum; apply Hr; auto|reflexivity].
  - rewrite after_app. unfold last_files. cbn [after fold_left fst snd]. apply dfile_same.
  - apply (Hc hi (e_date e)). rewrite <- Eh. exact Hf.
  - intros f. rewrite after_names, map_app, in_app_iff. unfold last_files. cbn [map fst In]. rewrite in_map_iff. split.
    + intros [H|[[[g x] [Eg Hg]]|[H|[H|[H|[]]]]]]; auto. cbn in Eg. subst g. apply counts_in in Hg. destruct Hg as [s [Hs' [-> _]]]. right. right. right. exists s. split; [lia|auto].
    + intros [H|[H|[H|[s [Hs' ->]]]]]; auto. right. left. exists (polya_name s, count_file v su s). split; auto. apply counts_in. exists s. split; [lia|auto].
Qed.
Lemma again_settledA : forall fl text lo hi (poss : Z -> Prop) (good : Z -> string -> Prop) v e d, settledA fl text lo hi poss good -> poss hi -> proper v e -> fresh d text ->
  exists fuel0 d', (forall fuel, (fuel0 <= fuel)%nat -> ends (script (with_fuel e fuel) enum_args) d d') /\
    forall e', proper v e' -> exists fuel1 file d'', (forall fuel, (fuel1 <= fuel)%nat -> ends (script (with_fuel e' fuel) enum_args) d' d'') /\
      dfile d'' "enum.out" = Some file /\ good hi file /\ forall f, f <> "enum.out"%string -> dfile d'' f = dfile d' f.
Proof.
  intros fl text lo hi poss good v e d [Hmore Hp] Hpos He [Hn [Hl [Hi Hh]]]. destruct Hp as [par [su [E1 [E2 [Hu [El [Eh [Hs [Hso Hc]]]]]]]]].
  assert (some_upto su (s_hi su)) as Hsh by (rewrite Eh; apply Hso; auto; pose proof (uA_sizes fl su Hu); lia).
  destruct (run_scratchA su par text v fl Hu E1 E2 Hs e d Hsh He (conj Hn Hl) Hi Hh) as [txt [file [f0 [Ha [_ Hr]]]]].
  exists f0, (after d (counts su v (s_hi su) ++ last_files par e txt file)). split; [intros fuel Hfu; eexists; split; [rewrite script_enum; apply Hr; auto|reflexivity]|].
  intros e' He'. set (d' := after d _). assert (dfile d' "lattice.in" = Some text /\ dfile d' "enum.in" = Some txt) as [Hl' Hi'].
  { unfold d'. rewrite after_app. unfold last_files. cbn [after fold_left fst snd]. split.
    - rewrite !dfile_other by discriminate. rewrite (after_counts su v); auto. intros s E. discriminate E.
    - rewrite !dfile_other by discriminate. apply dfile_same. }
  pose proof Hu as [_ _ _ _ _ U6 _]. destruct (enum_out_withA su par text v fl Hu E1 E2 Hs e' d' (s_hi su) txt ltac:(lia) Hsh He' Hl' Hi' Ha) as [file' [f1 [Hf' Hr']]].
  exists f1, file', (after d' [("enum.out"%string, EnumOutModel.text (header (params_of (e_date e') par))); ("enum.out"%string, file')]). split; [|split; [|split]].
  - intros fuel Hfu. eexists. split; [rewrite script_enum; apply Hr'; auto|reflexivity].
  - apply dfile_same.
  - apply (Hc hi (e_date e')). rewrite <- Eh. exact Hf'.
  - intros f Hf. apply after_other. repeat constructor; auto.
Qed.
Lemma restart_settledA : forall fl text lo hi (poss : Z -> Prop) (good : Z -> string -> Prop) v e d, settledA fl text lo hi poss good -> poss lo -> proper v e -> fresh d text ->
  exists fuel0 ws, (forall fuel, (fuel0 <= fuel)%nat -> script (with_fuel e fuel) enum_args d = (ws, Ok tt)) /\
    forall i e', proper v e' -> exists fuel1 file d'',
      (forall fuel, (fuel1 <= fuel)%nat -> ends (script (with_fuel e' fuel) enum_args) (after d (firstn i ws)) d'') /\ dfile d'' "enum.out" = Some file /\
      good (if (1 <=? Z.of_nat i) && (lo + Z.of_nat i <=? hi) then lo + Z.of_nat i - 1 else hi) file.
Proof.
  intros fl text lo hi poss good v e d [Hmore Hp] Hpos He [Hn [Hl [Hi Hh]]]. destruct Hp as [par [su [E1 [E2 [Hu [El [Eh [Hs [Hso Hc]]]]]]]]].
  assert (some_upto su (s_hi su)) as Hsh by (rewrite Eh; apply Hso; [|eapply Hmore; [|eauto]]; pose proof (uA_sizes fl su Hu); lia).
  destruct (run_scratchA su par text v fl Hu E1 E2 Hs e d Hsh He (conj Hn Hl) Hi Hh) as [txt [file [f0 [Ha [_ Hr]]]]]. pose proof Hu as [_ _ _ _ _ U6 _].
  exists f0, (counts su v (s_hi su) ++ last_files par e txt file)%list. split; [intros fuel Hfu; rewrite script_enum; apply Hr; auto|].
  intros i e' He'.
  assert (length (counts su v (s_hi su)) = Z.to_nat (hi - lo + 1)) as Hlen by (unfold counts; rewrite map_length, MapProofs.range_up_length, El, Eh; f_equal; lia).
  assert (forall t d0, s_lo su <= t <= s_hi su -> (if (1 <=? Z.of_nat i) && (lo + Z.of_nat i <=? hi) then lo + Z.of_nat i - 1 else hi) = t -> d0 = after d (firstn i (counts su v (s_hi su) ++ last_files par e txt file)) ->
    (exists ws fuel1 file, (forall fuel, (fuel1 <= fuel)%nat -> enum_out_step (with_fuel e' fuel) enum_args "enum.in" "enum.out" d0 = (ws ++ [("enum.out"%string, file)], Ok tt)%list) /\ lists_displaced fl (upto su t) (params_of (e_date e') par) file) ->
    exists fuel1 file0 d'', (forall fuel, (fuel1 <= fuel)%nat -> ends (script (with_fuel e' fuel) enum_args) (after d (firstn i (counts su v (s_hi su) ++ last_files par e txt file))) d'') /\ dfile d'' "enum.out" = Some file0 /\
      good (if (1 <=? Z.of_nat i) && (lo + Z.of_nat i <=? hi) then lo + Z.of_nat i - 1 else hi) file0) as Hfin.
  { intros t d0 Ht Et Ed [ws [f1 [file1 [H1 H2]]]]. rewrite <- Ed. exists f1, file1, (after d0 (ws ++ [("enum.out"%string, file1)])). split; [|split].
    - intros fuel Hfu. eexists. split; [rewrite script_enum; apply H1; auto|reflexivity].
    - rewrite after_app. apply dfile_same.
    - rewrite Et. apply (Hc t (e_date e')). exact H2. }
  destruct (Nat.eq_dec i 0) as [->|Hi0].
  - apply (Hfin hi d); [lia|reflexivity|reflexivity|]. destruct (run_scratchA su par text v fl Hu E1 E2 Hs e' d Hsh He' (conj Hn Hl) Hi Hh) as [txt1 [file1 [f1 [_ [Hf1 Hr1]]]]].
    exists (counts su v (s_hi su) ++ [("enum.in"%string, txt1); ("enum.out"%string, EnumOutModel.text (header (params_of (e_date e') par)))])%list, f1, file1. split; [intros fuel Hfu; rewrite Hr1 by auto; rewrite <- app_assoc; reflexivity|].
    rewrite <- Eh. exact Hf1.
  - destruct (le_lt_dec i (Z.to_nat (hi - lo + 1))) as [Hle|Hgt].
    + set (t := lo + Z.of_nat i - 1).
      assert (firstn i (counts su v (s_hi su) ++ last_files par e txt file) = counts su v t) as Ef.
      { rewrite firstn_app, Hlen. replace (i - Z.to_nat (hi - lo + 1))%nat with 0%nat by lia. rewrite firstn_O, app_nil_r. unfold counts. rewrite firstn_map. f_equal. unfold range_up. rewrite firstn_map. f_equal. rewrite firstn_seq'. f_equal. unfold t. lia. }
      apply (Hfin t (after d (counts su v t))); [unfold t; lia| |rewrite Ef; auto|].
      { unfold t. destruct (Z.leb_spec 1 (Z.of_nat i)), (Z.leb_spec (lo + Z.of_nat i) hi); cbn [andb]; lia. }
      destruct (run_countedA su par text v fl Hu E1 E2 Hs e' (after d (counts su v t)) t) as [txt1 [file1 [f1 [_ [Hf1 Hr1]]]]]; auto.
      * unfold t; lia.
      * apply Hso; [unfold t; lia|]. eapply Hmore; [|eauto]. unfold t; lia.
      * split; [apply after_NoDup; auto|]. rewrite (after_counts su v); auto. intros s E. discriminate E.
      * rewrite (after_counts su v); auto. intros s E. discriminate E.
      * apply counts_counted. auto.
      * exists [("enum.in"%string, txt1); ("enum.out"%string, EnumOutModel.text (header (params_of (e_date e') par)))], f1, file1. split; auto.
    + set (d0 := after d (firstn i (counts su v (s_hi su) ++ last_files par e txt file))). apply (Hfin hi d0); [lia| |reflexivity|].
      { destruct (Z.leb_spec (lo + Z.of_nat i) hi); [lia|]. rewrite andb_false_r. auto. }
      assert (exists j, firstn i (counts su v (s_hi su) ++ last_files par e txt file) = (counts su v (s_hi su) ++ ("enum.in"%string, txt) :: firstn j [("enum.out"%string, EnumOutModel.text (header (params_of (e_date e) par))); ("enum.out"%string, file)])%list) as [j Ej].
      { exists (i - Z.to_nat (hi - lo + 1) - 1)%nat. rewrite firstn_app, Hlen, firstn_all2 by lia. f_equal. destruct (i - Z.to_nat (hi - lo + 1))%nat as [|j] eqn:Ej; [lia|]. unfold last_files. cbn [firstn]. f_equal. rewrite Nat.sub_succ, Nat.sub_0_r. auto. }
      assert (dfile d0 "lattice.in" = Some text /\ dfile d0 "enum.in" = Some txt) as [Hl0 Hi0'].
      { unfold d0. rewrite Ej, after_app, after_cons. cbn [fst snd]. split; (rewrite after_other; [|apply firstn_Forall; repeat constructor; discriminate]).
        - rewrite dfile_other by discriminate. rewrite (after_counts su v); auto. intros s E. discriminate E.
        - apply dfile_same. }
      destruct (enum_out_withA su par text v fl Hu E1 E2 Hs e' d0 (s_hi su) txt ltac:(lia) Hsh He' Hl0 Hi0' Ha) as [file1 [f1 [Hf1 Hr1]]].
      exists [("enum.out"%string, EnumOutModel.text (header (params_of (e_date e') par)))], f1, file1. split; auto. rewrite <- Eh. exact Hf1.
Qed.

Lemma displaced_setup text A lines lo hi : displaced_file text A lines lo hi -> settledA (map snd lines) text lo hi (fun t => possible lo t (Some (map fst lines))) (fun t => catalogued_displaced A 1 [(0, 0, 0)] lines lo t).
Proof.
  intros [bulk [vecs [DL [m [concs [Htext [Hvecs [Hli [Hin [Hus [HD [Hd [Ht [Hf [Hi [Hlo Hsm]]]]]]]]]]]]]]]].
  split; [intros t t'; apply possible_more|].
  destruct (C59_read _ _ _ _ _ _ _ _ _ Htext) as [par [Epar [P1 [_ [P3 [P4 [P5 [P6 [P7 P8]]]]]]]]].
  assert (same_numbers (l_vecs par) (rows_over DL A)) as Hv by (eapply same_concs_trans; eauto).
  destruct (setup_readA par DL A m lo hi lines concs HD Hd Ht Hf Hi Hv P5 P1 P6 P7 P8 Hli Hin P4) as [pg [c [A0 [m0 [na [Hc [EA [Hd0 [[DL0 [HD0 [Ht0 [Hf0 [Hi0 Epg]]]]] [Hna Esu]]]]]]]]]].
  destruct (C56_usable (1 # 10000000000) DL0 A0 m0 HD0 Hd0 Ht0 Hf0 Hi0) as [pg' [E [F1 [F2 [F3 F4]]]]]. assert (pg' = pg) by congruence. subst pg'.
  set (su := {| s_pg := pg |}) in *. exists par, su.
  assert (good_basis (s_pg su) (s_D su) (s_bas su) (s_lo su) (s_hi su)) as Hgb by (apply good_origin; cbn; lia).
  assert (usableA (map snd lines) su) as Hu.
  { constructor; auto; try solve [cbn; lia].
    - split; [cbn; lia|]. cbn [su s_species s_hi s_bas length]. change (Z.of_nat 1) with 1. rewrite Z.mul_1_r. auto.
    - split; [exact Hus|]. split; [reflexivity|]. split; [apply map_length|]. split; auto. }
  split; auto. split; auto. split; [exact Hu|]. split; [auto|split; [auto|split; [|split]]].
  - split; [|split].
    + apply ListFacts.Forall2_length in Hv. rewrite Hv. clear. destruct A as [[[[? ?] ?] [[? ?] ?]] [[? ?] ?]]. reflexivity.
    + apply ListFacts.Forall2_length in P5. destruct (l_bas par); [discriminate|discriminate].
    + rewrite P4. lia.
  - intros t Ht0' Hpos. destruct (usableA_upto _ su t Hu Ht0') as [U1 U2 U3 U4 U5 [U6 U6'] [U7 _]]. apply possible_someB; auto; try solve [unfold small_run in U6'; lia].
    change (ranges_of (upto su t)) with (Some (map fst lines)). apply possible_one. exact Hpos.
  - intros t date file [structs [E1 [H3 H4]]]. exists (system_of (params_of date par)), structs. split; auto. split; [|auto].
    change (ranges_of (upto su t)) with (Some (map fst lines)) in H3. cbn [su upto s_pg s_D s_bas s_species s_lo s_hi] in H3.
    assert (forall f g, same_structure pg 1 [(0, 0, 0)] f g <-> congruent_displaced A 1 [(0, 0, 0)] f g) as Hsame.
    { intros f g. rewrite EA. split.
      - intros [C [R [t0 [HC [Hs Hcc]]]]]. exists C, R, t0. destruct (proj1 (F1 C R) HC). split; [apply keeps_scale; [lia|auto]|]. split; [apply cartesian_scale; [lia|auto]|]. auto.
      - intros [C [R [t0 [HC [HR [Hs Hcc]]]]]]. apply keeps_scale in HC; [|lia]. apply cartesian_scale in HR; [|lia]. exists C, R, t0. split; [apply F1; auto|]. auto. }
    destruct H3 as [G1 [G2 [G3 G4]]]. split; [|split; [|split]]; auto.
    + intros f Hfa. destruct (G3 f Hfa) as [w [f' [Hw [Hm' Hs]]]]. exists w, f'. split; auto. split; auto. apply Hsame; auto.
    + eapply TransFacts.FOP_impl; [|exact G4]. cbv beta. intros a b Ha Hb Hab f g Hfa Hg Hcc. apply (Hab f g Hfa Hg). apply Hsame; auto.
Qed.

Lemma displaced_atoms_setup text A D bas lines lo hi : displaced_atoms_file text A D bas lines lo hi -> settledA (map snd lines) text lo hi (fun t => possible_sites (Z.of_nat (length bas)) lo t (Some (map fst lines))) (fun t => catalogued_displaced A D bas lines lo t).
Proof.
  intros [bulk [vecs [DL [m [basq [concs [Htext [Hvecs [Hat [Hlow [HDb [Hn [Hr [Hz [Hli [Hin [Hus [HD [Hd [Ht [Hf [Hi [Hinv [Hlo Hsm]]]]]]]]]]]]]]]]]]]]]]]].
  split; [intros t t'; apply possible_sites_more|].
  destruct (C59_read _ _ _ _ _ _ _ _ _ Htext) as [par [Epar [P1 [_ [P3 [P4 [P5 [P6 [P7 P8]]]]]]]]].
  assert (same_numbers (l_vecs par) (rows_over DL A)) as Hv by (eapply same_concs_trans; eauto).
  destruct (setup_basis par DL A m lo hi (Some (map fst lines)) concs D bas basq HD Hd Ht Hf Hi Hv P5 Hat HDb Hlow P1 P8 (lines_restrict _ _ Hli)) as [pg [c [A0 [m0 [Hc [EA [Hd0 [[DL0 [HD0 [Ht0 [Hf0 [Hi0 Epg]]]]] Esu]]]]]]]].
  pose proof (lines_fractions par lines P6 P7 (lines_transport _ _ _ Hli P8)) as Hm.
  rewrite (marks_arrows (map snd lines)), P4, P6, Nat2Z.id in Esu by auto. cbn [the_ranges] in Esu.
  destruct (C56_usable (1 # 10000000000) DL0 A0 m0 HD0 Hd0 Ht0 Hf0 Hi0) as [pg' [E [F1 [F2 [F3 F4]]]]]. assert (pg' = pg) by congruence. subst pg'.
  set (su := {| s_pg := pg |}) in *. exists par, su.
  assert (good_basis (s_pg su) (s_D su) (s_bas su) (s_lo su) (s_hi su)) as Hgb.
  { apply good_involutions; auto; try solve [cbn; lia]. intros C R HC. split; [apply (F2 C R HC)|apply Hinv]. rewrite EA. apply keeps_scale; [lia|]. apply (F1 C R); auto. }
  assert (forall c, s_na su (map Z.of_nat c) = moved_counts (map snd lines) c) as Hna by (intros; apply marks_displaced; auto).
  assert (usableA (map snd lines) su) as Hu.
  { constructor; auto; try solve [cbn; lia].
    - split; [exact Hus|]. split; [reflexivity|]. split; [apply map_length|]. split; auto. }
  split; auto. split; auto. split; [exact Hu|]. split; [auto|split; [auto|split; [|split]]].
  - split; [|split].
    + apply ListFacts.Forall2_length in Hv. rewrite Hv. clear. destruct A as [[[[? ?] ?] [[? ?] ?]] [[? ?] ?]]. reflexivity.
    + intros Eb. rewrite Eb in P5. apply ListFacts.Forall2_length in P5. apply ListFacts.Forall2_length in Hat. destruct bas; [destruct Hz|]. rewrite <- P5 in Hat. discriminate Hat.
    + rewrite P4. lia.
  - intros t Ht0' Hpos. destruct (usableA_upto _ su t Hu Ht0') as [U1 U2 U3 U4 U5 [U6 U6'] [U7 _]]. apply possible_someB; auto; try solve [unfold small_run in U6'; lia].
  - intros t date file [structs [E1 [H3 H4]]]. exists (system_of (params_of date par)), structs. split; auto. split; [|auto].
    change (ranges_of (upto su t)) with (Some (map fst lines)) in H3. cbn [su upto s_pg s_D s_bas s_species s_lo s_hi] in H3.
    assert (forall f g, same_structure pg D bas f g <-> congruent_displaced A D bas f g) as Hsame.
    { intros f g. rewrite EA. split.
      - intros [C [R [t0 [HC [Hs Hcc]]]]]. exists C, R, t0. destruct (proj1 (F1 C R) HC). split; [apply keeps_scale; [lia|auto]|]. split; [apply cartesian_scale; [lia|auto]|]. auto.
      - intros [C [R [t0 [HC [HR [Hs Hcc]]]]]]. apply keeps_scale in HC; [|lia]. apply cartesian_scale in HR; [|lia]. exists C, R, t0. split; [apply F1; auto|]. auto. }
    destruct H3 as [G1 [G2 [G3 G4]]]. split; [|split; [|split]]; auto.
    + intros f Hfa. destruct (G3 f Hfa) as [w [f' [Hw [Hm' Hs]]]]. exists w, f'. split; auto. split; auto. apply Hsame; auto.
    + eapply TransFacts.FOP_impl; [|exact G4]. cbv beta. intros a b Ha Hb Hab f g Hfa Hg Hcc. apply (Hab f g Hfa Hg). apply Hsame; auto.
Qed.

(** ** The properties *)
(** In a directory with lattice.in, [-enum] completes, makes the counts, enum.in and enum.out, and enum.out lists the crystals. *)
Theorem C62_displaced_partial : forall text A lines lo hi v e d, displaced_file text A lines lo hi -> possible lo hi (Some (map fst lines)) -> proper v e -> fresh d text ->
  exists fuel0 file d', (forall fuel, (fuel0 <= fuel)%nat -> ends (script (with_fuel e fuel) enum_args) d d') /\ dfile d' "enum.out" = Some file /\ catalogued_displaced A 1 [(0, 0, 0)] lines lo hi file /\
    (forall f, In f (names d') <-> In f (names d) \/ f = "enum.in"%string \/ f = "enum.out"%string \/ exists s, lo <= s <= hi /\ f = ("polya.out." ++ str s)%string).
Proof. intros text A lines lo hi v e d Hp Hpos He Hf. exact (enum_settledA _ _ _ _ _ _ v e d (displaced_setup _ _ _ _ _ Hp) Hpos He Hf). Qed.
(** Repeated in the directory it leaves, with other random numbers, another date, another order of the files: the rows list the
    crystals again, and no other file changes. *)
Theorem C62_again_displaced_partial : forall text A lines lo hi v e d, displaced_file text A lines lo hi -> possible lo hi (Some (map fst lines)) -> proper v e -> fresh d text ->
  exists fuel0 d', (forall fuel, (fuel0 <= fuel)%nat -> ends (script (with_fuel e fuel) enum_args) d d') /\
    forall e', proper v e' -> exists fuel1 file d'', (forall fuel, (fuel1 <= fuel)%nat -> ends (script (with_fuel e' fuel) enum_args) d' d'') /\
      dfile d'' "enum.out" = Some file /\ catalogued_displaced A 1 [(0, 0, 0)] lines lo hi file /\ forall f, f <> "enum.out"%string -> dfile d'' f = dfile d' f.
Proof. intros text A lines lo hi v e d Hp Hpos He Hf. exact (again_settledA _ _ _ _ _ _ v e d (displaced_setup _ _ _ _ _ Hp) Hpos He Hf). Qed.
(** [-enum] stopped after i of its files were written, then started again: the second run completes, and lists the crystals up to
    the size of the last count that was there, all of them if there was none. *)
Theorem C63_displaced_partial : forall text A lines lo hi v e d, displaced_file text A lines lo hi -> possible lo lo (Some (map fst lines)) -> proper v e -> fresh d text ->
  exists fuel0 ws, (forall fuel, (fuel0 <= fuel)%nat -> script (with_fuel e fuel) enum_args d = (ws, Ok tt)) /\
    forall i e', proper v e' -> exists fuel1 file d'',
      (forall fuel, (fuel1 <= fuel)%nat -> ends (script (with_fuel e' fuel) enum_args) (after d (firstn i ws)) d'') /\ dfile d'' "enum.out" = Some file /\
      catalogued_displaced A 1 [(0, 0, 0)] lines lo (if (1 <=? Z.of_nat i) && (lo + Z.of_nat i <=? hi) then lo + Z.of_nat i - 1 else hi) file.
Proof. intros text A lines lo hi v e d Hp Hpos He Hf. exact (restart_settledA _ _ _ _ _ _ v e d (displaced_setup _ _ _ _ _ Hp) Hpos He Hf). Qed.
(** The same with several atoms per cell. *)
Theorem C62_several_displaced_partial : forall text A D bas lines lo hi v e d, displaced_atoms_file text A D bas lines lo hi -> possible_sites (Z.of_nat (length bas)) lo hi (Some (map fst lines)) -> proper v e -> fresh d text ->
  exists fuel0 file d', (forall fuel, (fuel0 <= fuel)%nat -> ends (script (with_fuel e fuel) enum_args) d d') /\ dfile d' "enum.out" = Some file /\ catalogued_displaced A D bas lines lo hi file /\
    (forall f, In f (names d') <-> In f (names d) \/ f = "enum.in"%string \/ f = "enum.out"%string \/ exists s, lo <= s <= hi /\ f = ("polya.out." ++ str s)%string).
Proof. intros text A D bas lines lo hi v e d Hp Hpos He Hf. exact (enum_settledA _ _ _ _ _ _ v e d (displaced_atoms_setup _ _ _ _ _ _ _ Hp) Hpos He Hf). Qed.
Theorem C62_again_several_displaced_partial : forall text A D bas lines lo hi v e d, displaced_atoms_file text A D bas lines lo hi -> possible_sites (Z.of_nat (length bas)) lo hi (Some (map fst lines)) -> proper v e -> fresh d text ->
  exists fuel0 d', (forall fuel, (fuel0 <= fuel)%nat -> ends (script (with_fuel e fuel) enum_args) d d') /\
    forall e', proper v e' -> exists fuel1 file d'', (forall fuel, (fuel1 <= fuel)%nat -> ends (script (with_fuel e' fuel) enum_args) d' d'') /\
      dfile d'' "enum.out" = Some file /\ catalogued_displaced A D bas lines lo hi file /\ forall f, f <> "enum.out"%string -> dfile d'' f = dfile d' f.
Proof. intros text A D bas lines lo hi v e d Hp Hpos He Hf. exact (again_settledA _ _ _ _ _ _ v e d (displaced_atoms_setup _ _ _ _ _ _ _ Hp) Hpos He Hf). Qed.
Theorem C63_several_displaced_partial : forall text A D bas lines lo hi v e d, displaced_atoms_file text A D bas lines lo hi -> possible_sites (Z.of_nat (length bas)) lo lo (Some (map fst lines)) -> proper v e -> fresh d text ->
  exists fuel0 ws, (forall fuel, (fuel0 <= fuel)%nat -> script (with_fuel e fuel) enum_args d = (ws, Ok tt)) /\
    forall i e', proper v e' -> exists fuel1 file d'',
      (forall fuel, (fuel1 <= fuel)%nat -> ends (script (with_fuel e' fuel) enum_args) (after d (firstn i ws)) d'') /\ dfile d'' "enum.out" = Some file /\
      catalogued_displaced A D bas lines lo (if (1 <=? Z.of_nat i) && (lo + Z.of_nat i <=? hi) then lo + Z.of_nat i - 1 else hi) file.
Proof. intros text A D bas lines lo hi v e d Hp Hpos He Hf. exact (restart_settledA _ _ _ _ _ _ v e d (displaced_atoms_setup _ _ _ _ _ _ _ Hp) Hpos He Hf). Qed.

(** The directory with /repo/input/tests/test2/lattice.in: the face-centred lattice, cells of six atoms, at most half of them of
    the second species, whose atoms are displaced. *)
Definition test2_range : list (Z * Z * Z * bool) := [(0, 6, 6, false); (0, 3, 6, true)].
Lemma test2_displaced : displaced_file (text_lines test2_lines) ((1, 1, 0), (1, 0, 1), (0, 1, 1)) test2_range 6 6.
Proof.
  exists true, [[1 # 2; 1 # 2; 0]; [1 # 2; 0; 1 # 2]; [0; 1 # 2; 1 # 2]]%Q, 2, 4, [[0; 6; 6; 0]; [0; 3; 6; 1]]%Q.
  split; [exact test2_says|].
  split; [repeat (apply Forall2_cons; [repeat (apply Forall2_cons; [reflexivity|]); apply Forall2_nil|]); apply Forall2_nil|].
  split; [repeat (apply Forall2_cons; [left; repeat (apply Forall2_cons; [reflexivity|]); apply Forall2_nil|]); apply Forall2_nil|].
  split; [right; left; reflexivity|].
  split; [split; [reflexivity|]; exists 6; split; [lia|]; intros x y z [E|[E|[]]]; inversion E; subst; lia|].
  split; [reflexivity|]. split; [discriminate|].
  split; [split; [intros i Hi; destruct i as [|[|[|i]]]; try lia; vm_compute; discriminate|split; [discriminate|reflexivity]]|].
  split; [reflexivity|].
  split; [apply (C56_any_basis ((0, 0, 1), (0, 1, 0), (1, 0, 0)) ((0, 0, 1), (0, 1, 0), (1, 0, 0)) (face_centred 1)); try reflexivity; apply (C56_cubic 1); discriminate|].
  split; [lia|]. right. left. split; [reflexivity|discriminate].
Qed.
Lemma test2_possible : possible 6 6 (Some (map fst test2_range)).
Proof. exists 6, [3; 3]. split; [lia|]. split; [reflexivity|]. repeat constructor; cbn; lia. Qed.
Lemma test2_fresh : fresh [("lattice.in"%string, text_lines test2_lines)] (text_lines test2_lines).
Proof. split; [repeat constructor; intros []|]. split; [reflexivity|]. split; [reflexivity|]. intros f [<-|[]]. left. reflexivity. Qed.
Example C62_test2 : exists fuel0 file d', (forall fuel, (fuel0 <= fuel)%nat -> ends (script (with_fuel (some_env 0 "Monday") fuel) enum_args) [("lattice.in"%string, text_lines test2_lines)] d') /\
  dfile d' "enum.out" = Some file /\ catalogued_displaced ((1, 1, 0), (1, 0, 1), (0, 1, 1)) 1 [(0, 0, 0)] test2_range 6 6 file.
Proof. destruct (C62_displaced_partial _ _ _ _ _ Py3 (some_env 0 "Monday") _ test2_displaced test2_possible (some_proper 0 "Monday" ltac:(repeat split)) test2_fresh) as [fuel0 [file [d' [H1 [H2 [H3 _]]]]]]. exists fuel0, file, d'. auto. Qed.
(** The box with edges 1, 2 and 3, both atoms of the cell displaced. *)
Lemma box_displaced_file : displaced_atoms_file (text_lines box_displaced_lines) (box_lattice 1 2 3) 2 [(0, 0, 0); (0, 1, 0)] [(0, 1, 1, true)] 1 1.
Proof.
  destruct PropertiesRun.C60_example_two_atoms as [[E1 [E2 [E3 [E4 E5]]]] _].
  exists true, [[1; 0; 0]; [0; 2; 0]; [0; 0; 3]]%Q, 1, 9, [[0; 0; 0]; [0; 1; 0]]%Q, [[0; 1; 1; 1]]%Q. split; [exact box_displaced_says|].
  split; [repeat (apply Forall2_cons; [repeat (apply Forall2_cons; [reflexivity|]); apply Forall2_nil|]); apply Forall2_nil|].
  split; [exact box_atoms|]. split; [exact box_lowest|]. split; [lia|]. split; [repeat constructor; cbn; intuition discriminate|].
  split; [intros d [<-|[<-|[]]] [|[|[|i]]] Hj; cbn; lia|]. split; [left; reflexivity|].
  split; [repeat (apply Forall2_cons; [left; repeat (apply Forall2_cons; [reflexivity|]); apply Forall2_nil|]); apply Forall2_nil|].
  split; [left; reflexivity|]. split; [split; [reflexivity|]; exists 1; split; [lia|]; intros x y z [E|[]]; inversion E; subst; lia|].
  repeat (split; [solve [auto; reflexivity]|]). split; [lia|]. cbn. unfold small_run. lia.
Qed.
Example C63_box_displaced : exists fuel0 ws, (forall fuel, (fuel0 <= fuel)%nat -> script (with_fuel (some_env 0 "Monday") fuel) enum_args [("lattice.in"%string, text_lines box_displaced_lines)] = (ws, Ok tt)) /\
  forall i e', proper Py3 e' -> exists fuel1 file d'', (forall fuel, (fuel1 <= fuel)%nat -> ends (script (with_fuel e' fuel) enum_args) (after [("lattice.in"%string, text_lines box_displaced_lines)] (firstn i ws)) d'') /\
    dfile d'' "enum.out" = Some file /\ catalogued_displaced (box_lattice 1 2 3) 2 [(0, 0, 0); (0, 1, 0)] [(0, 1, 1, true)] 1 1 file.
Proof.
  destruct (C63_several_displaced_partial _ _ _ _ _ _ _ Py3 (some_env 0 "Monday") [("lattice.in"%string, text_lines box_displaced_lines)] box_displaced_file) as [f0 [ws [H1 H2]]].
  - exists 1, [2]. cbn. repeat split; auto; try lia. repeat constructor; cbn; lia.
  - apply some_proper. repeat split.
  - split; [repeat constructor; intros []|]. split; [reflexivity|]. split; [reflexivity|]. intros f [<-|[]]. left. reflexivity.
  - exists f0, ws. split; auto. intros i e' He'. destruct (H2 i e' He') as [f1 [file [d'' [K1 [K2 K3]]]]]. exists f1, file, d''. split; auto. split; auto.
    replace (if (1 <=? Z.of_nat i) && (1 + Z.of_nat i <=? 1) then 1 + Z.of_nat i - 1 else 1) with 1 in K3; auto.
    destruct (Z.leb_spec 1 (Z.of_nat i)), (Z.leb_spec (1 + Z.of_nat i) 1); cbn [andb]; lia.
Qed.

Print Assumptions C62_displaced_partial.
Print Assumptions C62_again_displaced_partial.
Print Assumptions C63_displaced_partial.
Print Assumptions C62_several_displaced_partial.
Print Assumptions C62_again_several_displaced_partial.
Print Assumptions C63_several_displaced_partial.
Print Assumptions C62_test2.
Print Assumptions C63_box_displaced.
