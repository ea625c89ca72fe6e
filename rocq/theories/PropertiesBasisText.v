(** Whole runs from the text of lattice.in with several atoms per cell (C60, C68): the properties. *)
From Coq Require Import Permutation QArith.
From Verif Require Import TextModel TextProofs PyBase Spec PhononsModel TreeModel EnumSysModel Mat3 PolyaModel HNFModel LatSpec LatGroupModel LatGroupThm SuperModel StructSpec StructAll.
From Verif Require Import FilesModel EnumOutModel EnumOutSpec PropertiesEnumOut PointGroupModel PointGroupSpec PointGroupProofs PointGroupMain PropertiesPoint BoxLattice RunModel RunSpec RunProofs RunMain RunTop PropertiesRun.
From Verif Require Import LatticeInModel LatticeInSpec LatticeInProofs PropertiesLatticeIn RunText PropertiesRunText PropertiesSetup SetupBasis.
From Verif Require Import RunArrowDeco RunArrowSystem RunArrowSpec RunArrowOne RunArrowMain RunArrowTop PropertiesRunArrows RunArrowText PropertiesRunArrowsText.
Local Open Scope Z_scope.

Lemma same_concs_trans a b c : same_numbers a b -> same_numbers b c -> same_numbers a c.
Proof. intros H. unfold same_numbers in *. revert c. induction H as [|x y a b Hxy _ IH]; intros c K; inversion K; subst; constructor; [eapply Forall2_Qeq_trans; eauto|auto]. Qed.

(** From the text of lattice.in to the rows that are read from enum.out.  The file says: sizes lo to hi, the lattice vectors
    A/DL, k species, no arrows, and atoms whose coordinates in the lattice vectors are the vectors [bas] over the common
    denominator D, in lowest terms; one of them is at the origin.  The symmetries of the lattice are their own inverses. *)
Theorem C60_several_from_text_partial : forall text bulk vecs DL A m basq D bas k lo hi ranges concs v others listdir rnd0 draw rnd shuffled p,
  file_says text [lo; hi] bulk vecs (Z.of_nat k) basq (is_some ranges) false concs -> same_numbers vecs (rows_over DL A) ->
  Forall2 (fun q u => at_coordinates (rows_over DL A) D u q) basq bas -> lowest_terms D bas -> 0 < D -> NoDup bas -> (forall d, In d bas -> reduced (D, D, D) d) -> In (0, 0, 0) bas ->
  restrictions ranges concs -> usable_ranges k ranges -> possible_sites (Z.of_nat (length bas)) lo hi ranges ->
  0 < DL -> mdet A <> 0 -> tolerable (1 # 10000000000) DL A m -> fine (1 # 10000000000) A -> integer_rotations A -> (forall C, keeps_lengths A C -> mmul C C = mid) ->
  1 <= lo <= hi -> (k = 2%nat /\ hi * Z.of_nat (length bas) <= 20 \/ k = 3%nat /\ hi * Z.of_nat (length bas) <= 15) ->
  (forall l : list string, Permutation (listdir l) l) -> NoDup others ->
  (forall f, In f others -> contains "polya.out" f = false \/ first_char f <> first_char "polya.out") -> good_params p ->
  exists par su file fuel0 structs, read_lattice text = Ok par /\ setup_of par = Ok su /\
    (forall fuel, (fuel0 <= fuel)%nat -> run_from_scratch v others listdir rnd0 draw rnd shuffled fuel p su false false = Ok file) /\
    read_enum_out file None = Ok (system_of p, structs) /\
    catalogue (run_structures D bas k lo hi ranges) (congruent_crystals A D bas) (row_says D bas) structs /\
    forall s f, In s structs -> row_says D bas s f -> primitive D bas (sHNF s) f.
Proof.
  intros text bulk vecs DL A m basq D bas k lo hi ranges concs v others listdir rnd0 draw rnd shuffled p Htext Hvecs Hat Hlow HDb Hn Hr Hz Hrs Hus Hpos HD Hd Ht Hf Hi Hinv Hlo Hk Hls Hno Hoth Hp.
  destruct (C59_read _ _ _ _ _ _ _ _ _ Htext) as [par [Epar [P1 [_ [P3 [P4 [P5 [P6 [P7 P8]]]]]]]]].
  assert (same_numbers (l_vecs par) (rows_over DL A)) as Hv by (eapply same_concs_trans; eauto).
  destruct (setup_basis par DL A m lo hi ranges concs D bas basq HD Hd Ht Hf Hi Hv P5 Hat HDb Hlow P1 P8 Hrs) as [pg [c [A0 [m0 [Hc [EA [Hd0 [[DL0 [HD0 [Ht0 [Hf0 [Hi0 Epg]]]]] Esu]]]]]]]].
  assert (get_arrow_concs par = repeat 0%Q k) as Earr.
  { destruct (concs_read _ _ _ Hrs P8) as [_ Elen]. unfold get_arrow_concs. rewrite P6, P4, Nat2Z.id. destruct ranges as [l|]; cbn [is_some]; [|auto]. cbn [the_ranges usable_ranges] in *. destruct Hus as [<- _]. rewrite <- Elen, <- repeat_zero. apply map_ext. intros c0. rewrite P7, andb_false_r. auto. }
  rewrite Earr, P4, P6, Nat2Z.id in Esu. replace (Qeq_bool (fold_right Qplus 0%Q (repeat 0%Q k)) 0) with true in Esu by (symmetry; apply Qeq_bool_iff, no_fractions). cbn [negb] in Esu.
  destruct (C56_usable (1 # 10000000000) DL0 A0 m0 HD0 Hd0 Ht0 Hf0 Hi0) as [pg' [E [F1 [F2 [F3 F4]]]]]. assert (pg' = pg) by congruence. subst pg'.
  set (su := {| s_pg := pg |}) in *. exists par, su. assert (ranges_of su = ranges) as Er by (unfold su; destruct ranges; reflexivity).
  assert (good_basis (s_pg su) (s_D su) (s_bas su) (s_lo su) (s_hi su)) as Hgb.
  { apply good_involutions; auto; try solve [cbn; lia]. intros C R HC. split; [apply (F2 C R HC)|apply Hinv]. rewrite EA. apply keeps_scale; [lia|]. apply (F1 C R); auto. }
  assert (usable_ranges (s_species su) (ranges_of su) /\ s_arrows su = false /\ forall c, length c = s_species su -> s_na su c = map (fun _ => 0) c) as Hplain by (rewrite Er; split; auto; split; auto; intros c' Hc'; apply none_displaced; auto).
  destruct (from_scratch su v) with (others := others) (listdir := listdir) (rnd0 := rnd0) (draw := draw) (rnd := rnd) (shuffled := shuffled) (p := p)
    as [file [fuel0 [structs [H1 [H2 [H3 H4]]]]]]; auto; try solve [cbn; lia].
  { apply possible_some; auto; try solve [cbn; lia]. rewrite Er. auto. }
  rewrite Er in H3.
  exists file, fuel0, structs. repeat (split; [assumption|]). split; auto. cbn [su s_pg s_D s_bas s_species s_lo s_hi] in H3.
  assert (forall f g, no_directions D bas f -> (same_structure pg D bas f g <-> congruent_crystals A D bas f g)) as Hsame.
  { intros f g Nf. split.
    - intros [C [R [t [HC [Hs Hcc]]]]]. exists C, t. split; [rewrite EA; apply keeps_scale; [lia|]; apply (F1 C R); auto|]. split; auto. apply (plain_carries D bas C R); auto.
    - intros [C [t [HC [Hs Hcc]]]]. rewrite EA in HC. apply keeps_scale in HC; [|lia]. destruct (Hi0 C HC) as [R HR]. exists C, R, t. split; [apply F1; auto|]. split; auto. apply plain_carries; auto. }
  destruct H3 as [G1 [G2 [G3 G4]]]. split; [|split; [|split]]; auto.
  - intros f Hfa. destruct (G3 f Hfa) as [w [f' [Hw [Hm Hs]]]]. exists w, f'. split; auto. split; auto. apply Hsame; auto. intros x Hx. apply Hfa; auto.
  - eapply TransFacts.FOP_impl; [|exact G4]. cbv beta. intros a b Ha Hb Hab f g Hfa Hg Hcc. apply (Hab f g Hfa Hg). apply Hsame; auto. destruct (G2 a f Ha Hfa) as [Hn' _]. intros x Hx. apply Hn'; auto.
Qed.

(** The same with displaced species: one line of the file for each species, with the range of its concentration and whether
    its atoms are displaced. *)
Theorem C68_several_from_text_partial : forall text bulk vecs DL A m basq D bas lo hi lines concs v others listdir rnd0 draw rnd shuffled p,
  file_says text [lo; hi] bulk vecs (Z.of_nat (length lines)) basq true true concs -> same_numbers vecs (rows_over DL A) ->
  Forall2 (fun q u => at_coordinates (rows_over DL A) D u q) basq bas -> lowest_terms D bas -> 0 < D -> NoDup bas -> (forall d, In d bas -> reduced (D, D, D) d) -> In (0, 0, 0) bas ->
  displaced_lines lines concs -> In true (map snd lines) -> usable_ranges (length lines) (Some (map fst lines)) -> possible_sites (Z.of_nat (length bas)) lo hi (Some (map fst lines)) ->
  0 < DL -> mdet A <> 0 -> tolerable (1 # 10000000000) DL A m -> fine (1 # 10000000000) A -> integer_rotations A -> (forall C, keeps_lengths A C -> mmul C C = mid) ->
  1 <= lo <= hi -> small_run (length lines) (hi * Z.of_nat (length bas)) ->
  (forall l : list string, Permutation (listdir l) l) -> NoDup others ->
  (forall f, In f others -> contains "polya.out" f = false \/ first_char f <> first_char "polya.out") -> good_params p ->
  exists par su file fuel0 structs, read_lattice text = Ok par /\ setup_of par = Ok su /\
    (forall fuel, (fuel0 <= fuel)%nat -> run_from_scratch v others listdir rnd0 draw rnd shuffled fuel p su false false = Ok file) /\
    read_enum_out file None = Ok (system_of p, structs) /\
    catalogue (displaced_run_structures D bas (map snd lines) lo hi (Some (map fst lines))) (congruent_displaced A D bas) (row_says D bas) structs /\
    forall s f, In s structs -> row_says D bas s f -> primitive D bas (sHNF s) f.
Proof.
  intros text bulk vecs DL A m basq D bas lo hi lines concs v others listdir rnd0 draw rnd shuffled p Htext Hvecs Hat Hlow HDb Hn Hr Hz Hli Hin Hus Hpos HD Hd Ht Hf Hi Hinv Hlo Hsm Hls Hno Hoth Hp.
  destruct (C59_read _ _ _ _ _ _ _ _ _ Htext) as [par [Epar [P1 [_ [P3 [P4 [P5 [P6 [P7 P8]]]]]]]]].
  assert (same_numbers (l_vecs par) (rows_over DL A)) as Hv by (eapply same_concs_trans; eauto).
  destruct (setup_basis par DL A m lo hi (Some (map fst lines)) concs D bas basq HD Hd Ht Hf Hi Hv P5 Hat HDb Hlow P1 P8 (lines_restrict _ _ Hli)) as [pg [c [A0 [m0 [Hc [EA [Hd0 [[DL0 [HD0 [Ht0 [Hf0 [Hi0 Epg]]]]] Esu]]]]]]]].
  pose proof (lines_fractions par lines P6 P7 (lines_transport _ _ _ Hli P8)) as Hm.
  rewrite (marks_arrows (map snd lines)), P4, P6, Nat2Z.id in Esu by auto. cbn [the_ranges] in Esu.
  destruct (C56_usable (1 # 10000000000) DL0 A0 m0 HD0 Hd0 Ht0 Hf0 Hi0) as [pg' [E [F1 [F2 [F3 F4]]]]]. assert (pg' = pg) by congruence. subst pg'.
  set (su := {| s_pg := pg |}) in *. exists par, su.
  assert (good_basis (s_pg su) (s_D su) (s_bas su) (s_lo su) (s_hi su)) as Hgb.
  { apply good_involutions; auto; try solve [cbn; lia]. intros C R HC. split; [apply (F2 C R HC)|apply Hinv]. rewrite EA. apply keeps_scale; [lia|]. apply (F1 C R); auto. }
  assert (forall c, s_na su (map Z.of_nat c) = moved_counts (map snd lines) c) as Hna by (intros; apply marks_displaced; auto).
  destruct (from_scratchA su v (map snd lines)) with (others := others) (listdir := listdir) (rnd0 := rnd0) (draw := draw) (rnd := rnd) (shuffled := shuffled) (p := p)
    as [file [fuel0 [structs [H1 [H2 [H3 H4]]]]]]; auto; try solve [cbn; lia].
  { apply map_length. }
  { intros s H c' rnd1 Hs HH Hl Hsum. unfold run_sizes in Hs. apply TreeSearch.in_range_up in Hs. cbn [su s_lo s_hi s_species s_D s_pg s_bas] in *.
    assert (s * Z.of_nat (length bas) <= hi * Z.of_nat (length bas)) by (apply Z.mul_le_mono_nonneg_r; lia).
    apply small_systems with (lo := lo) (hi := hi) (s := s); auto; rewrite ?map_length; auto; try lia; unfold small_run in *; lia. }
  { apply possible_someB; auto; try solve [cbn; unfold small_run in Hsm; lia]. }
  exists file, fuel0, structs. repeat (split; [assumption|]). split; auto. cbn [su s_pg s_D s_bas s_species s_lo s_hi] in H3. change (ranges_of su) with (Some (map fst lines)) in H3.
  assert (forall f g, same_structure pg D bas f g <-> congruent_displaced A D bas f g) as Hsame.
  { intros f g. rewrite EA. split.
    - intros [C [R [t [HC [Hs Hcc]]]]]. exists C, R, t. destruct (proj1 (F1 C R) HC). split; [apply keeps_scale; [lia|auto]|]. split; [apply cartesian_scale; [lia|auto]|]. auto.
    - intros [C [R [t [HC [HR [Hs Hcc]]]]]]. apply keeps_scale in HC; [|lia]. apply cartesian_scale in HR; [|lia]. exists C, R, t. split; [apply F1; auto|]. auto. }
  destruct H3 as [G1 [G2 [G3 G4]]]. split; [|split; [|split]]; auto.
  - intros f Hfa. destruct (G3 f Hfa) as [w [f' [Hw [Hm' Hs]]]]. exists w, f'. split; auto. split; auto. apply Hsame; auto.
  - eapply TransFacts.FOP_impl; [|exact G4]. cbv beta. intros a b Ha Hb Hab f g Hfa Hg Hcc. apply (Hab f g Hfa Hg). apply Hsame; auto.
Qed.

(** The box with edges 1, 2 and 3 and two atoms, in the corner and in the middle of an edge: up to three cells, two species. *)
Definition box_lines : list string := [
  "# sizes";
  "1 3";
  "bulk";
  "# lattice vectors";
  "1 0 0";
  "0 2 0";
  "0 0 3";
  "# species";
  "2";
  "# atoms";
  "2";
  "0 0 0";
  "0 1 0";
  "# concentrations, arrows";
  "F";
  "F"]%string.
Lemma numerals_box : decimal "1" 1 /\ decimal "2" 2 /\ decimal "3" 3.
Proof. repeat split; [digit_word [1] (@nil Z)|digit_word [2] (@nil Z)|digit_word [3] (@nil Z)]. Qed.
Ltac numerals := repeat (apply Forall2_cons; [split; [discriminate|repeat (apply Forall2_cons; [first [exact numeral_0|eassumption]|]); apply Forall2_nil]|]); apply Forall2_nil.
Lemma box_says : file_says (text_lines box_lines) [1; 3] true [[1; 0; 0]; [0; 2; 0]; [0; 0; 3]]%Q 2 [[0; 0; 0]; [0; 1; 0]]%Q false false [].
Proof.
  destruct numerals_box as [N1 [N2 N3]].
  exists box_lines. eexists. exists ["1 3"; "bulk"; "1 0 0"; "0 2 0"; "0 0 3"; "2"; "2"; "0 0 0"; "0 1 0"]%string, ["F"; "F"]%string.
  split; [repeat constructor|]. split; [reflexivity|]. split; [|split; [reflexivity|]].
  - unfold box_lines. repeat first [apply commented_end | apply commented_comment; [eexists EmptyString, _; split; [exact Logic.I|reflexivity]|] | apply commented_line].
  - split; [|split; [reflexivity|]; split; [reflexivity|]].
    + exists "1 3"%string, "bulk"%string, "b"%char, "ulk"%string, ["1 0 0"; "0 2 0"; "0 0 3"]%string, "2"%string, "2"%string, ["0 0 0"; "0 1 0"]%string.
      split; [reflexivity|]. split; [discriminate|]. split; [reflexivity|]. split; [plain_word|]. split; [discriminate|]. split; [tauto|]. split; [reflexivity|].
      split; [numerals|]. split; [plain_word|]. split; [plain_word|]. numerals.
    + exists "F"%string, ["F"]%string. split; [reflexivity|]. split; [plain_word|].
      repeat (apply Forall_cons; [split; [intros Hb; cbn in Hb; intuition discriminate|intros [b [r [Hb E]]]; destruct b as [|x b]; [discriminate|]; injection E as <- _; destruct Hb; discriminate]|]); apply Forall_nil.
Qed.
Lemma box_atoms : Forall2 (fun q u => at_coordinates (rows_over 1 (box_lattice 1 2 3)) 2 u q) [[0; 0; 0]; [0; 1; 0]]%Q [(0, 0, 0); (0, 1, 0)].
Proof.
  repeat constructor; eexists _, _, _; (split; [reflexivity|]); (split; [reflexivity|]); cbn; intros [|[|[|j]]] Hj; try lia; reflexivity.
Qed.
Lemma box_lowest : lowest_terms 2 [(0, 0, 0); (0, 1, 0)].
Proof. intros d Hd Hl. destruct (Hl 0 1 0) as [_ [H _]]; [right; left; reflexivity|]. destruct H as [k H]. assert (d * k = 1) by lia. apply Z.eq_mul_1 in H0. lia. Qed.
Example C60_box_file : forall v rnd0 draw rnd shuffled, exists par su file fuel0 structs, read_lattice (text_lines box_lines) = Ok par /\ setup_of par = Ok su /\
  (forall fuel, (fuel0 <= fuel)%nat -> run_from_scratch v ["lattice.in"%string] (fun l => l) rnd0 draw rnd shuffled fuel box_params su false false = Ok file) /\
  read_enum_out file None = Ok (system_of box_params, structs) /\
  catalogue (run_structures 2 [(0, 0, 0); (0, 1, 0)] 2 1 3 None) (congruent_crystals (box_lattice 1 2 3) 2 [(0, 0, 0); (0, 1, 0)]) (row_says 2 [(0, 0, 0); (0, 1, 0)]) structs.
Proof.
  intros v rnd0 draw rnd shuffled. destruct C60_example_two_atoms as [[E1 [E2 [E3 [E4 E5]]]] [Hp _]].
  destruct (C60_several_from_text_partial (text_lines box_lines) true [[1; 0; 0]; [0; 2; 0]; [0; 0; 3]]%Q 1 (box_lattice 1 2 3) 9 [[0; 0; 0]; [0; 1; 0]]%Q 2 [(0, 0, 0); (0, 1, 0)] 2 1 3 None [] v ["lattice.in"%string] (fun l => l) rnd0 draw rnd shuffled box_params)
    as [par [su [file [fuel0 [structs [H1 [H2 [H3 [H4 [H5 _]]]]]]]]]]; auto; try exact Logic.I.
  - exact box_says.
  - repeat (apply Forall2_cons; [repeat (apply Forall2_cons; [reflexivity|]); apply Forall2_nil|]); apply Forall2_nil.
  - exact box_atoms.
  - exact box_lowest.
  - repeat constructor; cbn; intuition discriminate.
  - intros d [<-|[<-|[]]] [|[|[|i]]] Hj; cbn; lia.
  - left. reflexivity.
  - reflexivity.
  - lia.
  - cbn. lia.
  - repeat constructor. intros [].
  - intros f [<-|[]]. left. reflexivity.
  - exists par, su, file, fuel0, structs. auto.
Qed.
(** The same box with both atoms of the cell displaced, in one cell. *)
Definition box_displaced_lines : list string := [
  "1 1";
  "bulk";
  "1 0 0";
  "0 2 0";
  "0 0 3";
  "1";
  "2";
  "0 0 0";
  "0 1 0";
  "T";
  "T";
  "0 1 1 1"]%string.
Lemma box_displaced_says : file_says (text_lines box_displaced_lines) [1; 1] true [[1; 0; 0]; [0; 2; 0]; [0; 0; 3]]%Q 1 [[0; 0; 0]; [0; 1; 0]]%Q true true [[0; 1; 1; 1]]%Q.
Proof.
  destruct numerals_box as [N1 [N2 N3]].
  exists box_displaced_lines. eexists. exists ["1 1"; "bulk"; "1 0 0"; "0 2 0"; "0 0 3"; "1"; "2"; "0 0 0"; "0 1 0"]%string, ["T"; "T"; "0 1 1 1"]%string.
  split; [repeat constructor|]. split; [reflexivity|]. split; [|split; [reflexivity|]].
  - unfold box_displaced_lines. repeat first [apply commented_end | apply commented_line].
  - split.
    + exists "1 1"%string, "bulk"%string, "b"%char, "ulk"%string, ["1 0 0"; "0 2 0"; "0 0 3"]%string, "1"%string, "2"%string, ["0 0 0"; "0 1 0"]%string.
      split; [reflexivity|]. split; [discriminate|]. split; [reflexivity|]. split; [plain_word|]. split; [discriminate|]. split; [tauto|]. split; [reflexivity|].
      split; [numerals|]. split; [plain_word|]. split; [plain_word|]. numerals.
    + exists "T"%string, "T"%string, ["0 1 1 1"]%string, "T"%string, "T"%string. split; [reflexivity|].
      assert (plain_line "T") as P by (split; [intros Hb; cbn in Hb; intuition discriminate|intros [b [r [Hb E]]]; destruct b as [|x b]; [discriminate|]; injection E as <- _; destruct Hb; discriminate]).
      split; [exact P|]. split; [exact P|]. split; [plain_word|]. split; [discriminate|]. split; [plain_word|]. split; [split; discriminate|]. numerals.
Qed.
Example C68_box_file : forall v rnd0 draw rnd shuffled, exists par su file fuel0 structs, read_lattice (text_lines box_displaced_lines) = Ok par /\ setup_of par = Ok su /\
  (forall fuel, (fuel0 <= fuel)%nat -> run_from_scratch v ["lattice.in"%string] (fun l => l) rnd0 draw rnd shuffled fuel box_params su false false = Ok file) /\
  read_enum_out file None = Ok (system_of box_params, structs) /\
  catalogue (displaced_run_structures 2 [(0, 0, 0); (0, 1, 0)] [true] 1 1 (Some [(0, 1, 1)])) (congruent_displaced (box_lattice 1 2 3) 2 [(0, 0, 0); (0, 1, 0)]) (row_says 2 [(0, 0, 0); (0, 1, 0)]) structs.
Proof.
  intros v rnd0 draw rnd shuffled. destruct C60_example_two_atoms as [[E1 [E2 [E3 [E4 E5]]]] [Hp _]].
  destruct (C68_several_from_text_partial (text_lines box_displaced_lines) true [[1; 0; 0]; [0; 2; 0]; [0; 0; 3]]%Q 1 (box_lattice 1 2 3) 9 [[0; 0; 0]; [0; 1; 0]]%Q 2 [(0, 0, 0); (0, 1, 0)] 1 1 [(0, 1, 1, true)] [[0; 1; 1; 1]]%Q v ["lattice.in"%string] (fun l => l) rnd0 draw rnd shuffled box_params)
    as [par [su [file [fuel0 [structs [H1 [H2 [H3 [H4 [H5 _]]]]]]]]]]; auto.
  - exact box_displaced_says.
  - repeat (apply Forall2_cons; [repeat (apply Forall2_cons; [reflexivity|]); apply Forall2_nil|]); apply Forall2_nil.
  - exact box_atoms.
  - exact box_lowest.
  - repeat constructor; cbn; intuition discriminate.
  - intros d [<-|[<-|[]]] [|[|[|i]]] Hj; cbn; lia.
  - left. reflexivity.
  - repeat (apply Forall2_cons; [left; repeat (apply Forall2_cons; [reflexivity|]); apply Forall2_nil|]); apply Forall2_nil.
  - left. reflexivity.
  - split; [reflexivity|]. exists 1. split; [lia|]. intros x y z [E|[]]; inversion E; subst; lia.
  - exists 1, [2]. cbn. repeat split; auto; try lia. repeat constructor; cbn; lia.
  - lia.
  - cbn. unfold small_run. lia.
  - repeat constructor. intros [].
  - intros f [<-|[]]. left. reflexivity.
  - exists par, su, file, fuel0, structs. auto.
Qed.

Print Assumptions C60_several_from_text_partial.
Print Assumptions C60_box_file.
Print Assumptions C68_several_from_text_partial.
Print Assumptions C68_box_file.
