(** Whole runs with displaced species from the text of lattice.in (C68, C59): the properties. *)
From Coq Require Import Permutation QArith.
From Verif Require Import TextModel TextProofs PyBase Spec PhononsModel TreeModel EnumSysModel Mat3 PolyaModel HNFModel LatSpec LatGroupModel LatGroupThm SuperModel StructSpec StructAll.
From Verif Require Import FilesModel EnumOutModel EnumOutSpec PropertiesEnumOut PointGroupModel PointGroupSpec PointGroupProofs PointGroupMain PropertiesPoint RunModel RunSpec RunProofs RunMain RunTop PropertiesRun.
From Verif Require Import LatticeInModel LatticeInSpec LatticeInProofs PropertiesLatticeIn RunText PropertiesRunText.
From Verif Require Import RunArrowDeco RunArrowSystem RunArrowSpec RunArrowOne RunArrowMain RunArrowTop PropertiesRunArrows RunArrowText.
Local Open Scope Z_scope.

(** From the text of lattice.in to the rows that are read from enum.out.  The file says: sizes lo to hi, the lattice vectors
    A/DL, one atom at the origin, and one line for each species with the range of its concentration and whether its atoms
    are displaced. *)
Theorem C68_from_text_partial : forall text bulk vecs DL A m lo hi lines concs v others listdir rnd0 draw rnd shuffled p,
  file_says text [lo; hi] bulk vecs (Z.of_nat (length lines)) [[0; 0; 0]]%Q true true concs -> same_numbers vecs (rows_over DL A) ->
  displaced_lines lines concs -> In true (map snd lines) -> usable_ranges (length lines) (Some (map fst lines)) -> possible lo hi (Some (map fst lines)) ->
  0 < DL -> mdet A <> 0 -> tolerable (1 # 10000000000) DL A m -> fine (1 # 10000000000) A -> integer_rotations A ->
  1 <= lo <= hi -> small_run (length lines) hi ->
  (forall l : list string, Permutation (listdir l) l) -> NoDup others ->
  (forall f, In f others -> contains "polya.out" f = false \/ first_char f <> first_char "polya.out") -> good_params p ->
  exists par su file fuel0 structs, read_lattice text = Ok par /\ setup_of par = Ok su /\
    (forall fuel, (fuel0 <= fuel)%nat -> run_from_scratch v others listdir rnd0 draw rnd shuffled fuel p su false false = Ok file) /\
    read_enum_out file None = Ok (system_of p, structs) /\
    catalogue (displaced_run_structures 1 [(0, 0, 0)] (map snd lines) lo hi (Some (map fst lines))) (congruent_displaced A 1 [(0, 0, 0)]) (row_says 1 [(0, 0, 0)]) structs /\
    forall s f, In s structs -> row_says 1 [(0, 0, 0)] s f -> primitive 1 [(0, 0, 0)] (sHNF s) f.
Proof.
  intros text bulk vecs DL A m lo hi lines concs v others listdir rnd0 draw rnd shuffled p Htext Hvecs Hli Hin Hus Hpos HD Hd Ht Hf Hi Hlo Hsm Hls Hno Hoth Hp.
  destruct (C59_read _ _ _ _ _ _ _ _ _ Htext) as [par [Epar [P1 [_ [P3 [P4 [P5 [P6 [P7 P8]]]]]]]]].
  assert (same_numbers (l_vecs par) (rows_over DL A)) as Hv.
  { clear - P3 Hvecs. unfold same_numbers in *. revert P3 Hvecs. generalize (l_vecs par) vecs (rows_over DL A). intros a b c H. revert c. induction H as [|x y a b Hxy _ IH]; intros c K; inversion K as [|? z ? c' Hyz Hc]; subst; constructor; [|auto].
    eapply Forall2_Qeq_trans; eauto. }
  destruct (setup_readA par DL A m lo hi lines concs HD Hd Ht Hf Hi Hv P5 P1 P6 P7 P8 Hli Hin P4) as [pg [c [A0 [m0 [na [Hc [EA [Hd0 [[DL0 [HD0 [Ht0 [Hf0 [Hi0 Epg]]]]] [Hna Esu]]]]]]]]]].
  destruct (C56_usable (1 # 10000000000) DL0 A0 m0 HD0 Hd0 Ht0 Hf0 Hi0) as [pg' [E [F1 [F2 [F3 F4]]]]]. assert (pg' = pg) by congruence. subst pg'.
  set (su := {| s_pg := pg |}) in *. exists par, su.
  assert (good_basis (s_pg su) (s_D su) (s_bas su) (s_lo su) (s_hi su)) as Hgb by (apply good_origin; cbn; lia).
  destruct (from_scratchA su v (map snd lines)) with (others := others) (listdir := listdir) (rnd0 := rnd0) (draw := draw) (rnd := rnd) (shuffled := shuffled) (p := p)
    as [file [fuel0 [structs [H1 [H2 [H3 H4]]]]]]; auto; try solve [cbn; lia].
  { cbn [su s_species s_hi s_bas length]. change (Z.of_nat 1) with 1. rewrite Z.mul_1_r. auto. }
  { apply map_length. }
  { intros s H c' rnd1 Hs HH Hl Hsum. unfold run_sizes in Hs. apply TreeSearch.in_range_up in Hs. cbn [su s_lo s_hi s_species s_D s_pg s_bas] in *.
    apply small_systems with (lo := lo) (hi := hi) (s := s); auto; rewrite ?map_length; auto; try lia. cbn [length]. unfold small_run in *. lia. }
  { apply possible_someB; auto; try solve [cbn; unfold small_run in Hsm; lia]. cbn [su s_bas length s_lo s_hi]. apply possible_one. auto. }
  exists file, fuel0, structs. repeat (split; [assumption|]). split; auto. cbn [su s_pg s_D s_bas s_species s_lo s_hi] in H3. change (ranges_of su) with (Some (map fst lines)) in H3.
  assert (forall f g, same_structure pg 1 [(0, 0, 0)] f g <-> congruent_displaced A 1 [(0, 0, 0)] f g) as Hsame.
  { intros f g. rewrite EA. split.
    - intros [C [R [t [HC [Hs Hcc]]]]]. exists C, R, t. destruct (proj1 (F1 C R) HC). split; [apply keeps_scale; [lia|auto]|]. split; [apply cartesian_scale; [lia|auto]|]. auto.
    - intros [C [R [t [HC [HR [Hs Hcc]]]]]]. apply keeps_scale in HC; [|lia]. apply cartesian_scale in HR; [|lia]. exists C, R, t. split; [apply F1; auto|]. auto. }
  destruct H3 as [G1 [G2 [G3 G4]]]. split; [|split; [|split]]; auto.
  - intros f Hfa. destruct (G3 f Hfa) as [w [f' [Hw [Hm Hs]]]]. exists w, f'. split; auto. split; auto. apply Hsame; auto.
  - eapply TransFacts.FOP_impl; [|exact G4]. cbv beta. intros a b Ha Hb Hab f g Hfa Hg Hcc. apply (Hab f g Hfa Hg). apply Hsame; auto.
Qed.

(** The file /repo/input/tests/test2/lattice.in: the face-centred lattice, cells of six atoms, at most half of them of the second
    species, whose atoms are displaced. *)
Definition test2_lines : list string := [
  "# Which cell-sizes do you want to search?";
  "6 6";
  "#---------------------------------------";
  "# Bulk or surface?";
  "bulk";
  "# List the primitive cell's lattice vectors";
  "0.5 0.5 0";
  "0.5 0 0.5";
  "0 0.5 0.5";
  "# number of atomic species in the cell";
  "2";
  "# basis atoms";
  "1";
  "0 0 0";
  "#----------------------------------------";
  "# Concentrations";
  "#";
  "# - use specific concentration range (T/F)";
  "# - use arrows on some of the atoms (T/F)";
  "# The concentration ranges for each atom are specified by three";
  "# integers, which define 2 fractions. The third number is the";
  "# denominator for the fraction, the first two numbers are the";
  "# numerator. The first two numbers need not be listed in ascending";
  "# order.";
  "#";
  "# If displacement directions are to be used then a fourth number";
  "# follows the fractions the fourth number should be a decimal that";
  "# indicates the fractional amount of displaced atoms of that species.";
  "T";
  "T";
  "0 6 6 0.0";
  "0 3 6 1.0"]%string.
Lemma numerals_test2 : decimal "6" 6 /\ decimal "3" 3 /\ decimal "0.0" 0 /\ decimal "1.0" 1.
Proof. repeat split; [digit_word [6] (@nil Z)|digit_word [3] (@nil Z)|digit_word [0] [0]|digit_word [1] [0]]. Qed.
Lemma test2_says : file_says (text_lines test2_lines) [6; 6] true [[1 # 2; 1 # 2; 0]; [1 # 2; 0; 1 # 2]; [0; 1 # 2; 1 # 2]]%Q 2 [[0; 0; 0]]%Q true true [[0; 6; 6; 0]; [0; 3; 6; 1]]%Q.
Proof.
  destruct numerals_test2 as [N1 [N2 [N3 N4]]].
  exists test2_lines. eexists. exists ["6 6"; "bulk"; "0.5 0.5 0"; "0.5 0 0.5"; "0 0.5 0.5"; "2"; "1"; "0 0 0"]%string, ["T"; "T"; "0 6 6 0.0"; "0 3 6 1.0"]%string.
  split; [repeat constructor|]. split; [reflexivity|]. split; [|split; [reflexivity|]].
  - unfold test2_lines. repeat first [apply commented_end | apply commented_comment; [eexists EmptyString, _; split; [exact Logic.I|reflexivity]|] | apply commented_line].
  - split.
    + exists "6 6"%string, "bulk"%string, "b"%char, "ulk"%string, ["0.5 0.5 0"; "0.5 0 0.5"; "0 0.5 0.5"]%string, "2"%string, "1"%string, ["0 0 0"]%string.
      split; [reflexivity|]. split; [discriminate|]. split; [reflexivity|]. split; [plain_word|]. split; [discriminate|]. split; [tauto|]. split; [reflexivity|].
      split; [repeat (apply Forall2_cons; [split; [discriminate|repeat (apply Forall2_cons; [first [exact numeral_0|exact numeral_half]|]); apply Forall2_nil]|]); apply Forall2_nil|].
      split; [plain_word|]. split; [plain_word|].
      repeat (apply Forall2_cons; [split; [discriminate|repeat (apply Forall2_cons; [first [exact numeral_0|exact numeral_half]|]); apply Forall2_nil]|]); apply Forall2_nil.
    + exists "T"%string, "T"%string, ["0 6 6 0.0"; "0 3 6 1.0"]%string, "T"%string, "T"%string. split; [reflexivity|].
      assert (plain_line "T") as P by (split; [intros Hb; cbn in Hb; intuition discriminate|intros [b [r [Hb E]]]; destruct b as [|x b]; [discriminate|]; injection E as <- _; destruct Hb; discriminate]).
      split; [exact P|]. split; [exact P|]. split; [plain_word|]. split; [discriminate|]. split; [plain_word|]. split; [split; discriminate|].
      repeat (apply Forall2_cons; [split; [discriminate|repeat (apply Forall2_cons; [first [exact numeral_0|eassumption]|]); apply Forall2_nil]|]); apply Forall2_nil.
Qed.
Example C68_test2_file : forall v rnd0 draw rnd shuffled, exists par su file fuel0 structs, read_lattice (text_lines test2_lines) = Ok par /\ setup_of par = Ok su /\
  (forall fuel, (fuel0 <= fuel)%nat -> run_from_scratch v ["lattice.in"%string] (fun l => l) rnd0 draw rnd shuffled fuel cubic_params su false false = Ok file) /\
  read_enum_out file None = Ok (system_of cubic_params, structs) /\
  catalogue (displaced_run_structures 1 [(0, 0, 0)] [false; true] 6 6 (Some [(0, 6, 6); (0, 3, 6)])) (congruent_displaced ((1, 1, 0), (1, 0, 1), (0, 1, 1)) 1 [(0, 0, 0)]) (row_says 1 [(0, 0, 0)]) structs.
Proof.
  intros v rnd0 draw rnd shuffled.
  destruct (C68_from_text_partial (text_lines test2_lines) true [[1 # 2; 1 # 2; 0]; [1 # 2; 0; 1 # 2]; [0; 1 # 2; 1 # 2]]%Q 2 ((1, 1, 0), (1, 0, 1), (0, 1, 1)) 4 6 6 [(0, 6, 6, false); (0, 3, 6, true)] [[0; 6; 6; 0]; [0; 3; 6; 1]]%Q v ["lattice.in"%string] (fun l => l) rnd0 draw rnd shuffled cubic_params)
    as [par [su [file [fuel0 [structs [H1 [H2 [H3 [H4 [H5 _]]]]]]]]]].
  - exact test2_says.
  - repeat (apply Forall2_cons; [repeat (apply Forall2_cons; [reflexivity|]); apply Forall2_nil|]); apply Forall2_nil.
  - repeat (apply Forall2_cons; [left; repeat (apply Forall2_cons; [reflexivity|]); apply Forall2_nil|]); apply Forall2_nil.
  - right. left. reflexivity.
  - split; [reflexivity|]. exists 6. split; [lia|]. intros x y z [E|[E|[]]]; inversion E; subst; lia.
  - exists 6, [3; 3]. split; [lia|]. split; [reflexivity|]. repeat constructor; cbn; lia.
  - reflexivity.
  - discriminate.
  - split; [intros i Hi; destruct i as [|[|[|i]]]; try lia; vm_compute; discriminate|split; [discriminate|reflexivity]].
  - reflexivity.
  - apply (C56_any_basis ((0, 0, 1), (0, 1, 0), (1, 0, 0)) ((0, 0, 1), (0, 1, 0), (1, 0, 0)) (face_centred 1)); try reflexivity. apply (C56_cubic 1). discriminate.
  - lia.
  - right. left. split; [reflexivity|discriminate].
  - auto.
  - repeat constructor. intros [].
  - intros f [<-|[]]. left. reflexivity.
  - apply cubic_good.
  - exists par, su, file, fuel0, structs. auto.
Qed.

Print Assumptions C68_from_text_partial.
Print Assumptions C68_test2_file.
