(** Whole runs from the text of lattice.in (C60, C59): the properties. *)
From Coq Require Import Permutation QArith.
From Verif Require Import TextModel TextProofs PyBase Spec PhononsModel TreeModel EnumSysModel Mat3 PolyaModel LatSpec LatGroupModel LatGroupThm SuperModel StructSpec StructAll.
From Verif Require Import FilesModel EnumOutModel EnumOutSpec PropertiesEnumOut PointGroupModel PointGroupSpec PointGroupProofs PointGroupMain PropertiesPoint RunModel RunSpec RunProofs RunMain RunTop.
From Verif Require Import LatticeInModel LatticeInSpec LatticeInProofs PropertiesLatticeIn RunText.
Local Open Scope Z_scope.

(** From the text of lattice.in to the rows that are read from enum.out.  The file says: sizes lo to hi, the lattice vectors
    A/DL, k species, one atom at the origin, no arrows, and no restrictions or ranges for the concentrations. *)
Theorem C60_from_text_partial : forall text bulk vecs DL A m k lo hi ranges concs v others listdir rnd0 draw rnd shuffled p,
  file_says text [lo; hi] bulk vecs (Z.of_nat k) [[0; 0; 0]]%Q (is_some ranges) false concs -> same_numbers vecs (rows_over DL A) ->
  restrictions ranges concs -> usable_ranges k ranges -> possible lo hi ranges ->
  0 < DL -> mdet A <> 0 -> tolerable (1 # 10000000000) DL A m -> fine (1 # 10000000000) A -> integer_rotations A ->
  1 <= lo <= hi -> (k = 2%nat /\ hi <= 20 \/ k = 3%nat /\ hi <= 15) ->
  (forall l : list string, Permutation (listdir l) l) -> NoDup others ->
  (forall f, In f others -> contains "polya.out" f = false \/ first_char f <> first_char "polya.out") -> good_params p ->
  exists par su file fuel0 structs, read_lattice text = Ok par /\ setup_of par = Ok su /\
    (forall fuel, (fuel0 <= fuel)%nat -> run_from_scratch v others listdir rnd0 draw rnd shuffled fuel p su false false = Ok file) /\
    read_enum_out file None = Ok (system_of p, structs) /\
    catalogue (run_structures 1 [(0, 0, 0)] k lo hi ranges) (congruent_crystals A 1 [(0, 0, 0)]) (row_says 1 [(0, 0, 0)]) structs /\
    forall s f, In s structs -> row_says 1 [(0, 0, 0)] s f -> primitive 1 [(0, 0, 0)] (sHNF s) f.
Proof.
  intros text bulk vecs DL A m k lo hi ranges concs v others listdir rnd0 draw rnd shuffled p Htext Hvecs Hrs Hus Hpos HD Hd Ht Hf Hi Hlo Hk Hls Hno Hoth Hp.
  destruct (C59_read _ _ _ _ _ _ _ _ _ Htext) as [par [Epar [P1 [_ [P3 [P4 [P5 [P6 [P7 P8]]]]]]]]].
  assert (same_numbers (l_vecs par) (rows_over DL A)) as Hv.
  { clear - P3 Hvecs. unfold same_numbers in *. revert P3 Hvecs. generalize (l_vecs par) vecs (rows_over DL A). intros a b c H. revert c. induction H as [|x y a b Hxy _ IH]; intros c K; inversion K as [|? z ? c' Hyz Hc]; subst; constructor; [|auto].
    clear - Hxy Hyz. revert z Hyz. induction Hxy as [|u v x y Huv _ IH]; intros z K; inversion K as [|? w ? z' Hvw Hz]; subst; constructor; [rewrite Huv; auto|auto]. }
  destruct (setup_read par DL A m k lo hi ranges concs HD Hd Ht Hf Hi Hv P5 P1 P6 P7 P8 Hrs Hus P4) as [pg [c [A0 [m0 [na [Hc [EA [Hd0 [[DL0 [HD0 [Ht0 [Hf0 [Hi0 Epg]]]]] [Hna Esu]]]]]]]]]].
  destruct (C56_usable (1 # 10000000000) DL0 A0 m0 HD0 Hd0 Ht0 Hf0 Hi0) as [pg' [E [F1 [F2 [F3 F4]]]]]. assert (pg' = pg) by congruence. subst pg'.
  set (su := {| s_pg := pg |}) in *. exists par, su. assert (ranges_of su = ranges) as Er by (unfold su; destruct ranges; reflexivity).
  assert (usable_ranges (s_species su) (ranges_of su) /\ s_arrows su = false /\ forall c, length c = s_species su -> s_na su c = map (fun _ => 0) c) as Hplain by (rewrite Er; auto).
  destruct (from_scratch su v) with (others := others) (listdir := listdir) (rnd0 := rnd0) (draw := draw) (rnd := rnd) (shuffled := shuffled) (p := p)
    as [file [fuel0 [structs [H1 [H2 [H3 H4]]]]]]; auto; try solve [cbn; lia].
  { apply good_origin. cbn; lia. }
  { apply possible_some; auto; try solve [cbn; lia]; [apply good_origin; cbn; lia|]. rewrite Er. apply possible_one. auto. }
  rewrite Er in H3.
  exists file, fuel0, structs. repeat (split; [assumption|]). split; auto. cbn [su s_pg s_D s_bas s_species s_lo s_hi] in H3.
  assert (forall f g, no_directions 1 [(0, 0, 0)] f -> (same_structure pg 1 [(0, 0, 0)] f g <-> congruent_crystals A 1 [(0, 0, 0)] f g)) as Hsame.
  { intros f g Nf. split.
    - intros [C [R [t [HC [Hs Hcc]]]]]. exists C, t. split; [rewrite EA; apply keeps_scale; [lia|]; apply (F1 C R); auto|]. split; auto. apply (plain_carries 1 [(0, 0, 0)] C R); auto.
    - intros [C [t [HC [Hs Hcc]]]]. rewrite EA in HC. apply keeps_scale in HC; [|lia]. destruct (Hi0 C HC) as [R HR]. exists C, R, t. split; [apply F1; auto|]. split; auto. apply plain_carries; auto. }
  destruct H3 as [G1 [G2 [G3 G4]]]. split; [|split; [|split]]; auto.
  - intros f Hfa. destruct (G3 f Hfa) as [w [f' [Hw [Hm Hs]]]]. exists w, f'. split; auto. split; auto. apply Hsame; auto. intros x Hx. apply Hfa; auto.
  - eapply TransFacts.FOP_impl; [|exact G4]. cbv beta. intros a b Ha Hb Hab f g Hfa Hg Hcc. apply (Hab f g Hfa Hg). apply Hsame; auto. destruct (G2 a f Ha Hfa) as [Hn _]. intros x Hx. apply Hn; auto.
Qed.

(** Another basis of the same lattice. *)
Theorem C56_any_basis : forall U V A, mmul U V = mid -> mmul V U = mid -> integer_rotations A -> integer_rotations (mmul U A).
Proof.
  intros U V A H1 H2 Hi C HC.
  assert (forall M N, transpose (mmul M N) = mmul (transpose N) (transpose M)) as T by (intros; mat_ring).
  assert (forall M N x, mvec (mmul M N) x = mvec M (mvec N x)) as T' by (intros; mat_ring).
  assert (mmul (transpose U) (transpose V) = mid /\ mmul (transpose V) (transpose U) = mid) as [E1 E2] by (rewrite <- !T, H1, H2; split; reflexivity).
  destruct (Hi (mmul (transpose U) (mmul C (transpose V)))) as [R HR].
  - intros x. rewrite !T'. specialize (HC (mvec (transpose V) x)). rewrite T, !T' in HC. rewrite HC. rewrite <- (T' (transpose U)), E1. f_equal. f_equal. mat_ring.
  - exists R. unfold cartesian_of in *. rewrite T. rewrite <- mmul_assoc, HR. rewrite !mmul_assoc, E2. mat_ring.
Qed.
(** The file of the project's test fcc_1, in a directory with this file only. *)
Example C60_fcc_file : forall v rnd0 draw rnd shuffled, exists par su file fuel0 structs, read_lattice (text_lines fcc_lines) = Ok par /\ setup_of par = Ok su /\
  (forall fuel, (fuel0 <= fuel)%nat -> run_from_scratch v ["lattice.in"%string] (fun l => l) rnd0 draw rnd shuffled fuel cubic_params su false false = Ok file) /\
  read_enum_out file None = Ok (system_of cubic_params, structs) /\
  catalogue (run_structures 1 [(0, 0, 0)] 2 1 11 None) (congruent_crystals ((1, 1, 0), (1, 0, 1), (0, 1, 1)) 1 [(0, 0, 0)]) (row_says 1 [(0, 0, 0)]) structs.
Proof.
  intros v rnd0 draw rnd shuffled.
  destruct (C60_from_text_partial (text_lines fcc_lines) true [[1 # 2; 1 # 2; 0]; [1 # 2; 0; 1 # 2]; [0; 1 # 2; 1 # 2]]%Q 2 ((1, 1, 0), (1, 0, 1), (0, 1, 1)) 4 2 1 11 None [] v ["lattice.in"%string] (fun l => l) rnd0 draw rnd shuffled cubic_params)
    as [par [su [file [fuel0 [structs [H1 [H2 [H3 [H4 [H5 _]]]]]]]]]].
  - exact fcc_says.
  - repeat (apply Forall2_cons; [repeat (apply Forall2_cons; [reflexivity|]); apply Forall2_nil|]); apply Forall2_nil.
  - reflexivity.
  - exact Logic.I.
  - exact Logic.I.
  - reflexivity.
  - discriminate.
  - split; [intros i Hi; destruct i as [|[|[|i]]]; try lia; vm_compute; discriminate|split; [discriminate|reflexivity]].
  - reflexivity.
  - apply (C56_any_basis ((0, 0, 1), (0, 1, 0), (1, 0, 0)) ((0, 0, 1), (0, 1, 0), (1, 0, 0)) (face_centred 1)); try reflexivity. apply (C56_cubic 1). discriminate.
  - lia.
  - lia.
  - auto.
  - repeat constructor. intros [].
  - intros f [<-|[]]. left. reflexivity.
  - apply cubic_good.
  - exists par, su, file, fuel0, structs. auto.
Qed.

Print Assumptions C59_comments.
Print Assumptions C59_read.
Print Assumptions C59_blank_line.
Print Assumptions C59_sizes_refuted.
Print Assumptions C59_arrows_refuted.
Print Assumptions C59_displaced.
Print Assumptions C59_displaced_doubles.
Print Assumptions C59_displaced_refuted.
Print Assumptions C60_from_text_partial.
Print Assumptions C56_any_basis.
