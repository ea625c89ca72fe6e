(** The documented workflow with displaced species, command by command (C74): the properties. *)
From Coq Require Import Permutation QArith.
From Verif Require Import TextModel TextProofs PyBase ListFacts TreeSearch Spec Mat3 HNFModel PolyaModel LatSpec LatGroupThm SuperModel StructSpec StructAll EnumSysModel DistModel FilesModel FilesProofs EnumOutModel EnumOutSpec PropertiesEnumOut.
From Verif Require Import PointGroupModel PointGroupSpec PointGroupProofs PointGroupMain PropertiesPoint RunModel RunSpec RunProofs RunMain RunTop LatticeInModel LatticeInSpec LatticeInProofs PropertiesLatticeIn RunText PropertiesRunText.
From Verif Require Import FilesMain PropertiesFiles PropertiesRunArrowsText ScriptModel ScriptProofs ScriptMain PropertiesScript PropertiesBasisText PropertiesScriptBasis ScriptArrows PropertiesScriptArrows PropertiesWorkflow.
Local Open Scope Z_scope.

(** ** The proofs *)
Lemma polya_main_okA fl su par text v e : usableA fl su -> read_lattice text = Ok par -> setup_of par = Ok su -> (length (l_vecs par) = 3%nat /\ l_bas par <> [] /\ 0 <= l_nspecies par) -> good_env v e ->
  exists fuel0, forall fuel d, (fuel0 <= fuel)%nat -> dfile d "lattice.in" = Some text -> polya_main (with_fuel e fuel) "lattice.in" "polya.out" d = (counts su v (s_hi su), Ok tt).
Proof.
  intros Hu Hr Hs Hsh He. destruct (polya_step_okA su par v fl Hu Hsh e He) as [f0 H]. exists f0. intros fuel d Hf Hl. unfold polya_main, lattice_step.
  erewrite bind_quiet; [|erewrite bind_quiet by (apply read_ok; eauto); unfold lift; rewrite Hr; erewrite bind_quiet by reflexivity; rewrite Hs; erewrite bind_quiet by reflexivity; reflexivity].
  cbn [snd]. apply H. auto.
Qed.
Lemma workflow_settledA fl text lo hi (poss : Z -> Prop) (good : Z -> string -> Prop) v e1 d : settledA fl text lo hi poss good -> poss hi -> proper v e1 -> fresh d text ->
  exists fuel1 d1, (forall fuel, (fuel1 <= fuel)%nat -> ends (script (with_fuel e1 fuel) polya_args) d d1) /\ (forall f, In f (names d1) <-> In f (names d) \/ counts_name lo hi f) /\
    forall e2 kind number, proper v e2 -> in_any_case "all" kind -> in_any_case "all" number -> exists d2, (forall fuel, ends (script (with_fuel e2 fuel) (dist_args kind number)) d1 d2) /\ (forall f, In f (names d2) <-> In f (names d1) \/ f = "enum.in"%string) /\
    forall e3, proper v e3 -> exists fuel3 file d3, (forall fuel, (fuel3 <= fuel)%nat -> ends (script (with_fuel e3 fuel) enum_args) d2 d3) /\ (forall f, In f (names d3) <-> In f (names d2) \/ f = "enum.out"%string) /\
      dfile d3 "enum.out" = Some file /\ good hi file /\ forall f, In f (names d) -> f <> "enum.out"%string -> dfile d3 f = dfile d f.
Proof.
  intros [Hmore [par [su [E1 [E2 [Hu [El [Eh [Hs [Hso Hc]]]]]]]]]] Hpos He1 [Hn [Hl [Hi Hh]]].
  assert (some_upto su (s_hi su)) as Hsh by (rewrite Eh; apply Hso; auto; pose proof (uA_sizes fl su Hu); lia). pose proof (uA_sizes fl su Hu) as [Hlh _].
  destruct (polya_main_okA fl su par text v e1 Hu E1 E2 Hs He1) as [f1 Hf1]. set (d1 := after d (counts su v (s_hi su))).
  assert (forall f, In f (names d1) <-> In f (names d) \/ counts_name lo hi f) as Hd1.
  { intros f. unfold d1. rewrite after_names. apply or_iff_compat_l. rewrite in_map_iff. split.
    - intros [[g x] [Eg Hg]]. cbn in Eg. subst g. apply counts_in in Hg. destruct Hg as [s [Hs' [-> _]]]. exists s. split; [lia|auto].
    - intros [s [Hs' ->]]. exists (polya_name s, count_file v su s). split; auto. apply counts_in. exists s. split; [lia|auto]. }
  assert (dfile d1 "lattice.in" = Some text /\ dfile d1 "enum.in" = None) as [Hl1 Hi1] by (split; [unfold d1; rewrite (after_counts su v); auto; intros s E; discriminate E..]).
  assert (NoDup (names d1)) as Hn1 by (apply after_NoDup; auto). destruct (counts_counted su v d (s_hi su) Hh) as [Hc1 Ho1]. fold d1 in Hc1, Ho1.
  exists f1, d1. split; [intros fuel Hfu; apply ends_after; rewrite (script_polya _ d text Hl); apply Hf1; auto|]. split; [exact Hd1|].
  intros e2 kind number He2 Hk Hnu. destruct (enum_in_withA su par v fl Hu Hs e2 d1 (s_hi su) ltac:(lia) He2 Hn1 Hc1 Ho1) as [txt [Ha Hw]].
  set (d2 := after d1 [("enum.in"%string, txt)]). exists d2. split; [intros fuel; apply ends_after; rewrite (script_dist _ d1 text kind number Hl1), enum_in_words by auto; apply Hw|].
  split; [intros f; unfold d2; rewrite after_names; cbn [map fst In]; intuition|].
  intros e3 He3. assert (dfile d2 "lattice.in" = Some text) as Hl2 by (unfold d2; rewrite after_other; auto; constructor; [discriminate|constructor]).
  assert (dfile d2 "enum.in" = Some txt) as Hi2 by (unfold d2; apply dfile_same).
  destruct (enum_out_withA su par text v fl Hu E1 E2 Hs e3 d2 (s_hi su) txt ltac:(lia) Hsh He3 Hl2 Hi2 Ha) as [file [f3 [Hf3 Hr3]]].
  exists f3, file. eexists. split; [intros fuel Hfu; apply ends_after; rewrite script_enum; apply Hr3; auto|]. split; [intros f; rewrite after_names; cbn [map fst In]; intuition|].
  split; [cbn [after fold_left fst snd]; apply dfile_same|]. split; [apply (Hc hi (e_date e3)); rewrite <- Eh; exact Hf3|].
  intros f Hf Hne. rewrite after_other by (repeat constructor; cbn; auto). assert (f <> "enum.in"%string) as Hne'.
  { intros ->. apply dfile_names in Hf. destruct Hf as [t Ht]. congruence. }
  unfold d2. rewrite after_other by (repeat constructor; cbn; auto). unfold d1. apply (after_counts su v). intros s ->. destruct (Hh _ Hf) as [E|E].
  - pose proof (contains_app "polya.out"%string ("." ++ str s)%string) as E'. change (contains "polya.out"%string (polya_name s) = true) in E'. congruence.
  - apply E. reflexivity.
Qed.
Lemma polya_again_settledA fl text lo hi (poss : Z -> Prop) (good : Z -> string -> Prop) v e d : settledA fl text lo hi poss good -> proper v e -> fresh d text ->
  exists fuel0 d1, (forall fuel, (fuel0 <= fuel)%nat -> ends (script (with_fuel e fuel) polya_args) d d1) /\
    forall e', proper v e' -> exists fuel1 d1', (forall fuel, (fuel1 <= fuel)%nat -> ends (script (with_fuel e' fuel) polya_args) d1 d1') /\ forall f, dfile d1' f = dfile d1 f.
Proof.
  intros [Hmore [par [su [E1 [E2 [Hu [El [Eh [Hs [Hso Hc]]]]]]]]]] He [Hn [Hl [Hi Hh]]].
  destruct (polya_main_okA fl su par text v e Hu E1 E2 Hs He) as [f1 Hf1]. set (d1 := after d (counts su v (s_hi su))).
  assert (dfile d1 "lattice.in" = Some text) as Hl1 by (unfold d1; rewrite (after_counts su v); auto; intros s E; discriminate E).
  exists f1, d1. split; [intros fuel Hfu; apply ends_after; rewrite (script_polya _ d text Hl); apply Hf1; auto|]. intros e' He'.
  destruct (polya_main_okA fl su par text v e' Hu E1 E2 Hs He') as [f2 Hf2]. exists f2, (after d1 (counts su v (s_hi su))).
  split; [intros fuel Hfu; apply ends_after; rewrite (script_polya _ d1 text Hl1); apply Hf2; auto|]. intros f.
  destruct (in_dec string_dec f (map fst (counts su v (s_hi su)))) as [Hf|Hf].
  - apply in_map_iff in Hf. destruct Hf as [[g x] [Eg Hg]]. cbn in Eg. subst g. unfold d1. rewrite !(after_last _ _ f x) by (auto using counts_NoDup). auto.
  - apply after_other. apply Forall_forall. intros w Hw E. apply Hf. subst f. apply in_map. auto.
Qed.
(** ** The properties *)
(** [-polya], then [-distribution all all], then [-enum], each with its own random numbers, date and order of the directory: each
    completes, the counts, enum.in and enum.out appear in turn, enum.out lists the crystals with displaced atoms, and the other
    files are as they were. *)
Theorem C74_displaced_partial : forall text A lines lo hi v e1 d, displaced_file text A lines lo hi -> possible lo hi (Some (map fst lines)) -> proper v e1 -> fresh d text ->
  workflow lo hi (catalogued_displaced A 1 [(0, 0, 0)] lines lo hi) v e1 d.
Proof. intros text A lines lo hi v e1 d Hp Hpos He Hf. exact (workflow_settledA _ _ _ _ _ _ v e1 d (displaced_setup _ _ _ _ _ Hp) Hpos He Hf). Qed.
(** The same with several atoms per cell. *)
Theorem C74_several_displaced_partial : forall text A D bas lines lo hi v e1 d, displaced_atoms_file text A D bas lines lo hi -> possible_sites (Z.of_nat (length bas)) lo hi (Some (map fst lines)) -> proper v e1 -> fresh d text ->
  workflow lo hi (catalogued_displaced A D bas lines lo hi) v e1 d.
Proof. intros text A D bas lines lo hi v e1 d Hp Hpos He Hf. exact (workflow_settledA _ _ _ _ _ _ v e1 d (displaced_atoms_setup _ _ _ _ _ _ _ Hp) Hpos He Hf). Qed.
(** [-polya] given again, with another date and order of the directory, leaves every file as it was. *)
Theorem C74_polya_again_displaced_partial : forall text A lines lo hi v e d, displaced_file text A lines lo hi -> proper v e -> fresh d text ->
  exists fuel0 d1, (forall fuel, (fuel0 <= fuel)%nat -> ends (script (with_fuel e fuel) polya_args) d d1) /\
    forall e', proper v e' -> exists fuel1 d1', (forall fuel, (fuel1 <= fuel)%nat -> ends (script (with_fuel e' fuel) polya_args) d1 d1') /\ forall f, dfile d1' f = dfile d1 f.
Proof. intros text A lines lo hi v e d Hp He Hf. exact (polya_again_settledA _ _ _ _ _ _ v e d (displaced_setup _ _ _ _ _ Hp) He Hf). Qed.
(** /repo/input/tests/test2/lattice.in in a directory of its own. *)
Example C74_test2 : workflow 6 6 (catalogued_displaced ((1, 1, 0), (1, 0, 1), (0, 1, 1)) 1 [(0, 0, 0)] test2_range 6 6) Py3 (some_env 0 "Monday") [("lattice.in"%string, text_lines test2_lines)].
Proof. exact (C74_displaced_partial _ _ _ _ _ Py3 _ _ test2_displaced test2_possible (some_proper 0 "Monday" ltac:(repeat split)) test2_fresh). Qed.
Print Assumptions C74_displaced_partial.
Print Assumptions C74_several_displaced_partial.
Print Assumptions C74_polya_again_displaced_partial.
Print Assumptions C74_test2.
