(** Commands in a directory, several atoms per cell (C62, C63): the properties. *)
From Coq Require Import Permutation QArith.
From Verif Require Import TextModel TextProofs PyBase Spec PhononsModel TreeModel EnumSysModel Mat3 PolyaModel HNFModel LatSpec LatGroupModel LatGroupThm SuperModel StructSpec StructAll.
From Verif Require Import FilesModel EnumOutModel EnumOutSpec PropertiesEnumOut PointGroupModel PointGroupSpec PointGroupProofs PointGroupMain PropertiesPoint BoxLattice RunModel RunSpec RunProofs RunMain RunTop PropertiesRun.
From Verif Require Import LatticeInModel LatticeInSpec LatticeInProofs PropertiesLatticeIn RunText PropertiesRunText PropertiesSetup SetupBasis.
From Verif Require Import ScriptModel ScriptProofs ScriptMain PropertiesScript PropertiesBasisText.
Local Open Scope Z_scope.

(** A lattice.in file for sizes lo to hi, k species, no arrows, the concentrations within the ranges, if any, with the lattice
    vectors A (in some unit) and the atoms at the points [bas] (multiples of 1/D of the lattice vectors, in lowest terms; one of
    them at the origin); the symmetries of the lattice are their own inverses. *)
Definition atoms_file (text : string) (A : mat) (D : Z) (bas : list vec) (k : nat) (lo hi : Z) (ranges : option (list (Z * Z * Z))) : Prop := exists bulk vecs DL m basq concs,
  file_says text [lo; hi] bulk vecs (Z.of_nat k) basq (is_some ranges) false concs /\ same_numbers vecs (rows_over DL A) /\
  Forall2 (fun q u => at_coordinates (rows_over DL A) D u q) basq bas /\ lowest_terms D bas /\ 0 < D /\ NoDup bas /\ (forall d, In d bas -> reduced (D, D, D) d) /\ In (0, 0, 0) bas /\
  restrictions ranges concs /\ usable_ranges k ranges /\
  0 < DL /\ mdet A <> 0 /\ tolerable (1 # 10000000000) DL A m /\ fine (1 # 10000000000) A /\ integer_rotations A /\ (forall C, keeps_lengths A C -> mmul C C = mid) /\
  1 <= lo <= hi /\ (k = 2%nat /\ hi * Z.of_nat (length bas) <= 20 \/ k = 3%nat /\ hi * Z.of_nat (length bas) <= 15).
(** The text of an enum.out file that lists the crystals with these atoms and lo to hi parent cells per primitive cell, up to
    isometry, each once. *)
Definition catalogued_atoms (A : mat) (D : Z) (bas : list vec) (k : nat) (lo hi : Z) (ranges : option (list (Z * Z * Z))) (file : string) : Prop := exists sys structs, read_enum_out file None = Ok (sys, structs) /\
  catalogue (run_structures D bas k lo hi ranges) (congruent_crystals A D bas) (row_says D bas) structs /\
  forall s f, In s structs -> row_says D bas s f -> primitive D bas (sHNF s) f.
(** ... whose rows makeStr can use. *)
Definition catalogued_atoms_rows (A : mat) (D : Z) (bas : list vec) (k : nat) (lo hi : Z) (ranges : option (list (Z * Z * Z))) (file : string) : Prop := exists sys structs, read_enum_out file None = Ok (sys, structs) /\ s_k sys = Z.of_nat k /\
  catalogue (run_structures D bas k lo hi ranges) (congruent_crystals A D bas) (row_says D bas) structs /\
  (forall s f, In s structs -> row_says D bas s f -> primitive D bas (sHNF s) f) /\
  (forall s, In s structs -> makeable_for (length bas) k lo hi s) /\ forall i s, nth_error structs i = Some s -> strN s = Z.of_nat i + 1.
Lemma rows_atoms A D bas k lo hi ranges file : catalogued_atoms_rows A D bas k lo hi ranges file -> catalogued_atoms A D bas k lo hi ranges file.
Proof. intros [sys [structs [H1 [_ [H2 [H3 _]]]]]]. exists sys, structs. auto. Qed.

Lemma possible_sites_more m lo t t' ranges : t <= t' -> possible_sites m lo t ranges -> possible_sites m lo t' ranges.
Proof. destruct ranges as [l|]; [|auto]. intros Ht [n [c [Hn H]]]. exists n, c. split; [lia|auto]. Qed.
Lemma atoms_setup text A D bas k lo hi ranges : atoms_file text A D bas k lo hi ranges -> exists par su, read_lattice text = Ok par /\ setup_of par = Ok su /\ usable su /\ s_lo su = lo /\ s_hi su = hi /\
  (length (l_vecs par) = 3%nat /\ l_bas par <> [] /\ 0 <= l_nspecies par) /\ (forall t, lo <= t <= hi -> possible_sites (Z.of_nat (length bas)) lo t ranges -> some_upto su t) /\
  forall t date file, lists_crystals (upto su t) (params_of date par) file -> catalogued_atoms_rows A D bas k lo t ranges file.
Proof.
  intros [bulk [vecs [DL [m [basq [concs [Htext [Hvecs [Hat [Hlow [HDb [Hn [Hr [Hz [Hrs [Hus [HD [Hd [Ht [Hf [Hi [Hinv [Hlo Hk]]]]]]]]]]]]]]]]]]]]]]].
  destruct (C59_read _ _ _ _ _ _ _ _ _ Htext) as [par [Epar [P1 [_ [P3 [P4 [P5 [P6 [P7 P8]]]]]]]]].
  assert (same_numbers (l_vecs par) (rows_over DL A)) as Hv by (eapply same_concs_trans; eauto).
  destruct (setup_basis par DL A m lo hi ranges concs D bas basq HD Hd Ht Hf Hi Hv P5 Hat HDb Hlow P1 P8 Hrs) as [pg [c [A0 [m0 [Hc [EA [Hd0 [[DL0 [HD0 [Ht0 [Hf0 [Hi0 Epg]]]]] Esu]]]]]]]].
  assert (get_arrow_concs par = repeat 0%Q k) as Earr.
  { destruct (concs_read _ _ _ Hrs P8) as [_ Elen]. unfold get_arrow_concs. rewrite P6, P4, Nat2Z.id. destruct ranges as [l|]; cbn [is_some]; [|auto]. cbn [the_ranges usable_ranges] in *. destruct Hus as [<- _]. rewrite <- Elen, <- repeat_zero. apply map_ext. intros c0. rewrite P7, andb_false_r. auto. }
  rewrite Earr, P4, P6, Nat2Z.id in Esu. replace (Qeq_bool (fold_right Qplus 0%Q (repeat 0%Q k)) 0) with true in Esu by (symmetry; apply Qeq_bool_iff, no_fractions). cbn [negb] in Esu.
  destruct (C56_usable (1 # 10000000000) DL0 A0 m0 HD0 Hd0 Ht0 Hf0 Hi0) as [pg' [E [F1 [F2 [F3 F4]]]]]. assert (pg' = pg) by congruence. subst pg'.
  set (su := {| s_pg := pg |}) in *. exists par, su. assert (ranges_of su = ranges) as Er by (unfold su; destruct ranges; reflexivity).
  assert (good_basis (s_pg su) (s_D su) (s_bas su) (s_lo su) (s_hi su)) as Hgb.
  { apply good_involutions; auto; try solve [cbn; lia]. intros C R HC. split; [apply (F2 C R HC)|apply Hinv]. rewrite EA. apply keeps_scale; [lia|]. apply (F1 C R); auto. }
  assert (usable_ranges (s_species su) (ranges_of su) /\ s_arrows su = false /\ forall c, length c = s_species su -> s_na su c = map (fun _ => 0) c) as Hplain by (rewrite Er; split; auto; split; auto; intros c' Hc'; apply none_displaced; auto).
  assert (usable su) as Hu by (constructor; auto).
  split; auto. split; auto. split; [exact Hu|]. split; [auto|split; [auto|split; [|split]]].
  - split; [|split].
    + apply ListFacts.Forall2_length in Hv. rewrite Hv. clear. destruct A as [[[[? ?] ?] [[? ?] ?]] [[? ?] ?]]. reflexivity.
    + intros Eb. rewrite Eb in P5. apply ListFacts.Forall2_length in P5. apply ListFacts.Forall2_length in Hat. destruct bas; [destruct Hz|]. rewrite <- P5 in Hat. discriminate Hat.
    + rewrite P4. lia.
  - intros t Ht0' Hpos. destruct (usable_upto su t Hu Ht0') as [U1 U2 U3 U4 U5 U6 U7].
    apply (possible_some (upto su t)); auto; try lia. change (ranges_of (upto su t)) with (ranges_of su). rewrite Er. exact Hpos.
  - intros t date file [structs [E1 [H3 H4]]]. exists (system_of (params_of date par)), structs. split; auto. split; [cbn [system_of s_k params_of p_nspecies]; auto|]. change (ranges_of (upto su t)) with (ranges_of su) in H3. rewrite Er in H3. cbn [su upto s_pg s_D s_bas s_species s_lo s_hi] in H3, H4.
    assert (forall f g, no_directions D bas f -> (same_structure pg D bas f g <-> congruent_crystals A D bas f g)) as Hsame.
    { intros f g Nf. split.
      - intros [C [R [t0 [HC [Hs Hcc]]]]]. exists C, t0. split; [rewrite EA; apply keeps_scale; [lia|]; apply (F1 C R); auto|]. split; auto. apply (plain_carries D bas C R); auto.
      - intros [C [t0 [HC [Hs Hcc]]]]. rewrite EA in HC. apply keeps_scale in HC; [|lia]. destruct (Hi0 C HC) as [R HR]. exists C, R, t0. split; [apply F1; auto|]. split; auto. apply plain_carries; auto. }
    split; [|exact H4]. destruct H3 as [G1 [G2 [G3 G4]]]. split; [|split; [|split]]; auto.
    + intros f Hfa. destruct (G3 f Hfa) as [w [f' [Hw [Hm Hs]]]]. exists w, f'. split; auto. split; auto. apply Hsame; auto. intros x Hx. apply Hfa; auto.
    + eapply TransFacts.FOP_impl; [|exact G4]. cbv beta. intros a b Ha Hb Hab f g Hfa Hg Hcc. apply (Hab f g Hfa Hg). apply Hsame; auto. destruct (G2 a f Ha Hfa) as [Hn' _]. intros x Hx. apply Hn'; auto.
Qed.
Lemma atoms_settled text A D bas k lo hi ranges : atoms_file text A D bas k lo hi ranges -> settled text lo hi (fun t => possible_sites (Z.of_nat (length bas)) lo t ranges) (fun t => catalogued_atoms_rows A D bas k lo t ranges).
Proof. intros H. split; [intros t t'; apply possible_sites_more|apply atoms_setup; auto]. Qed.

(** In a directory with lattice.in, [-enum] completes, makes the counts, enum.in and enum.out, and enum.out lists the crystals. *)
Theorem C62_several_atoms_partial : forall text A D bas k lo hi ranges v e d, atoms_file text A D bas k lo hi ranges -> possible_sites (Z.of_nat (length bas)) lo hi ranges -> proper v e -> fresh d text ->
  exists fuel0 file d', (forall fuel, (fuel0 <= fuel)%nat -> ends (script (with_fuel e fuel) enum_args) d d') /\ dfile d' "enum.out" = Some file /\ catalogued_atoms A D bas k lo hi ranges file /\
    (forall f, In f (names d') <-> In f (names d) \/ f = "enum.in"%string \/ f = "enum.out"%string \/ exists s, lo <= s <= hi /\ f = ("polya.out." ++ str s)%string).
Proof.
  intros text A D bas k lo hi ranges v e d Hp Hpos He Hf. destruct (enum_settled _ _ _ _ _ v e d (atoms_settled _ _ _ _ _ _ _ _ Hp) Hpos He Hf) as [f0 [file [d' [H1 [H2 [H3 H4]]]]]].
  exists f0, file, d'. split; auto. split; auto. split; [apply rows_atoms; auto|auto].
Qed.
(** Repeated in the directory it leaves. *)
Theorem C62_again_several_atoms_partial : forall text A D bas k lo hi ranges v e d, atoms_file text A D bas k lo hi ranges -> possible_sites (Z.of_nat (length bas)) lo hi ranges -> proper v e -> fresh d text ->
  exists fuel0 d', (forall fuel, (fuel0 <= fuel)%nat -> ends (script (with_fuel e fuel) enum_args) d d') /\
    forall e', proper v e' -> exists fuel1 file d'', (forall fuel, (fuel1 <= fuel)%nat -> ends (script (with_fuel e' fuel) enum_args) d' d'') /\
      dfile d'' "enum.out" = Some file /\ catalogued_atoms A D bas k lo hi ranges file /\ forall f, f <> "enum.out"%string -> dfile d'' f = dfile d' f.
Proof.
  intros text A D bas k lo hi ranges v e d Hp Hpos He Hf. destruct (again_settled _ _ _ _ _ v e d (atoms_settled _ _ _ _ _ _ _ _ Hp) Hpos He Hf) as [f0 [d' [H1 H2]]].
  exists f0, d'. split; auto. intros e' He'. destruct (H2 e' He') as [f1 [file [d'' [K1 [K2 [K3 K4]]]]]]. exists f1, file, d''. split; auto. split; auto. split; [apply rows_atoms; auto|auto].
Qed.
(** Stopped after i of its files were written, then started again: the crystals up to the size of the last count that was
    there are listed, all of them if there was none. *)
Theorem C63_several_atoms_partial : forall text A D bas k lo hi ranges v e d, atoms_file text A D bas k lo hi ranges -> possible_sites (Z.of_nat (length bas)) lo lo ranges -> proper v e -> fresh d text ->
  exists fuel0 ws, (forall fuel, (fuel0 <= fuel)%nat -> script (with_fuel e fuel) enum_args d = (ws, Ok tt)) /\
    forall i e', proper v e' -> exists fuel1 file d'',
      (forall fuel, (fuel1 <= fuel)%nat -> ends (script (with_fuel e' fuel) enum_args) (after d (firstn i ws)) d'') /\ dfile d'' "enum.out" = Some file /\
      catalogued_atoms A D bas k lo (if (1 <=? Z.of_nat i) && (lo + Z.of_nat i <=? hi) then lo + Z.of_nat i - 1 else hi) ranges file.
Proof.
  intros text A D bas k lo hi ranges v e d Hp Hpos He Hf. destruct (restart_settled _ _ _ _ _ v e d (atoms_settled _ _ _ _ _ _ _ _ Hp) Hpos He Hf) as [f0 [ws [H1 H2]]].
  exists f0, ws. split; auto. intros i e' He'. destruct (H2 i e' He') as [f1 [file [d'' [K1 [K2 K3]]]]]. exists f1, file, d''. split; auto. split; auto. apply rows_atoms; auto.
Qed.
(** The box with edges 1, 2 and 3 and two atoms, up to three cells. *)
Lemma box_file : atoms_file (text_lines box_lines) (box_lattice 1 2 3) 2 [(0, 0, 0); (0, 1, 0)] 2 1 3 None.
Proof.
  destruct PropertiesRun.C60_example_two_atoms as [[E1 [E2 [E3 [E4 E5]]]] _].
  exists true, [[1; 0; 0]; [0; 2; 0]; [0; 0; 3]]%Q, 1, 9, [[0; 0; 0]; [0; 1; 0]]%Q, []. split; [exact box_says|].
  split; [repeat (apply Forall2_cons; [repeat (apply Forall2_cons; [reflexivity|]); apply Forall2_nil|]); apply Forall2_nil|].
  split; [exact box_atoms|]. split; [exact box_lowest|]. split; [lia|]. split; [repeat constructor; cbn; intuition discriminate|].
  split; [intros d [<-|[<-|[]]] [|[|[|i]]] Hj; cbn; lia|]. split; [left; reflexivity|]. split; [reflexivity|]. split; [exact Logic.I|]. split; [lia|]. repeat (split; [assumption|]). split; [lia|]. left. split; [reflexivity|cbn; lia].
Qed.
Definition box_dir : dir := [("lattice.in", text_lines box_lines); ("notes.txt", "about polya.out")]%string.
Lemma box_fresh : fresh box_dir (text_lines box_lines).
Proof. split; [cbn; constructor; [intros [E|[]]; discriminate E|]; constructor; [intros []|constructor]|]. split; [reflexivity|]. split; [reflexivity|]. intros f [<-|[<-|[]]]; left; reflexivity. Qed.
Example C62_example_several_atoms : exists fuel0 file d', (forall fuel, (fuel0 <= fuel)%nat -> ends (script (with_fuel (some_env 0 "Monday") fuel) enum_args) box_dir d') /\ dfile d' "enum.out" = Some file /\
  catalogued_atoms (box_lattice 1 2 3) 2 [(0, 0, 0); (0, 1, 0)] 2 1 3 None file.
Proof.
  destruct (C62_several_atoms_partial _ _ _ _ _ _ _ _ Py3 (some_env 0 "Monday") box_dir box_file Logic.I (some_proper 0 "Monday" ltac:(repeat split)) box_fresh) as [fuel0 [file [d' [H1 [H2 [H3 _]]]]]]. exists fuel0, file, d'. auto.
Qed.
Print Assumptions C62_several_atoms_partial.
Print Assumptions C62_again_several_atoms_partial.
Print Assumptions C63_several_atoms_partial.
Print Assumptions C62_example_several_atoms.
