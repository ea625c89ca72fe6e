(** C66: what turning the lattice in space does to a run. *)
From Coq Require Import Permutation QArith.
From Verif Require Import TextModel TextProofs PyBase Spec PhononsModel TreeModel EnumSysModel Mat3 PolyaModel ConcsModel LatSpec LatGroupModel LatGroupThm SuperModel StructSpec StructAll.
From Verif Require Import FilesModel EnumOutModel EnumOutSpec PropertiesEnumOut ReduceSpec OrientSpec PointGroupModel PointGroupSpec PointGroupProofs PointGroupMain PropertiesPoint RunModel RunSpec RunMain RunTop PropertiesRun PropertiesRunText OrientProofs.
Local Open Scope Z_scope.

(** Two lattices that differ by a rotation of space, both with all their symmetries along the axes: both runs succeed, list
    equally many structures, and every structure of one list is in the other (same lattice coordinates, up to isometries). *)
Theorem C66_orientation_partial : forall eps DL A A' m m' k lo hi ranges v others listdir rnd0 draw rnd shuffled p,
  turned A A' -> 0 < DL -> mdet A <> 0 -> mdet A' <> 0 -> tolerable eps DL A m -> tolerable eps DL A' m' -> fine eps A -> fine eps A' -> integer_rotations A -> integer_rotations A' ->
  1 <= lo <= hi -> (k = 2%nat /\ hi <= 20 \/ k = 3%nat /\ hi <= 15) ->
  usable_ranges k ranges -> possible lo hi ranges ->
  (forall l : list string, Permutation (listdir l) l) -> NoDup others ->
  (forall f, In f others -> contains "polya.out" f = false \/ first_char f <> first_char "polya.out") -> good_params p ->
  exists pg pg' file file' fuel0 structs structs', point_group eps DL A = Ok pg /\ point_group eps DL A' = Ok pg' /\
    (forall fuel, (fuel0 <= fuel)%nat ->
       run_from_scratch v others listdir rnd0 draw rnd shuffled fuel p (simple_setup pg k lo hi ranges) false false = Ok file /\
       run_from_scratch v others listdir rnd0 draw rnd shuffled fuel p (simple_setup pg' k lo hi ranges) false false = Ok file') /\
    read_enum_out file None = Ok (system_of p, structs) /\ read_enum_out file' None = Ok (system_of p, structs') /\
    length structs = length structs' /\
    forall s, In s structs -> exists s' f f', In s' structs' /\ row_says 1 [(0, 0, 0)] s f /\ row_says 1 [(0, 0, 0)] s' f' /\ congruent_crystals A 1 [(0, 0, 0)] f f'.
Proof.
  intros eps DL A A' m m' k lo hi ranges v others listdir rnd0 draw rnd shuffled p HT HD Hd Hd' Ht Ht' Hf Hf' Hi Hi' Hlo Hk Hur Hpos Hls Hno Hoth Hp.
  destruct (C60_from_scratch_partial eps DL A m k lo hi ranges v others listdir rnd0 draw rnd shuffled p) as [pg [file [fuel0 [structs [E1 [E2 [E3 [E4 _]]]]]]]]; auto.
  destruct (C60_from_scratch_partial eps DL A' m' k lo hi ranges v others listdir rnd0 draw rnd shuffled p) as [pg' [file' [fuel0' [structs' [E1' [E2' [E3' [E4' _]]]]]]]]; auto.
  exists pg, pg', file, file', (max fuel0 fuel0'), structs, structs'. split; auto. split; auto. split; [intros fuel Hfu; split; [apply E2|apply E2']; lia|]. split; auto. split; auto.
  set (all := run_structures 1 [(0, 0, 0)] k lo hi ranges) in *.
  assert (catalogue all (congruent_crystals A 1 [(0, 0, 0)]) (row_says 1 [(0, 0, 0)]) structs') as F4.
  { assert (forall f g, congruent_crystals A 1 [(0, 0, 0)] f g <-> congruent_crystals A' 1 [(0, 0, 0)] f g) as HE.
    { intros f g. split; intros [C [t [HC Hx]]]; exists C, t; split; auto; apply (turned_keeps A A' C HT); auto. }
    destruct E4' as [G1 [G2 [G3 G4]]]. split; auto. split; auto. split; [intros f Hfa; destruct (G3 f Hfa) as [w [f' [Hw [Hm Hs]]]]; exists w, f'; split; auto; split; auto; apply HE; auto|].
    eapply TransFacts.FOP_impl; [|exact G4]. cbv beta. intros a b _ _ Hab f g Hfa Hga Hc. apply (Hab f g Hfa Hga). apply HE. auto. }
  assert (forall f g, all f -> all g -> congruent_crystals A 1 [(0, 0, 0)] f g -> congruent_crystals A 1 [(0, 0, 0)] g f) as Hsym by (intros; apply congruent_crystals_sym; auto).
  assert (forall f g h, all f -> all g -> all h -> congruent_crystals A 1 [(0, 0, 0)] f g -> congruent_crystals A 1 [(0, 0, 0)] g h -> congruent_crystals A 1 [(0, 0, 0)] f h) as Htr by (intros; eapply congruent_crystals_trans; eauto).
  assert (forall st, catalogue all (congruent_crystals A 1 [(0, 0, 0)]) (row_says 1 [(0, 0, 0)]) st -> forall w f g, In w st -> row_says 1 [(0, 0, 0)] w f -> row_says 1 [(0, 0, 0)] w g -> congruent_crystals A 1 [(0, 0, 0)] f g) as Hfun.
  { intros st [_ [G2 _]] w f g Hw Hwf Hwg. apply congruent_crystals_agree. apply (describes_fun 1 [(0, 0, 0)] (sL w) (sdiag w) (row_sites (labeling w) (directions_of w)) all); auto.
    - intros h Hh. apply (G2 w); auto.
    - intros h x Hh Hx. apply Hh. auto. }
  split.
  - apply Nat.le_antisymm; [apply (catalogue_shorter all (congruent_crystals A 1 [(0, 0, 0)]) Hsym Htr (row_says 1 [(0, 0, 0)]) (row_says 1 [(0, 0, 0)])); auto; apply Hfun; auto|].
    apply (catalogue_shorter all (congruent_crystals A 1 [(0, 0, 0)]) Hsym Htr (row_says 1 [(0, 0, 0)]) (row_says 1 [(0, 0, 0)])); auto. apply Hfun; auto.
  - intros s Hs. destruct E4 as [G1 [G2 _]]. destruct F4 as [_ [_ [G3 _]]]. destruct (G1 s Hs) as [f Hsf]. destruct (G3 f (G2 s f Hs Hsf)) as [s' [f' [Hs' [Hm Hc]]]]. exists s', f, f'. auto.
Qed.

(** In other orientations there is no list at all: if some symmetry of the lattice takes an axis away from all six, every
    count and every enumeration that includes size 1 ends the program, displacements or not. *)
Theorem C66_oblique_refuted : forall eps DL A m k hi ranges v others listdir rnd0 draw rnd shuffled p supers accept,
  0 < DL -> mdet A <> 0 -> tolerable eps DL A m -> fine eps A -> oblique A -> (1 <= k)%nat -> 1 <= hi -> usable_ranges k ranges ->
  exists pg fuel0, point_group eps DL A = Ok pg /\ forall fuel, (fuel0 <= fuel)%nat ->
    polya_out v fuel (simple_setup pg k 1 hi ranges) = Err SystemExit /\
    run_from_scratch v others listdir rnd0 draw rnd shuffled fuel p (simple_setup pg k 1 hi ranges) supers accept = Err SystemExit.
Proof.
  intros eps DL A m k hi ranges v others listdir rnd0 draw rnd shuffled p supers accept HD Hd Ht Hf [f [R [e [Hiso [Hact [He Hfar]]]]]] Hk Hhi Hur.
  destruct (C56_complete eps DL A m HD Hd Ht) as [ops [Eo [_ Hall]]]. destruct (Hall f Hiso) as [R' [HR' Hact']].
  assert (R' = R) as -> by (eapply acts_as_unique; eauto).
  destruct (C56_coordinates eps DL A m HD Hd Ht Hf) as [pg [Ep [_ Hpg]]]. exists pg.
  assert (forall C S, In (C, S) pg -> unimodular C) as Huni by (intros C S HC; apply (keeps_unimodular A); auto; apply Hpg; eauto).
  assert (In (on_coordinates A R, mround R (mdet A)) pg) as Hin.
  { unfold point_group in Ep. rewrite Eo in Ep. cbn [rbind] in Ep. injection Ep as <-. apply in_map_iff. exists R. auto. }
  assert (exists fuel0 cs, forall fuel, (fuel0 <= fuel)%nat -> get_concs_for_size fuel 1 k (match ranges with None => false | Some _ => true end) 1 (match ranges with None => [] | Some l => l end) = Ok cs) as [fuel0 [cs Hcs]].
  { unfold get_concs_for_size. destruct ranges as [l|]; [|exists 0%nat; eauto]. destruct Hur as [Hl [d [Hd0 Hc]]]. destruct l as [|c0 l]; [cbn in Hl; lia|].
    destruct (ConcsProofs.restricted_run 1 1 (c0 :: l) c0 l) as [fuel0 H]; auto; [lia| |exists fuel0; eauto]. apply Forall_forall. intros [[x y] z] Hi. cbn [c_den]. destruct (Hc x y z Hi). lia. }
  exists fuel0. split; auto. intros fuel Hfu.
  assert (polya_out v fuel (simple_setup pg k 1 hi ranges) = Err SystemExit) as E.
  { apply (polya_exit pg 1 ltac:(lia) Huni v fuel _ cs (on_coordinates A R) (mround R (mdet A)) e); auto. apply far_rounded; auto. }
  split; auto. unfold run_from_scratch. rewrite E. reflexivity.
Qed.

(** The cube of side 5 along the axes, and turned about the z axis so that its edges are (3, 4, 0), (-4, 3, 0), (0, 0, 5). *)
Definition turned_cube : mat := ((3, 4, 0), (-4, 3, 0), (0, 0, 5)).
(** Exchanging the first and the third edge. *)
Definition exchange (w : vec) : vec :=
  let '(x, y, z) := w in let a := (3 * x + 4 * y) / 25 in let b := (-4 * x + 3 * y) / 25 in let c := z / 5 in comb3 turned_cube c b a.
Lemma exchange_comb x y z : exchange (comb3 turned_cube x y z) = comb3 turned_cube z y x.
Proof.
  assert (comb3 turned_cube x y z = (3 * x - 4 * y, 4 * x + 3 * y, 5 * z)) as -> by (unfold turned_cube; cbv [comb3 vadd vscale]; repeat apply (f_equal2 pair); ring).
  unfold exchange. replace (3 * (3 * x - 4 * y) + 4 * (4 * x + 3 * y)) with (x * 25) by ring. replace (-4 * (3 * x - 4 * y) + 3 * (4 * x + 3 * y)) with (y * 25) by ring. rewrite (Z.mul_comm 5 z), !Z.div_mul by lia. reflexivity.
Qed.
Example C66_example : turned (simple_cubic 5) turned_cube /\ oblique turned_cube /\
  (mdet turned_cube <> 0 /\ tolerable (1 # 10000000000) 5 turned_cube 25 /\ fine (1 # 10000000000) turned_cube) /\ integer_rotations (simple_cubic 5).
Proof.
  split; [|split; [|split]].
  - intros x y z. unfold turned_cube, simple_cubic, len2. cbv [comb3 vadd vscale vdot]. ring.
  - exists exchange, ((80, -60, 75), (-60, 45, 100), (75, 100, 0)), (0, 0, 1). split; [|split; [|split]].
    + split; [reflexivity|]. split.
      * intros w [x [y [z ->]]]. rewrite exchange_comb. exists z, y, x. auto.
      * intros u w [x [y [z ->]]] [x' [y' [z' ->]]]. rewrite !exchange_comb, !vminus_comb3. unfold turned_cube, len2. cbv [comb3 vadd vscale vdot]. ring.
    + intros w [x [y [z ->]]]. rewrite exchange_comb. change (mdet turned_cube) with 125. unfold turned_cube, row_times. cbv [comb3 vadd vscale vdot mvec transpose]. repeat apply (f_equal2 pair); ring.
    + cbn. tauto.
    + change (row_times _ _) with ((75, 100, 0) : vec). change (mdet turned_cube) with 125. intros u Hu.
      destruct Hu as [<-|[<-|[<-|[<-|[<-|[<-|[]]]]]]]; [exists 1%nat|exists 0%nat|exists 0%nat|exists 0%nat|exists 0%nat|exists 0%nat]; (split; [lia|]); vm_compute; reflexivity.
  - split; [discriminate|]. split; [split; [intros i Hi; destruct i as [|[|[|i]]]; try lia; vm_compute; discriminate|split; [discriminate|reflexivity]]|reflexivity].
  - apply (C56_cubic 5). lia.
Qed.
(** Two orientations of the same lattice that both work. *)
Example C66_example_axes : turned (box_lattice 2 2 3) ((0, 0, 2), (2, 0, 0), (0, 3, 0)) /\ integer_rotations (box_lattice 2 2 3) /\ integer_rotations ((0, 0, 2), (2, 0, 0), (0, 3, 0)).
Proof.
  split; [intros x y z; unfold box_lattice, len2; cbv [comb3 vadd vscale vdot]; ring|]. split; [apply C56_box; lia|].
  apply (C56_any_basis ((0, 0, 1), (1, 0, 0), (0, 1, 0)) ((0, 1, 0), (0, 0, 1), (1, 0, 0)) (box_lattice 2 3 2)); try reflexivity. apply C56_box; lia.
Qed.

Print Assumptions C66_orientation_partial.
Print Assumptions C66_oblique_refuted.
