(** From lattice.in to the POSCARs (C69). *)
From Coq Require Import Permutation QArith.
From Verif Require Import TextModel TextProofs PyBase Spec ListFacts TransFacts TreeSearch PhononsModel TreeModel EnumSysModel Mat3 HNFModel HNFProofs PolyaModel LatSpec LatGroupModel LatFacts LatSites LatGroupThm SNFModel SuperModel StructSpec StructProofs StructThm StructAll.
From Verif Require Import FilesModel EnumOutModel EnumOutSpec PropertiesEnumOut PointGroupModel PointGroupSpec PointGroupProofs PointGroupMain PropertiesPoint RunModel RunSpec RunMain RunTop PropertiesRun BoxLattice.
From Verif Require Import MapModel MapSpec MapProofs PoscarModel PoscarSpec MakeStrModel MakeStrSpec MakeStrProofs PropertiesMakeStr PoscarsModel PropertiesFiles CellProofs LatticeInModel ScriptModel ScriptProofs ScriptMain PropertiesScript PropertiesScriptBasis.
Local Open Scope Z_scope.

(** What a POSCAR says, with the superlattice of its row: a crystal that repeats with the superlattice, without
    displacements, with one atom for every site of the supercell, of the species that the numbers in the file give. *)
Definition poscar_says (D : Z) (bas : list vec) (k : Z) (removed : bool) (r : structure * (string * poscar vec)) (f : decoration) : Prop :=
  periodic D bas (sHNF (fst r)) f /\ no_directions D bas f /\
  shows_crystal D bas (sHNF (fst r)) f (listed_atoms k (digits_of (labeling (fst r))) removed (snd (snd r))).

(** ** Up to seven cells every column of points is complete *)
Definition full_b (lim : limits) (H : mat) : bool :=
  forallb (fun z1 => (hi2 lim z1 - lo2 lim z1 =? mget H 1 1) && forallb (fun z2 => hi3 lim z1 z2 - lo3 lim z1 z2 =? mget H 2 2) (range_up (lo2 lim z1) (hi2 lim z1))) (range_up 0 (mget H 0 0)).
Lemma full_check lim H : full_b lim H = true -> full lim H.
Proof.
  unfold full_b, full. intros E z1 Hz. rewrite forallb_forall in E. specialize (E z1 ltac:(apply in_range_up; lia)). apply andb_true_iff in E as [E1 E2]. apply Z.eqb_eq in E1. split; auto.
  intros z2 Hz2. rewrite forallb_forall in E2. specialize (E2 z2 ltac:(apply in_range_up; lia)). apply Z.eqb_eq in E2. auto.
Qed.
Lemma all_full : forallb (fun n => forallb (fun H => full_b (double_limits H) H) (find_all_HNFs n)) (range_up 1 8) = true.
Proof. vm_cast_no_check (eq_refl true). Qed.
Lemma full_7 H : hnf_form H -> mdet H <= 7 -> full (double_limits H) H.
Proof.
  intros Hh Hd. apply full_check. pose proof all_full as Ha. rewrite forallb_forall in Ha.
  assert (is_HNF (mdet H) H) as Hi.
  { destruct Hh as [a [b [c [d [e [f [-> [H1 [H2 [H3 H4]]]]]]]]]]. exists a, b, c, d, e, f. repeat (split; auto). mat_unfold. ring. }
  assert (0 < mdet H) as Hpos by (destruct Hi as [a [b [c [d [e [f [_ [H1 [H2 [H3 [H4 <-]]]]]]]]]]]; assert (0 < a * c) by nia; nia).
  specialize (Ha (mdet H) ltac:(apply in_range_up; lia)). rewrite forallb_forall in Ha. apply Ha. apply in_find_all. exact Hi.
Qed.

(** ** One row *)
Section Row.
Variables (D : Z) (bas : list vec) (k : Z) (s : structure) (w : list (Z * Z)).
Notation H := (sHNF s).
Hypothesis HD : 0 < D.
Hypothesis Hne : bas <> [].
Hypothesis Hnd : NoDup bas.
Hypothesis Hred : forall d, In d bas -> reduced (D, D, D) d.
Hypothesis Hk : 1 <= k <= 10.
Hypothesis Hh : hnf_form H.
Hypothesis Hdet : mdet H <= 7.
Hypothesis Hrow : row_for (length bas) k H (Arrowed w) s.
Hypothesis Hw : w = row_sites (labeling s) (directions_of s).
Lemma labels_species : digits_of (labeling s) = species_of (Arrowed w).
Proof.
  destruct Hrow as [_ [_ [_ [El [_ Hr]]]]]. cbn [decorated] in Hr. unfold species_of. cbn [decorated]. clear Hw Hrow. destruct w as [|y l]; [discriminate|]. set (u := y :: l) in *.
  change (Ok (fold_left (fun '(label, arrow) i => (label ++ str (snd i - 1), arrow ++ str (fst i + 1))%string) u (EmptyString, EmptyString)) = Ok (labeling s, directions_of s)) in El.
  rewrite (fold_labels (fun i : Z * Z => str (snd i - 1)) (fun i => str (fst i + 1))) in El. cbn [append] in El.
  assert (labeling s = fold_right append EmptyString (map (fun i : Z * Z => str (snd i - 1)) u)) as -> by congruence.
  rewrite (digits_of_labels (fun i : Z * Z => snd i - 1)); auto. intros [a x] Hi; destruct (Hr a x Hi); cbn; lia.
Qed.
Lemma row_poscar param sys_title species rz f0 :
  (forall es, species = Some es -> length es = Z.to_nat k /\ forall e, In e es -> known e) ->
  row_says D bas s f0 -> periodic D bas H f0 -> no_directions D bas f0 ->
  exists p, make_poscar double_limits param D bas k sys_title s species rz = Ok p /\
    forall name f, (row_says D bas s f /\ periodic D bas H f /\ no_directions D bas f) <-> poscar_says D bas k (match species with Some _ => truthy rz | None => false end) (s, (name, p)) f.
Proof.
  intros Hsp H0 P0 N0. unfold row_says in *. rewrite <- Hw in *.
  assert (mdet H <= 10 ^ 5) as Hd5 by lia.
  destruct (C53_same_crystal_partial double_limits param D bas k sys_title H (Arrowed w) s species rz f0 HD Hne Hnd Hred Hk Hh Hd5 (full_7 _ Hh Hdet) Hrow Hsp H0) as [p [E Hs]].
  exists p. split; auto. intros name f. unfold poscar_says. cbn [fst snd]. rewrite labels_species. split.
  - intros [Hf [Pf Nf]]. split; auto. split; auto.
    destruct (C53_same_crystal_partial double_limits param D bas k sys_title H (Arrowed w) s species rz f HD Hne Hnd Hred Hk Hh Hd5 (full_7 _ Hh Hdet) Hrow Hsp Hf) as [p' [E' Hs']]. rewrite E in E'. assert (p' = p) by congruence. subst. auto.
  - intros [Pf [Nf [T Hf]]]. split; auto. destruct Hs as [_ Hs0].
    assert (forall x, crystal_point D bas x -> f x = f0 x) as Heq.
    { intros x Hx. destruct T as [T1 [T2 _]]. destruct (T2 x Hx) as [r [Hr [z [Hz Er]]]]. pose proof (T1 r Hr) as Hcr. apply in_map_iff in Hr. destruct Hr as [[sp [y u]] [Ey Hin]]. cbn [fst snd] in Ey. subst y.
      rewrite <- (Pf z Hz x Hx), <- (P0 z Hz x Hx), <- Er. pose proof (Hf sp r u Hin) as E1. pose proof (Hs0 sp r u Hin) as E2. pose proof (Nf r Hcr) as E3. pose proof (N0 r Hcr) as E4.
      destruct (f r), (f0 r). cbn [fst snd] in *. congruence. }
    intros x i Hi. rewrite <- (H0 x i Hi). apply Heq.
    destruct Hi as [iD [z [g [Hi [-> _]]]]]. exists (nth iD bas (0, 0, 0)), z. split; auto. apply nth_In; auto.
Qed.
End Row.

(** ** Names *)
Lemma app_inj_end a b t : (a ++ t)%string = (b ++ t)%string -> a = b.
Proof.
  intros E. assert (list_ascii_of_string a ++ list_ascii_of_string t = list_ascii_of_string b ++ list_ascii_of_string t)%list as E2.
  { assert (forall x y, list_ascii_of_string (x ++ y) = (list_ascii_of_string x ++ list_ascii_of_string y)%list) as Happ by (induction x as [|ch x IH]; intros y; cbn; [auto|rewrite IH; auto]). rewrite <- !Happ, E. auto. }
  apply app_inv_tail in E2. rewrite <- (string_of_list_ascii_of_string a), <- (string_of_list_ascii_of_string b), E2. auto.
Qed.
Theorem C69_names : forall outfile m n, poscar_name outfile m = poscar_name outfile n -> m = n.
Proof.
  intros outfile m n. unfold poscar_name. destruct (String.index 0 "{}" outfile) as [i|]; intros E; apply app_inj_s in E.
  - apply app_inj_end in E. apply str_inj. auto.
  - apply app_inj_s in E. apply str_inj. auto.
Qed.

(** ** All the files *)
Lemma origin_nodup : NoDup [(0, 0, 0)]. Proof. constructor; [intros []|constructor]. Qed.
Lemma origin_reduced : forall d, In d [(0, 0, 0)] -> reduced (1, 1, 1) d. Proof. intros d [<-|[]] i Hi. destruct i as [|[|[|i]]]; cbn; lia. Qed.
Lemma catalogue_files D bas k lo hi (all : decoration -> Prop) same sys structs file outfile species rz word param :
  0 < D -> bas <> [] -> NoDup bas -> (forall d, In d bas -> reduced (D, D, D) d) ->
  (k = 2 \/ k = 3)%nat -> hi <= 7 -> s_k sys = Z.of_nat k -> read_enum_out file None = Ok (sys, structs) ->
  (forall f, all f -> no_directions D bas f) ->
  catalogue all same (row_says D bas) structs ->
  (forall s f, In s structs -> row_says D bas s f -> primitive D bas (sHNF s) f) ->
  (forall s, In s structs -> makeable_for (length bas) k lo hi s) -> (forall i s, nth_error structs i = Some s -> strN s = Z.of_nat i + 1) ->
  lower_all word = "all"%string ->
  (forall es, species = Some es -> length es = k /\ forall e, In e es -> known e) ->
  exists files, make_structures double_limits param D bas file [word] outfile species rz = Ok files /\
    length files = length structs /\ (forall i n q, nth_error files i = Some (n, q) -> n = poscar_name outfile (Z.of_nat i + 1)) /\ NoDup (map fst files) /\
    catalogue all same (poscar_says D bas (Z.of_nat k) (match species with Some _ => truthy rz | None => false end)) (combine structs files).
Proof.
  intros HD Hne Hnd Hred Hk Hhi Hp Er Hall Hc Hprim Hu Hn Hw Hsp.
  set (removed := match species with Some _ => truthy rz | None => false end).
  set (P := fun s (nq : string * poscar vec) => fst nq = poscar_name outfile (strN s) /\ forall f, row_says D bas s f <-> poscar_says D bas (Z.of_nat k) removed (s, nq) f).
  assert (exists files, rmap (fun s => do q <- make_poscar double_limits param D bas (s_k sys) (s_title sys) s species rz; Ok (poscar_name outfile (strN s), q)) structs = Ok files /\ Forall2 P structs files) as [files [E HF]].
  { apply CellProofs.rmap_forall2. intros s Hs. destruct Hc as [C1 [C2 _]]. destruct (C1 s Hs) as [f0 Hf0]. destruct (Hu s Hs) as [w [Hrow [Ew [Hh Hd]]]].
    assert (forall f, row_says D bas s f -> periodic D bas (sHNF s) f /\ no_directions D bas f) as Hx.
    { intros f Hf. split; [intros z Hz; apply (Hprim s f Hs Hf); auto|apply Hall, (C2 s); auto]. }
    destruct (row_poscar D bas (Z.of_nat k) s w) with (param := param) (sys_title := s_title sys) (species := species) (rz := rz) (f0 := f0) as [q [Eq Hq]]; auto; try lia.
    - intros es Hes. rewrite Nat2Z.id. auto.
    - apply Hx; auto.
    - apply Hx; auto.
    - exists (poscar_name outfile (strN s), q). rewrite Hp, Eq. split; auto. split; auto. intros f. specialize (Hq (poscar_name outfile (strN s)) f). split; [intros Hf; apply Hq; split; auto; apply Hx; auto|intros Hf; apply Hq in Hf; tauto]. }
  pose proof (ListFacts.Forall2_length _ _ _ HF) as Hlen.
  exists files. split; [|split; [auto|split; [|split]]].
  - unfold make_structures, make_selected. rewrite C34_all by auto. cbn [rbind]. rewrite Er. cbn [rbind fst snd]. auto.
  - intros i n q Hi. clear - HF Hn Hi. assert (exists s, nth_error structs i = Some s /\ P s (n, q)) as [s [Hs [Hx _]]].
    { clear Hn. revert i Hi. induction HF as [|a b l l' Hab HF IH]; intros [|i] Hi; cbn in *; try discriminate; eauto. exists a. split; congruence. }
    cbn [fst] in Hx. rewrite Hx, (Hn i s Hs). auto.
  - assert (map fst files = map (fun s => poscar_name outfile (strN s)) structs) as -> by (clear - HF; induction HF as [|a b l l' [E _] HF IH]; cbn; congruence).
    apply (NoDup_nth_error). intros i j Hi Hij. rewrite map_length in Hi. rewrite !nth_error_map in Hij. destruct (nth_error structs i) as [a|] eqn:Ea; [|apply nth_error_None in Ea; lia]. destruct (nth_error structs j) as [b|] eqn:Eb; [|discriminate].
    cbn [option_map] in Hij. injection Hij as Hij. apply C69_names in Hij. rewrite (Hn i a Ea), (Hn j b Eb) in Hij. lia.
  - apply (catalogue_map _ _ (row_says D bas) _ structs); auto. clear - HF. induction HF as [|a b l l' [_ Hab] HF IH]; cbn [combine]; constructor; auto.
Qed.

(** From the lattice vectors to the POSCARs: counting, choosing everything, enumerating, writing enum.out, reading it and
    making every structure succeed (up to seven cells), every structure has a file of its own, numbered from 1, and the files
    show every crystal whose primitive cell has between lo and hi parent cells and the wanted concentrations exactly once, up
    to the isometries of space. *)
Theorem C69_poscars_partial : forall eps DL A m k lo hi ranges v others listdir rnd0 draw rnd shuffled p word outfile species remove_zeros param,
  0 < DL -> mdet A <> 0 -> tolerable eps DL A m -> fine eps A -> integer_rotations A ->
  1 <= lo <= hi -> hi <= 7 -> (k = 2 \/ k = 3)%nat ->
  usable_ranges k ranges -> possible lo hi ranges ->
  (forall l : list string, Permutation (listdir l) l) -> NoDup others ->
  (forall f, In f others -> contains "polya.out" f = false \/ first_char f <> first_char "polya.out") -> good_params p -> p_nspecies p = Z.of_nat k ->
  lower_all word = "all"%string -> (forall es, species = Some es -> length es = k /\ forall e, In e es -> known e) ->
  exists pg file fuel0 structs files, point_group eps DL A = Ok pg /\
    (forall fuel, (fuel0 <= fuel)%nat -> run_from_scratch v others listdir rnd0 draw rnd shuffled fuel p (simple_setup pg k lo hi ranges) false false = Ok file) /\
    read_enum_out file None = Ok (system_of p, structs) /\
    make_structures double_limits param 1 [(0, 0, 0)] file [word] outfile species remove_zeros = Ok files /\
    length files = length structs /\ (forall i n q, nth_error files i = Some (n, q) -> n = poscar_name outfile (Z.of_nat i + 1)) /\ NoDup (map fst files) /\
    catalogue (run_structures 1 [(0, 0, 0)] k lo hi ranges) (congruent_crystals A 1 [(0, 0, 0)])
      (poscar_says 1 [(0, 0, 0)] (Z.of_nat k) (match species with Some _ => truthy remove_zeros | None => false end)) (combine structs files).
Proof.
  intros eps DL A m k lo hi ranges v others listdir rnd0 draw rnd shuffled p word outfile species rz param HD Hd Ht Hf Hi Hlo Hhi Hk Hur Hpos Hls Hno Hoth Hp Hps Hw Hsp.
  destruct (scratch_rows eps DL A m k lo hi ranges v others listdir rnd0 draw rnd shuffled p) as [pg [file [f0 [structs [E1 [E2 [E3 [E4 [E5 [E6 E7]]]]]]]]]]; auto; try lia.
  destruct (catalogue_files 1 [(0, 0, 0)] k lo hi (run_structures 1 [(0, 0, 0)] k lo hi ranges) (congruent_crystals A 1 [(0, 0, 0)]) (system_of p) structs file outfile species rz word param) as [files [G1 [G2 [G3 [G4 G5]]]]]; auto using origin_nodup, origin_reduced; try lia; try discriminate.
  { intros f [Hn _] x Hx. apply Hn; auto. }
  exists pg, file, f0, structs, files. repeat (split; [assumption|]). auto.
Qed.
(** The same with the two commands: [-enum] in a directory with a lattice.in file, then makeStr with "all" on the enum.out it
    leaves. *)
Theorem C69_two_commands_partial : forall text A k lo hi ranges v e d word outfile species remove_zeros param, plain_file text A k lo hi ranges -> hi <= 7 -> possible lo hi ranges -> proper v e -> fresh d text ->
  lower_all word = "all"%string -> (forall es, species = Some es -> length es = k /\ forall e, In e es -> known e) ->
  exists fuel0 file d' sys structs files, (forall fuel, (fuel0 <= fuel)%nat -> ends (script (with_fuel e fuel) enum_args) d d') /\ dfile d' "enum.out" = Some file /\
    read_enum_out file None = Ok (sys, structs) /\
    make_structures double_limits param 1 [(0, 0, 0)] file [word] outfile species remove_zeros = Ok files /\
    length files = length structs /\ (forall i n q, nth_error files i = Some (n, q) -> n = poscar_name outfile (Z.of_nat i + 1)) /\ NoDup (map fst files) /\
    catalogue (run_structures 1 [(0, 0, 0)] k lo hi ranges) (congruent_crystals A 1 [(0, 0, 0)])
      (poscar_says 1 [(0, 0, 0)] (Z.of_nat k) (match species with Some _ => truthy remove_zeros | None => false end)) (combine structs files).
Proof.
  intros text A k lo hi ranges v e d word outfile species rz param Hp Hhi Hpos He [Hn [Hl [Hi Hh]]] Hw Hsp. destruct (plain_setup text A k lo hi ranges Hp) as [par [su [E1 [E2 [Hu [El [Eh [Hs [Hso Hc]]]]]]]]].
  assert (some_upto su (s_hi su)) as Hsh by (rewrite Eh; apply Hso; auto; pose proof (u_sizes su Hu); lia).
  destruct (run_scratch su par text v Hu E1 E2 Hs e d Hsh He (conj Hn Hl) Hi Hh) as [txt [file [f0 [_ [Hf Hr]]]]].
  destruct (Hc hi (e_date e) file) as [sys [structs [G1 [G2 [G3 [G4 [G5 G6]]]]]]]; [rewrite <- Eh; exact Hf|].
  destruct Hp as [? [? [? [? [? [_ [_ [_ [_ [_ [_ [_ [_ [_ [_ Hk]]]]]]]]]]]]]]].
  destruct (catalogue_files 1 [(0, 0, 0)] k lo hi (run_structures 1 [(0, 0, 0)] k lo hi ranges) (congruent_crystals A 1 [(0, 0, 0)]) sys structs file outfile species rz word param) as [files [K1 [K2 [K3 [K4 K5]]]]]; auto using origin_nodup, origin_reduced; try lia; try discriminate.
  { intros f [Hnd _] y Hy. apply Hnd; auto. }
  exists f0, file, (after d (counts su v (s_hi su) ++ last_files par e txt file)), sys, structs, files. split; [|split; [|auto 10]].
  - intros fuel Hfu. eexists. split; [rewrite script_enum; apply Hr; auto|reflexivity].
  - rewrite after_app. unfold last_files. cbn [after fold_left fst snd]. apply dfile_same.
Qed.
(** The simple cubic lattice, two species, one and two cells: five files; elements named, those without atoms left out. *)
Example C69_example :
  p_nspecies cubic_params = Z.of_nat 2 /\ (forall e, In e ["Al"; "Cu"]%string -> known e) /\
  exists file files,
    let pg := match point_group (1 # 10000000000) 1 (simple_cubic 1) with Ok pg => pg | Err _ => [] end in
    run_from_scratch Py3 ["lattice.in"%string] (fun l => rev l) (fun _ => true) (fun _ _ _ => 0) (fun _ _ => true) (fun _ l => l) 100 cubic_params (simple_setup pg 2 1 2 None) false false = Ok file /\
    make_structures double_limits (fun _ => 1%Q) 1 [(0, 0, 0)] file ["ALL"%string] "vasp.{}" (Some ["Al"; "Cu"]%string) (Bool true) = Ok files /\
    map (fun f => (fst f, numbers (snd f), map fst (atoms (snd f)))) files =
      [("vasp.1", [1], [(0, 0, 0)]); ("vasp.2", [1], [(0, 0, 0)]);
       ("vasp.3", [1; 1], [(0, 0, 0); (0, 0, 1)]); ("vasp.4", [1; 1], [(0, 0, 0); (0, 0, 1)]); ("vasp.5", [1; 1], [(0, 0, 0); (0, 0, 1)])]%string.
Proof.
  split; [reflexivity|]. split; [intros e [<-|[<-|[]]]; vm_compute; eauto|]. cbv zeta.
  set (pg := match point_group (1 # 10000000000) 1 (simple_cubic 1) with Ok pg => pg | Err _ => [] end).
  set (r := run_from_scratch Py3 ["lattice.in"%string] (fun l => rev l) (fun _ => true) (fun _ _ _ => 0) (fun _ _ => true) (fun _ l => l) 100 cubic_params (simple_setup pg 2 1 2 None) false false).
  set (q := match r with Ok f => make_structures double_limits (fun _ => 1%Q) 1 [(0, 0, 0)] f ["ALL"%string] "vasp.{}" (Some ["Al"; "Cu"]%string) (Bool true) | Err e => Err e end).
  exists (match r with Ok f => f | Err _ => EmptyString end), (match q with Ok s => s | Err _ => [] end).
  split; [vm_compute; reflexivity|]. split; vm_compute; reflexivity.
Qed.
(** The same for several atoms per cell, one of them at the origin, on a lattice whose symmetries are their own inverses. *)
Theorem C69_several_atoms_partial : forall eps DL A m D bas k lo hi ranges v others listdir rnd0 draw rnd shuffled p word outfile species remove_zeros param,
  0 < DL -> mdet A <> 0 -> tolerable eps DL A m -> fine eps A -> integer_rotations A -> (forall C, keeps_lengths A C -> mmul C C = mid) ->
  0 < D -> NoDup bas -> (forall d, In d bas -> reduced (D, D, D) d) -> In (0, 0, 0) bas ->
  1 <= lo <= hi -> hi <= 7 -> (k = 2%nat /\ hi * Z.of_nat (length bas) <= 20 \/ k = 3%nat /\ hi * Z.of_nat (length bas) <= 15) ->
  usable_ranges k ranges -> possible_sites (Z.of_nat (length bas)) lo hi ranges ->
  (forall l : list string, Permutation (listdir l) l) -> NoDup others ->
  (forall f, In f others -> contains "polya.out" f = false \/ first_char f <> first_char "polya.out") -> good_params p -> p_nspecies p = Z.of_nat k ->
  lower_all word = "all"%string -> (forall es, species = Some es -> length es = k /\ forall e, In e es -> known e) ->
  exists pg file fuel0 structs files, point_group eps DL A = Ok pg /\
    (forall fuel, (fuel0 <= fuel)%nat -> run_from_scratch v others listdir rnd0 draw rnd shuffled fuel p (basis_setup pg D bas k lo hi ranges) false false = Ok file) /\
    read_enum_out file None = Ok (system_of p, structs) /\
    make_structures double_limits param D bas file [word] outfile species remove_zeros = Ok files /\
    length files = length structs /\ (forall i n q, nth_error files i = Some (n, q) -> n = poscar_name outfile (Z.of_nat i + 1)) /\ NoDup (map fst files) /\
    catalogue (run_structures D bas k lo hi ranges) (congruent_crystals A D bas)
      (poscar_says D bas (Z.of_nat k) (match species with Some _ => truthy remove_zeros | None => false end)) (combine structs files).
Proof.
  intros eps DL A m D bas k lo hi ranges v others listdir rnd0 draw rnd shuffled p word outfile species rz param HD Hd Ht Hf Hi Hinv HDb Hn Hr Hz Hlo Hhi Hk Hur Hpos Hls Hno Hoth Hp Hps Hw Hsp.
  destruct (basis_rows eps DL A m D bas k lo hi ranges v others listdir rnd0 draw rnd shuffled p) as [pg [file [f0 [structs [E1 [E2 [E3 [E4 [E5 [E6 E7]]]]]]]]]]; auto.
  { intros pg Epg. destruct (C56_usable eps DL A m HD Hd Ht Hf Hi) as [pg' [E' [F1 [F2 _]]]]. assert (pg' = pg) as -> by congruence.
    apply RunProofs.good_involutions; auto. intros C R HC. split; [apply (F2 C R HC)|apply Hinv, (F1 C R); auto]. }
  destruct (catalogue_files D bas k lo hi (run_structures D bas k lo hi ranges) (congruent_crystals A D bas) (system_of p) structs file outfile species rz word param) as [files [G1 [G2 [G3 [G4 G5]]]]]; auto; try lia.
  { intros E. rewrite E in Hz. destruct Hz. }
  { intros f [Hnf _] x Hx. apply Hnf; auto. }
  exists pg, file, f0, structs, files. repeat (split; [assumption|]). auto.
Qed.
Theorem C69_two_commands_several_atoms_partial : forall text A D bas k lo hi ranges v e d word outfile species remove_zeros param, atoms_file text A D bas k lo hi ranges -> hi <= 7 ->
  possible_sites (Z.of_nat (length bas)) lo hi ranges -> proper v e -> fresh d text ->
  lower_all word = "all"%string -> (forall es, species = Some es -> length es = k /\ forall e, In e es -> known e) ->
  exists fuel0 file d' sys structs files, (forall fuel, (fuel0 <= fuel)%nat -> ends (script (with_fuel e fuel) enum_args) d d') /\ dfile d' "enum.out" = Some file /\
    read_enum_out file None = Ok (sys, structs) /\
    make_structures double_limits param D bas file [word] outfile species remove_zeros = Ok files /\
    length files = length structs /\ (forall i n q, nth_error files i = Some (n, q) -> n = poscar_name outfile (Z.of_nat i + 1)) /\ NoDup (map fst files) /\
    catalogue (run_structures D bas k lo hi ranges) (congruent_crystals A D bas)
      (poscar_says D bas (Z.of_nat k) (match species with Some _ => truthy remove_zeros | None => false end)) (combine structs files).
Proof.
  intros text A D bas k lo hi ranges v e d word outfile species rz param Hp Hhi Hpos He Hfr Hw Hsp.
  destruct (enum_settled _ _ _ _ _ v e d (atoms_settled _ _ _ _ _ _ _ _ Hp) Hpos He Hfr) as [f0 [file [d' [H1 [H2 [[sys [structs [G1 [G2 [G3 [G4 [G5 G6]]]]]]] _]]]]]].
  destruct Hp as [? [? [? [? [? [? [_ [_ [_ [_ [HDb [Hn [Hr [Hz [_ [_ [_ [_ [_ [_ [_ [_ [_ Hk]]]]]]]]]]]]]]]]]]]]]]].
  destruct (catalogue_files D bas k lo hi (run_structures D bas k lo hi ranges) (congruent_crystals A D bas) sys structs file outfile species rz word param) as [files [K1 [K2 [K3 [K4 K5]]]]]; auto; try lia.
  { intros E. rewrite E in Hz. destruct Hz. }
  { intros f [Hnd _] y Hy. apply Hnd; auto. }
  exists f0, file, d', sys, structs, files. split; auto. split; auto 10.
Qed.
(** The box with two atoms: its files for up to three cells. *)
Example C69_example_several_atoms : exists fuel0 file d' sys structs files, (forall fuel, (fuel0 <= fuel)%nat -> ends (script (with_fuel (some_env 0 "Monday") fuel) enum_args) box_dir d') /\ dfile d' "enum.out" = Some file /\
    read_enum_out file None = Ok (sys, structs) /\
    make_structures double_limits (fun _ => 1%Q) 2 [(0, 0, 0); (0, 1, 0)] file ["all"%string] "vasp.{}" (Some ["Al"; "Cu"]%string) (Bool true) = Ok files /\
    catalogue (run_structures 2 [(0, 0, 0); (0, 1, 0)] 2 1 3 None) (congruent_crystals (box_lattice 1 2 3) 2 [(0, 0, 0); (0, 1, 0)]) (poscar_says 2 [(0, 0, 0); (0, 1, 0)] 2 true) (combine structs files).
Proof.
  destruct (C69_two_commands_several_atoms_partial _ _ _ _ _ _ _ _ Py3 (some_env 0 "Monday") box_dir "all" "vasp.{}" (Some ["Al"; "Cu"]%string) (Bool true) (fun _ => 1%Q) box_file ltac:(lia) Logic.I (some_proper 0 "Monday" ltac:(repeat split)) box_fresh) as [f0 [file [d' [sys [structs [files [H1 [H2 [H3 [H4 [_ [_ [_ H5]]]]]]]]]]]]].
  - reflexivity.
  - intros es E. injection E as <-. split; [reflexivity|]. intros e [<-|[<-|[]]]; vm_compute; eauto.
  - exists f0, file, d', sys, structs, files. auto 10.
Qed.

Print Assumptions C69_names.
Print Assumptions C69_poscars_partial.
Print Assumptions C69_two_commands_partial.
Print Assumptions C69_example.
Print Assumptions C69_several_atoms_partial.
Print Assumptions C69_two_commands_several_atoms_partial.
Print Assumptions C69_example_several_atoms.
