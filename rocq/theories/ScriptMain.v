(** Commands in a directory (C61): [-enum] in directories with some of its files. *)
From Coq Require Import Permutation QArith.
From Verif Require Import TextModel TextProofs PyBase ListFacts TreeSearch Spec Mat3 HNFModel PolyaModel LatSpec LatGroupThm SuperModel StructSpec EnumSysModel DistModel FilesModel FilesProofs FilesMain PropertiesFiles EnumOutModel EnumOutSpec PropertiesEnumOut RunModel RunSpec RunProofs RunMain RunTop.
From Verif Require Import LatticeInModel LatticeInSpec ScriptModel ScriptProofs.
Local Open Scope Z_scope.

Definition upto (su : setup) (t : Z) : setup :=
  {| s_pg := s_pg su; s_D := s_D su; s_bas := s_bas su; s_species := s_species su; s_lo := s_lo su; s_hi := t; s_restricted := s_restricted su;
     s_concs := s_concs su; s_arrows := s_arrows su; s_na := s_na su |}.
(** What [-enum] needs. *)
Record usable (su : setup) : Prop := {
  u_D : 0 < s_D su; u_bas : good_basis (s_pg su) (s_D su) (s_bas su) (s_lo su) (s_hi su); u_pg : forall C R, In (C, R) (s_pg su) -> unimodular C /\ orthogonal R;
  u_group : rotation_group (s_pg su); u_diff : NoDup (map snd (s_pg su));
  u_sizes : 1 <= s_lo su <= s_hi su /\ (s_species su = 2%nat /\ s_hi su * Z.of_nat (length (s_bas su)) <= 20 \/ s_species su = 3%nat /\ s_hi su * Z.of_nat (length (s_bas su)) <= 15);
  u_plain : usable_ranges (s_species su) (ranges_of su) /\ s_arrows su = false /\ forall c, length c = s_species su -> s_na su c = map (fun _ => 0) c }.
Lemma usable_upto su t : usable su -> s_lo su <= t <= s_hi su -> usable (upto su t).
Proof. intros [A B C D E F G] H. constructor; cbn [upto s_D s_bas s_pg s_lo s_hi s_species s_restricted s_arrows s_na]; auto; [eapply good_basis_sub; eauto; lia|nia]. Qed.
Definition harmless (f : string) : Prop := contains "polya.out"%string f = false \/ first_char f <> first_char "polya.out"%string.
Definition with_fuel (e : env) (n : nat) : env :=
  {| e_version := e_version e; e_fuel := n; e_listdir := e_listdir e; e_rnd0 := e_rnd0 e; e_draw := e_draw e; e_rnd := e_rnd e; e_shuffled := e_shuffled e; e_date := e_date e |}.
(** The plain command [-enum]. *)
Definition enum_args : args :=
  {| a_polya := false; a_enum := true; a_lattice := "lattice.in"; a_input := None; a_distribution := None; a_savedist := false; a_outfile := None;
     a_sizes := None; a_accept := Ok false; a_super := false; a_filter := None |}.
Definition count_file (v : pyversion) (su : setup) (s : Z) : string := polya_file (run_concs su s) (map six (run_hnfs su s)) (run_count su v).
(** The rows of the file that is written list the crystals of the sizes lo to hi. *)
Definition lists_crystals (su : setup) (p : params) (file : string) : Prop :=
  exists structs, read_enum_out file None = Ok (system_of p, structs) /\
    catalogue (run_structures (s_D su) (s_bas su) (s_species su) (s_lo su) (s_hi su) (ranges_of su)) (same_structure (s_pg su) (s_D su) (s_bas su)) (row_says (s_D su) (s_bas su)) structs /\
    (forall s f, In s structs -> row_says (s_D su) (s_bas su) s f -> primitive (s_D su) (s_bas su) (sHNF s) f) /\
    (forall s, In s structs -> makeable_for (length (s_bas su)) (s_species su) (s_lo su) (s_hi su) s) /\ forall i s, nth_error structs i = Some s -> strN s = Z.of_nat i + 1.

(** Some size up to [t] has a composition within the ranges. *)
Definition some_upto (su : setup) (t : Z) : Prop := exists s c, In s (run_sizes (upto su t)) /\ In c (run_concs (upto su t) s).
Section Main.
Variables (su : setup) (par : lattice) (ltext : string) (v : pyversion).
Hypothesis Hu : usable su.
Hypothesis Hread : read_lattice ltext = Ok par.
Hypothesis Hsetup : setup_of par = Ok su.
Hypothesis Hshape : length (l_vecs par) = 3%nat /\ l_bas par <> [] /\ 0 <= l_nspecies par.
Definition good_env (e : env) : Prop := e_version e = v /\ (forall l, Permutation (e_listdir e l) l) /\ no_newline (e_date e).
Lemma par_good e : good_env e -> good_params (params_of (e_date e) par).
Proof.
  intros [_ [_ Hd]]. destruct Hshape as [A [B C]]. split; [auto|]. cbn [params_of p_lat p_basis p_nspecies]. split; [rewrite map_length; auto|]. split; [destruct (l_bas par); [congruence|discriminate]|]. split; auto.
  apply Forall_forall. intros t Ht. rewrite <- map_app in Ht. apply in_map_iff in Ht. destruct Ht as [l [<- _]]. cbn [triple_of fst snd]. split; [|split]; apply seven_solid.
Qed.
Lemma Hk' : (2 <= s_species su <= 3)%nat. Proof. destruct Hu as [_ _ _ _ _ H _]. lia. Qed.
Lemma Hs' : 1 <= s_lo su <= s_hi su /\ s_hi su * Z.of_nat (length (s_bas su)) <= 20. Proof. destruct Hu as [_ _ _ _ _ H _]. lia. Qed.
(** The last part: enum.in is there, and is the file for everything up to size [t]. *)
Definition asks_all (t : Z) (txt : string) : Prop := exists systems, read_enum txt = Ok systems /\ NoDup (map fst systems) /\ are_systems (upto su t) v systems.
Lemma enum_out_with e d t txt : s_lo su <= t <= s_hi su -> some_upto su t -> good_env e -> dfile d "lattice.in" = Some ltext -> dfile d "enum.in" = Some txt -> asks_all t txt ->
  exists file fuel0, lists_crystals (upto su t) (params_of (e_date e) par) file /\
    (forall fuel, (fuel0 <= fuel)%nat -> enum_out_step (with_fuel e fuel) enum_args "enum.in" "enum.out" d = ([("enum.out", text (header (params_of (e_date e) par))); ("enum.out", file)]%string, Ok tt)).
Proof.
  intros Ht Hso He Hl Hi [systems [Es [Hn Hsys]]]. pose proof (usable_upto su t Hu Ht) as [A1 A2 A3 A4 A5 A6 A7]. pose proof He as [Hv [Hls Hd]].
  assert ((2 <= s_species (upto su t) <= 3)%nat) as K1 by lia. assert (1 <= s_lo (upto su t) <= s_hi (upto su t) /\ s_hi (upto su t) * Z.of_nat (length (s_bas (upto su t))) <= 20) as K2 by lia.
  destruct (enum_lines_ok (upto su t) v A1 A2 A3 A4 A5 K1 K2 A7 (e_draw e) (e_rnd e) (e_shuffled e) systems Hsys) as [found [f0 [Hrun HF]]].
  destruct (lines_read_rows (upto su t) v A1 A2 A3 A4 A6 A7 Hso systems found Hsys Hn HF (params_of (e_date e) par) (par_good e He)) as [file [structs [Ef [Er [Hc Hp]]]]].
  exists file, f0. split; [exists structs; auto|]. intros fuel Hfu. unfold enum_out_step, lattice_step. cbn [enum_args a_lattice a_super a_accept a_distribution].
  erewrite bind_quiet; [|erewrite bind_quiet by (apply read_ok; eauto); unfold lift; rewrite Hread; erewrite bind_quiet by reflexivity; rewrite Hsetup; erewrite bind_quiet by reflexivity; reflexivity]. cbn beta iota.
  erewrite bind_quiet; [|unfold alook; rewrite Hi; reflexivity]. erewrite bind_quiet by reflexivity. erewrite bind_quiet by (apply read_ok; eauto). erewrite bind_quiet by (unfold lift; rewrite Es; reflexivity).
  eapply (bind_then _ _ _ [_] _ [_]); [reflexivity|]. erewrite bind_quiet by reflexivity.
  cbn [with_fuel e_version e_draw e_rnd e_shuffled e_fuel e_date].
  change (enum_lines (e_version e) (e_draw e) (e_rnd e) (e_shuffled e) fuel su false false systems) with (enum_lines (e_version e) (e_draw e) (e_rnd e) (e_shuffled e) fuel (upto su t) false false systems).
  rewrite Hv, Hrun by auto. cbn [rbind]. erewrite bind_quiet by (unfold lift; rewrite Ef; reflexivity). reflexivity.
Qed.
(** enum.in is not there, the counts up to size [t] are. *)
Lemma enum_in_with e d t : s_lo su <= t <= s_hi su -> good_env e -> NoDup (names d) ->
  (forall s, s_lo su <= s <= t -> dfile d (polya_name s) = Some (count_file v su s)) ->
  (forall f, In f (names d) -> harmless f \/ exists s, s_lo su <= s <= t /\ f = polya_name s) ->
  exists txt, asks_all t txt /\ forall fuel, enum_in_step (with_fuel e fuel) enum_args "polya.out" "enum.in" ["all"; "all"]%string d = ([("enum.in"%string, txt)], Ok tt).
Proof.
  intros Ht [Hv [Hls _]] Hnd Hf Hoth. pose proof (usable_upto su t Hu Ht) as [A1 A2 A3 A4 A5 A6 A7].
  assert ((2 <= s_species (upto su t) <= 3)%nat) as K1 by lia. assert (1 <= s_lo (upto su t) <= s_hi (upto su t) /\ s_hi (upto su t) * Z.of_nat (length (s_bas (upto su t))) <= 20) as K2 by lia.
  assert (forall s, In s (run_sizes (upto su t)) <-> s_lo su <= s <= t) as Hrs by (intros s; apply (in_sizes (upto su t) K1)).
  set (others := filter (fun f => negb (contains "polya.out"%string f && match first_char f, first_char "polya.out"%string with Some a, Some b => Ascii.eqb a b | _, _ => false end)) (names d)).
  assert (forall s, ~ harmless (polya_name s)) as Hnh.
  { intros s [E|E]; [|apply E; reflexivity]. pose proof (contains_app "polya.out"%string ("." ++ str s)%string) as E'. change (contains "polya.out"%string (polya_name s) = true) in E'. congruence. }
  assert (forall f, (contains "polya.out"%string f && match first_char f, first_char "polya.out"%string with Some a, Some b => Ascii.eqb a b | _, _ => false end)%bool = false <-> harmless f) as Hh.
  { intros f. unfold harmless. rewrite andb_false_iff. destruct (first_char f) as [c|]; cbn [first_char]; [|split; [intros _; right; discriminate|auto]]. split; (intros [E|E]; [auto|right]).
    - apply Ascii.eqb_neq in E. congruence.
    - apply Ascii.eqb_neq. congruence. }
  destruct (enum_in_files (upto su t) v A1 A2 A3 A4 A5 K1 K2 A7 (fun s => dfile d (sized "polya.out" s)) others (e_listdir e (names d)) (e_rnd0 e) false) as [sizes [txt [systems [E0 [E1 [E2 [N H]]]]]]].
  - intros s Hs. rewrite (files_get (upto su t) v) by auto. apply Hrs in Hs. apply (Hf s Hs).
  - eapply Permutation_NoDup; [apply Permutation_sym, Hls|auto].
  - intros f. transitivity (In f (names d)); [split; apply Permutation_in; [apply Hls|apply Permutation_sym, Hls]|]. unfold others. rewrite filter_In, negb_true_iff, Hh. split.
    + intros Hi. destruct (Hoth f Hi) as [Hb|[s [Hs ->]]]; [auto|]. right. exists s. split; [apply Hrs; auto|auto].
    + intros [[Hi _]|[s [Hs ->]]]; auto. apply dfile_names. exists (count_file v su s). apply Hf, Hrs. auto.
  - intros f Hi. unfold others in Hi. apply filter_In in Hi. destruct Hi as [_ Hi]. apply negb_true_iff, Hh in Hi. exact Hi.
  - exists txt. split; [exists systems; auto|]. intros fuel. unfold enum_in_step.
    assert (globbed "polya.out" d = true) as Hg.
    { apply globbed_iff. exists (str t). change (In (polya_name t) (names d)). apply dfile_names. exists (count_file v su t). apply Hf. lia. }
    erewrite bind_quiet by (unfold alook; rewrite Hg; reflexivity). erewrite bind_quiet by reflexivity. cbn [lower_all]. erewrite bind_quiet by reflexivity. erewrite bind_quiet by reflexivity.
    cbn [enum_args a_sizes a_filter a_savedist with_fuel e_listdir e_rnd0]. erewrite bind_quiet by (unfold lift; rewrite E0; reflexivity). erewrite bind_quiet by reflexivity. erewrite bind_quiet by reflexivity. erewrite bind_quiet by reflexivity.
    erewrite bind_quiet by (unfold lift; rewrite E1; reflexivity). reflexivity.
Qed.
Lemma polya_step_ok e : good_env e -> exists fuel0, forall fuel d, (fuel0 <= fuel)%nat -> polya_step (with_fuel e fuel) su "polya.out" d = (map (fun s => (polya_name s, count_file v su s)) (range_up (s_lo su) (s_hi su + 1)), Ok tt).
Proof.
  intros [Hv _]. destruct Hu as [A1 A2 A3 A4 A5 A6 A7]. pose proof Hk' as K1. pose proof Hs' as K2.
  destruct (fuel_for_all (fun s fuel => polya_of_size v fuel su s = Ok (count_file v su s)) (run_sizes su) (polya_of_size_ok su v A1 A2 A3 A4 A5 K1 K2 A7)) as [f0 H].
  exists f0. intros fuel d Hfu. unfold polya_step. apply (each_writes polya_name (count_file v su)). intros s d' Hs.
  destruct (hnfs_facts su A1 A2 A3 A4 K1 K2 A7 s Hs) as [E _]. cbn [with_fuel e_version e_fuel]. rewrite E, Hv. rewrite (H fuel Hfu s Hs). reflexivity.
Qed.
(** A run that makes enum.in first goes on as the run that finds it. *)
Lemma enum_out_missing e d ws : dfile d "lattice.in" = Some ltext -> dfile d "enum.in" = None ->
  abind (alook (globbed "polya.out")) (fun counted => abind (if counted then aret tt else polya_step e su "polya.out") (fun _ => enum_in_step e enum_args "polya.out" "enum.in" ["all"; "all"]%string)) d = (ws, Ok tt) ->
  (exists txt, dfile (after d ws) "enum.in" = Some txt) -> dfile (after d ws) "lattice.in" = Some ltext ->
  enum_out_step e enum_args "enum.in" "enum.out" d = (ws ++ fst (enum_out_step e enum_args "enum.in" "enum.out" (after d ws)), snd (enum_out_step e enum_args "enum.in" "enum.out" (after d ws)))%list.
Proof.
  intros Hl Hi Hw [txt Ht] Hl'.
  assert (forall d', dfile d' "lattice.in" = Some ltext -> lattice_step "lattice.in" d' = ([], Ok (par, su))) as Hlat.
  { intros d' H. unfold lattice_step. erewrite bind_quiet by (apply read_ok; eauto). unfold lift. rewrite Hread. erewrite bind_quiet by reflexivity. rewrite Hsetup. erewrite bind_quiet by reflexivity. reflexivity. }
  set (R := enum_out_step e enum_args "enum.in" "enum.out" (after d ws)). assert (R = R) as ER by reflexivity. unfold R at 1 in ER. unfold enum_out_step in *. cbn [enum_args a_lattice a_super a_accept a_distribution] in *.
  erewrite bind_quiet in ER by (apply Hlat; auto). cbn beta iota in ER. erewrite bind_quiet in ER by (unfold alook; rewrite Ht; reflexivity). cbn iota in ER. erewrite bind_quiet in ER by reflexivity.
  erewrite bind_quiet by (apply Hlat; auto). cbn beta iota. erewrite bind_quiet by (unfold alook; rewrite Hi; reflexivity). cbn iota. rewrite <- ER. exact (bind_ok _ _ d ws tt Hw).
Qed.
Definition in_dir (d : dir) : Prop := NoDup (names d) /\ dfile d "lattice.in" = Some ltext.
Definition counts (t : Z) : list (string * string) := map (fun s => (polya_name s, count_file v su s)) (range_up (s_lo su) (t + 1)).
Lemma polya_name_inj a b : polya_name a = polya_name b -> a = b.
Proof. unfold polya_name. intros E. apply app_inj_s, str_inj in E. auto. Qed.
Lemma counts_NoDup t : NoDup (map fst (counts t)).
Proof. unfold counts. rewrite map_map. cbn [fst]. apply NoDup_map_inj; [|apply NoDup_range_up]. intros a b _ _ E. apply polya_name_inj. auto. Qed.
Lemma counts_in t f x : In (f, x) (counts t) <-> exists s, s_lo su <= s <= t /\ f = polya_name s /\ x = count_file v su s.
Proof. clear par ltext Hu Hread Hsetup Hshape.
  unfold counts. rewrite in_map_iff. split.
  - intros [s [E Hs]]. inversion E; subst. apply in_range_up in Hs. exists s. split; [lia|auto].
  - intros [s [Hs [-> ->]]]. exists s. split; auto. apply in_range_up. lia.
Qed.
(** The files written by a run that has to make enum.in from the counts up to size [t]. *)
Definition last_files (e : env) (txt file : string) : list (string * string) := [("enum.in", txt); ("enum.out", text (header (params_of (e_date e) par))); ("enum.out", file)]%string.
Definition counted (d : dir) (t : Z) : Prop := (forall s, s_lo su <= s <= t -> dfile d (polya_name s) = Some (count_file v su s)) /\
  (forall f, In f (names d) -> harmless f \/ exists s, s_lo su <= s <= t /\ f = polya_name s).
Lemma run_counted e d t : s_lo su <= t <= s_hi su -> some_upto su t -> good_env e -> in_dir d -> dfile d "enum.in" = None -> counted d t ->
  exists txt file fuel0, asks_all t txt /\ lists_crystals (upto su t) (params_of (e_date e) par) file /\
    forall fuel, (fuel0 <= fuel)%nat -> enum_out_step (with_fuel e fuel) enum_args "enum.in" "enum.out" d = (last_files e txt file, Ok tt).
Proof.
  intros Ht Hso He [Hnd Hl] Hi [Hc Hn]. destruct (enum_in_with e d t Ht He Hnd Hc Hn) as [txt [Ha Hw]].
  destruct (enum_out_with e (after d [("enum.in"%string, txt)]) t txt Ht Hso He) as [file [f0 [Hf Hr]]]; auto.
  { rewrite after_other; auto. constructor; [discriminate|constructor]. }
  exists txt, file, f0. split; auto. split; auto. intros fuel Hfu. rewrite (enum_out_missing (with_fuel e fuel) d [("enum.in"%string, txt)]); auto.
  - rewrite Hr by auto. reflexivity.
  - erewrite bind_quiet; [|unfold alook; replace (globbed "polya.out" d) with true; [reflexivity|]].
    + erewrite bind_quiet by reflexivity. apply Hw.
    + symmetry. apply globbed_iff. exists (str t). change (In (polya_name t) (names d)). apply dfile_names. exists (count_file v su t). apply Hc. lia.
  - exists txt. apply dfile_same.
  - rewrite after_other; auto. constructor; [discriminate|constructor].
Qed.
Lemma name_not_enum s : polya_name s <> "enum.in"%string /\ polya_name s <> "enum.out"%string /\ polya_name s <> "lattice.in"%string.
Proof. repeat split; intros E; discriminate E. Qed.
Lemma not_counted d : (forall f, In f (names d) -> harmless f) -> globbed "polya.out" d = false.
Proof.
  intros H. destruct (globbed "polya.out" d) eqn:E; auto. apply globbed_iff in E. destruct E as [r Hr]. destruct (H _ Hr) as [E|E]; [|exfalso; apply E; reflexivity]. rewrite contains_app in E. discriminate.
Qed.
Lemma counts_counted d t : (forall f, In f (names d) -> harmless f) -> counted (after d (counts t)) t.
Proof.
  intros H. split.
  - intros s Hs. apply after_last; [apply counts_NoDup|]. apply counts_in. exists s. auto.
  - intros f Hf. apply after_names in Hf. destruct Hf as [Hf|Hf]; [auto|]. apply in_map_iff in Hf. destruct Hf as [[g x] [E Hg]]. cbn in E. subst g. apply counts_in in Hg. destruct Hg as [s [Hs [-> _]]]. right. eauto.
Qed.
Lemma after_counts d t f : (forall s, f <> polya_name s) -> dfile (after d (counts t)) f = dfile d f.
Proof. intros H. apply after_other. apply Forall_forall. intros [g x] Hg. apply counts_in in Hg. destruct Hg as [s [_ [-> _]]]. cbn. intros E. apply (H s). auto. Qed.
Lemma run_scratch e d : some_upto su (s_hi su) -> good_env e -> in_dir d -> dfile d "enum.in" = None -> (forall f, In f (names d) -> harmless f) ->
  exists txt file fuel0, asks_all (s_hi su) txt /\ lists_crystals su (params_of (e_date e) par) file /\
    forall fuel, (fuel0 <= fuel)%nat -> enum_out_step (with_fuel e fuel) enum_args "enum.in" "enum.out" d = (counts (s_hi su) ++ last_files e txt file, Ok tt)%list.
Proof.
  intros Hso He [Hnd Hl] Hi Hh. pose proof Hs' as Hs. destruct (polya_step_ok e He) as [f1 Hps]. set (d1 := after d (counts (s_hi su))).
  assert (dfile d1 "lattice.in" = Some ltext /\ dfile d1 "enum.in" = None) as [Hl1 Hi1] by (split; [unfold d1; rewrite after_counts; auto; intros s E; symmetry in E; revert E; apply name_not_enum ..]).
  assert (NoDup (names d1)) as Hnd1 by (apply after_NoDup; auto). pose proof (counts_counted d (s_hi su) Hh) as Hc1. fold d1 in Hc1. destruct Hc1 as [Hc1 Hn1].
  destruct (enum_in_with e d1 (s_hi su) ltac:(lia) He Hnd1 Hc1 Hn1) as [txt [Ha Hw]].
  destruct (enum_out_with e (after d1 [("enum.in"%string, txt)]) (s_hi su) txt ltac:(lia) Hso He) as [file [f0 [Hf Hr]]]; auto.
  { rewrite after_other; auto. constructor; [discriminate|constructor]. }
  exists txt, file, (f0 + f1)%nat. split; auto. split.
  { destruct Hf as [structs Hf]. exists structs. exact Hf. }
  intros fuel Hfu. rewrite (enum_out_missing (with_fuel e fuel) d (counts (s_hi su) ++ [("enum.in"%string, txt)])); auto.
  - rewrite after_app. fold d1. rewrite Hr by lia. cbn [fst snd]. rewrite <- app_assoc. reflexivity.
  - erewrite bind_quiet by (unfold alook; rewrite (not_counted d Hh); reflexivity). cbn iota. eapply bind_then; [apply Hps; lia|]. fold (counts (s_hi su)). fold d1. apply Hw.
  - exists txt. rewrite after_app. apply dfile_same.
  - rewrite after_app. fold d1. rewrite after_other; auto. constructor; [discriminate|constructor].
Qed.
(** The command. *)
Lemma script_enum e d : script e enum_args d = enum_out_step e enum_args "enum.in" "enum.out" d.
Proof.
  unfold script. cbn [enum_args a_polya a_enum a_outfile a_input a_distribution a_lattice a_accept default].
  erewrite bind_quiet by reflexivity. cbn [andb negb]. erewrite bind_quiet by reflexivity. erewrite bind_quiet by reflexivity. unfold abind. destruct (enum_out_step e enum_args "enum.in" "enum.out" d) as [ws [[]|x]]; auto. cbn [aret]. rewrite app_nil_r. auto.
Qed.
End Main.
