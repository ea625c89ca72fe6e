(** Commands in a directory (C61 to C64): the properties. *)
From Coq Require Import Permutation QArith.
From Verif Require Import TextModel TextProofs PyBase ListFacts TreeSearch Spec Mat3 HNFModel PolyaModel LatSpec LatGroupThm SuperModel StructSpec StructAll EnumSysModel DistModel FilesModel FilesProofs EnumOutModel EnumOutSpec PropertiesEnumOut.
From Verif Require MapProofs.
From Verif Require Import PointGroupModel PointGroupSpec PointGroupProofs PointGroupMain PropertiesPoint RunModel RunSpec RunProofs RunMain RunTop LatticeInModel LatticeInSpec LatticeInProofs PropertiesLatticeIn RunText PropertiesRunText ScriptModel ScriptProofs ScriptMain.
Local Open Scope Z_scope.

(** ** Which files a command writes (C61) *)
(** The files a command may write, from the options only. *)
Definition may_write (a : args) (f : string) : Prop :=
  let numbered base := exists s : Z, f = (base ++ "." ++ str s)%string in
  let named o dflt := match o with Some x => x | None => dflt end in
  (a_polya a = true /\ numbered (named (a_outfile a) "polya.out"%string)) \/
  (a_enum a = true /\ (f = named (a_outfile a) (if a_polya a then "polya.out" else "enum.out")%string \/ f = named (a_input a) "enum.in"%string \/ numbered "polya.out"%string)) \/
  (a_enum a = false /\ a_distribution a <> None /\ (f = named (a_outfile a) (if a_polya a then "polya.out" else "enum.in")%string \/ numbered (named (a_input a) "polya.out"%string))).
Lemma script_only e a : only (may_write a) (script e a).
Proof.
  unfold script. apply only_bind; auto with acts. intros lat. destruct (a_polya a && negb lat); auto with acts. match goal with |- only _ (if ?b then _ else _) => destruct b end; auto with acts.
  apply only_bind; auto with acts. intros _. unfold may_write, default. destruct (a_polya a) eqn:Ep, (a_enum a) eqn:Ee.
  - apply only_bind; [|intros _; apply only_bind; [|intros _; rewrite andb_false_r; auto with acts]].
    + eapply only_impl; [|apply polya_main_only]. intros f [s ->]. left. split; auto. exists s. destruct (a_distribution a) as [[|]|], (a_outfile a); reflexivity.
    + eapply only_impl; [|apply enum_out_step_only]. intros f H. right. left. split; auto. destruct H as [[s ->]|[->| ->]]; [right; right; exists s; reflexivity|right; left|left]; destruct (a_distribution a) as [[|]|], (a_outfile a), (a_input a); reflexivity.
  - apply only_bind; [|intros _; apply only_bind; [auto with acts|intros _]].
    + eapply only_impl; [|apply polya_main_only]. intros f [s ->]. left. split; auto. exists s. destruct (a_distribution a) as [[|]|], (a_outfile a); reflexivity.
    + match goal with |- only _ (if ?b then _ else _) => destruct b eqn:Eb end; auto with acts. eapply only_impl; [|apply enum_in_step_only]. intros f H. right. right. split; auto.
      destruct (a_distribution a) as [[|x l]|]; try discriminate Eb. split; [discriminate|]. destruct H as [[s ->]| ->]; [right; exists s|left]; destruct (a_outfile a), (a_input a); reflexivity.
  - apply only_bind; [auto with acts|intros _; apply only_bind; [|intros _; rewrite andb_false_r; auto with acts]].
    eapply only_impl; [|apply enum_out_step_only]. intros f H. right. left. split; auto. destruct H as [[s ->]|[->| ->]]; [right; right; exists s; reflexivity|right; left|left]; destruct (a_distribution a) as [[|]|], (a_outfile a), (a_input a); reflexivity.
  - apply only_bind; [auto with acts|intros _; apply only_bind; [auto with acts|intros _]].
    match goal with |- only _ (if ?b then _ else _) => destruct b eqn:Eb end; auto with acts. eapply only_impl; [|apply enum_in_step_only]. intros f H. right. right. split; auto.
    destruct (a_distribution a) as [[|x l]|]; try discriminate Eb. split; [discriminate|]. destruct H as [[s ->]| ->]; [right; exists s|left]; destruct (a_outfile a), (a_input a); reflexivity.
Qed.
Lemma firstn_Forall {A} (P : A -> Prop) i : forall l, Forall P l -> Forall P (firstn i l).
Proof. induction i as [|i IH]; intros l H; [constructor|]. destruct l; [constructor|]. inversion H; subst. constructor; auto. Qed.
(** Whatever the options, the directory, the random numbers, and whether the command completes, fails or is stopped after any
    number of its writes: every other file is as it was (lattice.in in particular). *)
Theorem C61_inputs_kept : forall e a d ws r i f, script e a d = (ws, r) -> ~ may_write a f -> dfile (after d (firstn i ws)) f = dfile d f.
Proof.
  intros e a d ws r i f E Hf. apply after_other. apply firstn_Forall. pose proof (script_only e a d) as H. rewrite E in H. cbn [fst] in H. eapply Forall_impl; [|exact H]. cbv beta. intros w Hw Ew. rewrite Ew in Hw. auto.
Qed.
Lemma str_no_dot_in s : ("polya.out" ++ "." ++ str s)%string <> "lattice.in"%string. Proof. discriminate. Qed.
Example C61_lattice_kept : forall a, a_outfile a = None -> a_input a = None -> ~ may_write a "lattice.in".
Proof.
  intros a Ho Hi H. unfold may_write in H. rewrite Ho, Hi in H. destruct H as [[_ [s E]]|[[_ [E|[E|[s E]]]]|[_ [_ [E|[s E]]]]]]; try discriminate E; destruct (a_polya a); discriminate E.
Qed.

(** A file enum.in and counts that are there are never written by [-enum]. *)
Lemma bind_at {A B} (P : string -> Prop) (m : act A) (k : A -> act B) d : fst (m d) = [] -> (forall a, m d = ([], Ok a) -> Forall (fun w => P (fst w)) (fst (k a d))) -> Forall (fun w => P (fst w)) (fst (abind m k d)).
Proof. intros E H. destruct (m d) as [ws [a|x]] eqn:Em; cbn [fst] in E; subst ws. - rewrite (bind_quiet m k d a Em). auto. - unfold abind. rewrite Em. constructor. Qed.
Lemma bind_none {A B} (m : act A) (k : A -> act B) d : fst (m d) = [] -> (forall a d, fst (k a d) = []) -> fst (abind m k d) = [].
Proof. intros E H. unfold abind. destruct (m d) as [ws [a|x]]; cbn [fst] in *; auto. specialize (H a (after d ws)). destruct (k a (after d ws)). cbn [fst] in *. rewrite E, H. auto. Qed.
Lemma lattice_step_quiet f d : fst (lattice_step f d) = [].
Proof. unfold lattice_step. repeat (apply bind_none; [reflexivity|intros]). reflexivity. Qed.
Definition is_there (d : dir) (f : string) : bool := match dfile d f with Some _ => true | None => false end.
Lemma enum_out_step_kept e a input out d : forall P : string -> Prop, P out ->
  (is_there d input = false -> P input) -> (forall s, is_there d input = false -> globbed "polya.out" d = false -> P (sized "polya.out" s)) ->
  Forall (fun w => P (fst w)) (fst (enum_out_step e a input out d)).
Proof.
  intros P Ho Hi Hc. unfold enum_out_step. apply bind_at; [apply lattice_step_quiet|]. intros [par su] _. apply bind_at; [reflexivity|]. intros there Et. assert (there = is_there d input) as -> by (unfold alook in Et; unfold is_there; congruence).
  assert (forall d', Forall (fun w => P (fst w)) (fst (abind (aread input) (fun t => abind (lift (read_enum t)) (fun systems => abind (awrite out (text (header (params_of (e_date e) par)))) (fun _ => abind (lift (a_accept a)) (fun accept =>
    abind (lift (do found <- enum_lines (e_version e) (e_draw e) (e_rnd e) (e_shuffled e) (e_fuel e) su (a_super a) accept systems; enum_out_file (params_of (e_date e) par) found)) (fun file => awrite out file))))) d'))) as Hrest.
  { intros d'. revert d'. change (only P (abind (aread input) (fun t => abind (lift (read_enum t)) (fun systems => abind (awrite out (text (header (params_of (e_date e) par)))) (fun _ => abind (lift (a_accept a)) (fun accept =>
      abind (lift (do found <- enum_lines (e_version e) (e_draw e) (e_rnd e) (e_shuffled e) (e_fuel e) su (a_super a) accept systems; enum_out_file (params_of (e_date e) par) found)) (fun file => awrite out file))))))).
    apply only_bind; auto with acts. intros t. apply only_bind; auto with acts. intros sys. apply only_bind; [apply only_write; auto|]. intros _. apply only_bind; auto with acts. intros acc. apply only_bind; auto with acts. intros file. apply only_write. auto. }
  destruct (is_there d input) eqn:Ei; [apply bind_at; [reflexivity|intros _ _; apply Hrest]|].
  assert (forall m : act unit, Forall (fun w => P (fst w)) (fst (m d)) -> forall k : unit -> act unit, (forall d', Forall (fun w => P (fst w)) (fst (k tt d'))) -> Forall (fun w => P (fst w)) (fst (abind m k d))) as Hb.
  { intros m Hm k Hk. unfold abind. destruct (m d) as [ws [[]|x]]; auto. specialize (Hk (after d ws)). destruct (k tt (after d ws)). cbn [fst] in *. apply Forall_app. auto. }
  apply Hb; [|apply Hrest]. apply bind_at; [reflexivity|]. intros counted Ec. assert (counted = globbed "polya.out" d) as -> by (unfold alook in Ec; congruence).
  destruct (globbed "polya.out" d) eqn:Eg.
  - apply bind_at; [reflexivity|]. intros _ _. unfold enum_in_step. apply bind_at; [reflexivity|]. intros there Et'. assert (there = true) as -> by (unfold alook in Et'; congruence). apply bind_at; [reflexivity|]. intros _ _.
    match goal with |- Forall _ (fst (match ?x with _ => _ end d)) => destruct x as [|kind [|number [|]]] end; try constructor.
    match goal with |- Forall _ (fst (?m d)) => cut (only P m); [intros Hm; apply Hm|] end. repeat (apply only_bind; auto using filter_step_only with acts; intros). destruct a6; auto with acts. apply only_write. auto.
  - apply Hb; [eapply Forall_impl; [|apply polya_step_only]; intros w [s Es]; rewrite Es; auto|]. intros d'. eapply Forall_impl; [|apply enum_in_step_only]. intros w [[s Es]|Es]; rewrite Es; auto.
Qed.
(** [-enum] with an enum.in file: only its output is written, so enum.in and all counts are as they were; with counts and no
    enum.in: the counts are as they were. *)
Theorem C61_existing_kept : forall e a d ws r i f, script e a d = (ws, r) -> a_polya a = false -> a_enum a = true ->
  let input := match a_input a with Some x => x | None => "enum.in"%string end in let out := match a_outfile a with Some x => x | None => "enum.out"%string end in
  f <> out -> (dfile d input <> None \/ f <> input /\ exists r, In ("polya.out." ++ r)%string (names d)) -> dfile (after d (firstn i ws)) f = dfile d f.
Proof.
  intros e a d ws r i f E Hp He input out Hf H. apply after_other. apply firstn_Forall. assert (ws = fst (script e a d)) as -> by (rewrite E; auto). clear E. unfold script. rewrite Hp, He.
  apply (bind_at (fun g => g <> f)); [reflexivity|]. intros lat _. cbn [andb]. match goal with |- Forall _ (fst ((if ?b then _ else _) d)) => destruct b end; [constructor|]. apply (bind_at (fun g => g <> f)); [reflexivity|]. intros _ _. apply (bind_at (fun g => g <> f)); [reflexivity|]. intros _ _. cbn [negb]. rewrite andb_false_r.
  match goal with |- context [enum_out_step e a ?x ?y] => assert (x = input) as -> by (unfold input, default; destruct (a_distribution a) as [[|]|], (a_input a); reflexivity); assert (y = out) as -> by (unfold out, default; destruct (a_distribution a) as [[|]|], (a_outfile a); reflexivity) end.
  unfold abind at 1. assert (Forall (fun w => fst w <> f) (fst (enum_out_step e a input out d))) as K.
  { apply (enum_out_step_kept e a input out d (fun g => g <> f)); [auto| |].
    - intros Hi. destruct H as [H|[H _]]; [|auto]. unfold is_there in Hi. destruct (dfile d input); congruence.
    - intros s Hi Hg. destruct H as [H|[_ [r' Hr]]]; [unfold is_there in Hi; destruct (dfile d input); congruence|]. assert (globbed "polya.out" d = true) by (apply globbed_iff; exists r'; auto). congruence. }
  destruct (enum_out_step e a input out d) as [ws [x|x]]; cbn [fst] in *; auto. cbn [aret fst]. rewrite app_nil_r. auto.
Qed.

(** ** [-enum] (C62) *)
(** A lattice.in file for sizes lo to hi, k species, one atom per cell, no arrows, the concentrations within the ranges, if any;
    A: the lattice vectors. *)
Definition plain_file (text : string) (A : mat) (k : nat) (lo hi : Z) (ranges : option (list (Z * Z * Z))) : Prop := exists bulk vecs DL m concs,
  file_says text [lo; hi] bulk vecs (Z.of_nat k) [[0; 0; 0]]%Q (is_some ranges) false concs /\ same_numbers vecs (rows_over DL A) /\
  restrictions ranges concs /\ usable_ranges k ranges /\
  0 < DL /\ mdet A <> 0 /\ tolerable (1 # 10000000000) DL A m /\ fine (1 # 10000000000) A /\ integer_rotations A /\
  1 <= lo <= hi /\ (k = 2%nat /\ hi <= 20 \/ k = 3%nat /\ hi <= 15).
(** The text of an enum.out file that lists the crystals with lo to hi atoms per primitive cell, up to isometry, each once. *)
Definition catalogued (A : mat) (k : nat) (lo hi : Z) (ranges : option (list (Z * Z * Z))) (file : string) : Prop := exists sys structs, read_enum_out file None = Ok (sys, structs) /\
  catalogue (run_structures 1 [(0, 0, 0)] k lo hi ranges) (congruent_crystals A 1 [(0, 0, 0)]) (row_says 1 [(0, 0, 0)]) structs /\
  forall s f, In s structs -> row_says 1 [(0, 0, 0)] s f -> primitive 1 [(0, 0, 0)] (sHNF s) f.
(** ... whose rows makeStr can use. *)
Definition catalogued_rows (A : mat) (k : nat) (lo hi : Z) (ranges : option (list (Z * Z * Z))) (file : string) : Prop := exists sys structs, read_enum_out file None = Ok (sys, structs) /\ s_k sys = Z.of_nat k /\
  catalogue (run_structures 1 [(0, 0, 0)] k lo hi ranges) (congruent_crystals A 1 [(0, 0, 0)]) (row_says 1 [(0, 0, 0)]) structs /\
  (forall s f, In s structs -> row_says 1 [(0, 0, 0)] s f -> primitive 1 [(0, 0, 0)] (sHNF s) f) /\
  (forall s, In s structs -> makeable k lo hi s) /\ forall i s, nth_error structs i = Some s -> strN s = Z.of_nat i + 1.
Lemma rows_catalogued A k lo hi ranges file : catalogued_rows A k lo hi ranges file -> catalogued A k lo hi ranges file.
Proof. intros [sys [structs [H1 [_ [H2 [H3 _]]]]]]. exists sys, structs. auto. Qed.
(** A listing of the directory in any order, a date without newlines. *)
Definition proper (v : pyversion) (e : env) : Prop := e_version e = v /\ (forall l, Permutation (e_listdir e l) l) /\ no_newline (e_date e).
(** The command ends without an error and leaves the directory d'. *)
Definition ends (m : act unit) (d d' : dir) : Prop := exists ws, m d = (ws, Ok tt) /\ d' = after d ws.
(** A directory with this lattice.in file and no file that has to do with the command. *)
Definition fresh (d : dir) (text : string) : Prop := NoDup (names d) /\ dfile d "lattice.in" = Some text /\ dfile d "enum.in" = None /\ forall f, In f (names d) -> harmless f.

Lemma plain_setup text A k lo hi ranges : plain_file text A k lo hi ranges -> exists par su, read_lattice text = Ok par /\ setup_of par = Ok su /\ usable su /\ s_lo su = lo /\ s_hi su = hi /\
  (length (l_vecs par) = 3%nat /\ l_bas par <> [] /\ 0 <= l_nspecies par) /\ (forall t, lo <= t <= hi -> possible lo t ranges -> some_upto su t) /\ forall t date file, lists_crystals (upto su t) (params_of date par) file -> catalogued_rows A k lo t ranges file.
Proof.
  intros [bulk [vecs [DL [m [concs [Htext [Hvecs [Hrs [Hus [HD [Hd [Ht [Hf [Hi [Hlo Hk]]]]]]]]]]]]]]].
  destruct (C59_read _ _ _ _ _ _ _ _ _ Htext) as [par [Epar [P1 [_ [P3 [P4 [P5 [P6 [P7 P8]]]]]]]]].
  assert (same_numbers (l_vecs par) (rows_over DL A)) as Hv.
  { clear - P3 Hvecs. unfold same_numbers in *. revert P3 Hvecs. generalize (l_vecs par) vecs (rows_over DL A). intros a b c H. revert c. induction H as [|x y a b Hxy _ IH]; intros c K; inversion K as [|? z ? c' Hyz Hc]; subst; constructor; [|auto].
    clear - Hxy Hyz. revert z Hyz. induction Hxy as [|u v x y Huv _ IH]; intros z K; inversion K as [|? w ? z' Hvw Hz]; subst; constructor; [rewrite Huv; auto|auto]. }
  destruct (setup_read par DL A m k lo hi ranges concs HD Hd Ht Hf Hi Hv P5 P1 P6 P7 P8 Hrs Hus P4) as [pg [c [A0 [m0 [na [Hc [EA [Hd0 [[DL0 [HD0 [Ht0 [Hf0 [Hi0 Epg]]]]] [Hna Esu]]]]]]]]]].
  destruct (C56_usable (1 # 10000000000) DL0 A0 m0 HD0 Hd0 Ht0 Hf0 Hi0) as [pg' [E [F1 [F2 [F3 F4]]]]]. assert (pg' = pg) by congruence. subst pg'.
  set (su := {| s_pg := pg |}) in *. exists par, su. assert (ranges_of su = ranges) as Er by (unfold su; destruct ranges; reflexivity).
  assert (usable_ranges (s_species su) (ranges_of su) /\ s_arrows su = false /\ forall c, length c = s_species su -> s_na su c = map (fun _ => 0) c) as Hplain by (rewrite Er; auto).
  split; auto. split; auto. split; [|split; [auto|split; [auto|split; [|split]]]].
  - constructor; auto; try (cbn; lia). apply good_origin; cbn; lia.
  - split; [|split].
    + apply Forall2_length in Hv. rewrite Hv. clear. destruct A as [[[[? ?] ?] [[? ?] ?]] [[? ?] ?]]. reflexivity.
    + apply Forall2_length in P5. destruct (l_bas par); [discriminate|discriminate].
    + rewrite P4. lia.
  - intros t Ht0' Hpos. apply (possible_some (upto su t)); try exact Hplain; try (cbn; lia); [apply good_origin; cbn; lia|]. change (ranges_of (upto su t)) with (ranges_of su). rewrite Er. apply possible_one. exact Hpos.
  - intros t date file [structs [E1 [H3 H4]]]. exists (system_of (params_of date par)), structs. split; auto. split; [cbn [system_of s_k params_of p_nspecies]; auto|]. split; auto. change (ranges_of (upto su t)) with (ranges_of su) in H3. rewrite Er in H3. cbn [su upto s_pg s_D s_bas s_species s_lo s_hi] in H3.
    assert (forall f g, no_directions 1 [(0, 0, 0)] f -> (same_structure pg 1 [(0, 0, 0)] f g <-> congruent_crystals A 1 [(0, 0, 0)] f g)) as Hsame.
    { intros f g Nf. split.
      - intros [C [R [t0 [HC [Hs Hcc]]]]]. exists C, t0. split; [rewrite EA; apply keeps_scale; [lia|]; apply (F1 C R); auto|]. split; auto. apply (plain_carries 1 [(0, 0, 0)] C R); auto.
      - intros [C [t0 [HC [Hs Hcc]]]]. rewrite EA in HC. apply keeps_scale in HC; [|lia]. destruct (Hi0 C HC) as [R HR]. exists C, R, t0. split; [apply F1; auto|]. split; auto. apply plain_carries; auto. }
    destruct H3 as [G1 [G2 [G3 G4]]]. split; [|split; [|split]]; auto.
    + intros f Hfa. destruct (G3 f Hfa) as [w [f' [Hw [Hm Hs]]]]. exists w, f'. split; auto. split; auto. apply Hsame; auto. intros x Hx. apply Hfa; auto.
    + eapply TransFacts.FOP_impl; [|exact G4]. cbv beta. intros a b Ha Hb Hab f g Hfa Hg Hcc. apply (Hab f g Hfa Hg). apply Hsame; auto. destruct (G2 a f Ha Hfa) as [Hn _]. intros x Hx. apply Hn; auto.
Qed.
Lemma possible_more lo t t' ranges : t <= t' -> possible lo t ranges -> possible lo t' ranges.
Proof. destruct ranges as [l|]; [|auto]. intros Ht [n [c [Hn H]]]. exists n, c. split; [lia|auto]. Qed.
Lemma after_cons d w ws : after d (w :: ws) = after (dput d (fst w) (snd w)) ws. Proof. reflexivity. Qed.
Lemma firstn_seq' i : forall a n, firstn i (seq a n) = seq a (Nat.min i n).
Proof. induction i as [|i IH]; intros a n; [reflexivity|]. destruct n as [|n]; [reflexivity|]. cbn [seq firstn Nat.min]. rewrite IH. auto. Qed.

(** ** The proofs, for one atom per cell and for several (PropertiesScriptBasis.v) *)
(** The text can be read and used, [poss t] is enough for a composition of some size up to t, and the rows that are written for
    the sizes up to t are [good t]. *)
Definition settled (text : string) (lo hi : Z) (poss : Z -> Prop) (good : Z -> string -> Prop) : Prop := (forall t t', t <= t' -> poss t -> poss t') /\
  exists par su, read_lattice text = Ok par /\ setup_of par = Ok su /\ usable su /\ s_lo su = lo /\ s_hi su = hi /\
  (length (l_vecs par) = 3%nat /\ l_bas par <> [] /\ 0 <= l_nspecies par) /\ (forall t, lo <= t <= hi -> poss t -> some_upto su t) /\ forall t date file, lists_crystals (upto su t) (params_of date par) file -> good t file.
Lemma plain_settled text A k lo hi ranges : plain_file text A k lo hi ranges -> settled text lo hi (fun t => possible lo t ranges) (fun t => catalogued_rows A k lo t ranges).
Proof. intros H. split; [intros t t'; apply possible_more|apply plain_setup; auto]. Qed.
Lemma enum_settled : forall text lo hi (poss : Z -> Prop) (good : Z -> string -> Prop) v e d, settled text lo hi poss good -> poss hi -> proper v e -> fresh d text ->
  exists fuel0 file d', (forall fuel, (fuel0 <= fuel)%nat -> ends (script (with_fuel e fuel) enum_args) d d') /\ dfile d' "enum.out" = Some file /\ good hi file /\
    (forall f, In f (names d') <-> In f (names d) \/ f = "enum.in"%string \/ f = "enum.out"%string \/ exists s, lo <= s <= hi /\ f = ("polya.out." ++ str s)%string).
Proof.
  intros text lo hi poss good v e d [Hmore Hp] Hpos He [Hn [Hl [Hi Hh]]]. destruct Hp as [par [su [E1 [E2 [Hu [El [Eh [Hs [Hso Hc]]]]]]]]].
  assert (some_upto su (s_hi su)) as Hsh by (rewrite Eh; apply Hso; auto; pose proof (u_sizes su Hu); lia).
  destruct (run_scratch su par text v Hu E1 E2 Hs e d Hsh He (conj Hn Hl) Hi Hh) as [txt [file [f0 [_ [Hf Hr]]]]].
  exists f0, file, (after d (counts su v (s_hi su) ++ last_files par e txt file)). split; [|split; [|split]].
  - intros fuel Hfu. eexists. split; [rewrite script_enum; apply Hr; auto|reflexivity].
  - rewrite after_app. unfold last_files. cbn [after fold_left fst snd]. apply dfile_same.
  - apply (Hc hi (e_date e)). rewrite <- Eh. exact Hf.
  - intros f. rewrite after_names, map_app, in_app_iff. unfold last_files. cbn [map fst In]. rewrite in_map_iff. split.
    + intros [H|[[[g x] [Eg Hg]]|[H|[H|[H|[]]]]]]; auto. cbn in Eg. subst g. apply counts_in in Hg. destruct Hg as [s [Hs' [-> _]]]. right. right. right. exists s. split; [lia|auto].
    + intros [H|[H|[H|[s [Hs' ->]]]]]; auto. right. left. exists (polya_name s, count_file v su s). split; auto. apply counts_in. exists s. split; [lia|auto].
Qed.
Lemma again_settled : forall text lo hi (poss : Z -> Prop) (good : Z -> string -> Prop) v e d, settled text lo hi poss good -> poss hi -> proper v e -> fresh d text ->
  exists fuel0 d', (forall fuel, (fuel0 <= fuel)%nat -> ends (script (with_fuel e fuel) enum_args) d d') /\
    forall e', proper v e' -> exists fuel1 file d'', (forall fuel, (fuel1 <= fuel)%nat -> ends (script (with_fuel e' fuel) enum_args) d' d'') /\
      dfile d'' "enum.out" = Some file /\ good hi file /\ forall f, f <> "enum.out"%string -> dfile d'' f = dfile d' f.
Proof.
  intros text lo hi poss good v e d [Hmore Hp] Hpos He [Hn [Hl [Hi Hh]]]. destruct Hp as [par [su [E1 [E2 [Hu [El [Eh [Hs [Hso Hc]]]]]]]]].
  assert (some_upto su (s_hi su)) as Hsh by (rewrite Eh; apply Hso; auto; pose proof (u_sizes su Hu); lia).
  destruct (run_scratch su par text v Hu E1 E2 Hs e d Hsh He (conj Hn Hl) Hi Hh) as [txt [file [f0 [Ha [_ Hr]]]]].
  exists f0, (after d (counts su v (s_hi su) ++ last_files par e txt file)). split; [intros fuel Hfu; eexists; split; [rewrite script_enum; apply Hr; auto|reflexivity]|].
  intros e' He'. set (d' := after d _). assert (dfile d' "lattice.in" = Some text /\ dfile d' "enum.in" = Some txt) as [Hl' Hi'].
  { unfold d'. rewrite after_app. unfold last_files. cbn [after fold_left fst snd]. split.
    - rewrite !dfile_other by discriminate. rewrite (after_counts su v); auto. intros s E. discriminate E.
    - rewrite !dfile_other by discriminate. apply dfile_same. }
  pose proof Hu as [_ _ _ _ _ U6 _]. destruct (enum_out_with su par text v Hu E1 E2 Hs e' d' (s_hi su) txt ltac:(lia) Hsh He' Hl' Hi' Ha) as [file' [f1 [Hf' Hr']]].
  exists f1, file', (after d' [("enum.out"%string, EnumOutModel.text (header (params_of (e_date e') par))); ("enum.out"%string, file')]). split; [|split; [|split]].
  - intros fuel Hfu. eexists. split; [rewrite script_enum; apply Hr'; auto|reflexivity].
  - apply dfile_same.
  - apply (Hc hi (e_date e')). rewrite <- Eh. exact Hf'.
  - intros f Hf. apply after_other. repeat constructor; auto.
Qed.
Lemma restart_settled : forall text lo hi (poss : Z -> Prop) (good : Z -> string -> Prop) v e d, settled text lo hi poss good -> poss lo -> proper v e -> fresh d text ->
  exists fuel0 ws, (forall fuel, (fuel0 <= fuel)%nat -> script (with_fuel e fuel) enum_args d = (ws, Ok tt)) /\
    forall i e', proper v e' -> exists fuel1 file d'',
      (forall fuel, (fuel1 <= fuel)%nat -> ends (script (with_fuel e' fuel) enum_args) (after d (firstn i ws)) d'') /\ dfile d'' "enum.out" = Some file /\
      good (if (1 <=? Z.of_nat i) && (lo + Z.of_nat i <=? hi) then lo + Z.of_nat i - 1 else hi) file.
Proof.
  intros text lo hi poss good v e d [Hmore Hp] Hpos He [Hn [Hl [Hi Hh]]]. destruct Hp as [par [su [E1 [E2 [Hu [El [Eh [Hs [Hso Hc]]]]]]]]].
  assert (some_upto su (s_hi su)) as Hsh by (rewrite Eh; apply Hso; [|eapply Hmore; [|eauto]]; pose proof (u_sizes su Hu); lia).
  destruct (run_scratch su par text v Hu E1 E2 Hs e d Hsh He (conj Hn Hl) Hi Hh) as [txt [file [f0 [Ha [_ Hr]]]]]. pose proof Hu as [_ _ _ _ _ U6 _].
  exists f0, (counts su v (s_hi su) ++ last_files par e txt file)%list. split; [intros fuel Hfu; rewrite script_enum; apply Hr; auto|].
  intros i e' He'.
  assert (length (counts su v (s_hi su)) = Z.to_nat (hi - lo + 1)) as Hlen by (unfold counts; rewrite map_length, MapProofs.range_up_length, El, Eh; f_equal; lia).
  assert (forall t d0, s_lo su <= t <= s_hi su -> (if (1 <=? Z.of_nat i) && (lo + Z.of_nat i <=? hi) then lo + Z.of_nat i - 1 else hi) = t -> d0 = after d (firstn i (counts su v (s_hi su) ++ last_files par e txt file)) ->
    (exists ws fuel1 file, (forall fuel, (fuel1 <= fuel)%nat -> enum_out_step (with_fuel e' fuel) enum_args "enum.in" "enum.out" d0 = (ws ++ [("enum.out"%string, file)], Ok tt)%list) /\ lists_crystals (upto su t) (params_of (e_date e') par) file) ->
    exists fuel1 file0 d'', (forall fuel, (fuel1 <= fuel)%nat -> ends (script (with_fuel e' fuel) enum_args) (after d (firstn i (counts su v (s_hi su) ++ last_files par e txt file))) d'') /\ dfile d'' "enum.out" = Some file0 /\
      good (if (1 <=? Z.of_nat i) && (lo + Z.of_nat i <=? hi) then lo + Z.of_nat i - 1 else hi) file0) as Hfin.
  { intros t d0 Ht Et Ed [ws [f1 [file1 [H1 H2]]]]. rewrite <- Ed. exists f1, file1, (after d0 (ws ++ [("enum.out"%string, file1)])). split; [|split].
    - intros fuel Hfu. eexists. split; [rewrite script_enum; apply H1; auto|reflexivity].
    - rewrite after_app. apply dfile_same.
    - rewrite Et. apply (Hc t (e_date e')). exact H2. }
  destruct (Nat.eq_dec i 0) as [->|Hi0].
  - apply (Hfin hi d); [lia|reflexivity|reflexivity|]. destruct (run_scratch su par text v Hu E1 E2 Hs e' d Hsh He' (conj Hn Hl) Hi Hh) as [txt1 [file1 [f1 [_ [Hf1 Hr1]]]]].
    exists (counts su v (s_hi su) ++ [("enum.in"%string, txt1); ("enum.out"%string, EnumOutModel.text (header (params_of (e_date e') par)))])%list, f1, file1. split; [intros fuel Hfu; rewrite Hr1 by auto; rewrite <- app_assoc; reflexivity|].
    rewrite <- Eh. exact Hf1.
  - destruct (le_lt_dec i (Z.to_nat (hi - lo + 1))) as [Hle|Hgt].
    + set (t := lo + Z.of_nat i - 1).
      assert (firstn i (counts su v (s_hi su) ++ last_files par e txt file) = counts su v t) as Ef.
      { rewrite firstn_app, Hlen. replace (i - Z.to_nat (hi - lo + 1))%nat with 0%nat by lia. rewrite firstn_O, app_nil_r. unfold counts. rewrite firstn_map. f_equal. unfold range_up. rewrite firstn_map. f_equal. rewrite firstn_seq'. f_equal. unfold t. lia. }
      apply (Hfin t (after d (counts su v t))); [unfold t; lia| |rewrite Ef; auto|].
      { unfold t. destruct (Z.leb_spec 1 (Z.of_nat i)), (Z.leb_spec (lo + Z.of_nat i) hi); cbn [andb]; lia. }
      destruct (run_counted su par text v Hu E1 E2 Hs e' (after d (counts su v t)) t) as [txt1 [file1 [f1 [_ [Hf1 Hr1]]]]]; auto.
      * unfold t; lia.
      * apply Hso; [unfold t; lia|]. eapply Hmore; [|eauto]. unfold t; lia.
      * split; [apply after_NoDup; auto|]. rewrite (after_counts su v); auto. intros s E. discriminate E.
      * rewrite (after_counts su v); auto. intros s E. discriminate E.
      * apply counts_counted. auto.
      * exists [("enum.in"%string, txt1); ("enum.out"%string, EnumOutModel.text (header (params_of (e_date e') par)))], f1, file1. split; auto.
    + set (d0 := after d (firstn i (counts su v (s_hi su) ++ last_files par e txt file))). apply (Hfin hi d0); [lia| |reflexivity|].
      { destruct (Z.leb_spec (lo + Z.of_nat i) hi); [lia|]. rewrite andb_false_r. auto. }
      assert (exists j, firstn i (counts su v (s_hi su) ++ last_files par e txt file) = (counts su v (s_hi su) ++ ("enum.in"%string, txt) :: firstn j [("enum.out"%string, EnumOutModel.text (header (params_of (e_date e) par))); ("enum.out"%string, file)])%list) as [j Ej].
      { exists (i - Z.to_nat (hi - lo + 1) - 1)%nat. rewrite firstn_app, Hlen, firstn_all2 by lia. f_equal. destruct (i - Z.to_nat (hi - lo + 1))%nat as [|j] eqn:Ej; [lia|]. unfold last_files. cbn [firstn]. f_equal. rewrite Nat.sub_succ, Nat.sub_0_r. auto. }
      assert (dfile d0 "lattice.in" = Some text /\ dfile d0 "enum.in" = Some txt) as [Hl0 Hi0'].
      { unfold d0. rewrite Ej, after_app, after_cons. cbn [fst snd]. split; (rewrite after_other; [|apply firstn_Forall; repeat constructor; discriminate]).
        - rewrite dfile_other by discriminate. rewrite (after_counts su v); auto. intros s E. discriminate E.
        - apply dfile_same. }
      destruct (enum_out_with su par text v Hu E1 E2 Hs e' d0 (s_hi su) txt ltac:(lia) Hsh He' Hl0 Hi0' Ha) as [file1 [f1 [Hf1 Hr1]]].
      exists [("enum.out"%string, EnumOutModel.text (header (params_of (e_date e') par)))], f1, file1. split; auto. rewrite <- Eh. exact Hf1.
Qed.

(** In a directory with lattice.in, [-enum] completes, makes the counts, enum.in and enum.out, and enum.out lists the crystals. *)
Theorem C62_enum_partial : forall text A k lo hi ranges v e d, plain_file text A k lo hi ranges -> possible lo hi ranges -> proper v e -> fresh d text ->
  exists fuel0 file d', (forall fuel, (fuel0 <= fuel)%nat -> ends (script (with_fuel e fuel) enum_args) d d') /\ dfile d' "enum.out" = Some file /\ catalogued A k lo hi ranges file /\
    (forall f, In f (names d') <-> In f (names d) \/ f = "enum.in"%string \/ f = "enum.out"%string \/ exists s, lo <= s <= hi /\ f = ("polya.out." ++ str s)%string).
Proof.
  intros text A k lo hi ranges v e d Hp Hpos He Hf. destruct (enum_settled _ _ _ _ _ v e d (plain_settled _ _ _ _ _ _ Hp) Hpos He Hf) as [f0 [file [d' [H1 [H2 [H3 H4]]]]]].
  exists f0, file, d'. split; auto. split; auto. split; [apply rows_catalogued; auto|auto].
Qed.
(** Repeated in the directory it leaves, with other random numbers, another date, another order of the files: enum.in and the
    counts are used again, and enum.out lists the crystals again. *)
Theorem C62_again_partial : forall text A k lo hi ranges v e d, plain_file text A k lo hi ranges -> possible lo hi ranges -> proper v e -> fresh d text ->
  exists fuel0 d', (forall fuel, (fuel0 <= fuel)%nat -> ends (script (with_fuel e fuel) enum_args) d d') /\
    forall e', proper v e' -> exists fuel1 file d'', (forall fuel, (fuel1 <= fuel)%nat -> ends (script (with_fuel e' fuel) enum_args) d' d'') /\
      dfile d'' "enum.out" = Some file /\ catalogued A k lo hi ranges file /\ forall f, f <> "enum.out"%string -> dfile d'' f = dfile d' f.
Proof.
  intros text A k lo hi ranges v e d Hp Hpos He Hf. destruct (again_settled _ _ _ _ _ v e d (plain_settled _ _ _ _ _ _ Hp) Hpos He Hf) as [f0 [d' [H1 H2]]].
  exists f0, d'. split; auto. intros e' He'. destruct (H2 e' He') as [f1 [file [d'' [K1 [K2 [K3 K4]]]]]]. exists f1, file, d''. split; auto. split; auto. split; [apply rows_catalogued; auto|auto].
Qed.

(** ** Stopped and started again (C63) *)
(** [-enum] stopped after i of its files were written (its first files are the counts of the sizes lo, ..., hi, in this order,
    then enum.in), then started again: the second run completes, and lists the crystals up to the size [t] of the last count
    that was there, all of them if there was none.  (With ranges: if one cell of
    size lo can have concentrations within them.) *)
Theorem C63_restart_partial : forall text A k lo hi ranges v e d, plain_file text A k lo hi ranges -> possible lo lo ranges -> proper v e -> fresh d text ->
  exists fuel0 ws, (forall fuel, (fuel0 <= fuel)%nat -> script (with_fuel e fuel) enum_args d = (ws, Ok tt)) /\
    forall i e', proper v e' -> exists fuel1 file d'',
      (forall fuel, (fuel1 <= fuel)%nat -> ends (script (with_fuel e' fuel) enum_args) (after d (firstn i ws)) d'') /\ dfile d'' "enum.out" = Some file /\
      catalogued A k lo (if (1 <=? Z.of_nat i) && (lo + Z.of_nat i <=? hi) then lo + Z.of_nat i - 1 else hi) ranges file.
Proof.
  intros text A k lo hi ranges v e d Hp Hpos He Hf. destruct (restart_settled _ _ _ _ _ v e d (plain_settled _ _ _ _ _ _ Hp) Hpos He Hf) as [f0 [ws [H1 H2]]].
  exists f0, ws. split; auto. intros i e' He'. destruct (H2 i e' He') as [f1 [file [d'' [K1 [K2 K3]]]]]. exists f1, file, d''. split; auto. split; auto. apply rows_catalogued; auto.
Qed.
(** The crystal of alternating layers is missing from a list of the crystals with one atom. *)
Lemma layers_missing A file : catalogued A 2 1 1 None file -> ~ catalogued A 2 1 2 None file.
Proof.
  intros [sys [structs [E [[_ [C2 _]] _]]]] [sys' [structs' [E' [[_ [_ [C3 _]]] _]]]]. rewrite E in E'. assert (structs' = structs) as -> by congruence.
  set (f := fun x : vec => let '(a, _, _) := x in (-1, if Z.even a then 1 else 2)).
  assert (forall x, crystal_point 1 [(0, 0, 0)] x) as Hall by (intros [[a b] c]; exists (0, 0, 0), (a, b, c); split; [left; auto|]; mat_unfold; repeat match goal with |- (_, _) = (_, _) => f_equal end; ring).
  destruct (C3 f) as [w [f' [Hw [Hm [C [t [_ [_ Hc]]]]]]]].
  { split; [intros [[a b] c] _; cbn; split; [auto|destruct (Z.even a); cbn; lia]|]. exists ((2, 0, 0), (0, 1, 0), (0, 0, 1)). split; [cbn; lia|]. split; [|exact Logic.I]. intros [[a b] c]. split.
    - intros [[[x y] z] K] [[p q] r] _. revert K. mat_unfold. intros K. assert (a = 2 * x + 0 * y + 0 * z) as -> by congruence. cbn [f]. replace (p + 1 * (2 * x + 0 * y + 0 * z)) with (p + 2 * x) by lia. rewrite Z.even_add_mul_2. auto.
    - intros H. specialize (H (0, 0, 0) (Hall _)). revert H. mat_unfold. intros H. cbn [f] in H. change (0 + 1 * a) with (1 * a) in H. rewrite Z.mul_1_l in H. destruct (Z.even a) eqn:Ea; [|cbn in H; discriminate].
      apply Z.even_spec in Ea. destruct Ea as [x ->]. exists (x, b, c). mat_unfold. repeat match goal with |- (_, _) = (_, _) => f_equal end; ring. }
  destruct (C2 w f' Hw Hm) as [_ [H [Hd [Hp _]]]]. assert (unimodular H) as Hu by (unfold unimodular; lia).
  assert (forall k, period 1 [(0, 0, 0)] f' k) as Hper by (intros k; apply Hp; exists (mvec (minv H) k); rewrite <- mvec_mmul, minv_r by auto; mat_destruct; mat_unfold; repeat match goal with |- (_, _) = (_, _) => f_equal end; ring).
  pose proof (Hc (0, 0, 0) (Hall _)) as K0. pose proof (Hc (1, 0, 0) (Hall _)) as K1.
  specialize (Hper (mvec C (1, 0, 0)) (affine C t (0, 0, 0)) (Hall _)). replace (vadd (affine C t (0, 0, 0)) (vscale 1 (mvec C (1, 0, 0)))) with (affine C t (1, 0, 0)) in Hper.
  - rewrite K0, K1 in Hper. discriminate Hper.
  - clear. unfold affine. mat_destruct. mat_unfold. repeat match goal with |- (_, _) = (_, _) => f_equal end; ring.
Qed.
(** A small case: the simple cubic lattice. *)
Lemma numeral_1 : decimal "1" 1. Proof. digit_word [1] (@nil Z). Qed.
Lemma cubic_says l lo hi : l = join " " (map str [lo; hi]) -> no_newline l -> commented (with_sizes l) (with_sizes l) ->
  file_says (text_lines (with_sizes l)) [lo; hi] true [[1; 0; 0]; [0; 1; 0]; [0; 0; 1]]%Q 2 [[0; 0; 0]]%Q false false [].
Proof.
  intros El Hn Hc. exists (with_sizes l), (with_sizes l), [l; "bulk"; "1 0 0"; " 0 1  0"; "0 0 1 "; " 2 "; "1"; "0 0 0"]%string, ["F"]%string.
  split; [repeat constructor; auto|]. split; [reflexivity|]. split; [auto|split; [reflexivity|]]. split; [|split; [reflexivity|]; split; [reflexivity|]].
  - exists l, "bulk"%string, "b"%char, "ulk"%string, ["1 0 0"; " 0 1  0"; "0 0 1 "]%string, " 2 "%string, "1"%string, ["0 0 0"]%string.
    split; [reflexivity|]. split; [discriminate|]. split; [auto|]. split; [plain_word|]. split; [discriminate|]. split; [tauto|]. split; [reflexivity|].
    split; [repeat (apply Forall2_cons; [split; [discriminate|repeat (apply Forall2_cons; [first [exact numeral_0|exact numeral_1]|]); apply Forall2_nil]|]); apply Forall2_nil|].
    split; [split; [split; [discriminate|repeat split]|exists " "%string, " "%string; repeat split]|]. split; [plain_word|].
    repeat (apply Forall2_cons; [split; [discriminate|repeat (apply Forall2_cons; [first [exact numeral_0|exact numeral_1]|]); apply Forall2_nil]|]); apply Forall2_nil.
  - exists "F"%string, []. split; [reflexivity|]. split; [plain_word|]. constructor.
Qed.
Definition sc_file (l : string) : string := text_lines (with_sizes l).
Lemma sc_plain l lo hi : l = join " " (map str [lo; hi]) -> no_newline l -> commented (with_sizes l) (with_sizes l) -> 1 <= lo <= hi -> hi <= 20 -> plain_file (sc_file l) (simple_cubic 1) 2 lo hi None.
Proof.
  intros El Hn Hc H1 H2. exists true, [[1; 0; 0]; [0; 1; 0]; [0; 0; 1]]%Q, 1, 1, []. split; [apply cubic_says; auto|].
  split; [repeat (apply Forall2_cons; [repeat (apply Forall2_cons; [reflexivity|]); apply Forall2_nil|]); apply Forall2_nil|]. split; [reflexivity|]. split; [exact Logic.I|]. split; [lia|]. split; [discriminate|].
  split; [split; [intros i Hi; destruct i as [|[|[|i]]]; try lia; vm_compute; discriminate|split; [discriminate|reflexivity]]|]. split; [reflexivity|]. split; [apply C56_cubic; discriminate|]. split; [auto|left; auto].
Qed.
Lemma sc_12 : plain_file (sc_file "1 2") (simple_cubic 1) 2 1 2 None.
Proof. apply sc_plain; try reflexivity; try lia; [repeat split|]. unfold with_sizes. repeat first [apply commented_end | apply commented_line]. Qed.
Definition some_env (n : nat) (date : string) : env := {| e_version := Py3; e_fuel := n; e_listdir := fun l => l; e_rnd0 := fun _ => true; e_draw := fun _ _ _ => 0; e_rnd := fun _ _ => true; e_shuffled := fun _ l => l; e_date := date |}.
Definition sc_dir (l : string) : dir := [("lattice.in"%string, sc_file l); ("notes.txt"%string, "about polya.out"%string)].
Lemma sc_fresh l : fresh (sc_dir l) (sc_file l).
Proof. split; [cbn; constructor; [intros [E|[]]; discriminate E|]; constructor; [intros []|constructor]|]. split; [reflexivity|]. split; [reflexivity|]. intros f [<-|[<-|[]]]; left; reflexivity. Qed.
Lemma some_proper n date : no_newline date -> proper Py3 (some_env n date). Proof. intros H. split; [reflexivity|]. split; [intros; apply Permutation_refl|auto]. Qed.
Example C62_example : exists fuel0 file d', (forall fuel, (fuel0 <= fuel)%nat -> ends (script (with_fuel (some_env 0 "Monday") fuel) enum_args) (sc_dir "1 2") d') /\ dfile d' "enum.out" = Some file /\ catalogued (simple_cubic 1) 2 1 2 None file.
Proof. destruct (C62_enum_partial _ _ _ _ _ _ Py3 (some_env 0 "Monday") _ sc_12 Logic.I (some_proper 0 "Monday" ltac:(repeat split)) (sc_fresh "1 2")) as [fuel0 [file [d' [H1 [H2 [H3 _]]]]]]. exists fuel0, file, d'. auto. Qed.
(** With ranges: at least two thirds of the first species. *)
Definition ranges_lines : list string := ["1 3"; "bulk"; "1 0 0"; " 0 1  0"; "0 0 1 "; " 2 "; "1"; "0 0 0"; "T"; "F"; "2 3 3"; "0 1 3"]%string.
Lemma ranges_plain : plain_file (text_lines ranges_lines) (simple_cubic 1) 2 1 3 (Some [(2, 3, 3); (0, 1, 3)]).
Proof.
  exists true, [[1; 0; 0]; [0; 1; 0]; [0; 0; 1]]%Q, 1, 1, [[2; 3; 3]; [0; 1; 3]]%Q.
  assert (decimal "2" 2) as N2 by digit_word [2] (@nil Z). assert (decimal "3" 3) as N3 by digit_word [3] (@nil Z).
  split; [|split; [repeat (apply Forall2_cons; [repeat (apply Forall2_cons; [reflexivity|]); apply Forall2_nil|]); apply Forall2_nil|]].
  - exists ranges_lines, ranges_lines, ["1 3"; "bulk"; "1 0 0"; " 0 1  0"; "0 0 1 "; " 2 "; "1"; "0 0 0"]%string, ["T"; "F"; "2 3 3"; "0 1 3"]%string.
    split; [repeat (apply Forall_cons; [repeat split|]); apply Forall_nil|]. split; [reflexivity|]. split; [unfold ranges_lines; repeat first [apply commented_end | apply commented_line]|split; [reflexivity|]]. split.
    + exists "1 3"%string, "bulk"%string, "b"%char, "ulk"%string, ["1 0 0"; " 0 1  0"; "0 0 1 "]%string, " 2 "%string, "1"%string, ["0 0 0"]%string.
      split; [reflexivity|]. split; [discriminate|]. split; [reflexivity|]. split; [plain_word|]. split; [discriminate|]. split; [tauto|]. split; [reflexivity|].
      split; [repeat (apply Forall2_cons; [split; [discriminate|repeat (apply Forall2_cons; [first [exact numeral_0|exact numeral_1]|]); apply Forall2_nil]|]); apply Forall2_nil|].
      split; [split; [split; [discriminate|repeat split]|exists " "%string, " "%string; repeat split]|]. split; [plain_word|].
      repeat (apply Forall2_cons; [split; [discriminate|repeat (apply Forall2_cons; [first [exact numeral_0|exact numeral_1]|]); apply Forall2_nil]|]); apply Forall2_nil.
    + cbn [is_some]. exists "T"%string, "F"%string, ["2 3 3"; "0 1 3"]%string, "T"%string, "F"%string. split; [reflexivity|].
      split; [split; [intros [K _]; discriminate K|]|].
      { intros [b [r [Hb E]]]. destruct b as [|x [|y b]]; discriminate E. }
      split; [split; [intros [K _]; discriminate K|intros [b [r [Hb E]]]; destruct b as [|x [|y b]]; discriminate E]|].
      split; [plain_word|]. split; [discriminate|]. split; [plain_word|]. split; [tauto|].
      repeat (apply Forall2_cons; [split; [discriminate|repeat (apply Forall2_cons; [first [exact numeral_0|exact numeral_1|exact N2|exact N3]|]); apply Forall2_nil]|]); apply Forall2_nil.
  - split; [repeat (apply Forall2_cons; [repeat (apply Forall2_cons; [reflexivity|]); apply Forall2_nil|]); apply Forall2_nil|].
    split; [split; [reflexivity|]; exists 3; split; [lia|]; intros x y z [E|[E|[]]]; inversion E; subst; lia|].
    split; [lia|]. split; [discriminate|].
    split; [split; [intros i Hi; destruct i as [|[|[|i]]]; try lia; vm_compute; discriminate|split; [discriminate|reflexivity]]|]. split; [reflexivity|]. split; [apply C56_cubic; discriminate|]. split; [lia|left; split; [reflexivity|lia]].
Qed.
Example C62_example_ranges : exists fuel0 file d', (forall fuel, (fuel0 <= fuel)%nat -> ends (script (with_fuel (some_env 0 "Monday") fuel) enum_args) [("lattice.in"%string, text_lines ranges_lines)] d') /\ dfile d' "enum.out" = Some file /\
  catalogued (simple_cubic 1) 2 1 3 (Some [(2, 3, 3); (0, 1, 3)]) file.
Proof.
  destruct (C62_enum_partial _ _ _ _ _ _ Py3 (some_env 0 "Monday") [("lattice.in"%string, text_lines ranges_lines)] ranges_plain) as [fuel0 [file [d' [H1 [H2 [H3 _]]]]]].
  - exists 1, [1; 0]. split; [lia|]. split; [reflexivity|]. repeat (apply Forall2_cons; [cbn; lia|]). apply Forall2_nil.
  - apply some_proper. repeat split.
  - split; [cbn; constructor; [intros []|constructor]|]. split; [reflexivity|]. split; [reflexivity|]. intros f [<-|[]]. left; reflexivity.
  - exists fuel0, file, d'. auto.
Qed.
(** What one would expect of a restart. *)
Definition restarts : Prop := forall text A k lo hi ranges v e d i e', plain_file text A k lo hi ranges -> possible lo hi ranges -> proper v e -> proper v e' -> fresh d text ->
  exists fuel0 ws, (forall fuel, (fuel0 <= fuel)%nat -> script (with_fuel e fuel) enum_args d = (ws, Ok tt)) /\
    exists fuel1 file d'', (forall fuel, (fuel1 <= fuel)%nat -> ends (script (with_fuel e' fuel) enum_args) (after d (firstn i ws)) d'') /\ dfile d'' "enum.out" = Some file /\ catalogued A k lo hi ranges file.
(** It does not hold: stopped between the two counts, the second run completes without the crystals with two atoms. *)
Theorem C63_restart_refuted : ~ restarts.
Proof.
  intros H. pose proof (some_proper 0 "Monday" ltac:(repeat split)) as He.
  destruct (H _ _ _ _ _ _ Py3 _ (sc_dir "1 2") 1%nat _ sc_12 Logic.I He He (sc_fresh "1 2")) as [f0 [ws [H1 [f1 [file [d1 [H2 [H3 H4]]]]]]]].
  destruct (C63_restart_partial _ _ _ _ _ _ Py3 _ (sc_dir "1 2") sc_12 Logic.I He (sc_fresh "1 2")) as [g0 [ws' [K1 K2]]]. destruct (K2 1%nat _ He) as [g1 [file' [d1' [K3 [K4 K5]]]]].
  assert (ws' = ws) as ->. { specialize (H1 (max f0 g0) ltac:(lia)). specialize (K1 (max f0 g0) ltac:(lia)). congruence. }
  assert (d1' = d1) as ->. { destruct (H2 (max f1 g1) ltac:(lia)) as [x [X1 ->]]. destruct (K3 (max f1 g1) ltac:(lia)) as [y [Y1 ->]]. congruence. }
  assert (file' = file) as -> by congruence. exact (layers_missing _ _ K5 H4).
Qed.

(** ** The names of the output (C64) *)
(** The first word after -distribution is one of four, in any case of its letters; each asks for its own distribution. *)
Theorem C64_kinds : forall word ft, kind_of word = Ok ft <-> lower_all word = match ft with FAll => "all" | FShape => "shape" | FConc => "conc" | FSize => "size" end%string.
Proof.
  intros word ft. unfold kind_of. generalize (lower_all word) as l. intros l. split.
  - destruct (String.eqb_spec l "all") as [->|]; [intros E; injection E as <-; auto|]. destruct (String.eqb_spec l "shape") as [->|]; [intros E; injection E as <-; auto|].
    destruct (String.eqb_spec l "conc") as [->|]; [intros E; injection E as <-; auto|]. destruct (String.eqb_spec l "size") as [->|]; [intros E; injection E as <-; auto|discriminate].
  - intros ->. destruct ft; reflexivity.
Qed.
(** With one of the three commands, the files are those of the documentation: counts, enum.in (with the counts it needs),
    enum.out (with the files it needs). *)
Theorem C64_one_command_partial : forall e a d ws r f t, script e a d = (ws, r) -> In (f, t) ws -> a_outfile a = None -> a_input a = None ->
  let numbered := exists s : Z, f = ("polya.out." ++ str s)%string in
  (a_polya a = true -> a_enum a = false -> a_distribution a = None -> numbered) /\
  (a_polya a = false -> a_enum a = false -> f = "enum.in"%string \/ numbered) /\
  (a_polya a = false -> a_enum a = true -> f = "enum.out"%string \/ f = "enum.in"%string \/ numbered).
Proof.
  intros e a d ws r f t E Hi Ho Hin numbered. pose proof (script_only e a d) as H. rewrite E in H. rewrite Forall_forall in H. specialize (H (f, t) Hi). cbn [fst] in H. unfold may_write in H. rewrite Ho, Hin in H.
  assert ((exists s : Z, f = ("polya.out" ++ "." ++ str s)%string) -> numbered) as Hn by (intros [s ->]; exists s; reflexivity). destruct H as [[H1 H2]|[[H1 H2]|[H1 [H2 H3]]]].
  - repeat split; intros; auto; congruence.
  - split; [intros; congruence|]. split; [intros; congruence|]. intros Hp _. rewrite Hp in H2. tauto.
  - split; [intros; contradiction|]. split; [|intros; congruence]. intros Hp _. rewrite Hp in H3. tauto.
Qed.

Print Assumptions C61_inputs_kept.
Print Assumptions C62_enum_partial.
Print Assumptions C62_again_partial.
Print Assumptions C63_restart_partial.
Print Assumptions C63_restart_refuted.
Print Assumptions C64_kinds.
Print Assumptions C64_one_command_partial.
