(** The documented workflow, stopped and continued (C78): the properties. *)
From Coq Require Import Permutation QArith.
From Verif Require Import TextModel TextProofs PyBase ListFacts TreeSearch Spec Mat3 HNFModel PolyaModel LatSpec LatGroupThm SuperModel StructSpec StructAll EnumSysModel DistModel FilesModel FilesProofs EnumOutModel EnumOutSpec PropertiesEnumOut.
From Verif Require Import PointGroupModel PointGroupSpec PointGroupProofs PointGroupMain PropertiesPoint RunModel RunSpec RunProofs RunMain RunTop LatticeInModel LatticeInSpec LatticeInProofs PropertiesLatticeIn RunText PropertiesRunText.
From Verif Require Import FilesMain PropertiesFiles PropertiesRunArrowsText ScriptModel ScriptProofs ScriptMain PropertiesScript PropertiesBasisText PropertiesScriptBasis ScriptArrows PropertiesScriptArrows PropertiesWorkflow PropertiesWorkflowArrows.
Local Open Scope Z_scope.

(** The directory d after a command that would write the files ws was stopped: i files were written, and the next one was not
    begun ([torn] is None) or was left with the text t in it, whatever t is ([torn] is Some t). *)
Definition cut (d : dir) (ws : list (string * string)) (i : nat) (torn : option string) : dir :=
  after (after d (firstn i ws)) (match nth_error ws i, torn with Some w, Some t => [(fst w, t)] | _, _ => [] end).
(** The workflow in which each command was stopped anywhere and given again: [-polya] leaves the files that it leaves when it is
    not stopped, [-distribution all all] and [-enum] complete, enum.out lists the crystals, and the files that were there are as they
    were. *)
Definition recovers (good : string -> Prop) (v : pyversion) (e1 : env) (d : dir) : Prop :=
  exists fuel1 ws1, (forall fuel, (fuel1 <= fuel)%nat -> script (with_fuel e1 fuel) polya_args d = (ws1, Ok tt)) /\
  forall i1 t1 e1', proper v e1' -> exists fuel1' d1, (forall fuel, (fuel1' <= fuel)%nat -> ends (script (with_fuel e1' fuel) polya_args) (cut d ws1 i1 t1) d1) /\ (forall f, dfile d1 f = dfile (after d ws1) f) /\
  forall e2 kind number, proper v e2 -> in_any_case "all" kind -> in_any_case "all" number -> exists ws2, (forall fuel, script (with_fuel e2 fuel) (dist_args kind number) d1 = (ws2, Ok tt)) /\
  forall i2 t2 e2', proper v e2' -> exists d2, (forall fuel, ends (script (with_fuel e2' fuel) (dist_args kind number)) (cut d1 ws2 i2 t2) d2) /\
  forall e3, proper v e3 -> exists fuel3 ws3, (forall fuel, (fuel3 <= fuel)%nat -> script (with_fuel e3 fuel) enum_args d2 = (ws3, Ok tt)) /\
  forall i3 t3 e3', proper v e3' -> exists fuel3' file d3, (forall fuel, (fuel3' <= fuel)%nat -> ends (script (with_fuel e3' fuel) enum_args) (cut d2 ws3 i3 t3) d3) /\
    dfile d3 "enum.out" = Some file /\ good file /\ forall f, In f (names d) -> f <> "enum.out"%string -> dfile d3 f = dfile d f.

(** ** Proofs *)
Lemma cut_writes d ws i t : exists ws', cut d ws i t = after d ws' /\ forall f, In f (map fst ws') -> In f (map fst ws).
Proof.
  unfold cut. rewrite <- after_app. eexists. split; [reflexivity|]. intros f Hf. rewrite map_app, in_app_iff in Hf.
  assert (forall l : list (string * string), In f (map fst (firstn i l)) -> In f (map fst l)) as Hfn by (intros l K; rewrite <- (firstn_skipn i l), map_app, in_app_iff; auto).
  destruct Hf as [Hf|Hf]; [auto|]. destruct (nth_error ws i) as [w|] eqn:E; [|destruct Hf]. destruct t as [t|]; [|destruct Hf]. destruct Hf as [Hf|[]]. cbn [fst] in Hf. subst f. apply in_map. eapply nth_error_In; eauto.
Qed.
Lemma not_written ws f d : ~ In f (map fst ws) -> dfile (after d ws) f = dfile d f.
Proof. intros H. apply after_other. apply Forall_forall. intros w Hw E. apply H. subst f. apply in_map. auto. Qed.
Lemma cut_other d ws i t f : ~ In f (map fst ws) -> dfile (cut d ws i t) f = dfile d f.
Proof. destruct (cut_writes d ws i t) as [ws' [-> Hw]]. intros H. apply not_written. auto. Qed.
Lemma cut_NoDup d ws i t : NoDup (names d) -> NoDup (names (cut d ws i t)).
Proof. destruct (cut_writes d ws i t) as [ws' [-> _]]. apply after_NoDup. Qed.
Lemma cut_names d ws i t f : In f (names (cut d ws i t)) -> In f (names d) \/ In f (map fst ws).
Proof. destruct (cut_writes d ws i t) as [ws' [-> Hw]]. rewrite after_names. intuition. Qed.
Lemma written_again d ws i t f : NoDup (map fst ws) -> dfile (after (cut d ws i t) ws) f = dfile (after d ws) f.
Proof.
  intros Hn. destruct (in_dec string_dec f (map fst ws)) as [Hf|Hf].
  - apply in_map_iff in Hf. destruct Hf as [[g x] [Eg Hg]]. cbn in Eg. subst g. rewrite !(after_last _ _ f x) by auto. auto.
  - rewrite !not_written by auto. apply cut_other. auto.
Qed.

(** What the three commands do, one by one. *)
Definition stepwise (v : pyversion) (text : string) (lo hi : Z) (good : string -> Prop) : Prop := exists (count : Z -> string) (asks : string -> Prop), lo <= hi /\
  (forall e, proper v e -> exists fuel0, forall fuel d, (fuel0 <= fuel)%nat -> dfile d "lattice.in" = Some text ->
     script (with_fuel e fuel) polya_args d = (map (fun s => (polya_name s, count s)) (range_up lo (hi + 1)), Ok tt)) /\
  (forall e d kind number, proper v e -> NoDup (names d) -> dfile d "lattice.in" = Some text -> (forall s, lo <= s <= hi -> dfile d (polya_name s) = Some (count s)) ->
     (forall f, In f (names d) -> harmless f \/ exists s, lo <= s <= hi /\ f = polya_name s) -> in_any_case "all" kind -> in_any_case "all" number ->
     exists txt, asks txt /\ forall fuel, script (with_fuel e fuel) (dist_args kind number) d = ([("enum.in"%string, txt)], Ok tt)) /\
  (forall e d txt, proper v e -> dfile d "lattice.in" = Some text -> dfile d "enum.in" = Some txt -> asks txt ->
     exists file head fuel0, good file /\ forall fuel, (fuel0 <= fuel)%nat -> script (with_fuel e fuel) enum_args d = ([("enum.out", head); ("enum.out", file)]%string, Ok tt)).
Lemma settled_stepwise text lo hi (poss : Z -> Prop) (good : Z -> string -> Prop) v : settled text lo hi poss good -> poss hi -> stepwise v text lo hi (good hi).
Proof.
  intros [Hmore [par [su [E1 [E2 [Hu [El [Eh [Hs [Hso Hc]]]]]]]]]] Hpos.
  assert (some_upto su (s_hi su)) as Hsh by (rewrite Eh; apply Hso; auto; pose proof (u_sizes su Hu); lia). pose proof (u_sizes su Hu) as [Hlh _].
  exists (count_file v su), (asks_all su v (s_hi su)). split; [lia|]. split; [|split].
  - intros e He. destruct (polya_main_ok su par text v e Hu E1 E2 Hs He) as [f0 Hf0]. exists f0. intros fuel d Hfu Hl. rewrite (script_polya _ d text Hl), Hf0 by auto. unfold counts. rewrite El, Eh. auto.
  - intros e d kind number He Hn Hl Hc1 Ho Hk Hnu. rewrite <- El, <- Eh in Hc1, Ho. destruct (enum_in_with su par v Hu Hs e d (s_hi su) ltac:(lia) He Hn Hc1 Ho) as [txt [Ha Hw]].
    exists txt. split; auto. intros fuel. rewrite (script_dist _ d text kind number Hl), enum_in_words by auto. apply Hw.
  - intros e d txt He Hl Hi Ha. destruct (enum_out_with su par text v Hu E1 E2 Hs e d (s_hi su) txt ltac:(lia) Hsh He Hl Hi Ha) as [file [f0 [Hf Hr]]].
    exists file. eexists. exists f0. split; [apply (Hc hi (e_date e)); rewrite <- Eh; exact Hf|]. intros fuel Hfu. rewrite script_enum. apply Hr. auto.
Qed.
Lemma settledA_stepwise fl text lo hi (poss : Z -> Prop) (good : Z -> string -> Prop) v : settledA fl text lo hi poss good -> poss hi -> stepwise v text lo hi (good hi).
Proof.
  intros [Hmore [par [su [E1 [E2 [Hu [El [Eh [Hs [Hso Hc]]]]]]]]]] Hpos.
  assert (some_upto su (s_hi su)) as Hsh by (rewrite Eh; apply Hso; auto; pose proof (uA_sizes fl su Hu); lia). pose proof (uA_sizes fl su Hu) as [Hlh _].
  exists (count_file v su), (asks_all su v (s_hi su)). split; [lia|]. split; [|split].
  - intros e He. destruct (polya_main_okA fl su par text v e Hu E1 E2 Hs He) as [f0 Hf0]. exists f0. intros fuel d Hfu Hl. rewrite (script_polya _ d text Hl), Hf0 by auto. unfold counts. rewrite El, Eh. auto.
  - intros e d kind number He Hn Hl Hc1 Ho Hk Hnu. rewrite <- El, <- Eh in Hc1, Ho. destruct (enum_in_withA su par v fl Hu Hs e d (s_hi su) ltac:(lia) He Hn Hc1 Ho) as [txt [Ha Hw]].
    exists txt. split; auto. intros fuel. rewrite (script_dist _ d text kind number Hl), enum_in_words by auto. apply Hw.
  - intros e d txt He Hl Hi Ha. destruct (enum_out_withA su par text v fl Hu E1 E2 Hs e d (s_hi su) txt ltac:(lia) Hsh He Hl Hi Ha) as [file [f0 [Hf Hr]]].
    exists file. eexists. exists f0. split; [apply (Hc hi (e_date e)); rewrite <- Eh; exact Hf|]. intros fuel Hfu. rewrite script_enum. apply Hr. auto.
Qed.
Lemma stepwise_recovers v text lo hi good e1 d : stepwise v text lo hi good -> proper v e1 -> fresh d text -> recovers good v e1 d.
Proof.
  intros [count [asks [Hlh [Hp [Hd He]]]]] He1 [Hn [Hl [Hi Hh]]]. set (ws1 := map (fun s => (polya_name s, count s)) (range_up lo (hi + 1))) in *.
  assert (NoDup (map fst ws1)) as Hn1 by (unfold ws1; rewrite map_map; cbn [fst]; apply NoDup_map_inj; [|apply NoDup_range_up]; intros a b _ _ E; apply polya_name_inj; auto).
  assert (forall f x, In (f, x) ws1 <-> exists s, lo <= s <= hi /\ f = polya_name s /\ x = count s) as Hin.
  { intros f x. unfold ws1. rewrite in_map_iff. split; [intros [s [E Hs]]; inversion E; subst; apply in_range_up in Hs; exists s; split; [lia|auto]|intros [s [Hs [-> ->]]]; exists s; split; [auto|apply in_range_up; lia]]. }
  assert (forall f, In f (map fst ws1) -> exists s, lo <= s <= hi /\ f = polya_name s) as Hnm.
  { intros f Hf. apply in_map_iff in Hf. destruct Hf as [[g x] [Eg Hg]]. cbn in Eg. subst g. apply Hin in Hg. destruct Hg as [s [Hs [-> _]]]. eauto. }
  assert (forall f, In f (names d) -> ~ In f (map fst ws1)) as Hold.
  { intros f Hf K. destruct (Hnm f K) as [s [_ ->]]. destruct (Hh _ Hf) as [E|E].
    - pose proof (contains_app "polya.out"%string ("." ++ str s)%string) as E'. change (contains "polya.out"%string (polya_name s) = true) in E'. congruence.
    - apply E. reflexivity. }
  assert (forall f, (forall s, f <> polya_name s) -> ~ In f (map fst ws1)) as Hno by (intros f Hf K; destruct (Hnm f K) as [s [_ E]]; apply (Hf s E)).
  assert (forall s, "lattice.in"%string <> polya_name s) as N1 by (intros s E; discriminate E). assert (forall s, "enum.in"%string <> polya_name s) as N2 by (intros s E; discriminate E).
  destruct (Hp e1 He1) as [f1 Hf1]. exists f1, ws1. split; [intros fuel Hfu; apply Hf1; auto|].
  intros i1 t1 e1' He1'. destruct (Hp e1' He1') as [f1' Hf1']. set (dc := cut d ws1 i1 t1).
  assert (dfile dc "lattice.in" = Some text) as Hlc by (unfold dc; rewrite cut_other; auto).
  exists f1', (after dc ws1). split; [intros fuel Hfu; apply ends_after; apply Hf1'; auto|]. split; [intros f; apply written_again; auto|].
  intros e2 kind number He2 Hk Hnu. set (d1 := after dc ws1).
  assert (forall f, dfile d1 f = dfile (after d ws1) f) as Hd1 by (intros f; apply written_again; auto).
  assert (dfile d1 "lattice.in" = Some text) as Hl1 by (rewrite Hd1, not_written; auto).
  assert (NoDup (names d1)) as Hnd1 by (apply after_NoDup, cut_NoDup; auto).
  assert (forall s, lo <= s <= hi -> dfile d1 (polya_name s) = Some (count s)) as Hc1 by (intros s Hs; apply after_last; auto; apply Hin; eauto).
  assert (forall f, In f (names d1) -> In f (names d) \/ In f (map fst ws1)) as Hnames1 by (intros f Hf; apply after_names in Hf; destruct Hf as [Hf|Hf]; [apply cut_names in Hf; auto|auto]).
  assert (forall f, In f (names d1) -> harmless f \/ exists s, lo <= s <= hi /\ f = polya_name s) as Ho1 by (intros f Hf; destruct (Hnames1 f Hf) as [K|K]; [auto|right; auto]).
  destruct (Hd e2 d1 kind number He2 Hnd1 Hl1 Hc1 Ho1 Hk Hnu) as [txt [_ Hw]]. exists [("enum.in"%string, txt)]. split; [exact Hw|].
  intros i2 t2 e2' He2'. set (dc2 := cut d1 _ i2 t2).
  assert (forall f, f <> "enum.in"%string -> dfile dc2 f = dfile d1 f) as Hdc2 by (intros f Hf; apply cut_other; intros [E|[]]; auto).
  destruct (Hd e2' dc2 kind number He2') as [txt2 [Ha2 Hw2]]; auto.
  { apply cut_NoDup. auto. }
  { rewrite Hdc2; auto. discriminate. }
  { intros s Hs. rewrite Hdc2; auto. }
  { intros f Hf. apply cut_names in Hf. destruct Hf as [Hf|[<-|[]]]; [auto|left; left; reflexivity]. }
  exists (after dc2 [("enum.in"%string, txt2)]). split; [intros fuel; apply ends_after; apply Hw2|].
  intros e3 He3. set (d2 := after dc2 [("enum.in"%string, txt2)]).
  assert (forall f, f <> "enum.in"%string -> dfile d2 f = dfile d1 f) as Hd2 by (intros f Hf; unfold d2; rewrite not_written; [auto|intros [E|[]]; auto]).
  assert (dfile d2 "lattice.in" = Some text) as Hl2 by (rewrite Hd2; auto; discriminate). assert (dfile d2 "enum.in" = Some txt2) as Hi2 by (apply dfile_same).
  destruct (He e3 d2 txt2 He3 Hl2 Hi2 Ha2) as [file3 [head3 [f3 [_ Hr3]]]]. exists f3. eexists. split; [exact Hr3|].
  intros i3 t3 e3' He3'. set (dc3 := cut d2 _ i3 t3).
  assert (forall f, f <> "enum.out"%string -> dfile dc3 f = dfile d2 f) as Hdc3 by (intros f Hf; apply cut_other; intros [E|[E|[]]]; auto).
  destruct (He e3' dc3 txt2 He3') as [file [head [f3' [Hg Hr]]]]; auto.
  { rewrite Hdc3; auto. discriminate. }
  { rewrite Hdc3; auto. discriminate. }
  exists f3', file. eexists. split; [intros fuel Hfu; apply ends_after; apply Hr; auto|]. split; [cbn [after fold_left fst snd]; apply dfile_same|]. split; auto.
  intros f Hf Hne. assert (f <> "enum.in"%string) as Hne' by (intros ->; apply dfile_names in Hf; destruct Hf as [t Ht]; congruence).
  rewrite not_written by (intros [E|[E|[]]]; auto). rewrite Hdc3, Hd2, Hd1 by auto. apply not_written. auto.
Qed.

(** ** The properties *)
Theorem C78_recovers_partial : forall text A k lo hi ranges v e1 d, plain_file text A k lo hi ranges -> possible lo hi ranges -> proper v e1 -> fresh d text -> recovers (catalogued_rows A k lo hi ranges) v e1 d.
Proof. intros text A k lo hi ranges v e1 d Hp Hpos. apply (stepwise_recovers v text lo hi). exact (settled_stepwise _ _ _ _ _ v (plain_settled _ _ _ _ _ _ Hp) Hpos). Qed.
(** Several atoms per cell; displaced species; both. *)
Theorem C78_several_atoms_partial : forall text A D bas k lo hi ranges v e1 d, atoms_file text A D bas k lo hi ranges -> possible_sites (Z.of_nat (length bas)) lo hi ranges -> proper v e1 -> fresh d text ->
  recovers (catalogued_atoms_rows A D bas k lo hi ranges) v e1 d.
Proof. intros text A D bas k lo hi ranges v e1 d Hp Hpos. apply (stepwise_recovers v text lo hi). exact (settled_stepwise _ _ _ _ _ v (atoms_settled _ _ _ _ _ _ _ _ Hp) Hpos). Qed.
Theorem C78_displaced_partial : forall text A lines lo hi v e1 d, displaced_file text A lines lo hi -> possible lo hi (Some (map fst lines)) -> proper v e1 -> fresh d text ->
  recovers (catalogued_displaced A 1 [(0, 0, 0)] lines lo hi) v e1 d.
Proof. intros text A lines lo hi v e1 d Hp Hpos. apply (stepwise_recovers v text lo hi). exact (settledA_stepwise _ _ _ _ _ _ v (displaced_setup _ _ _ _ _ Hp) Hpos). Qed.
Theorem C78_several_displaced_partial : forall text A D bas lines lo hi v e1 d, displaced_atoms_file text A D bas lines lo hi -> possible_sites (Z.of_nat (length bas)) lo hi (Some (map fst lines)) -> proper v e1 -> fresh d text ->
  recovers (catalogued_displaced A D bas lines lo hi) v e1 d.
Proof. intros text A D bas lines lo hi v e1 d Hp Hpos. apply (stepwise_recovers v text lo hi). exact (settledA_stepwise _ _ _ _ _ _ v (displaced_atoms_setup _ _ _ _ _ _ _ Hp) Hpos). Qed.
(** The simple cubic lattice, one and two cells, in a directory with another file; the tests' lattice with displaced atoms. *)
Example C78_example : recovers (catalogued_rows (simple_cubic 1) 2 1 2 None) Py3 (some_env 0 "Monday") (sc_dir "1 2") /\
  cut (sc_dir "1 2") [("polya.out.1", "one"); ("polya.out.2", "two")]%string 1 (Some "tw"%string) = [("polya.out.2", "tw"); ("polya.out.1", "one"); ("lattice.in", sc_file "1 2"); ("notes.txt", "about polya.out")]%string.
Proof. split; [exact (C78_recovers_partial _ _ _ _ _ _ Py3 _ _ sc_12 Logic.I (some_proper 0 "Monday" ltac:(repeat split)) (sc_fresh "1 2"))|reflexivity]. Qed.
Example C78_test2 : recovers (catalogued_displaced ((1, 1, 0), (1, 0, 1), (0, 1, 1)) 1 [(0, 0, 0)] test2_range 6 6) Py3 (some_env 0 "Monday") [("lattice.in"%string, text_lines test2_lines)].
Proof. exact (C78_displaced_partial _ _ _ _ _ Py3 _ _ test2_displaced test2_possible (some_proper 0 "Monday" ltac:(repeat split)) test2_fresh). Qed.
Print Assumptions C78_recovers_partial.
Print Assumptions C78_several_atoms_partial.
Print Assumptions C78_displaced_partial.
Print Assumptions C78_several_displaced_partial.
Print Assumptions C78_example.
Print Assumptions C78_test2.

(** ** Going on without giving the stopped command again *)
(** [-polya] stopped after i of its sizes, and the workflow continued: both commands complete, and the crystals of the sizes that
    were not counted are missing, without a word. *)
Lemma skipped_settled text lo hi (poss : Z -> Prop) (good : Z -> string -> Prop) v e1 d : settled text lo hi poss good -> proper v e1 -> fresh d text ->
  exists fuel1 ws1, (forall fuel, (fuel1 <= fuel)%nat -> script (with_fuel e1 fuel) polya_args d = (ws1, Ok tt)) /\
  forall i e2 kind number, 1 <= Z.of_nat i -> lo + Z.of_nat i - 1 <= hi -> poss (lo + Z.of_nat i - 1) -> proper v e2 -> in_any_case "all" kind -> in_any_case "all" number ->
    exists d2, (forall fuel, ends (script (with_fuel e2 fuel) (dist_args kind number)) (cut d ws1 i None) d2) /\
    forall e3, proper v e3 -> exists fuel3 file d3, (forall fuel, (fuel3 <= fuel)%nat -> ends (script (with_fuel e3 fuel) enum_args) d2 d3) /\ dfile d3 "enum.out" = Some file /\ good (lo + Z.of_nat i - 1) file.
Proof.
  intros [Hmore [par [su [E1 [E2 [Hu [El [Eh [Hs [Hso Hc]]]]]]]]]] He1 [Hn [Hl [Hi Hh]]]. pose proof (u_sizes su Hu) as [Hlh _].
  destruct (polya_main_ok su par text v e1 Hu E1 E2 Hs He1) as [f1 Hf1]. exists f1, (counts su v (s_hi su)). split; [intros fuel Hfu; rewrite (script_polya _ d text Hl); apply Hf1; auto|].
  intros i e2 kind number Hi1 Hi2 Hpos He2 Hk Hnu. set (t := lo + Z.of_nat i - 1) in *. unfold cut.
  assert (firstn i (counts su v (s_hi su)) = counts su v t) as ->.
  { unfold counts. rewrite firstn_map. f_equal. unfold range_up. rewrite firstn_map. f_equal. rewrite firstn_seq'. f_equal. unfold t. lia. }
  replace (match nth_error _ i with Some _ => _ | None => _ end) with (@nil (string * string)) by (destruct (nth_error _ i); auto). change (after ?x []) with x.
  set (d1 := after d (counts su v t)).
  assert (dfile d1 "lattice.in" = Some text) as Hl1 by (unfold d1; rewrite (after_counts su v); auto; intros s E; discriminate E).
  assert (NoDup (names d1)) as Hn1 by (apply after_NoDup; auto). destruct (counts_counted su v d t Hh) as [Hc1 Ho1]. fold d1 in Hc1, Ho1.
  assert (s_lo su <= t <= s_hi su) as Ht by (unfold t; lia).
  destruct (enum_in_with su par v Hu Hs e2 d1 t Ht He2 Hn1 Hc1 Ho1) as [txt [Ha Hw]].
  exists (after d1 [("enum.in"%string, txt)]). split; [intros fuel; apply ends_after; rewrite (script_dist _ d1 text kind number Hl1), enum_in_words by auto; apply Hw|].
  intros e3 He3. assert (some_upto su t) as Hst by (apply Hso; auto; lia).
  destruct (enum_out_with su par text v Hu E1 E2 Hs e3 (after d1 [("enum.in"%string, txt)]) t txt Ht Hst He3) as [file [f3 [Hf3 Hr3]]]; auto.
  { rewrite not_written; [auto|intros [E|[]]; discriminate E]. }
  exists f3, file. eexists. split; [intros fuel Hfu; apply ends_after; rewrite script_enum; apply Hr3; auto|]. split; [cbn [after fold_left fst snd]; apply dfile_same|]. apply (Hc t (e_date e3)). exact Hf3.
Qed.
(** The simple cubic lattice, sizes 1 and 2, stopped after the first: the crystal of alternating layers is not listed. *)
Theorem C78_skipped_refuted : exists fuel1 ws1 d2 fuel3 file d3, (forall fuel, (fuel1 <= fuel)%nat -> script (with_fuel (some_env 0 "Monday") fuel) polya_args (sc_dir "1 2") = (ws1, Ok tt)) /\
  (forall fuel, ends (script (with_fuel (some_env 0 "Monday") fuel) (dist_args "all" "all")) (cut (sc_dir "1 2") ws1 1 None) d2) /\
  (forall fuel, (fuel3 <= fuel)%nat -> ends (script (with_fuel (some_env 0 "Monday") fuel) enum_args) d2 d3) /\
  dfile d3 "enum.out" = Some file /\ ~ catalogued (simple_cubic 1) 2 1 2 None file.
Proof.
  assert (proper Py3 (some_env 0 "Monday")) as He by (apply some_proper; repeat split).
  destruct (skipped_settled _ _ _ _ _ Py3 (some_env 0 "Monday") (sc_dir "1 2") (plain_settled _ _ _ _ _ _ sc_12) He (sc_fresh "1 2")) as [f1 [ws1 [H1 H2]]].
  destruct (H2 1%nat (some_env 0 "Monday") "all"%string "all"%string) as [d2 [H3 H4]]; auto; try reflexivity; try discriminate; try exact Logic.I.
  destruct (H4 _ He) as [f3 [file [d3 [K1 [K2 K3]]]]]. exists f1, ws1, d2, f3, file, d3. repeat (split; [assumption|]). apply layers_missing. apply rows_catalogued. exact K3.
Qed.
Print Assumptions C78_skipped_refuted.
