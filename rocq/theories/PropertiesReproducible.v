(** The documented workflow, repeated (C79): the properties. *)
From Coq Require Import Permutation QArith.
From Verif Require Import TextModel TextProofs PyBase ListFacts TreeSearch Spec Mat3 HNFModel PolyaModel LatSpec LatGroupThm SuperModel StructSpec StructAll EnumSysModel DistModel FilesModel FilesProofs EnumOutModel EnumOutSpec PropertiesEnumOut.
From Verif Require Import PointGroupModel PointGroupSpec PointGroupProofs PointGroupMain PropertiesPoint RunModel RunSpec RunProofs RunMain RunTop LatticeInModel LatticeInSpec LatticeInProofs PropertiesLatticeIn RunText PropertiesRunText.
From Verif Require Import FilesMain PropertiesFiles PropertiesRunArrowsText ScriptModel ScriptProofs ScriptMain PropertiesScript PropertiesBasisText PropertiesScriptBasis ScriptArrows PropertiesScriptArrows PropertiesWorkflow PropertiesWorkflowArrows PropertiesRecover ReproProofs.
Local Open Scope Z_scope.

(** The three commands in the directory d: what each writes is the same every time, whatever the random numbers are: [-polya]'s
    files; [-distribution all all]'s, given the order in which the directory is listed; [-enum]'s, given the date. *)
Definition repeats (v : pyversion) (d : dir) : Prop :=
  exists ws1 fuel1, (forall e fuel, proper v e -> (fuel1 <= fuel)%nat -> script (with_fuel e fuel) polya_args d = (ws1, Ok tt)) /\
  forall listing kind number, (forall l, Permutation (listing l) l) -> in_any_case "all" kind -> in_any_case "all" number ->
  exists ws2, (forall e fuel, proper v e -> (forall l, e_listdir e l = listing l) -> script (with_fuel e fuel) (dist_args kind number) (after d ws1) = (ws2, Ok tt)) /\
  forall date, no_newline date -> exists ws3 fuel3, forall e fuel, proper v e -> e_date e = date -> (fuel3 <= fuel)%nat -> script (with_fuel e fuel) enum_args (after (after d ws1) ws2) = (ws3, Ok tt).

(** ** Proofs *)
(** What is known of the commands, and that enum.in settles the rows. *)
Definition rowwise (v : pyversion) (text : string) (lo hi : Z) : Prop := exists (count : Z -> string) (asks : string -> Prop), lo <= hi /\
  (forall e, proper v e -> exists fuel0, forall fuel d, (fuel0 <= fuel)%nat -> dfile d "lattice.in" = Some text ->
     script (with_fuel e fuel) polya_args d = (map (fun s => (polya_name s, count s)) (range_up lo (hi + 1)), Ok tt)) /\
  (forall e d kind number, proper v e -> NoDup (names d) -> dfile d "lattice.in" = Some text -> (forall s, lo <= s <= hi -> dfile d (polya_name s) = Some (count s)) ->
     (forall f, In f (names d) -> harmless f \/ exists s, lo <= s <= hi /\ f = polya_name s) -> in_any_case "all" kind -> in_any_case "all" number ->
     exists txt, asks txt /\ forall fuel, script (with_fuel e fuel) (dist_args kind number) d = ([("enum.in"%string, txt)], Ok tt)) /\
  (forall e d txt, proper v e -> dfile d "lattice.in" = Some text -> dfile d "enum.in" = Some txt -> asks txt ->
     exists ws fuel0, forall fuel, (fuel0 <= fuel)%nat -> script (with_fuel e fuel) enum_args d = (ws, Ok tt)) /\
  exists par su, read_lattice text = Ok par /\ setup_of par = Ok su /\ forall txt systems, asks txt -> read_enum txt = Ok systems -> determined su v systems.
Lemma settled_rowwise text lo hi (poss : Z -> Prop) (good : Z -> string -> Prop) v : settled text lo hi poss good -> poss hi -> rowwise v text lo hi.
Proof.
  intros [Hmore [par [su [E1 [E2 [Hu [El [Eh [Hs [Hso Hc]]]]]]]]]] Hpos.
  assert (some_upto su (s_hi su)) as Hsh by (rewrite Eh; apply Hso; auto; pose proof (u_sizes su Hu); lia). pose proof (u_sizes su Hu) as [Hlh _].
  exists (count_file v su), (asks_all su v (s_hi su)). split; [lia|]. split; [|split; [|split]].
  - intros e He. destruct (polya_main_ok su par text v e Hu E1 E2 Hs He) as [f0 Hf0]. exists f0. intros fuel d Hfu Hl. rewrite (script_polya _ d text Hl), Hf0 by auto. unfold counts. rewrite El, Eh. auto.
  - intros e d kind number He Hn Hl Hc1 Ho Hk Hnu. rewrite <- El, <- Eh in Hc1, Ho. destruct (enum_in_with su par v Hu Hs e d (s_hi su) ltac:(lia) He Hn Hc1 Ho) as [txt [Ha Hw]].
    exists txt. split; auto. intros fuel. rewrite (script_dist _ d text kind number Hl), enum_in_words by auto. apply Hw.
  - intros e d txt He Hl Hi Ha. destruct (enum_out_with su par text v Hu E1 E2 Hs e d (s_hi su) txt ltac:(lia) Hsh He Hl Hi Ha) as [file [f0 [Hf Hr]]].
    eexists. exists f0. intros fuel Hfu. rewrite script_enum. apply Hr. auto.
  - exists par, su. split; auto. split; auto. intros txt systems [sys' [Er [_ Hsys]]] Er'. assert (sys' = systems) as -> by congruence. destruct (determined_plain (upto su (s_hi su)) v systems (usable_upto su (s_hi su) Hu ltac:(lia)) Hsys) as [found [f0 Hf]].
    exists found, f0. exact Hf.
Qed.
Lemma settledA_rowwise fl text lo hi (poss : Z -> Prop) (good : Z -> string -> Prop) v : settledA fl text lo hi poss good -> poss hi -> rowwise v text lo hi.
Proof.
  intros [Hmore [par [su [E1 [E2 [Hu [El [Eh [Hs [Hso Hc]]]]]]]]]] Hpos.
  assert (some_upto su (s_hi su)) as Hsh by (rewrite Eh; apply Hso; auto; pose proof (uA_sizes fl su Hu); lia). pose proof (uA_sizes fl su Hu) as [Hlh _].
  exists (count_file v su), (asks_all su v (s_hi su)). split; [lia|]. split; [|split; [|split]].
  - intros e He. destruct (polya_main_okA fl su par text v e Hu E1 E2 Hs He) as [f0 Hf0]. exists f0. intros fuel d Hfu Hl. rewrite (script_polya _ d text Hl), Hf0 by auto. unfold counts. rewrite El, Eh. auto.
  - intros e d kind number He Hn Hl Hc1 Ho Hk Hnu. rewrite <- El, <- Eh in Hc1, Ho. destruct (enum_in_withA su par v fl Hu Hs e d (s_hi su) ltac:(lia) He Hn Hc1 Ho) as [txt [Ha Hw]].
    exists txt. split; auto. intros fuel. rewrite (script_dist _ d text kind number Hl), enum_in_words by auto. apply Hw.
  - intros e d txt He Hl Hi Ha. destruct (enum_out_withA su par text v fl Hu E1 E2 Hs e d (s_hi su) txt ltac:(lia) Hsh He Hl Hi Ha) as [file [f0 [Hf Hr]]].
    eexists. exists f0. intros fuel Hfu. rewrite script_enum. apply Hr. auto.
  - exists par, su. split; auto. split; auto. intros txt systems [sys' [Er [_ Hsys]]] Er'. assert (sys' = systems) as -> by congruence. destruct (determined_displaced fl (upto su (s_hi su)) v systems (usableA_upto fl su (s_hi su) Hu ltac:(lia)) Hsys) as [found [f0 Hf]].
    exists found, f0. exact Hf.
Qed.
Definition plain_env (v : pyversion) (listing : list string -> list string) (date : string) : env :=
  {| e_version := v; e_fuel := 0; e_listdir := listing; e_rnd0 := fun _ => false; e_draw := fun _ _ _ => 0; e_rnd := fun _ _ => false; e_shuffled := fun _ l => l; e_date := date |}.
Lemma rowwise_repeats v text lo hi d : rowwise v text lo hi -> fresh d text -> repeats v d.
Proof.
  intros [count [asks [Hlh [Hp [Hd [He [par [su [E1 [E2 Hdet]]]]]]]]]] [Hn [Hl [Hi Hh]]]. set (ws1 := map (fun s => (polya_name s, count s)) (range_up lo (hi + 1))) in *.
  assert (NoDup (map fst ws1)) as Hn1 by (unfold ws1; rewrite map_map; cbn [fst]; apply NoDup_map_inj; [|apply NoDup_range_up]; intros a b _ _ E; apply polya_name_inj; auto).
  assert (forall f x, In (f, x) ws1 <-> exists s, lo <= s <= hi /\ f = polya_name s /\ x = count s) as Hin.
  { intros f x. unfold ws1. rewrite in_map_iff. split; [intros [s [E Hs]]; inversion E; subst; apply in_range_up in Hs; exists s; split; [lia|auto]|intros [s [Hs [-> ->]]]; exists s; split; [auto|apply in_range_up; lia]]. }
  assert (forall f, In f (map fst ws1) -> exists s, lo <= s <= hi /\ f = polya_name s) as Hnm.
  { intros f Hf. apply in_map_iff in Hf. destruct Hf as [[g x] [Eg Hg]]. cbn in Eg. subst g. apply Hin in Hg. destruct Hg as [s [Hs [-> _]]]. eauto. }
  assert (forall s, "lattice.in"%string <> polya_name s) as N1 by (intros s E; discriminate E).
  pose (e0 := plain_env v (fun l => l) EmptyString).
  assert (proper v e0) as He0 by (split; [reflexivity|split; [intros l; apply Permutation_refl|exact Logic.I]]).
  destruct (Hp e0 He0) as [f1 Hf1]. exists ws1, f1. split.
  { intros e fuel Hpe Hfu. rewrite <- (Hf1 fuel d Hfu Hl). rewrite !(script_polya _ d text Hl). rewrite (polya_same (with_fuel e fuel) (with_fuel e0 fuel)); auto. cbn. apply Hpe. }
  intros listing kind number Hls Hk Hnu. set (d1 := after d ws1).
  assert (dfile d1 "lattice.in" = Some text) as Hl1 by (unfold d1; rewrite not_written; auto; intros K; destruct (Hnm _ K) as [s [_ E]]; apply (N1 s E)).
  assert (NoDup (names d1)) as Hnd1 by (apply after_NoDup; auto).
  assert (forall s, lo <= s <= hi -> dfile d1 (polya_name s) = Some (count s)) as Hc1 by (intros s Hs; apply after_last; auto; apply Hin; eauto).
  assert (forall f, In f (names d1) -> harmless f \/ exists s, lo <= s <= hi /\ f = polya_name s) as Ho1 by (intros f Hf; apply after_names in Hf; destruct Hf as [Hf|Hf]; [left; auto|right; auto]).
  pose (e2 := plain_env v listing EmptyString).
  assert (proper v e2) as He2 by (split; [reflexivity|split; [exact Hls|exact Logic.I]]).
  destruct (Hd e2 d1 kind number He2 Hnd1 Hl1 Hc1 Ho1 Hk Hnu) as [txt [Ha Hw]]. exists [("enum.in"%string, txt)]. split.
  { intros e fuel Hpe Hel. rewrite <- (Hw fuel). rewrite !(script_dist _ d1 text kind number Hl1). apply enum_in_same; cbn; auto. apply Hpe. }
  intros date Hdate. set (d2 := after d1 [("enum.in"%string, txt)]).
  assert (dfile d2 "lattice.in" = Some text) as Hl2 by (unfold d2; rewrite not_written; auto; intros [E|[]]; discriminate E). assert (dfile d2 "enum.in" = Some txt) as Hi2 by (apply dfile_same).
  pose (e3 := plain_env v (fun l => l) date).
  assert (proper v e3) as He3 by (split; [reflexivity|split; [intros l; apply Permutation_refl|exact Hdate]]).
  destruct (He e3 d2 txt He3 Hl2 Hi2 Ha) as [ws3 [f3 Hf3]].
  destruct (read_enum txt) as [systems|x] eqn:Er.
  - destruct (Hdet txt systems Ha Er) as [found [f4 Hf4]]. exists ws3, (f3 + f4)%nat. intros e fuel Hpe Hde Hfu. rewrite <- (Hf3 fuel) by lia. rewrite !script_enum. destruct Hpe as [Hv _].
    apply (enum_out_same _ _ d2 text par su txt); [exact Hv|exact Hde|exact Hl2|exact E1|exact E2|exact Hi2|]. intros sys' Er'. assert (sys' = systems) as -> by congruence. cbn [with_fuel e_version e_draw e_rnd e_shuffled e_fuel e3 plain_env]. rewrite Hv. rewrite (Hf4 _ _ _ fuel) by lia. symmetry. apply Hf4. lia.
  - exists ws3, f3. intros e fuel Hpe Hde Hfu. rewrite <- (Hf3 fuel) by lia. rewrite !script_enum. destruct Hpe as [Hv _]. apply (enum_out_same _ _ d2 text par su txt); [exact Hv|exact Hde|exact Hl2|exact E1|exact E2|exact Hi2|]. intros sys' Er'. congruence.
Qed.

(** ** The properties *)
Theorem C79_repeats_partial : forall text A k lo hi ranges v d, plain_file text A k lo hi ranges -> possible lo hi ranges -> fresh d text -> repeats v d.
Proof. intros text A k lo hi ranges v d Hp Hpos. apply (rowwise_repeats v text lo hi). exact (settled_rowwise _ _ _ _ _ v (plain_settled _ _ _ _ _ _ Hp) Hpos). Qed.
(** Several atoms per cell; displaced species; both. *)
Theorem C79_several_atoms_partial : forall text A D bas k lo hi ranges v d, atoms_file text A D bas k lo hi ranges -> possible_sites (Z.of_nat (length bas)) lo hi ranges -> fresh d text -> repeats v d.
Proof. intros text A D bas k lo hi ranges v d Hp Hpos. apply (rowwise_repeats v text lo hi). exact (settled_rowwise _ _ _ _ _ v (atoms_settled _ _ _ _ _ _ _ _ Hp) Hpos). Qed.
Theorem C79_displaced_partial : forall text A lines lo hi v d, displaced_file text A lines lo hi -> possible lo hi (Some (map fst lines)) -> fresh d text -> repeats v d.
Proof. intros text A lines lo hi v d Hp Hpos. apply (rowwise_repeats v text lo hi). exact (settledA_rowwise _ _ _ _ _ _ v (displaced_setup _ _ _ _ _ Hp) Hpos). Qed.
Theorem C79_several_displaced_partial : forall text A D bas lines lo hi v d, displaced_atoms_file text A D bas lines lo hi -> possible_sites (Z.of_nat (length bas)) lo hi (Some (map fst lines)) -> fresh d text -> repeats v d.
Proof. intros text A D bas lines lo hi v d Hp Hpos. apply (rowwise_repeats v text lo hi). exact (settledA_rowwise _ _ _ _ _ _ v (displaced_atoms_setup _ _ _ _ _ _ _ Hp) Hpos). Qed.
(** The simple cubic lattice, one and two cells; the tests' lattice with displaced atoms. *)
Example C79_example : repeats Py3 (sc_dir "1 2").
Proof. exact (C79_repeats_partial _ _ _ _ _ _ Py3 _ sc_12 Logic.I (sc_fresh "1 2")). Qed.
Example C79_test2 : repeats Py3 [("lattice.in"%string, text_lines test2_lines)].
Proof. exact (C79_displaced_partial _ _ _ _ _ Py3 _ test2_displaced test2_possible test2_fresh). Qed.
Print Assumptions C79_repeats_partial.
Print Assumptions C79_several_atoms_partial.
Print Assumptions C79_displaced_partial.
Print Assumptions C79_several_displaced_partial.
Print Assumptions C79_example.
Print Assumptions C79_test2.
