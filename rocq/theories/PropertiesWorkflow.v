(** The documented workflow, command by command (C74): the properties. *)
From Coq Require Import Permutation QArith.
From Verif Require Import TextModel TextProofs PyBase ListFacts TreeSearch Spec Mat3 HNFModel PolyaModel LatSpec LatGroupThm SuperModel StructSpec StructAll EnumSysModel DistModel FilesModel FilesProofs EnumOutModel EnumOutSpec PropertiesEnumOut.
From Verif Require Import PointGroupModel PointGroupSpec PointGroupProofs PointGroupMain PropertiesPoint RunModel RunSpec RunProofs RunMain RunTop LatticeInModel LatticeInSpec LatticeInProofs PropertiesLatticeIn RunText PropertiesRunText.
From Verif Require Import FilesMain PropertiesFiles ScriptModel ScriptProofs ScriptMain PropertiesScript PropertiesBasisText PropertiesScriptBasis.
Local Open Scope Z_scope.

(** ** The commands *)
(** [enumeration.py -polya], [enumeration.py -distribution KIND NUMBER] (all the structures: both words "all", in any case) and
    [enumeration.py -enum] ([enum_args]); [-polya -enum] in one command. *)
Definition polya_args : args :=
  {| a_polya := true; a_enum := false; a_lattice := "lattice.in"; a_input := None; a_distribution := None; a_savedist := false; a_outfile := None;
     a_sizes := None; a_accept := Ok false; a_super := false; a_filter := None |}.
Definition dist_args (kind number : string) : args :=
  {| a_polya := false; a_enum := false; a_lattice := "lattice.in"; a_input := None; a_distribution := Some [kind; number]; a_savedist := false; a_outfile := None;
     a_sizes := None; a_accept := Ok false; a_super := false; a_filter := None |}.
Definition polya_enum_args : args :=
  {| a_polya := true; a_enum := true; a_lattice := "lattice.in"; a_input := None; a_distribution := None; a_savedist := false; a_outfile := None;
     a_sizes := None; a_accept := Ok false; a_super := false; a_filter := None |}.
Definition in_any_case (w s : string) : Prop := lower_all s = w.
Definition is_file (d : dir) (f : string) : Prop := exists t, dfile d f = Some t.
(** The names of the counts for the sizes lo to hi. *)
Definition counts_name (lo hi : Z) (f : string) : Prop := exists s, lo <= s <= hi /\ f = ("polya.out." ++ str s)%string.

(** ** Proofs *)
Lemma polya_main_ok su par text v e : usable su -> read_lattice text = Ok par -> setup_of par = Ok su -> (length (l_vecs par) = 3%nat /\ l_bas par <> [] /\ 0 <= l_nspecies par) -> good_env v e ->
  exists fuel0, forall fuel d, (fuel0 <= fuel)%nat -> dfile d "lattice.in" = Some text -> polya_main (with_fuel e fuel) "lattice.in" "polya.out" d = (counts su v (s_hi su), Ok tt).
Proof.
  intros Hu Hr Hs Hsh He. destruct (polya_step_ok su par v Hu Hsh e He) as [f0 H]. exists f0. intros fuel d Hf Hl. unfold polya_main, lattice_step.
  erewrite bind_quiet; [|erewrite bind_quiet by (apply read_ok; eauto); unfold lift; rewrite Hr; erewrite bind_quiet by reflexivity; rewrite Hs; erewrite bind_quiet by reflexivity; reflexivity].
  cbn [snd]. apply H. auto.
Qed.
Lemma is_lattice d text : dfile d "lattice.in" = Some text -> alook (fun d => match dfile d "lattice.in" with Some _ => true | None => false end) d = ([], Ok true).
Proof. intros E. unfold alook. rewrite E. auto. Qed.
Lemma bind_unit (m : act unit) d : abind m (fun _ => aret tt) d = m d.
Proof. unfold abind. destruct (m d) as [ws [[]|x]]; auto. cbn [aret]. rewrite app_nil_r. auto. Qed.
Lemma script_polya e d text : dfile d "lattice.in" = Some text -> script e polya_args d = polya_main e "lattice.in" "polya.out" d.
Proof.
  intros E. unfold script. cbn [polya_args a_polya a_enum a_outfile a_input a_distribution a_lattice a_accept default].
  erewrite bind_quiet by (apply (is_lattice d text E)). cbn [andb negb]. erewrite bind_quiet by reflexivity.
  unfold abind at 1. destruct (polya_main e "lattice.in" "polya.out" d) as [ws [[]|x]]; auto. cbn. rewrite ?app_nil_r. auto.
Qed.
Lemma script_dist e d text kind number : dfile d "lattice.in" = Some text -> script e (dist_args kind number) d = enum_in_step e (dist_args kind number) "polya.out" "enum.in" [kind; number] d.
Proof.
  intros E. unfold script. cbn [dist_args a_polya a_enum a_outfile a_input a_distribution a_lattice a_accept default].
  erewrite bind_quiet by (apply (is_lattice d text E)). cbn [andb negb length Nat.eqb]. repeat (erewrite bind_quiet by reflexivity). auto.
Qed.
Lemma enum_in_words e input out kind number : in_any_case "all" kind -> in_any_case "all" number -> enum_in_step e (dist_args kind number) input out [kind; number] = enum_in_step e enum_args input out ["all"; "all"]%string.
Proof. unfold in_any_case. intros E1 E2. unfold enum_in_step, kind_of. rewrite E1, E2. reflexivity. Qed.
Lemma ends_after m d ws : m d = (ws, Ok tt) -> ends m d (after d ws). Proof. intros E. exists ws. auto. Qed.

Lemma workflow_settled text lo hi (poss : Z -> Prop) (good : Z -> string -> Prop) v e1 d : settled text lo hi poss good -> poss hi -> proper v e1 -> fresh d text ->
  exists fuel1 d1, (forall fuel, (fuel1 <= fuel)%nat -> ends (script (with_fuel e1 fuel) polya_args) d d1) /\ (forall f, In f (names d1) <-> In f (names d) \/ counts_name lo hi f) /\
    forall e2 kind number, proper v e2 -> in_any_case "all" kind -> in_any_case "all" number -> exists d2, (forall fuel, ends (script (with_fuel e2 fuel) (dist_args kind number)) d1 d2) /\ (forall f, In f (names d2) <-> In f (names d1) \/ f = "enum.in"%string) /\
    forall e3, proper v e3 -> exists fuel3 file d3, (forall fuel, (fuel3 <= fuel)%nat -> ends (script (with_fuel e3 fuel) enum_args) d2 d3) /\ (forall f, In f (names d3) <-> In f (names d2) \/ f = "enum.out"%string) /\
      dfile d3 "enum.out" = Some file /\ good hi file /\ forall f, In f (names d) -> f <> "enum.out"%string -> dfile d3 f = dfile d f.
Proof.
  intros [Hmore [par [su [E1 [E2 [Hu [El [Eh [Hs [Hso Hc]]]]]]]]]] Hpos He1 [Hn [Hl [Hi Hh]]].
  assert (some_upto su (s_hi su)) as Hsh by (rewrite Eh; apply Hso; auto; pose proof (u_sizes su Hu); lia). pose proof (u_sizes su Hu) as [Hlh _].
  destruct (polya_main_ok su par text v e1 Hu E1 E2 Hs He1) as [f1 Hf1]. set (d1 := after d (counts su v (s_hi su))).
  assert (forall f, In f (names d1) <-> In f (names d) \/ counts_name lo hi f) as Hd1.
  { intros f. unfold d1. rewrite after_names. apply or_iff_compat_l. rewrite in_map_iff. split.
    - intros [[g x] [Eg Hg]]. cbn in Eg. subst g. apply counts_in in Hg. destruct Hg as [s [Hs' [-> _]]]. exists s. split; [lia|auto].
    - intros [s [Hs' ->]]. exists (polya_name s, count_file v su s). split; auto. apply counts_in. exists s. split; [lia|auto]. }
  assert (dfile d1 "lattice.in" = Some text /\ dfile d1 "enum.in" = None) as [Hl1 Hi1] by (split; [unfold d1; rewrite (after_counts su v); auto; intros s E; discriminate E..]).
  assert (NoDup (names d1)) as Hn1 by (apply after_NoDup; auto). destruct (counts_counted su v d (s_hi su) Hh) as [Hc1 Ho1]. fold d1 in Hc1, Ho1.
  exists f1, d1. split; [intros fuel Hfu; apply ends_after; rewrite (script_polya _ d text Hl); apply Hf1; auto|]. split; [exact Hd1|].
  intros e2 kind number He2 Hk Hnu. destruct (enum_in_with su par v Hu Hs e2 d1 (s_hi su) ltac:(lia) He2 Hn1 Hc1 Ho1) as [txt [Ha Hw]].
  set (d2 := after d1 [("enum.in"%string, txt)]). exists d2. split; [intros fuel; apply ends_after; rewrite (script_dist _ d1 text kind number Hl1), enum_in_words by auto; apply Hw|].
  split; [intros f; unfold d2; rewrite after_names; cbn [map fst In]; intuition|].
  intros e3 He3. assert (dfile d2 "lattice.in" = Some text) as Hl2 by (unfold d2; rewrite after_other; auto; constructor; [discriminate|constructor]).
  assert (dfile d2 "enum.in" = Some txt) as Hi2 by (unfold d2; apply dfile_same).
  destruct (enum_out_with su par text v Hu E1 E2 Hs e3 d2 (s_hi su) txt ltac:(lia) Hsh He3 Hl2 Hi2 Ha) as [file [f3 [Hf3 Hr3]]].
  exists f3, file. eexists. split; [intros fuel Hfu; apply ends_after; rewrite script_enum; apply Hr3; auto|]. split; [intros f; rewrite after_names; cbn [map fst In]; intuition|].
  split; [cbn [after fold_left fst snd]; apply dfile_same|]. split; [apply (Hc hi (e_date e3)); rewrite <- Eh; exact Hf3|].
  intros f Hf Hne. rewrite after_other by (repeat constructor; cbn; auto). assert (f <> "enum.in"%string) as Hne'.
  { intros ->. apply dfile_names in Hf. destruct Hf as [t Ht]. congruence. }
  unfold d2. rewrite after_other by (repeat constructor; cbn; auto). unfold d1. apply (after_counts su v). intros s ->. destruct (Hh _ Hf) as [E|E].
  - pose proof (contains_app "polya.out"%string ("." ++ str s)%string) as E'. change (contains "polya.out"%string (polya_name s) = true) in E'. congruence.
  - apply E. reflexivity.
Qed.

(** The rows go where the options say, and nothing else depends on it. *)
Lemma out_elsewhere e input out d pre h file : enum_out_step e enum_args input "enum.out" d = (pre ++ [("enum.out"%string, h); ("enum.out"%string, file)], Ok tt)%list ->
  enum_out_step e enum_args input out d = (pre ++ [(out, h); (out, file)], Ok tt)%list.
Proof.
  unfold enum_out_step. cbn [enum_args a_lattice a_super a_accept a_distribution]. intros E. unfold abind at 1 in E. unfold abind at 1. destruct (lattice_step "lattice.in" d) as [ws0 [[par su]|x]]; [|discriminate E].
  unfold abind at 1 in E. unfold abind at 1. cbn [alook] in *. set (d0 := after (after d ws0) []) in *.
  match type of E with context [abind ?m ?k d0] => set (M := m) in * end. clearbody M.
  unfold abind at 1 in E. unfold abind at 1. destruct (M d0) as [ws1 [[]|x]]; [|discriminate E].
  unfold abind at 1 in E. unfold abind at 1. unfold aread in *. destruct (dfile (after d0 ws1) input) as [t|]; [|discriminate E].
  unfold abind at 1 in E. unfold abind at 1. unfold lift at 1 in E. unfold lift at 1. destruct (read_enum t) as [systems|x]; [|discriminate E].
  unfold abind at 1 in E. unfold abind at 1. unfold awrite at 1 in E. unfold awrite at 1.
  unfold abind at 1 in E. unfold abind at 1. unfold lift at 1 in E. unfold lift at 1.
  unfold abind at 1 in E. unfold abind at 1. unfold lift at 1 in E. unfold lift at 1.
  match type of E with context [rbind ?a ?b] => destruct (rbind a b) as [fl|x] end; [|discriminate E].
  unfold awrite in *. set (hd := EnumOutModel.text _) in *. clearbody hd. cbn [app] in *. injection E as E. rewrite ?app_assoc in *.
  assert (forall (l l' : list (string * string)) a b a' b', (l ++ [a; b] = l' ++ [a'; b'])%list -> l = l' /\ a = a' /\ b = b') as Hinj.
  { intros l l' a b a' b' K. change (l ++ [a] ++ [b] = l' ++ [a'] ++ [b'])%list in K. rewrite !app_assoc in K. apply app_inj_tail in K. destruct K as [K ->]. apply app_inj_tail in K. destruct K. auto. }
  apply Hinj in E. destruct E as [-> [E E']]. injection E as ->. injection E' as ->. reflexivity.
Qed.
(** A file with the name of the counts and no size: the sizes cannot be found. *)
Lemma sizes_not_found files : In "polya.out"%string files -> found_sizes "polya.out" files = Err ValueError.
Proof.
  intros Hi. unfold found_sizes. set (ours := filter _ files). assert (In "polya.out"%string ours) as Ho by (apply filter_In; split; [auto|reflexivity]). clearbody ours.
  assert (rmap (fun f => int_of (last (split_on "." f) EmptyString)) ours = Err ValueError) as ->; [|reflexivity].
  assert (forall s x, int_of s = Err x -> x = ValueError) as Herr.
  { assert (forall s x, unsigned s = Err x -> x = ValueError) as Hun by (intros s x; unfold unsigned; destruct s as [|c s]; [congruence|]; destruct (char_digit c); [|congruence]; destruct (digits_value _ _); congruence).
    intros s x. unfold int_of. destruct (lstrip (rstrip s)) as [|c s']; [congruence|]. destruct (Ascii.eqb c "-"); [destruct (unsigned s') eqn:E; cbn [rbind]; [discriminate|]; intros K; injection K as <-; eauto|]. destruct (Ascii.eqb c "+"); eauto. }
  induction ours as [|f l IH]; [destruct Ho|]. cbn [rmap]. destruct Ho as [->|Ho]; [reflexivity|].
  destruct (int_of _) as [n|x] eqn:Ei; [|rewrite (Herr _ _ Ei); auto]. cbn [rbind]. rewrite (IH Ho). auto.
Qed.
Lemma bind_ext {A B} (m : act A) (k k' : A -> act B) d : (forall a d, k a d = k' a d) -> abind m k d = abind m k' d.
Proof. intros H. unfold abind. destruct (m d) as [ws [a|x]]; auto. rewrite H. auto. Qed.
(** [-polya -enum]. *)
Lemma script_both e d text : dfile d "lattice.in" = Some text -> script e polya_enum_args d = abind (polya_main e "lattice.in" "polya.out") (fun _ => enum_out_step e enum_args "enum.in" "polya.out") d.
Proof.
  intros E. unfold script. cbn [polya_enum_args a_polya a_enum a_outfile a_input a_distribution a_lattice a_accept default].
  erewrite bind_quiet by (apply (is_lattice d text E)). cbn [andb negb]. erewrite bind_quiet by reflexivity.
  apply bind_ext. intros [] d'. cbn [andb]. rewrite bind_unit. reflexivity.
Qed.
Lemma both_settled text lo hi (poss : Z -> Prop) (good : Z -> string -> Prop) v e d : settled text lo hi poss good -> poss hi -> proper v e -> fresh d text ->
  exists fuel0 file d', (forall fuel, (fuel0 <= fuel)%nat -> ends (script (with_fuel e fuel) polya_enum_args) d d') /\ (forall f, In f (names d') <-> In f (names d) \/ counts_name lo hi f \/ f = "enum.in"%string \/ f = "polya.out"%string) /\
    dfile d' "polya.out" = Some file /\ good hi file /\
    forall e' kind number, proper v e' -> in_any_case "all" number -> script e' (dist_args kind number) d' = ([], Err ValueError).
Proof.
  intros [Hmore [par [su [E1 [E2 [Hu [El [Eh [Hs [Hso Hc]]]]]]]]]] Hpos He [Hn [Hl [Hi Hh]]].
  assert (some_upto su (s_hi su)) as Hsh by (rewrite Eh; apply Hso; auto; pose proof (u_sizes su Hu); lia). pose proof (u_sizes su Hu) as [Hlh _].
  destruct (polya_main_ok su par text v e Hu E1 E2 Hs He) as [f1 Hf1]. set (d1 := after d (counts su v (s_hi su))).
  assert (forall f, In f (names d1) <-> In f (names d) \/ counts_name lo hi f) as Hd1.
  { intros f. unfold d1. rewrite after_names. apply or_iff_compat_l. rewrite in_map_iff. split.
    - intros [[g x] [Eg Hg]]. cbn in Eg. subst g. apply counts_in in Hg. destruct Hg as [s [Hs' [-> _]]]. exists s. split; [lia|auto].
    - intros [s [Hs' ->]]. exists (polya_name s, count_file v su s). split; auto. apply counts_in. exists s. split; [lia|auto]. }
  assert (dfile d1 "lattice.in" = Some text /\ dfile d1 "enum.in" = None) as [Hl1 Hi1] by (split; [unfold d1; rewrite (after_counts su v); auto; intros s E; discriminate E..]).
  assert (NoDup (names d1)) as Hn1 by (apply after_NoDup; auto). pose proof (counts_counted su v d (s_hi su) Hh) as Hc1. fold d1 in Hc1.
  destruct (run_counted su par text v Hu E1 E2 Hs e d1 (s_hi su) ltac:(lia) Hsh He (conj Hn1 Hl1) Hi1 Hc1) as [txt [file [f2 [_ [Hf2 Hr2]]]]].
  set (ws := [("enum.in"%string, txt); ("polya.out"%string, EnumOutModel.text (header (params_of (e_date e) par))); ("polya.out"%string, file)]).
  assert (forall f, In f (names (after d1 ws)) <-> In f (names d) \/ counts_name lo hi f \/ f = "enum.in"%string \/ f = "polya.out"%string) as Hnames by (intros f; rewrite after_names, Hd1; cbn [ws map fst In]; intuition).
  exists (f1 + f2)%nat, file, (after d1 ws). split; [|split; [exact Hnames|split; [|split]]].
  - intros fuel Hfu. exists (counts su v (s_hi su) ++ ws)%list. split; [|rewrite after_app; reflexivity]. rewrite (script_both _ d text Hl). eapply bind_then; [apply Hf1; [lia|auto]|]. fold d1.
    apply (out_elsewhere (with_fuel e fuel) "enum.in" "polya.out" d1 [("enum.in"%string, txt)]). apply Hr2. lia.
  - apply dfile_same.
  - apply (Hc hi (e_date e)). rewrite <- Eh. exact Hf2.
  - intros e' kind number [_ [Hp _]] Hnu. rewrite (script_dist _ _ text).
    2:{ rewrite after_other; auto. repeat constructor; discriminate. }
    unfold enum_in_step. assert (globbed "polya.out" (after d1 ws) = true) as Hg.
    { apply globbed_iff. exists (str (s_hi su)). apply Hnames. right. left. exists (s_hi su). split; [lia|auto]. }
    erewrite bind_quiet by (unfold alook; rewrite Hg; reflexivity). erewrite bind_quiet by reflexivity. erewrite bind_quiet by (unfold lift; rewrite Hnu; reflexivity). erewrite bind_quiet by reflexivity.
    cbn [dist_args a_sizes]. unfold abind, lift. rewrite sizes_not_found; [reflexivity|]. eapply Permutation_in; [apply Permutation_sym, Hp|]. apply Hnames. auto.
Qed.
Lemma polya_again_settled text lo hi (poss : Z -> Prop) (good : Z -> string -> Prop) v e d : settled text lo hi poss good -> proper v e -> fresh d text ->
  exists fuel0 d1, (forall fuel, (fuel0 <= fuel)%nat -> ends (script (with_fuel e fuel) polya_args) d d1) /\
    forall e', proper v e' -> exists fuel1 d1', (forall fuel, (fuel1 <= fuel)%nat -> ends (script (with_fuel e' fuel) polya_args) d1 d1') /\ forall f, dfile d1' f = dfile d1 f.
Proof.
  intros [Hmore [par [su [E1 [E2 [Hu [El [Eh [Hs [Hso Hc]]]]]]]]]] He [Hn [Hl [Hi Hh]]].
  destruct (polya_main_ok su par text v e Hu E1 E2 Hs He) as [f1 Hf1]. set (d1 := after d (counts su v (s_hi su))).
  assert (dfile d1 "lattice.in" = Some text) as Hl1 by (unfold d1; rewrite (after_counts su v); auto; intros s E; discriminate E).
  exists f1, d1. split; [intros fuel Hfu; apply ends_after; rewrite (script_polya _ d text Hl); apply Hf1; auto|]. intros e' He'.
  destruct (polya_main_ok su par text v e' Hu E1 E2 Hs He') as [f2 Hf2]. exists f2, (after d1 (counts su v (s_hi su))).
  split; [intros fuel Hfu; apply ends_after; rewrite (script_polya _ d1 text Hl1); apply Hf2; auto|]. intros f.
  destruct (in_dec string_dec f (map fst (counts su v (s_hi su)))) as [Hf|Hf].
  - apply in_map_iff in Hf. destruct Hf as [[g x] [Eg Hg]]. cbn in Eg. subst g. unfold d1. rewrite !(after_last _ _ f x) by (auto using counts_NoDup). auto.
  - apply after_other. apply Forall_forall. intros w Hw E. apply Hf. subst f. apply in_map. auto.
Qed.

(** ** The workflow *)
(** [-polya], then [-distribution all all], then [-enum], each with its own random numbers, date and order of the directory: each
    completes, the counts, enum.in and enum.out appear in turn, enum.out lists the crystals, and the other files are as they were. *)
Definition workflow (lo hi : Z) (good : string -> Prop) (v : pyversion) (e1 : env) (d : dir) : Prop :=
  exists fuel1 d1, (forall fuel, (fuel1 <= fuel)%nat -> ends (script (with_fuel e1 fuel) polya_args) d d1) /\ (forall f, In f (names d1) <-> In f (names d) \/ counts_name lo hi f) /\
    forall e2 kind number, proper v e2 -> in_any_case "all" kind -> in_any_case "all" number -> exists d2, (forall fuel, ends (script (with_fuel e2 fuel) (dist_args kind number)) d1 d2) /\ (forall f, In f (names d2) <-> In f (names d1) \/ f = "enum.in"%string) /\
    forall e3, proper v e3 -> exists fuel3 file d3, (forall fuel, (fuel3 <= fuel)%nat -> ends (script (with_fuel e3 fuel) enum_args) d2 d3) /\ (forall f, In f (names d3) <-> In f (names d2) \/ f = "enum.out"%string) /\
      dfile d3 "enum.out" = Some file /\ good file /\ forall f, In f (names d) -> f <> "enum.out"%string -> dfile d3 f = dfile d f.
Theorem C74_workflow_partial : forall text A k lo hi ranges v e1 d, plain_file text A k lo hi ranges -> possible lo hi ranges -> proper v e1 -> fresh d text ->
  workflow lo hi (catalogued A k lo hi ranges) v e1 d.
Proof.
  intros text A k lo hi ranges v e1 d Hp Hpos He Hf. destruct (workflow_settled _ _ _ _ _ v e1 d (plain_settled _ _ _ _ _ _ Hp) Hpos He Hf) as [f1 [d1 [H1 [N1 H2]]]].
  exists f1, d1. split; auto. split; auto. intros e2 kind number He2 Hk Hnu. destruct (H2 e2 kind number He2 Hk Hnu) as [d2 [H3 [N2 H4]]]. exists d2. split; auto. split; auto.
  intros e3 He3. destruct (H4 e3 He3) as [f3 [file [d3 [K1 [K2 [K3 [K4 K5]]]]]]]. exists f3, file, d3. repeat (split; [assumption|]). split; [apply rows_catalogued; auto|auto].
Qed.
Theorem C74_several_atoms_partial : forall text A D bas k lo hi ranges v e1 d, atoms_file text A D bas k lo hi ranges -> possible_sites (Z.of_nat (length bas)) lo hi ranges -> proper v e1 -> fresh d text ->
  workflow lo hi (catalogued_atoms A D bas k lo hi ranges) v e1 d.
Proof.
  intros text A D bas k lo hi ranges v e1 d Hp Hpos He Hf. destruct (workflow_settled _ _ _ _ _ v e1 d (atoms_settled _ _ _ _ _ _ _ _ Hp) Hpos He Hf) as [f1 [d1 [H1 [N1 H2]]]].
  exists f1, d1. split; auto. split; auto. intros e2 kind number He2 Hk Hnu. destruct (H2 e2 kind number He2 Hk Hnu) as [d2 [H3 [N2 H4]]]. exists d2. split; auto. split; auto.
  intros e3 He3. destruct (H4 e3 He3) as [f3 [file [d3 [K1 [K2 [K3 [K4 K5]]]]]]]. exists f3, file, d3. repeat (split; [assumption|]). split; [apply rows_atoms; auto|auto].
Qed.
(** [-polya] given again, with another date and order of the directory, leaves every file as it was. *)
Theorem C74_polya_again_partial : forall text A k lo hi ranges v e d, plain_file text A k lo hi ranges -> proper v e -> fresh d text ->
  exists fuel0 d1, (forall fuel, (fuel0 <= fuel)%nat -> ends (script (with_fuel e fuel) polya_args) d d1) /\
    forall e', proper v e' -> exists fuel1 d1', (forall fuel, (fuel1 <= fuel)%nat -> ends (script (with_fuel e' fuel) polya_args) d1 d1') /\ forall f, dfile d1' f = dfile d1 f.
Proof. intros text A k lo hi ranges v e d Hp He Hf. apply (polya_again_settled text lo hi _ _ v e d (plain_settled _ _ _ _ _ _ Hp) He Hf). Qed.
(** In one command, [-polya -enum], it is not so: there is no enum.out, the rows are in a file polya.out, and in the directory that
    is left [-distribution] finds no sizes. *)
Theorem C74_one_command_refuted : forall text A k lo hi ranges v e d, plain_file text A k lo hi ranges -> possible lo hi ranges -> proper v e -> fresh d text -> ~ is_file d "enum.out" ->
  exists fuel0 file d', (forall fuel, (fuel0 <= fuel)%nat -> ends (script (with_fuel e fuel) polya_enum_args) d d') /\ ~ is_file d' "enum.out" /\ dfile d' "polya.out" = Some file /\ catalogued A k lo hi ranges file /\
    forall e' kind number, proper v e' -> in_any_case "all" number -> script e' (dist_args kind number) d' = ([], Err ValueError).
Proof.
  intros text A k lo hi ranges v e d Hp Hpos He Hf Hno. destruct (both_settled _ _ _ _ _ v e d (plain_settled _ _ _ _ _ _ Hp) Hpos He Hf) as [f0 [file [d' [H1 [H2 [H3 [H4 H5]]]]]]].
  exists f0, file, d'. split; auto. split; [|split; [auto|split; [apply rows_catalogued; auto|auto]]]. intros Hi. unfold is_file in *. rewrite dfile_names in *. apply H2 in Hi.
  destruct Hi as [Hi|[[s [_ E]]|[E|E]]]; [auto|discriminate E..].
Qed.
(** The simple cubic lattice, one and two cells, in a directory with another file. *)
Example C74_example : workflow 1 2 (catalogued (simple_cubic 1) 2 1 2 None) Py3 (some_env 0 "Monday") (sc_dir "1 2") /\ in_any_case "all" "All" /\ proper Py3 (some_env 0 "Tuesday").
Proof. split; [exact (C74_workflow_partial _ _ _ _ _ _ Py3 _ _ sc_12 Logic.I (some_proper 0 "Monday" ltac:(repeat split)) (sc_fresh "1 2"))|]. split; [reflexivity|]. apply some_proper. repeat split. Qed.
Example C74_example_several_atoms : workflow 1 3 (catalogued_atoms (box_lattice 1 2 3) 2 [(0, 0, 0); (0, 1, 0)] 2 1 3 None) Py3 (some_env 0 "Monday") box_dir.
Proof. exact (C74_several_atoms_partial _ _ _ _ _ _ _ _ Py3 _ _ box_file Logic.I (some_proper 0 "Monday" ltac:(repeat split)) box_fresh). Qed.
Example C74_refuted_example : exists fuel0 d', (forall fuel, (fuel0 <= fuel)%nat -> ends (script (with_fuel (some_env 0 "Monday") fuel) polya_enum_args) (sc_dir "1 2") d') /\ ~ is_file d' "enum.out".
Proof.
  destruct (C74_one_command_refuted _ _ _ _ _ _ Py3 (some_env 0 "Monday") _ sc_12 Logic.I (some_proper 0 "Monday" ltac:(repeat split)) (sc_fresh "1 2")) as [f0 [file [d' [H1 [H2 _]]]]]; [intros [t E]; discriminate E|]. exists f0, d'. auto.
Qed.
Print Assumptions C74_workflow_partial.
Print Assumptions C74_several_atoms_partial.
Print Assumptions C74_polya_again_partial.
Print Assumptions C74_one_command_refuted.
Print Assumptions C74_example.
Print Assumptions C74_example_several_atoms.
Print Assumptions C74_refuted_example.
