(** The command [-distribution] (C73): what enum.in asks for, from the counts in the directory and the options. *)
From Coq Require Import Permutation.
From Verif Require Import TextModel PyBase ListFacts TextProofs TreeSearch PolyaModel DistModel DistSpec DistProofs DistSummary DistMain DistRandom FilesModel FilesProofs FilesMain PropertiesDist PropertiesFiles EnumOutModel ScriptModel ScriptProofs.
Local Open Scope Z_scope.

(** ** What is asked *)
(** [-distribution kind number], and no other command. *)
Definition distribution_command (a : args) (kind number : string) : Prop :=
  a_polya a = false /\ a_enum a = false /\ a_distribution a = Some [kind; number] /\ exists r, a_accept a = Ok r.
Definition input_of (a : args) : string := match a_input a with Some f => f | None => "polya.out"%string end.
Definition output_of (a : args) : string := match a_outfile a with Some f => f | None => "enum.in"%string end.
(** The file of the counts of a size. *)
Definition count_name (a : args) (s : Z) : string := (input_of a ++ "." ++ str s)%string.
(** The number is a word: "all", or a number. *)
Definition number_asked (word : string) (wanted : option Z) : Prop := lower_all word = "all"%string /\ wanted = None \/ exists n, word = str n /\ wanted = Some n.
(** [-sizes lo hi] asks for the sizes from lo to hi - 1 (C64_sizes_refuted); without it all sizes with counts are asked for. *)
Definition sizes_asked (a : args) (d : dir) (sizes : list Z) : Prop :=
  match a_sizes a with
  | Some (lo, hi) => forall s, In s sizes <-> lo <= s < hi
  | None => (forall s, In s sizes <-> In (count_name a s) (names d)) /\
      forall f, In f (names d) -> (exists s, f = count_name a s) \/ contains (input_of a) f = false \/ first_char f <> first_char (input_of a)
  end.
(** The lines of a filter file: a line with the character # is a comment; the others are rows of numbers. *)
Inductive filter_lines : list string -> list (list Z) -> Prop :=
| no_lines : filter_lines [] []
| comment_line : forall x y ls rows, filter_lines ls rows -> filter_lines ((x ++ "#" ++ y)%string :: ls) rows
| row_line : forall l r ls rows, all_chars (fun c => c <> "#"%char) l -> words l = map str r -> filter_lines ls rows -> filter_lines (l :: ls) (r :: rows).
(** [-filter shape f] keeps the shapes whose six numbers begin a line; [-filter conc f], for two species, the compositions
    that follow the first number of a line. *)
Definition filter_asked (a : args) (d : dir) (k : nat) (shapes comps : list Z -> bool) : Prop :=
  match a_filter a with
  | None => (forall h, shapes h = true) /\ forall c, comps c = true
  | Some (kind, f) => exists ls rows, dfile d f = Some (text_of ls) /\ Forall no_newline ls /\ filter_lines ls rows /\
      (kind = "shape"%string /\ (forall h, shapes h = true <-> exists rest, In (h ++ rest) rows) /\ (forall c, comps c = true) \/
       kind = "conc"%string /\ k = 2%nat /\ (forall h, shapes h = true) /\ (forall c, comps c = true <-> exists n rest, In (n :: c ++ rest) rows))
  end.
(** The counts in the directory: for the sizes asked for, for every shape and composition. *)
Definition counts_there (a : args) (d : dir) (sizes : list Z) (hnfs concs : Z -> list (list Z)) (count : Z -> list Z -> list Z -> Z) (k : nat) : Prop :=
  NoDup sizes /\ sizes <> [] /\ (forall s, In s sizes -> dfile d (count_name a s) = Some (polya_file (concs s) (hnfs s) (count s))) /\
  (forall s, In s sizes -> NoDup (concs s) /\ NoDup (hnfs s) /\ hnfs s <> []) /\
  (forall s c, In s sizes -> In c (concs s) -> writable_conc c /\ length c = k) /\
  (forall s h, In s sizes -> In h (hnfs s) -> writable_hnf h /\ nth 0 h 0 * nth 2 h 0 * nth 5 h 0 = s) /\
  (forall s h c, In s sizes -> In h (hnfs s) -> In c (concs s) -> 0 <= count s h c) /\
  (forall s, In s sizes -> 0 <= s < 2 ^ 63) /\ grand_total sizes hnfs concs count < 2 ^ 61.
Definition lists_names (e : env) (d : dir) : Prop := NoDup (names d) /\ forall l, Permutation (e_listdir e l) l.

(** ** Proofs *)
Lemma total_perm {A} (f : A -> Z) l l' : Permutation l l' -> total f l = total f l'.
Proof. unfold total. induction 1; cbn; lia. Qed.
Lemma total_ext_in {A} (f g : A -> Z) l : (forall x, In x l -> f x = g x) -> total f l = total g l.
Proof. intros H. unfold total. induction l as [|x l IH]; [auto|]. cbn. rewrite H by (left; auto). rewrite IH; auto. intros; apply H; right; auto. Qed.

Section Tables.
Variables (file : Z -> option string) (sizes : list Z) (hnfs concs : Z -> list (list Z)) (count : Z -> list Z -> list Z -> Z) (k : nat).
Hypothesis Hsz : NoDup sizes.
Hypothesis Hfile : forall s, In s sizes -> file s = Some (polya_file (concs s) (hnfs s) (count s)).
Hypothesis Hnd : forall s, In s sizes -> NoDup (concs s) /\ NoDup (hnfs s) /\ hnfs s <> [].
Hypothesis Hc : forall s c, In s sizes -> In c (concs s) -> writable_conc c /\ length c = k.
Hypothesis Hh : forall s h, In s sizes -> In h (hnfs s) -> writable_hnf h /\ nth 0 h 0 * nth 2 h 0 * nth 5 h 0 = s.
Hypothesis Hp : forall s h c, In s sizes -> In h (hnfs s) -> In c (concs s) -> 0 <= count s h c.
Hypothesis H64 : forall s, In s sizes -> 0 <= s < 2 ^ 63.
Hypothesis Hg : grand_total sizes hnfs concs count < 2 ^ 61.
Notation tab s := (polya_table (concs s) (hnfs s) (count s)).
Notation tabs := (fun s => dget Z.eqb (map (fun s => (s, tab s)) sizes) s).

Lemma size_total s : In s sizes -> 0 <= total (fun h => total (count s h) (concs s)) (hnfs s) <= grand_total sizes hnfs concs count.
Proof.
  intros Hi. unfold grand_total. apply (total_member (fun s => available hnfs concs count (s, None, None)) sizes s); auto.
  intros y Hy. cbn [available]. apply total_nonneg. intros; apply total_nonneg; auto.
Qed.
Lemma count_total s h c : In s sizes -> In h (hnfs s) -> In c (concs s) -> 0 <= count s h c <= grand_total sizes hnfs concs count.
Proof.
  intros Hs Hi Hj. pose proof (size_total s Hs) as H. destruct (total_member (count s h) (concs s) c); auto.
  destruct (total_member (fun h => total (count s h) (concs s)) (hnfs s) h); auto; [|lia]. intros; apply total_nonneg; auto.
Qed.
Lemma tables_read : read_tables file sizes = Ok (map (fun s => (s, tab s)) sizes).
Proof.
  apply (read_tables_ok file (fun s => tab s)). intros s Hi. exists (polya_file (concs s) (hnfs s) (count s)). split; [auto|].
  rewrite C57_polya_file; auto; [|apply Hnd; auto|intros c Hj; apply (Hc s); auto|intros h Hj; apply (Hh s); auto|].
  - f_equal. destruct (tab s) as [x y z] eqn:E. pose proof (table_last (concs s) (hnfs s) (count s)) as Hl. rewrite E in Hl. cbn [t_last] in Hl.
    unfold polya_table in E. injection E as Ea Eb Ec. subst x y. f_equal; try (symmetry; exact Hl); try exact Hl.
  - pose proof (size_total s Hi). assert (2 ^ 61 < 2 ^ 63) by reflexivity. lia.
Qed.
Lemma tabs_ok s : In s sizes -> tabs s = Some (tab s).
Proof. intros Hi. apply (dget_tables (fun s => tab s)). auto. Qed.
Lemma enum_in_is ft wanted flt rnd save : make_enum_in file sizes ft wanted flt rnd save =
  match ft with FAll => do t <- distr_file FAll (distribute tabs sizes ft wanted flt rnd); Ok (Some t)
  | _ => if save then do t <- distr_file ft (distribute tabs sizes ft wanted flt rnd); Ok (Some t) else Ok None end.
Proof. unfold make_enum_in. rewrite tables_read. cbn [rbind]. reflexivity. Qed.

(** The file of a distribution over everything. *)
Lemma all_text (distr : list (key * Z)) :
  (forall s h c v, In ((s, h, c), v) distr -> exists h' c', h = Some h' /\ c = Some c' /\ In s sizes /\ In h' (hnfs s) /\ In c' (concs s) /\ 0 < v < 2 ^ 63) -> NoDup (map fst distr) ->
  exists text systems, distr_file FAll distr = Ok text /\ read_enum text = Ok systems /\ NoDup (map fst systems) /\ map snd systems = map snd distr /\
    forall h c v, In (h, c, v) systems <-> exists s, In ((s, Some h, Some c), v) distr.
Proof.
  intros Hd A3. destruct (read_enum_ok distr k) as [t [E R]].
  { intros s h c v Hi. destruct (Hd s h c v Hi) as [h' [c' [-> [-> [D1 [D2 [D3 D4]]]]]]]. cbn [of_conc]. destruct (Hh s h' D1 D2) as [Hwh _]. destruct (Hc s c' D1 D3) as [Hwc Hk].
    split; [exists h'; split; auto; apply Hwh|]. split; [auto|]. apply Forall_app. split; [apply writable_columns; auto|]. apply Forall_app. split.
    - eapply Forall_impl; [|apply Hwc]. intros z Hz. apply int64_small. cbn in Hz. lia.
    - constructor; [|constructor]. apply int64_range. lia. }
  exists t. eexists. split; [exact E|]. split; [exact R|]. split; [|split].
  - rewrite map_map. assert (map (fun x => fst (let '(_, h, c, v) := x in (of_conc h, of_conc c, v))) distr = map (fun '(_, h, c) => (of_conc h, of_conc c)) (map fst distr)) as ->.
    { rewrite map_map. apply map_ext. intros [[[s h] c] v]. auto. }
    apply NoDup_map_inj; [|auto]. intros k1 k2 H1 H2 Eq.
    apply in_map_iff in H1. destruct H1 as [[[[s1 h1] c1] v1] [<- H1]]. apply in_map_iff in H2. destruct H2 as [[[[s2 h2] c2] v2] [<- H2]].
    destruct (Hd _ _ _ _ H1) as [h1' [c1' [-> [-> [D1 [D2 _]]]]]]. destruct (Hd _ _ _ _ H2) as [h2' [c2' [-> [-> [D3 [D4 _]]]]]]. cbn [fst of_conc] in *. injection Eq as -> ->.
    destruct (Hh s1 h2' D1 D2) as [_ F1]. destruct (Hh s2 h2' D3 D4) as [_ F2]. congruence.
  - rewrite map_map. apply map_ext. intros [[[s h] c] v]. auto.
  - intros h c v. split.
    + intros Hi. apply in_map_iff in Hi. destruct Hi as [[[[s h0] c0] v0] [Eq Hi]]. destruct (Hd _ _ _ _ Hi) as [h' [c' [-> [-> D]]]]. cbn [of_conc] in Eq. injection Eq as -> -> ->. exists s. auto.
    + intros [s Hi]. apply in_map_iff. exists (s, Some h, Some c, v). split; auto.
Qed.
(** The file of another distribution. *)
Definition keys_row (ft : ftype) (kv : key * Z) : list Z :=
  let '((s, h, c), v) := kv in match ft with FAll | FShape => of_conc h ++ of_conc c | FConc => s :: of_conc c | FSize => [s] end ++ [v].
Lemma kind_line ft s h c v : ft <> FAll -> (ft = FShape -> exists h', h = Some h' /\ c = None) -> exists line, distr_line ft ((s, h, c), v) = Ok line /\ holds line (keys_row ft ((s, h, c), v)).
Proof.
  intros Hf Hs. assert (forall x n (l : list Z) line, line = ("  " ++ padl n (spaced l) ++ "  " ++ x)%string -> clean x -> clean line /\ words line = map str l ++ words x) as Hl.
  { intros x n l line -> Hx. split.
    - apply clean_app. split; [cbn; auto|]. apply clean_app. split; [apply clean_padl, clean_spaced|]. apply clean_app. split; [cbn; auto|auto].
    - match goal with |- words ("  " ++ ?s) = _ => change ("  " ++ s)%string with (spaces 2 ++ s)%string end. rewrite words_app_spaces. apply words_spaced_gap. }
  assert (forall line ws, clean line /\ words line = map str ws -> holds line ws) as Hh' by (intros line ws [H1 H2]; split; [apply clean_no_newline; auto|rewrite before_clean by auto; auto]).
  destruct ft; [congruence| | |].
  - destruct (Hs eq_refl) as [h' [-> ->]]. eexists. split; [reflexivity|]. apply Hh'. destruct (Hl (str v) 18%nat h' _ eq_refl (str_clean v)) as [H1 H2]. split; [exact H1|]. rewrite H2, words_str. cbn [keys_row of_conc]. rewrite app_nil_r, map_app. reflexivity.
  - eexists. split; [reflexivity|]. apply Hh'. destruct (Hl (str v) 6%nat (of_conc c) _ eq_refl (str_clean v)) as [H1 H2].
    destruct (Hl (padl 6 (spaced (of_conc c)) ++ "  " ++ str v)%string 6%nat [s] ("  " ++ padl 6 (str s) ++ "  " ++ padl 6 (spaced (of_conc c)) ++ "  " ++ str v)%string eq_refl) as [H3 H4].
    { apply clean_app in H1. apply H1. }
    split; [exact H3|]. rewrite H4. rewrite words_spaced_gap, words_str. cbn [keys_row map app]. rewrite map_app. reflexivity.
  - eexists. split; [reflexivity|]. apply Hh'. destruct (Hl (str v) 6%nat [s] ("  " ++ padl 6 (str s) ++ "  " ++ str v)%string eq_refl (str_clean v)) as [H1 H2]. split; [exact H1|]. rewrite H2, words_str. reflexivity.
Qed.
Lemma kind_text ft (distr : list (key * Z)) w : ft <> FAll -> (forall s h c v, In ((s, h, c), v) distr -> ft = FShape -> exists h', h = Some h' /\ c = None) ->
  (forall kv, In kv distr -> length (keys_row ft kv) = w /\ Forall (fun z => int64 z = true) (keys_row ft kv)) ->
  exists text, distr_file ft distr = Ok text /\ loadtxt text = Ok (map (keys_row ft) distr).
Proof.
  intros Hf Hs Hw. assert (exists ls, rmap (distr_line ft) distr = Ok ls /\ Forall2 holds ls (map (keys_row ft) distr)) as [ls [E H2]].
  { clear Hw. induction distr as [|[[[s h] c] v] l IH]; [exists []; split; [auto|constructor]|]. destruct IH as [ls [E H2]]; [intros; eapply Hs; eauto; right; eauto|].
    destruct (kind_line ft s h c v Hf) as [x [Ex Hx]]; [intros; eapply Hs; eauto; left; auto|].
    exists (x :: ls). unfold key in *. rewrite rmap_cons, Ex. cbn [rbind]. rewrite E. cbn [rbind]. split; [auto|]. cbn [map]. constructor; auto. }
  unfold distr_file. rewrite E. cbn [rbind]. eexists. split; [reflexivity|].
  rewrite (loadtxt_text _ ([] :: map (keys_row ft) distr) w).
  - cbn [filter wanted_conc]. f_equal. apply wanted_all. intros r Hr. apply in_map_iff in Hr. destruct Hr as [[[[s h] c] v] [<- _]]. cbn [keys_row]. intros E'. apply app_eq_nil in E'. destruct E' as [_ E']. discriminate E'.
  - constructor; [apply distr_heading_holds|exact H2].
  - intros r [<-|Hr] Hne; [congruence|]. apply in_map_iff in Hr. destruct Hr as [kv [<- Hi]]. auto.
Qed.
End Tables.

(** *** The command *)
Lemma contains_hash x y : contains "#" (x ++ "#" ++ y) = true.
Proof.
  unfold contains. induction x as [|c x IH]; [destruct y; reflexivity|]. change (String c x ++ "#" ++ y)%string with (String c (x ++ "#" ++ y)). cbn [String.index].
  destruct (String.prefix "#" (String c (x ++ "#" ++ y))); [reflexivity|]. destruct (String.index 0 "#" (x ++ "#" ++ y)); [reflexivity|discriminate].
Qed.
Lemma contains_no_hash l : all_chars (fun c => c <> "#"%char) l -> contains "#" l = false.
Proof.
  unfold contains. induction l as [|c l IH]; [reflexivity|]. intros [Hc Hl]. cbn [String.index]. cbn [String.prefix]. destruct (ascii_dec "#" c); [congruence|].
  specialize (IH Hl). destruct (String.index 0 "#" l); [discriminate|auto].
Qed.
Lemma filter_lines_read ls rows : filter_lines ls rows -> rmap (fun l => rmap int_of (words l)) (filter (fun l => negb (contains "#" l)) ls) = Ok rows.
Proof.
  induction 1 as [|x y ls rows H IH|l r ls rows Hl Hw H IH]; [reflexivity| |].
  - cbn [filter]. rewrite contains_hash. exact IH.
  - cbn [filter]. rewrite (contains_no_hash l Hl). cbn [negb]. rewrite rmap_cons, Hw, rmap_str. cbn [rbind]. rewrite IH. reflexivity.
Qed.
(** The filter as the code keeps it. *)
Definition same_filter (flt : filter_by) (k : nat) (shapes comps : list Z -> bool) : Prop :=
  (forall h, length h = 6%nat -> keep_h flt h = shapes h) /\ forall c, length c = k -> keep_c flt c = comps c.
Lemma bool_iff (x y : bool) : (x = true <-> y = true) -> x = y.
Proof. destruct x, y; intuition congruence. Qed.
Lemma zl_in_iff x l : zl_in x l = true <-> In x l.
Proof.
  unfold zl_in. rewrite existsb_exists. split; [intros [y [Hy E]]; apply zlist_eqb_spec in E; subst; auto|intros H; exists x; split; [auto|apply zlist_eqb_spec; auto]].
Qed.
Lemma filter_read a d k shapes comps : filter_asked a d k shapes comps -> exists flt, filter_step (a_filter a) d = ([], Ok flt) /\ same_filter flt k shapes comps /\ forall l, flt = ByConc l -> exists f, a_filter a = Some ("conc"%string, f).
Proof.
  unfold filter_asked, filter_step. destruct (a_filter a) as [[kind f]|].
  - intros [ls [rows [Hf [Hn [Hl Hk]]]]]. pose proof (filter_lines_read _ _ Hl) as Hr.
    assert (lines (text_of ls) = ls) as El by (apply lines_text; auto).
    destruct Hk as [[-> [Hs Hc]]|[-> [-> [Hs Hc]]]].
    + exists (read_filter true rows). split.
      * erewrite bind_quiet by (apply read_ok; eauto). cbn [String.eqb Ascii.eqb Bool.eqb orb]. erewrite bind_quiet by (unfold lift; rewrite El, Hr; reflexivity). reflexivity.
      * split; [|discriminate]. split; [|intros; cbn; rewrite Hc; auto]. intros h Hh. cbn [read_filter keep_h]. apply bool_iff. rewrite zl_in_iff, Hs, in_map_iff. split.
        -- intros [r [E Hi]]. exists (skipn 6 r). rewrite <- E, firstn_skipn. auto.
        -- intros [rest Hi]. exists (h ++ rest). split; auto. rewrite firstn_app, Hh, firstn_all2 by lia. cbn. apply app_nil_r.
    + exists (read_filter false rows). split.
      * erewrite bind_quiet by (apply read_ok; eauto). cbn [String.eqb Ascii.eqb Bool.eqb orb]. erewrite bind_quiet by (unfold lift; rewrite El, Hr; reflexivity). reflexivity.
      * split; [|intros; eauto]. split; [intros; cbn; rewrite Hs; auto|]. intros c Hlen. cbn [read_filter keep_c]. apply bool_iff. rewrite zl_in_iff, Hc, in_map_iff. split.
        -- intros [r [E Hi]]. destruct r as [|n r]; [cbn in E; subst c; discriminate Hlen|]. cbn [skipn] in E. exists n, (skipn 2 r). rewrite <- E, firstn_skipn. auto.
        -- intros [n [rest Hi]]. exists (n :: c ++ rest). split; auto. cbn [skipn]. rewrite firstn_app, Hlen, firstn_all2 by lia. cbn. apply app_nil_r.
  - intros [Hs Hc]. exists NoFilter. split; [reflexivity|]. split; [|discriminate]. split; intros; cbn; rewrite ?Hs, ?Hc; auto.
Qed.
Lemma number_read word wanted d : number_asked word wanted ->
  lift (if String.eqb (lower_all word) "all" then Ok None else do n <- int_of word; Ok (Some n)) d = ([], Ok wanted).
Proof.
  intros [[-> ->]|[n [-> ->]]]; [reflexivity|]. unfold lift. destruct (String.eqb_spec (lower_all (str n)) "all") as [E|E]; [|rewrite int_str; reflexivity]. exfalso.
  pose proof (str_chars n) as H. destruct (str n) as [|c s]; [discriminate E|]. cbn in E. injection E as E _. destruct H as [[->|[x [Hx ->]]] _]; [discriminate E|].
  assert (x = 0 \/ x = 1 \/ x = 2 \/ x = 3 \/ x = 4 \/ x = 5 \/ x = 6 \/ x = 7 \/ x = 8 \/ x = 9) as K by lia. repeat (destruct K as [->|K]; [discriminate E|]). subst x. discriminate E.
Qed.
Lemma command_runs e a d kind word wanted ft sizes hnfs concs count k shapes comps : distribution_command a kind word -> kind_of kind = Ok ft -> number_asked word wanted ->
  counts_there a d sizes hnfs concs count k -> sizes_asked a d sizes -> lists_names e d -> filter_asked a d k shapes comps -> input_of a <> EmptyString ->
  exists sizes' flt, Permutation sizes' sizes /\ (same_filter flt k shapes comps /\ forall l, flt = ByConc l -> exists f, a_filter a = Some ("conc"%string, f)) /\
    script e a d = match make_enum_in (fun s => dfile d (count_name a s)) sizes' ft wanted flt (e_rnd0 e) (a_savedist a) with
      Ok (Some t) => ([(output_of a, t)], Ok tt) | Ok None => ([], Ok tt) | Err x => ([], Err x) end.
Proof.
  intros [Hpo [Hen [Hdi [r Hac]]]] Hkind Hnum [Hsz [Hne [Hf _]]] Hask [Hnd Hls] Hfl Hin.
  assert (forall s, In s sizes -> In (count_name a s) (names d)) as Hnames by (intros s Hs; apply dfile_names; eauto).
  assert (exists sizes', Permutation sizes' sizes /\ forall d', d' = d -> lift (match a_sizes a with None => found_sizes (input_of a) (e_listdir e (names d)) | Some (lo, hi) => let ss := range_up lo hi in
      if forallb (fun s => existsb (String.eqb (sized (input_of a) s)) (e_listdir e (names d))) ss then Ok ss else Err ValueError end) d' = ([], Ok sizes')) as [sizes' [Hperm Hread]].
  { unfold sizes_asked in Hask. destruct (a_sizes a) as [[lo hi]|].
    - exists (range_up lo hi). split; [apply NoDup_Permutation; [apply NoDup_range_up|auto|]; intros s; rewrite in_range_up, Hask; lia|]. intros d' _. unfold lift. cbn zeta.
      replace (forallb _ _) with true; [reflexivity|]. symmetry. apply forallb_forall. intros s Hs. apply existsb_exists. exists (count_name a s). split; [|apply String.eqb_refl].
      eapply Permutation_in; [apply Permutation_sym, Hls|]. apply Hnames, Hask. apply in_range_up in Hs. lia.
    - destruct Hask as [H1 H2]. destruct (C58_sizes_found (input_of a) (e_listdir e (names d)) Hin) as [ss [E [Hs Hn]]].
      + intros f Hf'. apply H2. eapply Permutation_in; [apply Hls|auto].
      + destruct sizes as [|s0 ?]; [congruence|]. exists s0. eapply Permutation_in; [apply Permutation_sym, Hls|]. apply (Hnames s0). left; auto.
      + exists ss. split; [|intros; unfold lift; rewrite E; auto]. apply NoDup_Permutation; [apply Hn; eapply Permutation_NoDup; [apply Permutation_sym, Hls|auto]|auto|].
        intros s. rewrite Hs, H1. split; apply Permutation_in; [apply Hls|apply Permutation_sym, Hls]. }
  destruct (filter_read a d k shapes comps Hfl) as [flt [Eflt Hsame]]. exists sizes', flt. split; auto. split; auto.
  unfold script. rewrite Hpo, Hen, Hdi, Hac. cbn [length Nat.eqb negb andb].
  erewrite bind_quiet by reflexivity. erewrite bind_quiet by reflexivity. erewrite bind_quiet by reflexivity. erewrite bind_quiet by reflexivity. cbn [default].
  replace (match a_input a with Some x => x | None => "polya.out"%string end) with (input_of a) by reflexivity.
  replace (default (a_outfile a) "enum.in") with (output_of a) by reflexivity. replace (default (a_input a) "polya.out") with (input_of a) by reflexivity.
  unfold enum_in_step. assert (globbed (input_of a) d = true) as Hgl.
  { apply globbed_iff. destruct sizes as [|s0 ?]; [congruence|]. exists (str s0). apply (Hnames s0). left; auto. }
  erewrite bind_quiet by (unfold alook; rewrite Hgl; reflexivity). erewrite bind_quiet by reflexivity. erewrite bind_quiet by (apply number_read; eauto).
  erewrite bind_quiet by reflexivity. erewrite bind_quiet by (apply Hread; auto). erewrite bind_quiet by exact Eflt. erewrite bind_quiet by (unfold lift; rewrite Hkind; reflexivity).
  erewrite bind_quiet by reflexivity. unfold abind, lift. change (fun s => dfile d (sized (input_of a) s)) with (fun s => dfile d (count_name a s)).
  destruct (make_enum_in _ sizes' ft wanted flt (e_rnd0 e) (a_savedist a)) as [[t|]|x]; reflexivity.
Qed.
Lemma counts_there_perm a d sizes sizes' hnfs concs count k : Permutation sizes' sizes -> counts_there a d sizes hnfs concs count k -> counts_there a d sizes' hnfs concs count k.
Proof.
  intros Hp [H1 [H2 [H3 [H4 [H5 [H6 [H7 [H8 H9]]]]]]]]. assert (forall s, In s sizes' -> In s sizes) as Hi by (intros s; apply Permutation_in; auto).
  split; [eapply Permutation_NoDup; [apply Permutation_sym; eauto|auto]|]. split; [intros ->; apply Permutation_nil in Hp; congruence|]. do 6 (split; [auto; intros; eauto|]).
  unfold grand_total in *. rewrite (total_perm _ _ _ Hp). auto.
Qed.

(** The keys of the distribution, by the filters as they are asked for. *)
Lemma filters_same (flt : filter_by) (sizes : list Z) (hnfs concs : Z -> list (list Z)) k shapes comps : same_filter flt k shapes comps ->
  (forall s h, In s sizes -> In h (hnfs s) -> length h = 6%nat) -> (forall s c, In s sizes -> In c (concs s) -> length c = k) ->
  forall s, In s sizes -> filter (keep_h flt) (hnfs s) = filter shapes (hnfs s) /\ filter (keep_c flt) (concs s) = filter comps (concs s).
Proof. intros [K1 K2] H1 H2 s Hs. split; apply filter_ext_in; [intros h Hh; apply K1; eauto|intros c Hc; apply K2; eauto]. Qed.
Lemma available_same sizes h h' c c' count k : (forall s, In s sizes -> h s = h' s /\ c s = c' s) -> In (fst (fst k)) sizes -> available h c count k = available h' c' count k.
Proof. intros H. destruct k as [[s [x|]] [y|]]; cbn [fst available]; intros Hs; destruct (H s Hs) as [E1 E2]; rewrite ?E1, ?E2; auto. Qed.
Lemma kind_same sizes h h' c c' a b k : (forall s, In s sizes -> h s = h' s /\ c s = c' s) -> kind sizes h c a b k <-> kind sizes h' c' a b k.
Proof. intros H. destruct k as [[s x] y]. unfold kind. split; intros [Hs K]; (split; [auto|]); destruct (H s Hs) as [E1 E2]; rewrite E1, E2 in *; auto. Qed.

Definition kept (p : list Z -> bool) (l : Z -> list (list Z)) (s : Z) : list (list Z) := filter p (l s).

(** ** C73 *)
(** Everything that is there, or at least as much as there is: enum.in asks, for each of the sizes, each shape and each
    composition that the filter keeps, for all the structures of which there is one, and for nothing else. *)
Theorem C73_everything : forall e a d sizes hnfs concs count k kind word wanted shapes comps,
  distribution_command a kind word -> lower_all kind = "all"%string -> number_asked word wanted -> input_of a <> EmptyString -> lists_names e d ->
  counts_there a d sizes hnfs concs count k -> sizes_asked a d sizes -> filter_asked a d k shapes comps ->
  (forall n, wanted = Some n -> grand_total sizes (kept shapes hnfs) (kept comps concs) count <= n) ->
  exists text systems, script e a d = ([(output_of a, text)], Ok tt) /\ read_enum text = Ok systems /\ NoDup (map fst systems) /\
    forall h c v, In (h, c, v) systems <-> exists s, In s sizes /\ In h (kept shapes hnfs s) /\ In c (kept comps concs s) /\ v = count s h c /\ 0 < v.
Proof.
  intros e a d sizes hnfs concs count k kind word wanted shapes comps Hcmd Hkind Hnum Hin Hls Hct Hask Hfl Hw.
  assert (kind_of kind = Ok FAll) as Hft by (unfold kind_of; rewrite Hkind; reflexivity).
  destruct (command_runs e a d kind word wanted FAll sizes hnfs concs count k shapes comps Hcmd Hft Hnum Hct Hask Hls Hfl Hin) as [sizes' [flt [Hperm [[Hsame Hconc] Hrun]]]].
  pose proof (counts_there_perm _ _ _ _ _ _ _ _ Hperm Hct) as [H1 [H2 [H3 [H4 [H5 [H6 [H7 [H8 H9]]]]]]]].
  pose proof (filters_same flt sizes' hnfs concs k shapes comps Hsame (fun s h A B => proj1 (proj1 (H6 s h A B))) (fun s c A B => proj2 (H5 s c A B))) as Hflt.
  rewrite Hrun. rewrite (enum_in_is _ sizes' hnfs concs count k H3 H4 H5 H6 H7 H9).
  set (tabs := fun s => dget Z.eqb (map (fun s => (s, polya_table (concs s) (hnfs s) (count s))) sizes') s) in *.
  destruct (distribute_everything tabs sizes' hnfs concs count flt H1) with (ft := FAll) (wanted := wanted) (rnd := e_rnd0 e) as [A1 [A2 [A3 A4]]]; auto; try (intros; apply H4; auto; fail).
  { intros s Hs. apply (tabs_ok sizes' hnfs concs count); auto. }
  { destruct flt; exact Logic.I. }
  { intros n En. etransitivity; [|apply (Hw n En)]. unfold grand_total. rewrite <- (total_perm _ _ _ Hperm). apply Z.eq_le_incl, total_ext_in. intros s Hs. apply (available_same sizes'); auto. }
  set (distr := distribute tabs sizes' FAll wanted flt (e_rnd0 e)) in *.
  assert (forall s h c v, In ((s, h, c), v) distr -> exists h' c', h = Some h' /\ c = Some c' /\ In s sizes' /\ In h' (kept shapes hnfs s) /\ In c' (kept comps concs s) /\ v = count s h' c' /\ 0 < v) as Hd.
  { intros s h c v Hi. destruct (A2 _ _ Hi) as [[B1 [B2 B3]] [B4 B5]]. destruct h as [h'|]; [|discriminate]. destruct c as [c'|]; [|discriminate]. exists h', c'. cbn [available] in B4. destruct (Hflt s B1) as [F1 F2]. rewrite F1 in B2. rewrite F2 in B3. unfold kept. intuition auto. }
  destruct (all_text sizes' hnfs concs k H5 H6 distr) as [text [systems [E1 [E2 [E3 [_ E5]]]]]].
  { intros s h c v Hi. destruct (Hd s h c v Hi) as [h' [c' [-> [-> [D1 [D2 [D3 [D4 D5]]]]]]]]. apply filter_In in D2, D3. exists h', c'. repeat split; try tauto. subst v. pose proof (count_total sizes' hnfs concs count H7 s h' c' D1 (proj1 D2) (proj1 D3)). assert (2 ^ 61 < 2 ^ 63) by reflexivity. lia. }
  { exact A3. }
  exists text, systems. rewrite E1. cbn [rbind]. split; [reflexivity|]. split; [exact E2|]. split; [exact E3|].
  intros h c v. rewrite E5. split.
  - intros [s Hi]. destruct (Hd _ _ _ _ Hi) as [h' [c' [Eh [Ec D]]]]. injection Eh as <-. injection Ec as <-. exists s. split; [eapply Permutation_in; [exact Hperm|]; tauto|tauto].
  - intros [s [D1 [D2 [D3 [D4 D5]]]]]. exists s. assert (In s sizes') as Hs by (eapply Permutation_in; [apply Permutation_sym, Hperm|auto]).
    specialize (A1 (s, Some h, Some c)). destruct (Hflt s Hs) as [F1 F2]. assert (requested key_eqb distr (s, Some h, Some c) = v) as Er.
    { rewrite A1; [cbn [available]; auto|]. unfold DistSpec.kind. cbn [by_shape by_conc]. rewrite F1, F2. auto. }
    unfold requested in Er. destruct (find (fun kv => key_eqb (s, Some h, Some c) (fst kv)) distr) as [[k0 v0]|] eqn:Ef; [|lia].
    apply find_some in Ef. destruct Ef as [Hi Hk]. apply key_eqb_spec in Hk. cbn [fst] in Hk. subst k0 v0. exact Hi.
Qed.
(** A number n less than all: for every stream of random numbers, what enum.in asks for exists (for every shape and
    composition at most four times what there is), once each, and exceeds n in total by less than the largest count m. *)
Theorem C73_number_partial : forall e a d sizes hnfs concs count k kind word n m shapes comps,
  distribution_command a kind word -> lower_all kind = "all"%string -> word = str n -> input_of a <> EmptyString -> lists_names e d ->
  counts_there a d sizes hnfs concs count k -> sizes_asked a d sizes -> filter_asked a d k shapes comps ->
  0 <= n < grand_total sizes (kept shapes hnfs) (kept comps concs) count ->
  (forall s h c, In s sizes -> In h (kept shapes hnfs s) -> In c (kept comps concs s) -> count s h c <= m) -> 1 <= m ->
  exists text systems, script e a d = ([(output_of a, text)], Ok tt) /\ read_enum text = Ok systems /\ NoDup (map fst systems) /\
    (forall h c v, In (h, c, v) systems -> exists s, In s sizes /\ In h (kept shapes hnfs s) /\ In c (kept comps concs s) /\ 0 < v <= 4 * count s h c) /\
    total snd systems <= n + m - 1.
Proof.
  intros e a d sizes hnfs concs count k kind word n m shapes comps Hcmd Hkind Hnum Hin Hls Hct Hask Hfl Hn Hm Hm1.
  assert (kind_of kind = Ok FAll) as Hft by (unfold kind_of; rewrite Hkind; reflexivity).
  assert (number_asked word (Some n)) as Hnum' by (right; exists n; auto).
  destruct (command_runs e a d kind word (Some n) FAll sizes hnfs concs count k shapes comps Hcmd Hft Hnum' Hct Hask Hls Hfl Hin) as [sizes' [flt [Hperm [[Hsame Hconc] Hrun]]]].
  assert (forall s, In s sizes' -> In s sizes) as Hs' by (intros s; apply Permutation_in; auto).
  pose proof (counts_there_perm _ _ _ _ _ _ _ _ Hperm Hct) as [H1 [H2 [H3 [H4 [H5 [H6 [H7 [H8 H9]]]]]]]].
  pose proof (filters_same flt sizes' hnfs concs k shapes comps Hsame (fun s h A B => proj1 (proj1 (H6 s h A B))) (fun s c A B => proj2 (H5 s c A B))) as Hflt.
  rewrite Hrun. rewrite (enum_in_is _ sizes' hnfs concs count k H3 H4 H5 H6 H7 H9).
  set (tabs := fun s => dget Z.eqb (map (fun s => (s, polya_table (concs s) (hnfs s) (count s))) sizes') s) in *.
  destruct (random_bounds tabs sizes' hnfs concs count flt H1) with (ft := FAll) (n := n) (m := m) (rnd := e_rnd0 e) as [A1 [A2 A3]]; auto; try (intros; apply H4; auto; fail).
  { intros s Hs. apply (tabs_ok sizes' hnfs concs count); auto. }
  { destruct flt; exact Logic.I. }
  { enough (grand_total sizes' (fun s => filter (keep_h flt) (hnfs s)) (fun s => filter (keep_c flt) (concs s)) count = grand_total sizes (kept shapes hnfs) (kept comps concs) count) as -> by auto.
    unfold grand_total. rewrite <- (total_perm _ _ _ Hperm). apply total_ext_in. intros s Hs. apply (available_same sizes'); auto. }
  { intros [[s h] c] [B1 [B2 B3]]. destruct h as [h|]; [|discriminate B2]. destruct c as [c|]; [|discriminate B3]. destruct (Hflt s B1) as [F1 F2]. cbn [available]. apply Hm; auto; unfold kept; [rewrite <- F1; apply B2|rewrite <- F2; apply B3]. }
  set (distr := distribute tabs sizes' FAll (Some n) flt (e_rnd0 e)) in *.
  assert (forall s h c v, In ((s, h, c), v) distr -> exists h' c', h = Some h' /\ c = Some c' /\ In s sizes' /\ In h' (kept shapes hnfs s) /\ In c' (kept comps concs s) /\ 0 < v <= 4 * count s h' c') as Hd.
  { intros s h c v Hi. destruct (A2 _ _ Hi) as [[B1 [B2 B3]] B4]. destruct h as [h'|]; [|discriminate]. destruct c as [c'|]; [|discriminate]. exists h', c'. cbn [available] in B4. destruct (Hflt s B1) as [F1 F2]. rewrite F1 in B2. rewrite F2 in B3. unfold kept. intuition auto. }
  destruct (all_text sizes' hnfs concs k H5 H6 distr) as [text [systems [E1 [E2 [E3 [E4 E5]]]]]].
  { intros s h c v Hi. destruct (Hd s h c v Hi) as [h' [c' [-> [-> [D1 [D2 [D3 D4]]]]]]]. apply filter_In in D2, D3. exists h', c'. repeat split; try tauto. pose proof (count_total sizes' hnfs concs count H7 s h' c' D1 (proj1 D2) (proj1 D3)). assert (2 ^ 63 = 4 * 2 ^ 61) by reflexivity. lia. }
  { exact A1. }
  exists text, systems. rewrite E1. cbn [rbind]. split; [reflexivity|]. split; [exact E2|]. split; [exact E3|]. split.
  - intros h c v Hi. apply E5 in Hi. destruct Hi as [s Hi]. destruct (Hd _ _ _ _ Hi) as [h' [c' [Eh [Ec D]]]]. injection Eh as <-. injection Ec as <-. exists s. split; [apply Hs'; tauto|tauto].
  - unfold total in *. rewrite E4. exact A3.
Qed.
(** The other distributions: nothing is written, or with [-savedist] a table of all that is there: per shape, per size and
    composition, per size. *)
Theorem C73_not_saved : forall e a d sizes hnfs concs count k kind word wanted shapes comps,
  distribution_command a kind word -> In (lower_all kind) ["shape"; "conc"; "size"]%string -> number_asked word wanted -> input_of a <> EmptyString -> lists_names e d ->
  counts_there a d sizes hnfs concs count k -> sizes_asked a d sizes -> filter_asked a d k shapes comps -> a_savedist a = false -> script e a d = ([], Ok tt).
Proof.
  intros e a d sizes hnfs concs count k kind word wanted shapes comps Hcmd Hkind Hnum Hin Hls Hct Hask Hfl Hsave.
  assert (exists ft, kind_of kind = Ok ft /\ ft <> FAll) as [ft [Hft Hno]] by (unfold kind_of; destruct Hkind as [<-|[<-|[<-|[]]]]; eexists; (split; [reflexivity|discriminate])).
  destruct (command_runs e a d kind word wanted ft sizes hnfs concs count k shapes comps Hcmd Hft Hnum Hct Hask Hls Hfl Hin) as [sizes' [flt [Hperm [[Hsame Hconc] Hrun]]]].
  pose proof (counts_there_perm _ _ _ _ _ _ _ _ Hperm Hct) as [H1 [H2 [H3 [H4 [H5 [H6 [H7 [H8 H9]]]]]]]].
  rewrite Hrun. rewrite (enum_in_is _ sizes' hnfs concs count k H3 H4 H5 H6 H7 H9). rewrite Hsave. destruct ft; congruence.
Qed.
(** The row of a table: the shape; the size and the composition; the size; then the number. *)
Definition saved_row (kind : string) (hnfs concs : Z -> list (list Z)) (count : Z -> list Z -> list Z -> Z) (s : Z) (row : list Z) : Prop :=
  (kind = "shape"%string /\ exists h, In h (hnfs s) /\ row = h ++ [total (count s h) (concs s)] /\ 0 < total (count s h) (concs s)) \/
  (kind = "conc"%string /\ exists c, In c (concs s) /\ row = s :: c ++ [total (fun h => count s h c) (hnfs s)] /\ 0 < total (fun h => count s h c) (hnfs s)) \/
  (kind = "size"%string /\ row = [s; total (fun h => total (count s h) (concs s)) (hnfs s)] /\ 0 < total (fun h => total (count s h) (concs s)) (hnfs s)).
Lemma keys_row_inj ft kv kv' : ft <> FAll -> (forall k, In k [kv; kv'] -> (exists s, fst (fst (fst k)) = s) /\ (ft = FShape -> exists h, snd (fst (fst k)) = Some h /\ snd (fst k) = None /\ nth 0 h 0 * nth 2 h 0 * nth 5 h 0 = fst (fst (fst k)) /\ length h = 6%nat) /\ (ft = FConc -> snd (fst (fst k)) = None /\ exists c, snd (fst k) = Some c) /\ (ft = FSize -> snd (fst (fst k)) = None /\ snd (fst k) = None)) ->
  keys_row ft kv = keys_row ft kv' -> kv = kv'.
Proof.
  intros Hf H E. destruct kv as [[[s h] c] v], kv' as [[[s' h'] c'] v']. pose proof (H _ (or_introl eq_refl)) as [_ [K1 [K2 K3]]]. pose proof (H _ (or_intror (or_introl eq_refl))) as [_ [K1' [K2' K3']]]. cbn [fst snd] in *.
  destruct ft; [congruence| | |]; cbn [keys_row] in E.
  - destruct (K1 eq_refl) as [x [-> [-> [Es _]]]]. destruct (K1' eq_refl) as [x' [-> [-> [Es' _]]]]. cbn [of_conc] in E. rewrite !app_nil_r in E. apply app_inj_tail in E. destruct E as [-> ->]. congruence.
  - destruct (K2 eq_refl) as [-> [y ->]]. destruct (K2' eq_refl) as [-> [y' ->]]. cbn [of_conc] in E. apply app_inj_tail in E. destruct E as [E ->]. injection E as -> ->. auto.
  - destruct (K3 eq_refl) as [-> ->]. destruct (K3' eq_refl) as [-> ->]. cbn in E. congruence.
Qed.
Theorem C73_saved_partial : forall e a d sizes hnfs concs count k kind word wanted shapes comps,
  distribution_command a kind word -> In (lower_all kind) ["shape"; "conc"; "size"]%string -> number_asked word wanted -> input_of a <> EmptyString -> lists_names e d ->
  counts_there a d sizes hnfs concs count k -> sizes_asked a d sizes -> filter_asked a d k shapes comps -> a_savedist a = true ->
  (lower_all kind = "shape"%string -> forall f, a_filter a <> Some ("conc"%string, f)) ->
  (forall n, wanted = Some n -> grand_total sizes (kept shapes hnfs) (kept comps concs) count <= n) ->
  exists text rows, script e a d = ([(output_of a, text)], Ok tt) /\ loadtxt text = Ok rows /\ NoDup rows /\
    forall row, In row rows <-> exists s, In s sizes /\ saved_row (lower_all kind) (kept shapes hnfs) (kept comps concs) count s row.
Proof.
  intros e a d sizes hnfs concs count k kind word wanted shapes comps Hcmd Hkind Hnum Hin Hls Hct Hask Hfl Hsave Hfair Hw.
  assert (exists ft, kind_of kind = Ok ft /\ ft <> FAll /\ (ft = FShape -> lower_all kind = "shape"%string)) as [ft [Hft [Hno Hsh]]].
  { unfold kind_of. destruct Hkind as [<-|[<-|[<-|[]]]]; eexists; (split; [reflexivity|split; [discriminate|intros; congruence]]). }
  destruct (command_runs e a d kind word wanted ft sizes hnfs concs count k shapes comps Hcmd Hft Hnum Hct Hask Hls Hfl Hin) as [sizes' [flt [Hperm [[Hsame Hconc] Hrun]]]].
  pose proof (counts_there_perm _ _ _ _ _ _ _ _ Hperm Hct) as [H1 [H2 [H3 [H4 [H5 [H6 [H7 [H8 H9]]]]]]]].
  pose proof (filters_same flt sizes' hnfs concs k shapes comps Hsame (fun s h A B => proj1 (proj1 (H6 s h A B))) (fun s c A B => proj2 (H5 s c A B))) as Hflt.
  rewrite Hrun. rewrite (enum_in_is _ sizes' hnfs concs count k H3 H4 H5 H6 H7 H9).
  set (tabs := fun s => dget Z.eqb (map (fun s => (s, polya_table (concs s) (hnfs s) (count s))) sizes') s) in *.
  destruct (distribute_everything tabs sizes' hnfs concs count flt H1) with (ft := ft) (wanted := wanted) (rnd := e_rnd0 e) as [A1 [A2 [A3 A4]]]; auto; try (intros; apply H4; auto; fail).
  { intros s Hs. apply (tabs_ok sizes' hnfs concs count); auto. }
  { destruct flt as [| |l]; try exact Logic.I. destruct (Hconc l eq_refl) as [f Ef]. destruct ft; try exact Logic.I. exfalso. apply (Hfair (Hsh eq_refl) f Ef). }
  { intros n En. etransitivity; [|apply (Hw n En)]. unfold grand_total. rewrite <- (total_perm _ _ _ Hperm). apply Z.eq_le_incl, total_ext_in. intros s Hs. apply (available_same sizes'); auto. }
  set (distr := distribute tabs sizes' ft wanted flt (e_rnd0 e)) in *.
  assert (forall s h c v, In ((s, h, c), v) distr -> In s sizes' /\ match h with Some h => by_shape ft = true /\ In h (kept shapes hnfs s) | None => by_shape ft = false end /\
    match c with Some c => by_conc ft = true /\ In c (kept comps concs s) | None => by_conc ft = false end /\ v = available (kept shapes hnfs) (kept comps concs) count (s, h, c) /\ 0 < v) as Hd.
  { intros s h c v Hi. destruct (A2 _ _ Hi) as [[B1 [B2 B3]] [B4 B5]]. destruct (Hflt s B1) as [F1 F2]. rewrite F1 in B2. rewrite F2 in B3. split; auto. split; auto. split; auto. split; auto. rewrite B4. apply (available_same sizes'); auto. }
  assert (forall s h c, In s sizes' -> match h with Some h => by_shape ft = true /\ In h (kept shapes hnfs s) | None => by_shape ft = false end ->
    match c with Some c => by_conc ft = true /\ In c (kept comps concs s) | None => by_conc ft = false end -> 0 < available (kept shapes hnfs) (kept comps concs) count (s, h, c) -> In ((s, h, c), available (kept shapes hnfs) (kept comps concs) count (s, h, c)) distr) as Hd'.
  { intros s h c Hs Hh Hc Hv. destruct (Hflt s Hs) as [F1 F2].
    assert (requested key_eqb distr (s, h, c) = available (kept shapes hnfs) (kept comps concs) count (s, h, c)) as Er.
    { rewrite A1; [apply (available_same sizes'); auto|]. unfold DistSpec.kind. rewrite F1, F2. auto. }
    unfold requested in Er. destruct (find (fun kv => key_eqb (s, h, c) (fst kv)) distr) as [[k0 v0]|] eqn:Ef; [|lia].
    apply find_some in Ef. destruct Ef as [Hi Hk]. apply key_eqb_spec in Hk. cbn [fst] in Hk. subst k0 v0. exact Hi. }
  assert (forall s h c v, In ((s, h, c), v) distr -> ft = FShape -> exists h', h = Some h' /\ c = None) as Hs1.
  { intros s h c v Hi ->. destruct (Hd s h c v Hi) as [_ [B1 [B2 _]]]. destruct h as [h|]; [|discriminate B1]. destruct c as [c|]; [destruct B2; discriminate|]. eauto. }
  assert (forall s, In s sizes' -> total (fun h => total (count s h) (kept comps concs s)) (kept shapes hnfs s) <= grand_total sizes' hnfs concs count) as Hbound.
  { intros s Hs. etransitivity; [|apply (size_total sizes' hnfs concs count H7 s Hs)]. unfold kept.
    assert (forall (A : Type) (p : A -> bool) (f : A -> Z) l, (forall x, In x l -> 0 <= f x) -> total f (filter p l) <= total f l) as Hle.
    { intros A p f l H. unfold total. induction l as [|x l IH]; [cbn; lia|]. assert (0 <= f x) by (apply H; left; auto). assert (forall y, In y l -> 0 <= f y) as H' by (intros; apply H; right; auto). specialize (IH H'). cbn [filter map fold_right]. destruct (p x); cbn [map fold_right]; lia. }
    etransitivity; [apply Hle; intros h Hh; apply total_nonneg; intros c Hc; apply filter_In in Hc; apply H7; tauto|].
    assert (forall l, incl l (hnfs s) -> total (fun h => total (count s h) (filter comps (concs s))) l <= total (fun h => total (count s h) (concs s)) l) as Hll; [|apply Hll, incl_refl].
    intros l Hl. unfold total at 1 3. induction l as [|h l IH]; [cbn; lia|]. cbn [map fold_right]. assert (total (count s h) (filter comps (concs s)) <= total (count s h) (concs s)) by (apply Hle; intros; apply H7; auto; apply Hl; left; auto).
    assert (incl l (hnfs s)) as Hl' by (intros x Hx; apply Hl; right; auto). specialize (IH Hl'). lia. }
  assert (forall s, In s sizes' -> forall h c, In h (kept shapes hnfs s) -> In c (kept comps concs s) -> 0 <= count s h c) as Hpk by (intros s Hs h c Hh Hc; apply filter_In in Hh, Hc; apply H7; tauto).
  assert (forall s h c v, In ((s, h, c), v) distr -> 0 < v < 2 ^ 63) as Hv.
  { intros s h c v Hi. destruct (Hd s h c v Hi) as [B1 [B2 [B3 [B4 B5]]]]. split; auto. specialize (Hbound s B1). assert (2 ^ 61 < 2 ^ 63) by reflexivity.
    enough (v <= total (fun h => total (count s h) (kept comps concs s)) (kept shapes hnfs s)) by lia. subst v. destruct h as [h|], c as [c|]; cbn [available].
    - destruct (total_member (fun h => total (count s h) (kept comps concs s)) (kept shapes hnfs s) h); [intros; apply total_nonneg; intros; apply Hpk; auto|apply B2|]. destruct (total_member (count s h) (kept comps concs s) c); [intros; apply Hpk; auto; apply B2|apply B3|]. lia.
    - apply (total_member (fun h => total (count s h) (kept comps concs s)) (kept shapes hnfs s) h); [intros; apply total_nonneg; intros; apply Hpk; auto|apply B2].
    - rewrite total_swap. apply (total_member (fun c => total (fun h => count s h c) (kept shapes hnfs s)) (kept comps concs s) c); [intros; apply total_nonneg; intros; apply Hpk; auto|apply B3].
    - apply Z.le_refl. }
  destruct (kind_text ft distr (match ft with FShape => 7 | FConc => 2 + k | _ => 2 end) Hno Hs1) as [text [E1 E2]].
  { intros [[[s h] c] v] Hi. destruct (Hd s h c v Hi) as [B1 [B2 [B3 _]]]. pose proof (Hv s h c v Hi) as Hv1. specialize (H8 s B1). pose proof (int64_range v ltac:(lia)) as I1. pose proof (int64_range s ltac:(lia)) as I2.
    destruct ft; [congruence| | |]; cbn [by_shape by_conc] in *.
    - destruct h as [h|]; [|discriminate]. destruct c as [c|]; [destruct B3; discriminate|]. destruct B2 as [_ B2]. apply filter_In in B2. destruct (H6 s h B1 (proj1 B2)) as [Hwh _]. cbn [keys_row of_conc]. rewrite app_nil_r, app_length. destruct (writable_columns h Hwh) as [L1 [_ L2]]. rewrite L1. split; [auto|]. apply Forall_app. auto.
    - destruct c as [c|]; [|discriminate]. destruct h as [h|]; [destruct B2; discriminate|]. destruct B3 as [_ B3]. apply filter_In in B3. destruct (H5 s c B1 (proj1 B3)) as [[_ Hwc] Hk]. cbn [keys_row of_conc app length]. rewrite app_length, Hk. split; [cbn; lia|]. constructor; auto. apply Forall_app. split; auto.
      eapply Forall_impl; [|apply Hwc]. intros z Hz. apply int64_small. cbn in Hz. lia.
    - cbn. auto. }
  exists text, (map (keys_row ft) distr). replace (match ft with FAll => _ | _ => _ end) with (Ok (Some text)) by (destruct ft; [congruence|rewrite Hsave, E1; reflexivity ..]). split; [reflexivity|]. split; [exact E2|]. split.
  - apply NoDup_map_inj; [|apply (NoDup_map_inv fst); auto]. intros kv kv' Hi Hi' E. apply (keys_row_inj ft); auto. assert (forall k0, In k0 distr -> (exists s, fst (fst (fst k0)) = s) /\ (ft = FShape -> exists h, snd (fst (fst k0)) = Some h /\ snd (fst k0) = None /\ nth 0 h 0 * nth 2 h 0 * nth 5 h 0 = fst (fst (fst k0)) /\ length h = 6%nat) /\ (ft = FConc -> snd (fst (fst k0)) = None /\ exists c, snd (fst k0) = Some c) /\ (ft = FSize -> snd (fst (fst k0)) = None /\ snd (fst k0) = None)) as Hall; [|intros k0 [<-|[<-|[]]]; auto].
    intros [[[s h] c] v] Hx. cbn [fst snd]. destruct (Hd s h c v Hx) as [B1 [B2 [B3 _]]].
    (split; [eauto|]); (split; [|split]); intros ->; cbn [by_shape by_conc] in *.
    all: try (destruct h as [h|]; [|discriminate B2]; destruct c as [c|]; [destruct B3; discriminate|]; destruct B2 as [_ B2]; apply filter_In in B2; destruct (H6 s h B1 (proj1 B2)) as [[Hl _] Hz]; exists h; auto).
    all: try (destruct h as [h|]; [destruct B2; discriminate|]; destruct c as [c|]; [|discriminate B3]; eauto).
    all: try (destruct h as [h|]; [destruct B2; discriminate|]; destruct c as [c|]; [destruct B3; discriminate|]; auto).
  - intros row. rewrite in_map_iff. assert (lower_all kind = match ft with FAll => "all" | FShape => "shape" | FConc => "conc" | FSize => "size" end%string) as Ek.
    { unfold kind_of in Hft. destruct Hkind as [Ek|[Ek|[Ek|[]]]]; rewrite <- Ek in *; cbn in Hft; injection Hft as <-; auto. }
    rewrite Ek. split.
    + intros [[[[s h] c] v] [<- Hi]]. destruct (Hd s h c v Hi) as [B1 [B2 [B3 [B4 B5]]]]. exists s. split; [eapply Permutation_in; [exact Hperm|auto]|]. unfold saved_row. destruct ft; [congruence| | |]; cbn [by_shape by_conc] in *.
      * left. split; auto. destruct h as [h|]; [|discriminate]. destruct c as [c|]; [destruct B3; discriminate|]. cbn [available] in B4. exists h. cbn [keys_row of_conc]. rewrite app_nil_r. subst v. repeat split; try tauto; auto.
      * right; left. split; auto. destruct c as [c|]; [|discriminate]. destruct h as [h|]; [destruct B2; discriminate|]. cbn [available] in B4. exists c. cbn [keys_row of_conc app]. subst v. repeat split; try tauto; auto.
      * right; right. split; auto. destruct c as [c|]; [destruct B3; discriminate|]. destruct h as [h|]; [destruct B2; discriminate|]. cbn [available] in B4. cbn [keys_row app]. subst v. auto.
    + intros [s [Hs Hrow]]. assert (In s sizes') as Hs'' by (eapply Permutation_in; [apply Permutation_sym, Hperm|auto]). destruct Hrow as [[E [h [Hh [-> Hpos]]]]|[[E [c [Hc [-> Hpos]]]]|[E [-> Hpos]]]]; destruct ft; try congruence.
      * exists ((s, Some h, None), available (kept shapes hnfs) (kept comps concs) count (s, Some h, None)). split; [cbn [keys_row of_conc available]; rewrite app_nil_r; reflexivity|]. apply Hd'; auto.
      * exists ((s, None, Some c), available (kept shapes hnfs) (kept comps concs) count (s, None, Some c)). split; [reflexivity|]. apply Hd'; auto.
      * exists ((s, None, None), available (kept shapes hnfs) (kept comps concs) count (s, None, None)). split; [reflexivity|]. apply Hd'; auto.
Qed.
(** A size without counts, or words that are none of the above: an error, and nothing is written. *)
Theorem C73_errors : forall e a d kind word, distribution_command a kind word -> lists_names e d -> (exists r, In (input_of a ++ "." ++ r)%string (names d)) ->
  (forall lo hi s wanted, number_asked word wanted -> a_sizes a = Some (lo, hi) -> lo <= s < hi -> ~ In (count_name a s) (names d) -> script e a d = ([], Err ValueError)) /\
  (lower_all word <> "all"%string -> int_of word = Err ValueError -> script e a d = ([], Err ValueError)) /\
  (forall sizes hnfs concs count k wanted shapes comps, number_asked word wanted -> input_of a <> EmptyString -> counts_there a d sizes hnfs concs count k -> sizes_asked a d sizes -> filter_asked a d k shapes comps ->
     ~ In (lower_all kind) ["all"; "shape"; "conc"; "size"]%string -> script e a d = ([], Err ValueError)) /\
  (forall sizes hnfs concs count k wanted f, number_asked word wanted -> input_of a <> EmptyString -> counts_there a d sizes hnfs concs count k -> sizes_asked a d sizes -> forall fk, a_filter a = Some (fk, f) ->
     (dfile d f = None -> script e a d = ([], Err IOError)) /\ (dfile d f <> None -> fk <> "shape"%string -> fk <> "conc"%string -> script e a d = ([], Err ValueError))).
Proof.
  intros e a d kind word [Hpo [Hen [Hdi [r0 Hac]]]] [Hnd Hls] [r Hr].
  assert (globbed (input_of a) d = true) as Hgl by (apply globbed_iff; eauto).
  assert (script e a d = abind (lift (if String.eqb (lower_all word) "all" then Ok None else do n <- int_of word; Ok (Some n))) (fun wanted =>
      abind (alook (fun d => e_listdir e (names d))) (fun files =>
      abind (lift (match a_sizes a with
                   | None => found_sizes (input_of a) files
                   | Some (lo, hi) => let ss := range_up lo hi in
                       if forallb (fun s => existsb (String.eqb (sized (input_of a) s)) files) ss then Ok ss else Err ValueError
                   end)) (fun sizes =>
      abind (filter_step (a_filter a)) (fun flt =>
      abind (lift (kind_of kind)) (fun ft =>
      abind (alook (fun d s => dfile d (sized (input_of a) s))) (fun file =>
      abind (lift (make_enum_in file sizes ft wanted flt (e_rnd0 e) (a_savedist a))) (fun t =>
      match t with Some t => awrite (output_of a) t | None => aret tt end))))))) d) as E.
  { unfold script. rewrite Hpo, Hen, Hdi, Hac. cbn [length Nat.eqb negb andb].
    erewrite bind_quiet by reflexivity. erewrite bind_quiet by reflexivity. erewrite bind_quiet by reflexivity. erewrite bind_quiet by reflexivity. cbn [default].
    replace (default (a_outfile a) "enum.in") with (output_of a) by reflexivity. replace (default (a_input a) "polya.out") with (input_of a) by reflexivity.
    unfold enum_in_step. erewrite bind_quiet by (unfold alook; rewrite Hgl; reflexivity). erewrite bind_quiet by reflexivity. reflexivity. }
  rewrite E. clear E.
  assert (forall sizes hnfs concs count k, input_of a <> EmptyString -> counts_there a d sizes hnfs concs count k -> sizes_asked a d sizes ->
    exists ss, lift (match a_sizes a with None => found_sizes (input_of a) (e_listdir e (names d)) | Some (lo, hi) => let ss := range_up lo hi in
      if forallb (fun s => existsb (String.eqb (sized (input_of a) s)) (e_listdir e (names d))) ss then Ok ss else Err ValueError end) d = ([], Ok ss)) as Hfound.
  { intros sizes hnfs concs count k Hin [Hsz [Hne [Hf _]]] Hask.
    assert (forall s, In s sizes -> In (count_name a s) (names d)) as Hnames by (intros s Hs; apply dfile_names; eauto).
    unfold sizes_asked in Hask. destruct (a_sizes a) as [[lo hi]|].
      - exists (range_up lo hi). unfold lift. cbn zeta.
        replace (forallb _ _) with true; [reflexivity|]. symmetry. apply forallb_forall. intros s Hs. apply existsb_exists. exists (count_name a s). split; [|apply String.eqb_refl].
        eapply Permutation_in; [apply Permutation_sym, Hls|]. apply Hnames, Hask. apply in_range_up in Hs. lia.
      - destruct Hask as [H1 H2]. destruct (C58_sizes_found (input_of a) (e_listdir e (names d)) Hin) as [ss [E [Hs Hn]]].
        + intros f Hf'. apply H2. eapply Permutation_in; [apply Hls|auto].
        + destruct sizes as [|s0 ?]; [congruence|]. exists s0. eapply Permutation_in; [apply Permutation_sym, Hls|]. apply (Hnames s0). left; auto.
        + exists ss. unfold lift. rewrite E. auto.
  }
  split; [|split; [|split]].
  - intros lo hi s wanted Hnum Hsz Hs Hno. erewrite bind_quiet by (apply number_read; eauto). erewrite bind_quiet by reflexivity. rewrite Hsz. cbn zeta.
    replace (forallb _ _) with false; [reflexivity|]. symmetry. destruct (forallb _ _) eqn:Ef; [|auto]. exfalso. rewrite forallb_forall in Ef. specialize (Ef s ltac:(apply in_range_up; lia)).
    apply existsb_exists in Ef. destruct Ef as [x [Hx Ex]]. apply String.eqb_eq in Ex. subst x. apply Hno. eapply Permutation_in; [apply Hls|exact Hx].
  - intros Hall Hint. apply String.eqb_neq in Hall. rewrite Hall, Hint. reflexivity.
  - intros sizes hnfs concs count k wanted shapes comps Hnum Hin Hcnt Hask Hfl Hkind.
    erewrite bind_quiet by (apply number_read; eauto). erewrite bind_quiet by reflexivity.
    destruct (Hfound _ _ _ _ _ Hin Hcnt Hask) as [ss Hread].
    erewrite bind_quiet by exact Hread. destruct (filter_read a d k shapes comps Hfl) as [flt [Eflt _]]. erewrite bind_quiet by exact Eflt.
    assert (kind_of kind = Err ValueError) as ->; [|reflexivity]. unfold kind_of.
    destruct (String.eqb_spec (lower_all kind) "all") as [Ek|_]; [exfalso; apply Hkind; rewrite Ek; cbn; auto|].
    destruct (String.eqb_spec (lower_all kind) "shape") as [Ek|_]; [exfalso; apply Hkind; rewrite Ek; cbn; auto|].
    destruct (String.eqb_spec (lower_all kind) "conc") as [Ek|_]; [exfalso; apply Hkind; rewrite Ek; cbn; auto|].
    destruct (String.eqb_spec (lower_all kind) "size") as [Ek|_]; [exfalso; apply Hkind; rewrite Ek; cbn; auto|]. reflexivity.
  - intros sizes hnfs concs count k wanted f Hnum Hin Hcnt Hask fk Ea. destruct (Hfound _ _ _ _ _ Hin Hcnt Hask) as [ss Hread].
    erewrite bind_quiet by (apply number_read; eauto). erewrite bind_quiet by reflexivity. erewrite bind_quiet by exact Hread. rewrite Ea. unfold filter_step. split.
    + intros Hno. unfold abind, aread. rewrite Hno. reflexivity.
    + intros Hthere H1 H2. destruct (dfile d f) as [t|] eqn:Et; [|congruence]. apply String.eqb_neq in H1, H2. unfold abind, aread. rewrite Et, H1, H2. reflexivity.
Qed.

(** *** A directory with the counts of the sizes 2 and 3, of which the first is asked for, and a filter of shapes *)
Definition dist_args (words : list string) (sizes : option (Z * Z)) (flt : option (string * string)) (save : bool) : args :=
  {| a_polya := false; a_enum := false; a_lattice := "lattice.in"; a_input := None; a_distribution := Some words; a_savedist := save; a_outfile := None;
     a_sizes := sizes; a_accept := Ok false; a_super := false; a_filter := flt |}.
Definition an_env : env := {| e_version := Py3; e_fuel := 0; e_listdir := fun l => l; e_rnd0 := fun _ => true; e_draw := fun _ _ _ => 0; e_rnd := fun _ _ => true; e_shuffled := fun _ l => l; e_date := "" |}.
Definition kept_shapes : list string := ["# the second shape only"; "1 0 1 0 1 2 and more # of it"; "1  0 1 0 1 2"]%string.
Definition counted_dir : dir := [("polya.out.2"%string, polya_file [[1; 1]; [2; 0]] two_shapes counts); ("polya.out.3"%string, polya_file [[1; 2]] [[1; 0; 1; 0; 0; 3]] (fun _ _ => 3)); ("keep"%string, text_of kept_shapes)].
Lemma kept_lines : filter_lines kept_shapes [[1; 0; 1; 0; 1; 2]].
Proof.
  apply (comment_line "" " the second shape only"). apply (comment_line "1 0 1 0 1 2 and more " " of it").
  apply row_line; [cbn; repeat split; discriminate|reflexivity|constructor].
Qed.
Definition shape_kept (h : list Z) : bool := zlist_eqb h (firstn (length h) [1; 0; 1; 0; 1; 2]).
Definition words_args (words : list string) : args := dist_args words (Some (2, 3)) (Some ("shape", "keep")%string) false.
Lemma dir_meets words : let a := words_args words in
  lists_names an_env counted_dir /\ counts_there a counted_dir [2] (fun _ => two_shapes) (fun _ => [[1; 1]; [2; 0]]) (fun _ => counts) 2 /\ sizes_asked a counted_dir [2] /\ filter_asked a counted_dir 2 shape_kept (fun _ => true).
Proof.
  cbn zeta. split; [|split; [|split]].
  - split; [|intros; apply Permutation_refl]. cbn. repeat constructor; cbn; intuition discriminate.
  - split; [repeat constructor; cbn; tauto|]. split; [discriminate|]. split; [intros s [<-|[]]; reflexivity|]. split; [intros s _; split; [|split; [|discriminate]]; repeat constructor; cbn; intuition discriminate|].
    split; [intros s c _ Hc; repeat (destruct Hc as [<-|Hc]; [split; [split; [cbn; lia|repeat constructor; lia]|reflexivity]|]); destruct Hc|].
    split; [intros s c [<-|[]] Hc; repeat (destruct Hc as [<-|Hc]; [split; [split; [reflexivity|repeat constructor; lia]|reflexivity]|]); destruct Hc|].
    split; [intros s h c _ Hh Hc; repeat (destruct Hh as [<-|Hh]; [repeat (destruct Hc as [<-|Hc]; [vm_compute; discriminate|]); destruct Hc|]); destruct Hh|].
    split; [intros s [<-|[]]; split; [lia|reflexivity]|reflexivity].
  - intros s. cbn. lia.
  - exists kept_shapes, [[1; 0; 1; 0; 1; 2]]. split; [reflexivity|]. split; [repeat constructor|]. split; [exact kept_lines|]. left. split; [auto|]. split; [|auto].
    intros h. unfold shape_kept. rewrite zlist_eqb_spec. split.
    + intros E. exists (skipn (length h) [1; 0; 1; 0; 1; 2]). left. rewrite E at 1. symmetry. apply firstn_skipn.
    + intros [rest [E|[]]]. rewrite E, firstn_app, Nat.sub_diag, firstn_all. cbn. rewrite app_nil_r. auto.
Qed.
Example C73_example : exists text systems,
  script an_env (words_args ["All"; "ALL"]%string) counted_dir = ([("enum.in"%string, text)], Ok tt) /\ read_enum text = Ok systems /\
  forall h c v, In (h, c, v) systems <-> (h, c, v) = ([1; 0; 1; 0; 1; 2], [1; 1], 7) \/ (h, c, v) = ([1; 0; 1; 0; 1; 2], [2; 0], 9).
Proof.
  destruct (dir_meets ["All"; "ALL"]%string) as [M1 [M2 [M3 M4]]].
  destruct (C73_everything an_env (words_args ["All"; "ALL"]%string) counted_dir [2] _ _ _ 2 "All" "ALL" None _ _ ltac:(repeat split; exists false; reflexivity) eq_refl ltac:(left; auto) ltac:(discriminate) M1 M2 M3 M4 ltac:(discriminate)) as [text [systems [H1 [H2 [_ H3]]]]].
  exists text, systems. split; [exact H1|]. split; [exact H2|]. intros h c v. rewrite H3. split.
  - intros [s [_ [Hh [Hc [-> _]]]]]. apply filter_In in Hh. destruct Hh as [Hh Hk]. apply filter_In in Hc. destruct Hc as [Hc _]. destruct Hh as [<-|[<-|[]]]; [discriminate Hk|]. destruct Hc as [<-|[<-|[]]]; auto.
  - intros [E|E]; inversion E; subst; exists 2; repeat split; cbn; auto; lia.
Qed.
Example C73_example_number : exists text systems,
  script an_env (words_args ["all"; "7"]%string) counted_dir = ([("enum.in"%string, text)], Ok tt) /\ read_enum text = Ok systems /\ total snd systems <= 15 /\
  forall h c v, In (h, c, v) systems -> h = [1; 0; 1; 0; 1; 2] /\ In c [[1; 1]; [2; 0]] /\ 0 < v <= 36.
Proof.
  destruct (dir_meets ["all"; "7"]%string) as [M1 [M2 [M3 M4]]].
  destruct (C73_number_partial an_env (words_args ["all"; "7"]%string) counted_dir [2] _ _ _ 2 "all" "7" 7 9 _ _ ltac:(repeat split; exists false; reflexivity) eq_refl eq_refl ltac:(discriminate) M1 M2 M3 M4) as [text [systems [H1 [H2 [_ [H3 H4]]]]]].
  - vm_compute. split; [discriminate|reflexivity].
  - intros s h c _ Hh Hc. apply filter_In in Hh, Hc. destruct Hh as [Hh Hk], Hc as [Hc _]. destruct Hh as [<-|[<-|[]]]; [discriminate Hk|]. destruct Hc as [<-|[<-|[]]]; vm_compute; discriminate.
  - lia.
  - exists text, systems. split; [exact H1|]. split; [exact H2|]. split; [exact H4|]. intros h c v Hi. destruct (H3 h c v Hi) as [s [_ [Hh [Hc Hv]]]].
    apply filter_In in Hh, Hc. destruct Hh as [Hh Hk], Hc as [Hc _]. destruct Hh as [<-|[<-|[]]]; [discriminate Hk|]. split; auto. split; auto. destruct Hc as [<-|[<-|[]]]; [change (4 * counts [1; 0; 1; 0; 1; 2] [1; 1]) with 28 in Hv|change (4 * counts [1; 0; 1; 0; 1; 2] [2; 0]) with 36 in Hv]; lia.
Qed.
(** The table per size; the composition is not restricted by a filter of shapes. *)
Example C73_example_saved : exists text rows,
  script an_env (dist_args ["size"; "all"]%string (Some (2, 3)) (Some ("shape", "keep")%string) true) counted_dir = ([("enum.in"%string, text)], Ok tt) /\ loadtxt text = Ok rows /\
  forall row, In row rows <-> row = [2; 16].
Proof.
  destruct (dir_meets ["size"; "all"]%string) as [M1 [M2 [M3 M4]]]. set (a := dist_args ["size"; "all"]%string (Some (2, 3)) (Some ("shape", "keep")%string) true).
  destruct (C73_saved_partial an_env a counted_dir [2] _ _ _ 2 "size" "all" None _ _ ltac:(repeat split; exists false; reflexivity) ltac:(cbn; auto) ltac:(left; auto) ltac:(discriminate) M1 M2 M3 M4 eq_refl ltac:(discriminate) ltac:(discriminate)) as [text [rows [H1 [H2 [_ H3]]]]].
  exists text, rows. split; [exact H1|]. split; [exact H2|]. intros row. rewrite H3. split.
  - intros [s [[<-|[]] [[E _]|[[E _]|[_ [-> _]]]]]]; [discriminate E|discriminate E|reflexivity].
  - intros ->. exists 2. split; [left; auto|]. right. right. repeat split.
Qed.
Example C73_example_errors :
  script an_env (dist_args ["all"; "all"]%string (Some (2, 5)) None false) counted_dir = ([], Err ValueError) /\
  script an_env (dist_args ["all"; "most"]%string None None false) counted_dir = ([], Err ValueError) /\
  script an_env (dist_args ["any"; "all"]%string None None false) counted_dir = ([], Err ValueError).
Proof.
  assert (lists_names an_env counted_dir) as M by apply (dir_meets []). assert (exists r, In ("polya.out" ++ "." ++ r)%string (names counted_dir)) as Hr by (exists "2"%string; left; reflexivity).
  split; [|split].
  - refine (proj1 (C73_errors an_env (dist_args ["all"; "all"]%string (Some (2, 5)) None false) counted_dir "all" "all" _ M Hr) 2 5 4 None _ eq_refl ltac:(lia) _); [repeat split; exists false; reflexivity|left; auto|cbn; intuition discriminate].
  - refine (proj1 (proj2 (C73_errors an_env (dist_args ["all"; "most"]%string None None false) counted_dir "all" "most" _ M Hr)) _ _); [repeat split; exists false; reflexivity|discriminate|reflexivity].
  - vm_compute. reflexivity.
Qed.

Print Assumptions C73_everything.
Print Assumptions C73_number_partial.
Print Assumptions C73_not_saved.
Print Assumptions C73_saved_partial.
Print Assumptions C73_errors.
