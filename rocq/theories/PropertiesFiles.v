(** Property theorems C57, C58 (see /verif/properties.jsonl): the files between the steps of a run. *)
From Verif Require Import TextModel PyBase ListFacts TextProofs DistModel DistSpec DistProofs DistSummary DistMain FilesModel FilesProofs FilesMain PropertiesDist.
Local Open Scope Z_scope.

(** A concentration of one to ten species, each fewer than 10000 atoms. *)
Definition writable_conc (c : list Z) : Prop := (1 <= length c <= 10)%nat /\ Forall (fun x => 0 <= x < 10000) c.
(** The six entries of an HNF, each less than 1000 (so for every cell of fewer than 1000 parent cells). *)
Definition writable_hnf (h : list Z) : Prop := length h = 6%nat /\ Forall (fun x => 0 <= x < 1000) h.

Lemma strs_short k l : Forall (fun x => 0 <= x < 10 ^ Z.of_nat (S k)) l -> forall t, In t (map str l) -> (String.length t <= S k)%nat.
Proof. intros H t Ht. apply in_map_iff in Ht. destruct Ht as [z [<- Hz]]. rewrite Forall_forall in H. apply str_len_pos. auto. Qed.
Lemma writable_heading c : writable_conc c -> c <> [] /\ (String.length (join ":" (map str c)) < 50)%nat.
Proof.
  intros [Hl Hc]. assert (c <> []) as Hne by (destruct c; [cbn in Hl; lia|discriminate]). split; auto.
  assert (map str c <> []) as Hm by (destruct c; [congruence|discriminate]).
  pose proof (join_length1 ":" (map str c) 4 Hm (strs_short 3 c Hc)) as H. rewrite map_length in H. cbn [String.length] in H. nia.
Qed.
Lemma writable_columns h : writable_hnf h -> length h = 6%nat /\ (String.length (spaced h) < 26)%nat /\ Forall (fun z => int64 z = true) h.
Proof.
  intros [Hl Hh]. split; [auto|]. split.
  - assert (map str h <> []) as Hm by (destruct h; [discriminate|discriminate]).
    pose proof (join_length1 " " (map str h) 3 Hm (strs_short 2 h Hh)) as H. rewrite map_length, Hl in H. cbn [String.length] in H. unfold spaced. lia.
  - eapply Forall_impl; [|exact Hh]. intros z Hz. apply int64_small. cbn in Hz. lia.
Qed.
Lemma int64_range z : 0 <= z < 2 ^ 63 -> int64 z = true.
Proof. intros H. unfold int64. apply andb_true_iff. split; [apply Z.leb_le|apply Z.ltb_lt]; lia. Qed.
Lemma total_member {A} (f : A -> Z) l x : (forall y, In y l -> 0 <= f y) -> In x l -> 0 <= f x <= total f l.
Proof.
  intros H Hx. split; [auto|]. induction l as [|y l IH]; [destruct Hx|]. unfold total. cbn [map fold_right]. fold (total f l).
  assert (0 <= f y) by (apply H; left; auto). assert (0 <= total f l) by (apply total_nonneg; intros; apply H; right; auto).
  destruct Hx as [->|Hx]; [lia|]. assert (f x <= total f l) by (apply IH; auto; intros; apply H; right; auto). lia.
Qed.

(** ** C57: polya.out *)
(** The distribution step reads from the file exactly what the counting step found: the concentrations, and for every HNF
    its counts and their total; then the totals per concentration. *)
Theorem C57_polya_file : forall concs hnfs count, hnfs <> [] ->
  (forall c, In c concs -> writable_conc c) -> (forall h, In h hnfs -> writable_hnf h) ->
  (forall h c, In h hnfs -> In c concs -> 0 <= count h c) -> total (fun h => total (count h) concs) hnfs < 2 ^ 63 ->
  read_polya (polya_file concs hnfs count) =
    Ok {| t_concs := concs;
          t_rows := map (fun h => (h, map (count h) concs, total (count h) concs)) hnfs;
          t_last := map (fun c => total (fun h => count h c) hnfs) concs |}.
Proof.
  intros concs hnfs count Hne Hc Hh Hp Hg.
  assert (forall h, In h hnfs -> 0 <= total (count h) concs < 2 ^ 63) as Hrow.
  { intros h Hi. destruct (total_member (fun h => total (count h) concs) hnfs h); auto; [|lia]. intros; apply total_nonneg; auto. }
  assert (forall h c, In h hnfs -> In c concs -> 0 <= count h c < 2 ^ 63) as Hone.
  { intros h c Hi Hj. destruct (total_member (count h) concs c); auto. specialize (Hrow h Hi). lia. }
  assert (forall c, In c concs -> 0 <= total (fun h => count h c) hnfs < 2 ^ 63) as Hcol.
  { intros c Hj. rewrite total_swap in Hg. destruct (total_member (fun c => total (fun h => count h c) hnfs) concs c); auto; [|lia]. intros; apply total_nonneg; auto. }
  apply read_polya_ok; auto.
  - intros; apply writable_heading; auto.
  - intros; apply writable_columns; auto.
  - intros h c Hi Hj. specialize (Hone h c Hi Hj). split; [apply narrow_int64; [lia|]|]; apply int64_range; auto.
  - intros h Hi. apply int64_range. auto.
  - intros c Hj. specialize (Hcol c Hj). split; [apply narrow_int64; [lia|]|]; apply int64_range; auto.
  - apply int64_range. split; [apply total_nonneg; intros; apply Hcol; auto|]. rewrite total_swap in Hg. auto.
Qed.
Example C57_example :
  let big (h c : list Z) := 123456789012345678 + nth 4 h 0 in
  read_polya (polya_file [[1; 1]; [2; 0]] two_shapes big) =
    Ok {| t_concs := [[1; 1]; [2; 0]];
          t_rows := [([1; 0; 1; 0; 0; 2], [123456789012345678; 123456789012345678], 246913578024691356); ([1; 0; 1; 0; 1; 2], [123456789012345679; 123456789012345679], 246913578024691358)];
          t_last := [246913578024691357; 246913578024691357] |} /\
  two_shapes <> [] /\ (forall c, In c [[1; 1]; [2; 0]] -> writable_conc c) /\ (forall h, In h two_shapes -> writable_hnf h).
Proof.
  split; [reflexivity|]. split; [discriminate|].
  split; intros x Hx; repeat (destruct Hx as [<-|Hx]; [split; [cbn; lia|repeat constructor; lia]|]); destruct Hx.
Qed.
(** A count of 2^63 (sizes of 80 and more reach it) is written but not read back; neither is a count of fifty digits,
    which runs into the next column. *)
Theorem C57_large_counts_refuted :
  read_polya (polya_file [[1; 1]] [[1; 0; 1; 0; 0; 2]] (fun _ _ => 2 ^ 63 - 1)) = Ok {| t_concs := [[1; 1]]; t_rows := [([1; 0; 1; 0; 0; 2], [2 ^ 63 - 1], 2 ^ 63 - 1)]; t_last := [2 ^ 63 - 1] |} /\
  read_polya (polya_file [[1; 1]] [[1; 0; 1; 0; 0; 2]] (fun _ _ => 2 ^ 63)) = Err ValueError /\
  read_polya (polya_file [[1; 1]; [2; 0]] [[1; 0; 1; 0; 0; 2]] (fun _ _ => 10 ^ 49)) = Err ValueError.
Proof. split; [reflexivity|split; reflexivity]. Qed.

(** ** C58: enum.in *)
(** The enumeration step reads from enum.in exactly the requests of the distribution over everything: per line the HNF, the
    concentration and the number. *)
Theorem C58_enum_in : forall (distr : list (key * Z)) k,
  (forall s h c v, In ((s, h, c), v) distr -> exists h' c', h = Some h' /\ c = Some c' /\ length h' = 6%nat /\ length c' = k /\
     forall x, In x (h' ++ c' ++ [v]) -> - 2 ^ 63 <= x < 2 ^ 63) ->
  exists text systems, distr_file FAll distr = Ok text /\ read_enum text = Ok systems /\
    map (fun '((_, h, c), v) => (h, c, v)) distr = map (fun '(h, c, v) => (Some h, Some c, v)) systems.
Proof.
  intros distr k H. destruct (read_enum_ok distr k) as [t [E R]].
  - intros s h c v Hi. destruct (H s h c v Hi) as [h' [c' [-> [-> [Hh [Hc Hx]]]]]]. split; [eauto|]. split; [auto|]. apply Forall_forall. intros x Hix.
    specialize (Hx x Hix). unfold int64. apply andb_true_iff. split; [apply Z.leb_le|apply Z.ltb_lt]; lia.
  - exists t. eexists. split; [exact E|]. split; [exact R|]. rewrite map_map. apply map_ext_in. intros [[[s h] c] v] Hi.
    destruct (H s h c v Hi) as [h' [c' [-> [-> _]]]]. auto.
Qed.
Example C58_example : exists text,
  distr_file FAll [((2, Some [1; 0; 1; 0; 0; 2], Some [1; 1]), 3); ((4, Some [1; 0; 1; 3; 999; 123456], Some [123456789; 12345678]), 5)] = Ok text /\
  read_enum text = Ok [([1; 0; 1; 0; 0; 2], [1; 1], 3); ([1; 0; 1; 3; 999; 123456], [123456789; 12345678], 5)].
Proof. eexists. split; reflexivity. Qed.

(** From the counting step to the enumeration step: with the files polya.out.<size> of all the sizes, asking for all the
    structures (or for at least as many as there are), the systems enumerated are the shapes and concentrations for which
    there is a structure, each once, with the number there are. *)
Theorem C58_all_systems : forall file sizes hnfs concs count wanted k rnd save, NoDup sizes ->
  (forall s, In s sizes -> file s = Some (polya_file (concs s) (hnfs s) (count s))) ->
  (forall s, In s sizes -> NoDup (concs s) /\ NoDup (hnfs s) /\ hnfs s <> []) ->
  (forall s c, In s sizes -> In c (concs s) -> writable_conc c /\ length c = k) ->
  (forall s h, In s sizes -> In h (hnfs s) -> writable_hnf h /\ nth 0 h 0 * nth 2 h 0 * nth 5 h 0 = s) ->
  (forall s h c, In s sizes -> In h (hnfs s) -> In c (concs s) -> 0 <= count s h c) ->
  grand_total sizes hnfs concs count < 2 ^ 63 ->
  (forall n, wanted = Some n -> grand_total sizes hnfs concs count <= n) ->
  exists text systems, make_enum_in file sizes FAll wanted NoFilter rnd save = Ok (Some text) /\ read_enum text = Ok systems /\
    NoDup (map fst systems) /\
    forall h c v, In (h, c, v) systems <-> exists s, In s sizes /\ In h (hnfs s) /\ In c (concs s) /\ v = count s h c /\ 0 < v.
Proof.
  intros file sizes hnfs concs count wanted k rnd save Hsz Hf Hnd Hc Hh Hp Hg Hw.
  assert (forall s, In s sizes -> 0 <= total (fun h => total (count s h) (concs s)) (hnfs s) <= grand_total sizes hnfs concs count) as Hs.
  { intros s Hi. unfold grand_total. apply (total_member (fun s => available hnfs concs count (s, None, None)) sizes s); auto.
    intros y Hy. cbn [available]. apply total_nonneg. intros; apply total_nonneg; auto. }
  set (tab := fun s => polya_table (concs s) (hnfs s) (count s)).
  assert (forall s, In s sizes -> read_polya (polya_file (concs s) (hnfs s) (count s)) = Ok (tab s)) as Hr.
  { intros s Hi. rewrite C57_polya_file; auto; [|apply Hnd; auto|intros c Hj; apply (Hc s); auto|intros h Hj; apply (Hh s); auto|specialize (Hs s Hi); lia].
    unfold tab. f_equal. destruct (polya_table (concs s) (hnfs s) (count s)) as [a b c] eqn:E. pose proof (table_last (concs s) (hnfs s) (count s)) as Hl. rewrite E in Hl. cbn [t_last] in Hl.
    unfold polya_table in E. injection E as Ea Eb Ec. subst a b. f_equal; try (symmetry; exact Hl); try exact Hl. }
  unfold make_enum_in. rewrite (read_tables_ok file tab) by (intros s Hi; exists (polya_file (concs s) (hnfs s) (count s)); auto). cbn [rbind].
  set (file' := fun s => dget Z.eqb (map (fun s => (s, tab s)) sizes) s).
  destruct (C27_everything file' sizes hnfs concs count FAll true true wanted rnd) as [A1 [A2 [A3 A4]]]; auto; try (intros; apply Hnd; auto).
  { left; auto. }
  { intros s Hi. apply dget_tables; auto. }
  set (distr := distribute file' sizes FAll wanted NoFilter rnd) in *.
  assert (forall s h c v, In ((s, h, c), v) distr -> exists h' c', h = Some h' /\ c = Some c' /\ In s sizes /\ In h' (hnfs s) /\ In c' (concs s) /\ v = count s h' c' /\ 0 < v) as Hd.
  { intros s h c v Hi. destruct (A2 _ _ Hi) as [[B1 [B2 B3]] [B4 B5]]. destruct h as [h'|]; [|discriminate]. destruct c as [c'|]; [|discriminate]. exists h', c'. cbn [available] in B4. intuition auto. }
  destruct (read_enum_ok distr k) as [t [E R]].
  { intros s h c v Hi. destruct (Hd s h c v Hi) as [h' [c' [-> [-> [D1 [D2 [D3 [D4 D5]]]]]]]]. cbn [of_conc]. destruct (Hh s h' D1 D2) as [Hwh _]. destruct (Hc s c' D1 D3) as [Hwc Hk].
    split; [exists h'; split; auto; apply Hwh|]. split; [auto|]. apply Forall_app. split; [apply writable_columns; auto|]. apply Forall_app. split.
    - eapply Forall_impl; [|apply Hwc]. intros z Hz. apply int64_small. cbn in Hz. lia.
    - constructor; [|constructor]. apply int64_range. split; [lia|]. specialize (Hs s D1).
      assert (count s h' c' <= total (fun h => total (count s h) (concs s)) (hnfs s)); [|lia].
      destruct (total_member (count s h') (concs s) c'); auto. destruct (total_member (fun h => total (count s h) (concs s)) (hnfs s) h'); auto; [|lia]. intros; apply total_nonneg; auto. }
  rewrite E. cbn [rbind]. exists t. eexists. split; [reflexivity|]. split; [exact R|]. split.
  - rewrite map_map. assert (map (fun x => fst (let '(_, h, c, v) := x in (of_conc h, of_conc c, v))) distr = map (fun '(_, h, c) => (of_conc h, of_conc c)) (map fst distr)) as ->.
    { rewrite map_map. apply map_ext. intros [[[s h] c] v]. auto. }
    assert (forall k1 k2, In k1 (map fst distr) -> In k2 (map fst distr) -> (fun '(_, h, c) => (of_conc h, of_conc c)) k1 = (fun '(_, h, c) => (of_conc h, of_conc c)) k2 -> k1 = k2) as Hinj.
    { intros k1 k2 H1 H2 Eq. apply in_map_iff in H1. destruct H1 as [[[[s1 h1] c1] v1] [<- H1]]. apply in_map_iff in H2. destruct H2 as [[[[s2 h2] c2] v2] [<- H2]].
      destruct (Hd _ _ _ _ H1) as [h1' [c1' [-> [-> [D1 [D2 _]]]]]]. destruct (Hd _ _ _ _ H2) as [h2' [c2' [-> [-> [D3 [D4 _]]]]]]. cbn [fst of_conc] in *. injection Eq as -> ->.
      destruct (Hh s1 h2' D1 D2) as [_ F1]. destruct (Hh s2 h2' D3 D4) as [_ F2]. congruence. }
    clear - A3 Hinj. generalize dependent (map fst distr). intros l. induction l as [|x l IH]; intros Hn Hinj; [constructor|]. inversion Hn; subst. cbn [map]. constructor.
    + intros Hi. apply in_map_iff in Hi. destruct Hi as [y [Ey Hy]]. apply H1. rewrite (Hinj x y); auto; [left; auto|right; auto].
    + apply IH; auto. intros; apply Hinj; try right; auto.
  - intros h c v. split.
    + intros Hi. apply in_map_iff in Hi. destruct Hi as [[[[s h0] c0] v0] [Eq Hi]]. destruct (Hd _ _ _ _ Hi) as [h' [c' [-> [-> D]]]]. cbn [of_conc] in Eq. injection Eq as -> -> ->. exists s. tauto.
    + intros [s [D1 [D2 [D3 [D4 D5]]]]]. specialize (A1 (s, Some h, Some c)). assert (requested key_eqb distr (s, Some h, Some c) = v) as Er.
      { rewrite A1; [cbn [available]; auto|]. split; auto. }
      unfold requested in Er. destruct (find (fun kv => key_eqb (s, Some h, Some c) (fst kv)) distr) as [[k0 v0]|] eqn:Ef; [|lia].
      apply find_some in Ef. destruct Ef as [Hi Hk]. apply key_eqb_spec in Hk. cbn [fst] in Hk. subst k0 v0. apply in_map_iff. exists (s, Some h, Some c, v). split; auto.
Qed.
Example C58_all_example : exists text,
  make_enum_in (fun s => if s =? 2 then Some (polya_file [[1; 1]; [2; 0]] two_shapes counts) else None) [2] FAll None NoFilter (fun _ => false) false = Ok (Some text) /\
  read_enum text = Ok [([1; 0; 1; 0; 0; 2], [1; 1], 3); ([1; 0; 1; 0; 0; 2], [2; 0], 5); ([1; 0; 1; 0; 1; 2], [1; 1], 7); ([1; 0; 1; 0; 1; 2], [2; 0], 9)] /\
  (forall h, In h two_shapes -> writable_hnf h /\ nth 0 h 0 * nth 2 h 0 * nth 5 h 0 = 2).
Proof.
  eexists. split; [vm_compute; reflexivity|]. split; [vm_compute; reflexivity|].
  intros x Hx; repeat (destruct Hx as [<-|Hx]; [split; [split; [cbn; lia|repeat constructor; lia]|reflexivity]|]); destruct Hx.
Qed.
(** The other distributions are saved on demand to a file of the same name, and read by the enumeration step as systems
    whose HNF is not one: here the HNF [size; number], without atoms. *)
Theorem C58_other_kinds_refuted :
  let polya s := if s =? 2 then Some (polya_file [[1; 1]; [2; 0]] two_shapes counts) else None in
  (exists text, make_enum_in polya [2] FSize None NoFilter (fun _ => false) true = Ok (Some text) /\ read_enum text = Ok [([2; 24], [], 24)]) /\
  (exists text, make_enum_in polya [2] FConc None NoFilter (fun _ => false) true = Ok (Some text) /\ read_enum text = Ok [([2; 1; 1; 10], [], 10); ([2; 2; 0; 14], [], 14)]) /\
  (exists text, make_enum_in polya [2] FShape None NoFilter (fun _ => false) true = Ok (Some text) /\ read_enum text = Ok [([1; 0; 1; 0; 0; 2], [], 8); ([1; 0; 1; 0; 1; 2], [], 16)]).
Proof. repeat split; eexists; (split; [vm_compute; reflexivity|vm_compute; reflexivity]). Qed.

(** ** The sizes for which there are files *)
Lemma prefix_app a b : String.prefix a (a ++ b) = true.
Proof. induction a as [|c a IH]; [destruct b; auto|]. cbn. destruct (ascii_dec c c); [auto|congruence]. Qed.
Lemma contains_app a b : contains a (a ++ b) = true.
Proof. unfold contains. pose proof (prefix_app a b) as H. destruct (a ++ b)%string as [|c s] eqn:E; [destruct a; [auto|discriminate]|]. unfold String.index. rewrite H. auto. Qed.
Lemma split_from_last sep a t : all_chars (fun c => Ascii.eqb c sep = false) t -> forall cur, last (split_from sep cur (a ++ String sep t)) EmptyString = t.
Proof.
  intros Ht. assert (forall s cur, split_from sep cur s <> []) as Hne by (intros s; induction s; intros cur; cbn; [discriminate|destruct (Ascii.eqb _ _); [discriminate|auto]]).
  induction a as [|c a IH]; intros cur; cbn [append split_from].
  - rewrite Ascii.eqb_refl. rewrite <- (app_nil_s t) at 1. rewrite split_from_plain by auto. cbn. auto.
  - destruct (Ascii.eqb c sep); [|auto]. specialize (IH EmptyString). specialize (Hne (a ++ String sep t)%string EmptyString). destruct (split_from sep EmptyString (a ++ String sep t)); [congruence|exact IH].
Qed.
Lemma str_inj x y : str x = str y -> x = y.
Proof. intros E. pose proof (int_str x) as H. rewrite E, int_str in H. injection H. auto. Qed.
Lemma app_inj_s a : forall b c, (a ++ b = a ++ c)%string -> b = c.
Proof. induction a as [|x a IH]; intros b c; cbn; [auto|]. intros E. injection E. apply IH. Qed.
(** When no sizes are given, they are taken from the names in the directory: exactly the sizes of the files
    <infile>.<size>, if the other names do not contain <infile> or do not begin with the same letter. *)
Theorem C58_sizes_found : forall infile listing, infile <> EmptyString ->
  (forall f, In f listing -> (exists s, f = (infile ++ "." ++ str s)%string) \/ contains infile f = false \/ first_char f <> first_char infile) ->
  (exists s, In (infile ++ "." ++ str s)%string listing) ->
  exists sizes, found_sizes infile listing = Ok sizes /\ (forall s, In s sizes <-> In (infile ++ "." ++ str s)%string listing) /\ (NoDup listing -> NoDup sizes).
Proof.
  intros infile listing Hne H [s0 H0]. unfold found_sizes. set (keep := fun f => _ && _).
  assert (forall s, keep (infile ++ "." ++ str s)%string = true) as Hk.
  { intros s. unfold keep. rewrite contains_app. cbn [andb]. destruct infile as [|c i]; [congruence|]. cbn. apply Ascii.eqb_refl. }
  assert (forall f, In f listing -> keep f = true -> exists s, f = (infile ++ "." ++ str s)%string) as Hf.
  { intros f Hi Hkf. destruct (H f Hi) as [?|[Hc|Hc]]; auto; unfold keep in Hkf; [rewrite Hc in Hkf; discriminate|]. apply andb_true_iff in Hkf. destruct Hkf as [_ Hkf].
    destruct (first_char f) as [a|], (first_char infile) as [b|]; try discriminate. apply Ascii.eqb_eq in Hkf. congruence. }
  assert (exists sizes, rmap (fun f => int_of (last (split_on "." f) EmptyString)) (filter keep listing) = Ok sizes /\ (forall s, In s sizes <-> In (infile ++ "." ++ str s)%string listing) /\ (NoDup listing -> NoDup sizes)) as [sizes [E [Hs Hn]]].
  { clear H H0 s0. induction listing as [|f l IH].
    - exists []. cbn. split; [auto|]. split; [tauto|]. intros; constructor.
    - destruct IH as [sizes [E [Hs Hn]]]; [intros; apply Hf; [right|]; auto|]. cbn [filter]. destruct (keep f) eqn:Ek.
      + destruct (Hf f) as [s ->]; [left; auto|auto|]. exists (s :: sizes). cbn [rmap].
        assert (last (split_on "." (infile ++ "." ++ str s)) EmptyString = str s) as ->.
        { unfold split_on. change ("." ++ str s)%string with (String "." (str s)). apply split_from_last. eapply all_chars_impl; [|apply str_chars]. intros c Hc. apply number_char_other in Hc. tauto. }
        rewrite int_str. cbn [rbind]. rewrite E. cbn [rbind]. split; [auto|].
        assert (forall x, (infile ++ "." ++ str s = infile ++ "." ++ str x)%string <-> s = x) as Hi.
        { intros x. split; [|congruence]. intros Ee. apply app_inj_s in Ee. apply app_inj_s in Ee. apply str_inj. auto. }
        split; [intros x; cbn [In]; rewrite Hs, Hi; tauto|]. intros Hnd. inversion Hnd; subst. constructor; auto. rewrite Hs. auto.
      + exists sizes. split; [auto|]. split.
        * intros x. rewrite Hs. cbn [In]. split; [auto|]. intros [->|?]; [rewrite Hk in Ek; discriminate|auto].
        * intros Hnd. inversion Hnd; auto. }
  rewrite E. cbn [rbind]. apply Hs in H0. destruct sizes as [|x r]; [destruct H0|]. exists (x :: r). auto.
Qed.
Example C58_sizes_example : found_sizes "polya.out" ["lattice.in"; "polya.out.10"; "enum.in"; "my_polya.out.7"; "polya.out.2"]%string = Ok [10; 2].
Proof. reflexivity. Qed.
(** Any other file with such a name in the directory stops the run, among them the file polya.out itself. *)
Theorem C58_sizes_refuted : found_sizes "polya.out" ["polya.out.2"; "polya.out"]%string = Err ValueError /\ found_sizes "polya.out" ["polya.out.2"; "polya.out.2.bak"]%string = Err ValueError.
Proof. split; reflexivity. Qed.

Print Assumptions C57_polya_file.
Print Assumptions C57_large_counts_refuted.
Print Assumptions C58_enum_in.
Print Assumptions C58_all_systems.
Print Assumptions C58_other_kinds_refuted.
Print Assumptions C58_sizes_found.
Print Assumptions C58_sizes_refuted.
