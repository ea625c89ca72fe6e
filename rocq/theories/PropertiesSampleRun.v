(** [-enum] with an enum.in that asks for a part of the structures (C76): the properties. *)
From Coq Require Import Permutation QArith.
From Verif Require Import TextModel TextProofs PyBase ListFacts TreeSearch Spec Mat3 HNFModel HNFProofs PolyaModel LatSpec LatGroupThm SuperModel StructSpec StructAll EnumSysModel DistModel DistSpec FilesModel FilesProofs EnumOutModel EnumOutSpec PropertiesEnumOut.
From Verif Require Import PointGroupModel PointGroupSpec PointGroupProofs PointGroupMain PropertiesPoint RunModel RunSpec RunProofs RunMain RunTop RunSample LatticeInModel LatticeInSpec LatticeInProofs PropertiesLatticeIn RunText PropertiesRunText.
From Verif Require Import FilesMain PropertiesFiles SetupBasis PropertiesSetup ScriptModel ScriptProofs ScriptMain PropertiesScript PropertiesBasisText PropertiesScriptBasis PropertiesWorkflow.
From Verif Require PropertiesDistCommand DistProofs.
Local Open Scope Z_scope.

(** ** What is asked for, and what is listed *)
(** The counts of the sizes lo to hi, as [-polya] leaves them: for the shapes and the compositions of each size. *)
Definition counts_written (lo hi : Z) (d : dir) (hnfs concs : Z -> list (list Z)) (count : Z -> list Z -> list Z -> Z) : Prop :=
  forall s, lo <= s <= hi -> dfile d ("polya.out." ++ str s) = Some (polya_file (concs s) (hnfs s) (count s)).
(** What is counted: shapes of each size (six numbers of a Hermite normal form), and all the compositions of the size within the
    ranges; there is at least one structure of each. *)
Definition real_counts (m : Z) (k : nat) (lo hi : Z) (ranges : option (list (Z * Z * Z))) (hnfs concs : Z -> list (list Z)) (count : Z -> list Z -> list Z -> Z) : Prop := forall s, lo <= s <= hi ->
  hnfs s <> [] /\ (forall h, In h (hnfs s) -> is_hnf h /\ nth 0 h 0 * nth 2 h 0 * nth 5 h 0 = s) /\
  (forall c, In c (concs s) <-> length c = k /\ (forall a, In a c -> 0 <= a) /\ sum_Z c = s * m /\ match ranges with Some l => Forall2 (fraction_within (s * m)) l c | None => True end) /\
  forall h c, In h (hnfs s) -> In c (concs s) -> 0 < count s h c.
(** The lines of enum.in are for shapes and compositions of the counts, each at most once, in any order, with any number. *)
Definition from_counts (lo hi : Z) (hnfs concs : Z -> list (list Z)) (asked : list (list Z * list Z * Z)) : Prop :=
  NoDup (map fst asked) /\ forall h c x, In (h, c, x) asked -> 0 <= x /\ exists s, lo <= s <= hi /\ In h (hnfs s) /\ In c (concs s).
(** The crystals of a line: the matrix of the line describes their primitive cell, which has the composition of the line. *)
Definition crystal_of (D : Z) (bas : list vec) (k : nat) (h c : list Z) (f : decoration) : Prop :=
  (forall x, crystal_point D bas x -> fst (f x) = -1 /\ 1 <= snd (f x) <= Z.of_nat k) /\ primitive D bas (full_HNF h) f /\
  exists cell, contents D bas (full_HNF h) f cell /\ forall i, (i < length c)%nat -> amount cell (Z.of_nat i + 1) = nth i c 0.
(** The rows say crystals of the run, in terms of their primitive cells, no two of them the same up to isometry, each for a line of
    enum.in; at most x of them for a line with the number x > 0, so at most as many as are asked for in all; and for a line with the
    number 0, or with at least the number of the counts, all the crystals of the line. *)
Definition lists_asked (A : mat) (D : Z) (bas : list vec) (k : nat) (lo hi : Z) (ranges : option (list (Z * Z * Z))) (hnfs : Z -> list (list Z)) (count : Z -> list Z -> list Z -> Z)
  (asked : list (list Z * list Z * Z)) (file : string) : Prop := exists sys structs, read_enum_out file None = Ok (sys, structs) /\
  (forall s, In s structs -> exists f, row_says D bas s f) /\
  (forall s f, In s structs -> row_says D bas s f -> run_structures D bas k lo hi ranges f /\ primitive D bas (sHNF s) f) /\
  ForallOrdPairs (fun s t => forall f g, row_says D bas s f -> row_says D bas t g -> ~ congruent_crystals A D bas f g) structs /\
  (forall s, In s structs -> exists h c x, In (h, c, x) asked /\ in_line h c s) /\
  (forall h c x, In (h, c, x) asked -> 0 < x -> forall l, NoDup l -> (forall s, In s l -> In s structs /\ in_line h c s) -> Z.of_nat (length l) <= x) /\
  ((forall h c x, In (h, c, x) asked -> 0 < x) -> Z.of_nat (length structs) <= total snd asked) /\
  (forall h c x s, In (h, c, x) asked -> lo <= s <= hi -> In h (hnfs s) -> x = 0 \/ count s h c <= x -> forall f, crystal_of D bas k h c f ->
     exists r g, In r structs /\ row_says D bas r g /\ congruent_crystals A D bas f g) /\
  (forall s, In s structs -> makeable_for (length bas) k lo hi s) /\ forall i s, nth_error structs i = Some s -> strN s = Z.of_nat i + 1.
(** The permutations drawn for the samples are permutations. *)
Definition fair (e : env) : Prop := forall i l, Permutation (e_shuffled e i l) l.

(** ** Proofs *)
Lemma listed_total su v : forall asked found, Forall2 (sample_line su v) asked found -> (forall h c x, In (h, c, x) asked -> 0 < x) -> Z.of_nat (length (listed found)) <= total snd asked.
Proof.
  intros asked found HF. induction HF as [|[[h c] x] [h' cs] ys es [E1 [l [E2 [_ [Hle _]]]]] HF IH]; intros Hpos; [cbn; lia|].
  unfold listed, total in *. cbn [flat_map map fold_right fst snd] in *. rewrite app_length, map_length, E2, map_length. specialize (IH ltac:(intros; eapply Hpos; right; eauto)). specialize (Hle (Hpos h c x (or_introl eq_refl))). lia.
Qed.
(** Few sites, so that nothing is ever too many to count. *)
Definition few_sites (su : setup) : Prop := s_species su = 2%nat /\ s_hi su * Z.of_nat (length (s_bas su)) <= 19 \/ s_species su = 3%nat /\ s_hi su * Z.of_nat (length (s_bas su)) <= 13.
Definition lists_sample (su : setup) (v : pyversion) (p : params) (asked : list (list Z * list Z * Z)) (file : string) : Prop :=
  exists structs, read_enum_out file None = Ok (system_of p, structs) /\ sampled_rows su v asked structs /\
    ((forall h c x, In (h, c, x) asked -> 0 < x) -> Z.of_nat (length structs) <= total snd asked) /\
    (forall s, In s structs -> makeable_for (length (s_bas su)) (s_species su) (s_lo su) (s_hi su) s) /\ forall i s, nth_error structs i = Some s -> strN s = Z.of_nat i + 1.
Section Main.
Variables (su : setup) (par : lattice) (ltext : string) (v : pyversion).
Hypothesis Hu : usable su.
Hypothesis Hfew : few_sites su.
Hypothesis Hread : read_lattice ltext = Ok par.
Hypothesis Hsetup : setup_of par = Ok su.
Hypothesis Hshape : length (l_vecs par) = 3%nat /\ l_bas par <> [] /\ 0 <= l_nspecies par.
Lemma small_sizes : 1 <= s_lo su <= s_hi su /\ (s_species su = 2%nat /\ s_hi su * Z.of_nat (length (s_bas su)) <= 19 \/ s_species su = 3%nat /\ s_hi su * Z.of_nat (length (s_bas su)) <= 13).
Proof. pose proof (u_sizes su Hu). split; [tauto|exact Hfew]. Qed.
Lemma enum_out_sampled e d txt asked : good_env v e -> fair e -> dfile d "lattice.in" = Some ltext -> dfile d "enum.in" = Some txt -> read_enum txt = Ok asked -> are_asked su asked -> asked <> [] ->
  exists file fuel0, lists_sample su v (params_of (e_date e) par) asked file /\
    (forall fuel, (fuel0 <= fuel)%nat -> enum_out_step (with_fuel e fuel) enum_args "enum.in" "enum.out" d = ([("enum.out", text (header (params_of (e_date e) par))); ("enum.out", file)]%string, Ok tt)).
Proof.
  intros He Hfair Hl Hi Es Hask Hne. pose proof Hu as [A1 A2 A3 A4 A5 A6 A7]. pose proof He as [Hv [Hls Hd]]. pose proof small_sizes as Hsz.
  destruct (sample_lines_ok su v A1 A2 A3 A4 A5 Hsz A7 (e_draw e) (e_rnd e) (e_shuffled e) asked Hfair Hask) as [found [f0 [Hrun HF]]].
  destruct (sampled_read su v A1 A2 A3 A4 A5 Hsz A7 asked found Hask HF (params_of (e_date e) par) ltac:(eapply par_good; eauto) Hne) as [file [structs [Ef [Er [HP [Hsay [Hhnf [Hmk Hn]]]]]]]].
  exists file, f0. split.
  { exists structs. split; auto. split; [eapply (sampled_ok su v A1 A2 A3 A4 A5 Hsz A7 asked found); eauto|]. split; [|auto]. intros Hpos. rewrite <- (map_length row_of), (Permutation_length HP). eapply listed_total; eauto. }
  intros fuel Hfu. unfold enum_out_step, lattice_step. cbn [enum_args a_lattice a_super a_accept a_distribution].
  erewrite bind_quiet; [|erewrite bind_quiet by (apply read_ok; eauto); unfold lift; rewrite Hread; erewrite bind_quiet by reflexivity; rewrite Hsetup; erewrite bind_quiet by reflexivity; reflexivity]. cbn beta iota.
  erewrite bind_quiet; [|unfold alook; rewrite Hi; reflexivity]. erewrite bind_quiet by reflexivity. erewrite bind_quiet by (apply read_ok; eauto). erewrite bind_quiet by (unfold lift; rewrite Es; reflexivity).
  eapply (bind_then _ _ _ [_] _ [_]); [reflexivity|]. erewrite bind_quiet by reflexivity.
  cbn [with_fuel e_version e_draw e_rnd e_shuffled e_fuel e_date].
  rewrite Hv, Hrun by auto. cbn [rbind]. erewrite bind_quiet by (unfold lift; rewrite Ef; reflexivity). reflexivity.
Qed.
Lemma enum_out_nothing e d txt : dfile d "lattice.in" = Some ltext -> dfile d "enum.in" = Some txt -> read_enum txt = Ok [] ->
  enum_out_step e enum_args "enum.in" "enum.out" d = ([("enum.out", text (header (params_of (e_date e) par)))]%string, Err NameError).
Proof.
  intros Hl Hi Es. unfold enum_out_step, lattice_step. cbn [enum_args a_lattice a_super a_accept a_distribution].
  erewrite bind_quiet; [|erewrite bind_quiet by (apply read_ok; eauto); unfold lift; rewrite Hread; erewrite bind_quiet by reflexivity; rewrite Hsetup; erewrite bind_quiet by reflexivity; reflexivity]. cbn beta iota.
  erewrite bind_quiet; [|unfold alook; rewrite Hi; reflexivity]. erewrite bind_quiet by reflexivity. erewrite bind_quiet by (apply read_ok; eauto). erewrite bind_quiet by (unfold lift; rewrite Es; reflexivity).
  unfold abind at 1. cbn [awrite]. erewrite bind_quiet by reflexivity. reflexivity.
Qed.
End Main.

(** *** What [-distribution] finds *)
Lemma counts_found su v d a : usable su -> PropertiesDistCommand.input_of a = "polya.out"%string -> (forall s, s_lo su <= s <= s_hi su -> dfile d (polya_name s) = Some (count_file v su s)) ->
  PropertiesDistCommand.counts_there a d (range_up (s_lo su) (s_hi su + 1)) (fun s => map six (run_hnfs su s)) (run_concs su) (fun _ => run_count su v) (s_species su).
Proof.
  intros Hu Ha Hd. pose proof Hu as [A1 A2 A3 A4 A5 A6 A7]. assert (2 <= s_species su <= 3)%nat as K1 by lia. assert (1 <= s_lo su <= s_hi su /\ s_hi su * Z.of_nat (length (s_bas su)) <= 20) as K2 by lia. pose proof (gb_pos _ _ _ _ _ A2) as Hb1.
  assert (forall s, In s (range_up (s_lo su) (s_hi su + 1)) <-> s_lo su <= s <= s_hi su) as Hr by (intros s; rewrite in_range_up; lia).
  assert (forall s, In s (run_sizes su) <-> s_lo su <= s <= s_hi su) as Hrs by (apply (in_sizes su K1)). assert (s_hi su <= 20) as H20 by nia.
  unfold PropertiesDistCommand.counts_there, PropertiesDistCommand.count_name. rewrite Ha. split; [apply NoDup_range_up|]. split; [intros E; pose proof (proj2 (Hr (s_lo su)) ltac:(lia)) as Hi; rewrite E in Hi; destruct Hi|].
  split; [|split; [|split; [|split; [|split; [|split]]]]].
  - intros s Hs. apply Hr in Hs. apply (Hd s Hs).
  - intros s Hs. apply Hr, Hrs in Hs. destruct (hnfs_facts su A1 A2 A3 A4 K1 K2 A7 s Hs) as [_ [Hf [_ [_ [Hn Hne]]]]]. split; [apply concs_NoDup|]. split; [|intros E; apply Hne; apply map_eq_nil in E; auto].
    apply NoDup_map_inj; auto. intros x y Hx Hy. apply (six_inj s); auto.
  - intros s c Hs Hc. apply Hr in Hs. destruct (concs_facts su A2 K1 K2 A7 s c (proj2 (Hrs s) Hs) Hc) as [c' [-> [Hl Hsum]]]. rewrite map_length. split; [|auto]. split; [rewrite map_length; lia|].
    apply Forall_forall. intros x Hx. apply in_map_iff in Hx. destruct Hx as [y [<- Hy]].
    assert (y <= sum_nat c')%nat by (clear - Hy; unfold sum_nat; induction c' as [|z c IH]; [destruct Hy|]; cbn [fold_right] in *; destruct Hy as [->|Hy]; [lia|specialize (IH Hy); lia]). nia.
  - intros s h Hs Hh. apply Hr in Hs. apply in_map_iff in Hh. destruct Hh as [H [<- HH]]. destruct (hnfs_facts su A1 A2 A3 A4 K1 K2 A7 s (proj2 (Hrs s) Hs)) as [_ [Hf _]]. specialize (Hf H HH). split; [apply (six_writable s); auto; lia|apply six_hnf; auto; lia].
  - intros s h c Hs Hh Hc. apply Hr in Hs. apply in_map_iff in Hh. destruct Hh as [H [<- HH]]. destruct (counts_right su v A1 A2 A3 A4 A5 K1 K2 A7 s H c (proj2 (Hrs s) Hs) HH Hc) as [_ [_ [_ Hp]]]. lia.
  - intros s Hs. apply Hr in Hs. assert (2 ^ 63 = 9223372036854775808) by reflexivity. lia.
  - unfold grand_total, available. assert (length (range_up (s_lo su) (s_hi su + 1)) <= 20)%nat as Hlen by (rewrite MapProofs.range_up_length; lia).
    assert (3 ^ 20 = 3486784401) as E320 by reflexivity. assert (2 ^ 61 = 2305843009213693952) as E261 by reflexivity.
    apply Z.le_lt_trans with (3486784401 * 9261 * 1100 * Z.of_nat (length (range_up (s_lo su) (s_hi su + 1)))).
    + apply total_bound; [lia|]. intros s Hs. apply Hr in Hs. etransitivity; [apply (total_bound _ _ (3486784401 * 9261)); [lia|]|].
      * intros h Hh. apply in_map_iff in Hh. destruct Hh as [H [<- HH]]. etransitivity; [apply (total_bound _ _ 3486784401); [lia|]|].
        -- intros c Hc. destruct (counts_right su v A1 A2 A3 A4 A5 K1 K2 A7 s H c (proj2 (Hrs s) Hs) HH Hc) as [_ [_ [_ Hp]]]. lia.
        -- pose proof (concs_fewB su A2 ltac:(lia) K2 (proj1 A7) s (proj2 (Hrs s) Hs)). lia.
      * rewrite map_length. destruct (hnfs_facts su A1 A2 A3 A4 K1 K2 A7 s (proj2 (Hrs s) Hs)) as [_ [Hf [_ [_ [Hn _]]]]]. pose proof (NoDup_incl_length Hn Hf) as Hle. pose proof (few_HNFs s ltac:(lia)). lia.
    + lia.
Qed.

Lemma counts_real su v : usable su -> real_counts (Z.of_nat (length (s_bas su))) (s_species su) (s_lo su) (s_hi su) (ranges_of su) (fun s => map six (run_hnfs su s)) (run_concs su) (fun _ => run_count su v).
Proof.
  intros Hu s Hs. pose proof Hu as [A1 A2 A3 A4 A5 A6 A7]. assert (2 <= s_species su <= 3)%nat as K1 by lia. assert (1 <= s_lo su <= s_hi su /\ s_hi su * Z.of_nat (length (s_bas su)) <= 20) as K2 by lia.
  apply (in_sizes su K1) in Hs. destruct (hnfs_facts su A1 A2 A3 A4 K1 K2 A7 s Hs) as [_ [Hf [_ [_ [_ Hne]]]]]. split; [intros E; apply Hne; apply map_eq_nil in E; auto|]. split; [|split].
  - intros h Hh. apply in_map_iff in Hh. destruct Hh as [H [<- HH]]. pose proof Hs as Hs'. apply (in_sizes su K1) in Hs'. apply six_hnf; auto; lia.
  - intros c. rewrite (concs_iff su A2 K1 K2 A7 s c Hs). unfold ranges_of. destruct (s_restricted su); intuition congruence.
  - intros h c Hh Hc. apply in_map_iff in Hh. destruct Hh as [H [<- HH]]. destruct (counts_right su v A1 A2 A3 A4 A5 K1 K2 A7 s H c Hs HH Hc) as [_ [_ [_ Hp]]]. lia.
Qed.

(** *** One atom per cell, and several *)
Definition sampling_setup (text : string) (A : mat) (D : Z) (bas : list vec) (k : nat) (lo hi : Z) (ranges : option (list (Z * Z * Z))) (par : lattice) (su : setup) : Prop :=
  read_lattice text = Ok par /\ setup_of par = Ok su /\ usable su /\ (length (l_vecs par) = 3%nat /\ l_bas par <> [] /\ 0 <= l_nspecies par) /\
  s_D su = D /\ s_bas su = bas /\ s_species su = k /\ s_lo su = lo /\ s_hi su = hi /\ ranges_of su = ranges /\
  forall f g, no_directions D bas f -> (same_structure (s_pg su) D bas f g <-> congruent_crystals A D bas f g).
Lemma plain_sampling text A k lo hi ranges : plain_file text A k lo hi ranges -> exists par su, sampling_setup text A 1 [(0, 0, 0)] k lo hi ranges par su.
Proof.
  intros [bulk [vecs [DL [m [concs [Htext [Hvecs [Hrs [Hus [HD [Hd [Ht [Hf [Hi [Hlo Hk]]]]]]]]]]]]]]].
  destruct (C59_read _ _ _ _ _ _ _ _ _ Htext) as [par [Epar [P1 [_ [P3 [P4 [P5 [P6 [P7 P8]]]]]]]]].
  assert (same_numbers (l_vecs par) (rows_over DL A)) as Hv by (eapply same_concs_trans; eauto).
  destruct (setup_read par DL A m k lo hi ranges concs HD Hd Ht Hf Hi Hv P5 P1 P6 P7 P8 Hrs Hus P4) as [pg [c [A0 [m0 [na [Hc [EA [Hd0 [[DL0 [HD0 [Ht0 [Hf0 [Hi0 Epg]]]]] [Hna Esu]]]]]]]]]].
  destruct (C56_usable (1 # 10000000000) DL0 A0 m0 HD0 Hd0 Ht0 Hf0 Hi0) as [pg' [E [F1 [F2 [F3 F4]]]]]. assert (pg' = pg) by congruence. subst pg'.
  set (su := {| s_pg := pg |}) in *. exists par, su. assert (ranges_of su = ranges) as Er by (unfold su; destruct ranges; reflexivity).
  assert (usable_ranges (s_species su) (ranges_of su) /\ s_arrows su = false /\ forall c, length c = s_species su -> s_na su c = map (fun _ => 0) c) as Hplain by (rewrite Er; auto).
  split; auto. split; auto. split; [constructor; auto; try (cbn; lia); apply good_origin; cbn; lia|]. split.
  { split; [|split].
    - apply ListFacts.Forall2_length in Hv. rewrite Hv. clear. destruct A as [[[[? ?] ?] [[? ?] ?]] [[? ?] ?]]. reflexivity.
    - apply ListFacts.Forall2_length in P5. destruct (l_bas par); [discriminate|discriminate].
    - rewrite P4. lia. }
  do 5 (split; [reflexivity|]). split; [exact Er|]. cbn [su s_pg]. intros f g Nf. split.
  - intros [C [R [t0 [HC [Hs Hcc]]]]]. exists C, t0. split; [rewrite EA; apply keeps_scale; [lia|]; apply (F1 C R); auto|]. split; auto. apply (plain_carries 1 [(0, 0, 0)] C R); auto.
  - intros [C [t0 [HC [Hs Hcc]]]]. rewrite EA in HC. apply keeps_scale in HC; [|lia]. destruct (Hi0 C HC) as [R HR]. exists C, R, t0. split; [apply F1; auto|]. split; auto. apply plain_carries; auto.
Qed.
Lemma atoms_sampling text A D bas k lo hi ranges : atoms_file text A D bas k lo hi ranges -> exists par su, sampling_setup text A D bas k lo hi ranges par su.
Proof.
  intros [bulk [vecs [DL [m [basq [concs [Htext [Hvecs [Hat [Hlow [HDb [Hn [Hr [Hz [Hrs [Hus [HD [Hd [Ht [Hf [Hi [Hinv [Hlo Hk]]]]]]]]]]]]]]]]]]]]]]].
  destruct (C59_read _ _ _ _ _ _ _ _ _ Htext) as [par [Epar [P1 [_ [P3 [P4 [P5 [P6 [P7 P8]]]]]]]]].
  assert (same_numbers (l_vecs par) (rows_over DL A)) as Hv by (eapply same_concs_trans; eauto).
  destruct (setup_basis par DL A m lo hi ranges concs D bas basq HD Hd Ht Hf Hi Hv P5 Hat HDb Hlow P1 P8 Hrs) as [pg [c [A0 [m0 [Hc [EA [Hd0 [[DL0 [HD0 [Ht0 [Hf0 [Hi0 Epg]]]]] Esu]]]]]]]].
  assert (get_arrow_concs par = repeat 0%Q k) as Earr.
  { destruct (concs_read _ _ _ Hrs P8) as [_ Elen]. unfold get_arrow_concs. rewrite P6, P4, Nat2Z.id. destruct ranges as [l|]; cbn [is_some]; [|auto]. cbn [the_ranges usable_ranges] in *. destruct Hus as [<- _]. rewrite <- Elen, <- repeat_zero. apply map_ext. intros c0. rewrite P7, andb_false_r. auto. }
  rewrite Earr, P4, P6, Nat2Z.id in Esu. replace (Qeq_bool (fold_right Qplus 0%Q (repeat 0%Q k)) 0) with true in Esu by (symmetry; apply Qeq_bool_iff, no_fractions). cbn [negb] in Esu.
  destruct (C56_usable (1 # 10000000000) DL0 A0 m0 HD0 Hd0 Ht0 Hf0 Hi0) as [pg' [E [F1 [F2 [F3 F4]]]]]. assert (pg' = pg) by congruence. subst pg'.
  set (su := {| s_pg := pg |}) in *. exists par, su. assert (ranges_of su = ranges) as Er by (unfold su; destruct ranges; reflexivity).
  assert (good_basis (s_pg su) (s_D su) (s_bas su) (s_lo su) (s_hi su)) as Hgb.
  { apply good_involutions; auto; try solve [cbn; lia]. intros C R HC. split; [apply (F2 C R HC)|apply Hinv]. rewrite EA. apply keeps_scale; [lia|]. apply (F1 C R); auto. }
  assert (usable_ranges (s_species su) (ranges_of su) /\ s_arrows su = false /\ forall c, length c = s_species su -> s_na su c = map (fun _ => 0) c) as Hplain by (rewrite Er; split; auto; split; auto; intros c' Hc'; apply none_displaced; auto).
  assert (usable su) as Hu by (constructor; auto).
  split; auto. split; auto. split; [exact Hu|]. split.
  { split; [|split].
    + apply ListFacts.Forall2_length in Hv. rewrite Hv. clear. destruct A as [[[[? ?] ?] [[? ?] ?]] [[? ?] ?]]. reflexivity.
    + intros Eb. rewrite Eb in P5. apply ListFacts.Forall2_length in P5. apply ListFacts.Forall2_length in Hat. destruct bas; [destruct Hz|]. rewrite <- P5 in Hat. discriminate Hat.
    + rewrite P4. lia. }
  do 5 (split; [reflexivity|]). split; [exact Er|]. cbn [su s_pg]. intros f g Nf. split.
  - intros [C [R [t0 [HC [Hs Hcc]]]]]. exists C, t0. split; [rewrite EA; apply keeps_scale; [lia|]; apply (F1 C R); auto|]. split; auto. apply (plain_carries D bas C R); auto.
  - intros [C [t0 [HC [Hs Hcc]]]]. rewrite EA in HC. apply keeps_scale in HC; [|lia]. destruct (Hi0 C HC) as [R HR]. exists C, R, t0. split; [apply F1; auto|]. split; auto. apply plain_carries; auto.
Qed.

(** *** The commands *)
(** [-enum] in a directory d with lattice.in and an enum.in for lines of the counts: it completes, only enum.out is written, and its
    rows are what was asked for; with an enum.in without lines it fails, and leaves an enum.out without rows. *)
Definition enumerates (text : string) (A : mat) (D : Z) (bas : list vec) (k : nat) (lo hi : Z) (ranges : option (list (Z * Z * Z))) (hnfs concs : Z -> list (list Z)) (count : Z -> list Z -> list Z -> Z)
  (e : env) (d : dir) (asked : list (list Z * list Z * Z)) : Prop :=
  exists fuel0 file d', (forall fuel, (fuel0 <= fuel)%nat -> ends (script (with_fuel e fuel) enum_args) d d') /\ (forall f, In f (names d') <-> In f (names d) \/ f = "enum.out"%string) /\
    (forall f, f <> "enum.out"%string -> dfile d' f = dfile d f) /\ dfile d' "enum.out" = Some file /\ lists_asked A D bas k lo hi ranges hnfs count asked file.
(** [-polya] in a fresh directory, then [-enum] in any directory with this lattice.in and any such enum.in. *)
Definition samples (text : string) (A : mat) (D : Z) (bas : list vec) (k : nat) (lo hi : Z) (ranges : option (list (Z * Z * Z))) (v : pyversion) (e1 : env) (d : dir) : Prop :=
  exists fuel1 d1 hnfs concs count, (forall fuel, (fuel1 <= fuel)%nat -> ends (script (with_fuel e1 fuel) polya_args) d d1) /\ counts_written lo hi d1 hnfs concs count /\ real_counts (Z.of_nat (length bas)) k lo hi ranges hnfs concs count /\
    forall e3 d2 txt asked, proper v e3 -> fair e3 -> dfile d2 "lattice.in" = Some text -> dfile d2 "enum.in" = Some txt -> read_enum txt = Ok asked -> from_counts lo hi hnfs concs asked ->
      (asked <> [] -> enumerates text A D bas k lo hi ranges hnfs concs count e3 d2 asked) /\
      (asked = [] -> exists rowless, forall fuel, script (with_fuel e3 fuel) enum_args d2 = ([("enum.out"%string, rowless)], Err NameError)).
Definition small (k : nat) (sites : Z) : Prop := k = 2%nat /\ sites <= 19 \/ k = 3%nat /\ sites <= 13.
(** [-polya] in a fresh directory, then [-distribution all n] with less than all, then [-enum]: for every stream of random numbers at
    most n + m - 1 rows, m the largest of the counts. *)
Definition sampled_workflow (text : string) (A : mat) (D : Z) (bas : list vec) (k : nat) (lo hi : Z) (ranges : option (list (Z * Z * Z))) (v : pyversion) (e1 : env) (d : dir) : Prop :=
  exists fuel1 d1 hnfs concs count, (forall fuel, (fuel1 <= fuel)%nat -> ends (script (with_fuel e1 fuel) polya_args) d d1) /\ counts_written lo hi d1 hnfs concs count /\ real_counts (Z.of_nat (length bas)) k lo hi ranges hnfs concs count /\
    forall e2 kind n m, proper v e2 -> in_any_case "all" kind -> 0 <= n < grand_total (range_up lo (hi + 1)) hnfs concs count -> 1 <= m ->
      (forall s h c, lo <= s <= hi -> In h (hnfs s) -> In c (concs s) -> count s h c <= m) ->
      exists d2 txt asked, (forall fuel, ends (script (with_fuel e2 fuel) (dist_args kind (str n))) d1 d2) /\ (forall f, In f (names d2) <-> In f (names d1) \/ f = "enum.in"%string) /\
        dfile d2 "enum.in" = Some txt /\ read_enum txt = Ok asked /\ from_counts lo hi hnfs concs asked /\ (forall h c x, In (h, c, x) asked -> 0 < x) /\ total snd asked <= n + m - 1 /\
        forall e3, proper v e3 -> fair e3 ->
          (asked <> [] -> exists fuel0 file d' sys structs, (forall fuel, (fuel0 <= fuel)%nat -> ends (script (with_fuel e3 fuel) enum_args) d2 d') /\ (forall f, f <> "enum.out"%string -> dfile d' f = dfile d2 f) /\
             dfile d' "enum.out" = Some file /\ lists_asked A D bas k lo hi ranges hnfs count asked file /\ read_enum_out file None = Ok (sys, structs) /\ Z.of_nat (length structs) <= n + m - 1) /\
          (asked = [] -> exists rowless, forall fuel, script (with_fuel e3 fuel) enum_args d2 = ([("enum.out"%string, rowless)], Err NameError)).

Lemma sampling_enum text A D bas k lo hi ranges par su v : sampling_setup text A D bas k lo hi ranges par su -> small k (hi * Z.of_nat (length bas)) ->
  forall e3 d2 txt asked, proper v e3 -> fair e3 -> dfile d2 "lattice.in" = Some text -> dfile d2 "enum.in" = Some txt -> read_enum txt = Ok asked ->
    from_counts lo hi (fun s => map six (run_hnfs su s)) (run_concs su) asked ->
    (asked <> [] -> enumerates text A D bas k lo hi ranges (fun s => map six (run_hnfs su s)) (run_concs su) (fun _ => run_count su v) e3 d2 asked) /\
    (asked = [] -> exists rowless, forall fuel, script (with_fuel e3 fuel) enum_args d2 = ([("enum.out"%string, rowless)], Err NameError)).
Proof.
  intros [E1 [E2 [Hu [Hs [<- [<- [<- [<- [<- [<- Hsame]]]]]]]]]] Hsm e3 d2 txt asked He Hfair Hl Hi Hr [Hnd Hask]. pose proof Hu as [A1 A2 A3 A4 A5 A6 A7]. assert (2 <= s_species su <= 3)%nat as K1 by lia. split.
  - intros Hne. assert (are_asked su asked) as Ha.
    { split; auto. intros h c x Hx. destruct (Hask h c x Hx) as [H0 [s [Hs' [Hh Hc]]]]. split; auto. apply in_map_iff in Hh. destruct Hh as [H [<- HH]]. exists s, H. split; [apply (in_sizes su K1); auto|auto]. }
    destruct (enum_out_sampled su par text v Hu Hsm E1 E2 Hs e3 d2 txt asked He Hfair Hl Hi Hr Ha Hne) as [file [f0 [[structs [Er [Hrows [Htot [Hmk Hn]]]]] Hrun]]].
    exists f0, file. eexists. split; [intros fuel Hfu; apply ends_after; rewrite script_enum; apply Hrun; auto|]. split; [intros f; rewrite after_names; cbn [map fst In]; intuition|]. split; [intros f Hf; apply after_other; repeat constructor; auto|].
    split; [cbn [after fold_left fst snd]; apply dfile_same|]. exists (system_of (params_of (e_date e3) par)), structs. destruct Hrows as [R1 [R2 [R3 [R4 [R5 R6]]]]].
    split; auto. split; auto. split; auto. split; [|split; [exact R4|split; [exact R5|split; [exact Htot|split; [|auto]]]]].
    + eapply TransFacts.FOP_impl; [|exact R3]. cbv beta. intros a b Ha' Hb' Hab f g Hf Hg Hcc. apply (Hab f g Hf Hg). apply Hsame; auto. destruct (R2 a f Ha' Hf) as [[Nf _] _]. intros y Hy. apply Nf; auto.
    + intros h c x s Hx Hs' Hh Hle f Hf. destruct (R6 h c x Hx Hle f Hf) as [r [g [Hr' [Hg Hsm']]]]. exists r, g. split; auto. split; auto. apply Hsame; auto. intros y Hy. apply Hf; auto.
  - intros ->. exists (EnumOutModel.text (header (params_of (e_date e3) par))). intros fuel. rewrite script_enum. apply (enum_out_nothing su par text E1 E2 (with_fuel e3 fuel) d2 txt Hl Hi Hr).
Qed.
Lemma sampling_polya text A D bas k lo hi ranges par su v : sampling_setup text A D bas k lo hi ranges par su -> forall e1 d, proper v e1 -> fresh d text ->
  exists fuel1, let d1 := after d (counts su v hi) in (forall fuel, (fuel1 <= fuel)%nat -> ends (script (with_fuel e1 fuel) polya_args) d d1) /\
    counts_written lo hi d1 (fun s => map six (run_hnfs su s)) (run_concs su) (fun _ => run_count su v) /\ dfile d1 "lattice.in" = Some text /\ dfile d1 "enum.in" = None /\ NoDup (names d1) /\ counted su v d1 hi.
Proof.
  intros [E1 [E2 [Hu [Hs [<- [<- [<- [<- [<- [<- Hsame]]]]]]]]]] e1 d He [Hn [Hl [Hi Hh]]]. destruct (polya_main_ok su par text v e1 Hu E1 E2 Hs He) as [f1 Hf1]. exists f1. cbv zeta.
  pose proof (counts_counted su v d (s_hi su) Hh) as Hc. split; [intros fuel Hfu; apply ends_after; rewrite (script_polya _ d text Hl); apply Hf1; auto|]. split; [intros s Hs'; apply (proj1 Hc); auto|].
  split; [|split; [|split; [apply after_NoDup; auto|auto]]]; rewrite (after_counts su v); auto; intros s E; discriminate E.
Qed.
Lemma sampling_samples text A D bas k lo hi ranges v e1 d : (exists par su, sampling_setup text A D bas k lo hi ranges par su) -> small k (hi * Z.of_nat (length bas)) -> proper v e1 -> fresh d text -> samples text A D bas k lo hi ranges v e1 d.
Proof.
  intros [par [su Hset]] Hsm He Hf. destruct (sampling_polya _ _ _ _ _ _ _ _ _ _ v Hset e1 d He Hf) as [f1 [H1 [H2 _]]]. exists f1. do 4 eexists. split; [exact H1|]. split; [exact H2|]. split; [pose proof Hset as [_ [_ [Hu [_ [<- [<- [<- [<- [<- [<- _]]]]]]]]]]; apply counts_real; exact Hu|]. apply (sampling_enum _ _ _ _ _ _ _ _ _ _ v Hset Hsm).
Qed.
Lemma enum_in_fuel e a input out dist d fuel : globbed input d = true -> enum_in_step (with_fuel e fuel) a input out dist d = enum_in_step e a input out dist d.
Proof.
  intros H. unfold enum_in_step. rewrite (bind_quiet (alook (globbed input)) _ d true) by (unfold alook; rewrite H; reflexivity). rewrite (bind_quiet (alook (globbed input)) _ d true) by (unfold alook; rewrite H; reflexivity). cbn iota. reflexivity.
Qed.
Lemma sampling_workflow text A D bas k lo hi ranges v e1 d : (exists par su, sampling_setup text A D bas k lo hi ranges par su) -> small k (hi * Z.of_nat (length bas)) -> proper v e1 -> fresh d text -> sampled_workflow text A D bas k lo hi ranges v e1 d.
Proof.
  intros [par [su Hset]] Hsm He Hf. destruct (sampling_polya _ _ _ _ _ _ _ _ _ _ v Hset e1 d He Hf) as [f1 [H1 [H2 [Hl1 [Hi1 [Hn1 [Hc1 Ho1]]]]]]]. exists f1. do 4 eexists. split; [exact H1|]. split; [exact H2|]. split; [pose proof Hset as [_ [_ [Hu [_ [<- [<- [<- [<- [<- [<- _]]]]]]]]]]; apply counts_real; exact Hu|].
  set (d1 := after d (counts su v hi)) in *. intros e2 kind n m [Hv2 [Hp2 Hd2]] Hk Hn Hm Hm1. pose proof Hset as [E1 [E2 [Hu [Hs [HD [Hb [Hkk [Hlo [Hhi [Hrg _]]]]]]]]]]. pose proof (u_sizes su Hu) as Hsz.
  assert (forall s, In s (range_up lo (hi + 1)) <-> lo <= s <= hi) as Hr by (intros s; rewrite in_range_up; lia).
  pose proof (counts_found su v d1 (dist_args kind (str n)) Hu eq_refl) as Hfound. rewrite Hlo, Hhi, Hkk in Hfound. specialize (Hfound (fun s Hs' => Hc1 s ltac:(lia))).
  assert (forall (l : list (list Z)), filter (fun _ => true) l = l) as Hkeep by (induction l as [|y l IH]; cbn; congruence).
  destruct (PropertiesDistCommand.C73_number_partial e2 (dist_args kind (str n)) d1 (range_up lo (hi + 1)) (fun s => map six (run_hnfs su s)) (run_concs su) (fun _ => run_count su v) k kind (str n) n m (fun _ => true) (fun _ => true)) as [txt [asked [R1 [R2 [R3 [R4 R5]]]]]]; auto.
  - split; [reflexivity|]. split; [reflexivity|]. split; [reflexivity|]. exists false. reflexivity.
  - discriminate.
  - split; auto.
  - unfold PropertiesDistCommand.sizes_asked. cbn [dist_args a_sizes]. unfold PropertiesDistCommand.count_name. cbn [dist_args PropertiesDistCommand.input_of a_input]. split.
    + intros s. rewrite Hr. split.
      * intros Hs'. apply dfile_names. exists (count_file v su s). apply Hc1. lia.
      * intros Hs'. destruct (Ho1 _ Hs') as [Hb'|[s' [Hs2 E]]].
        -- exfalso. destruct Hb' as [E|E]; [|apply E; reflexivity]. pose proof (contains_app "polya.out"%string ("." ++ str s)%string) as E'. congruence.
        -- change (polya_name s = polya_name s') in E. apply (polya_name_inj) in E. subst s'. lia.
    + intros f Hf'. destruct (Ho1 f Hf') as [[E|E]|[s [_ ->]]]; [right; left; exact E|right; right; exact E|left; exists s; reflexivity].
  - unfold PropertiesDistCommand.filter_asked. cbn [dist_args a_filter]. auto.
  - unfold PropertiesDistCommand.kept. cbv beta. enough (grand_total (range_up lo (hi + 1)) (fun s => filter (fun _ => true) (map six (run_hnfs su s))) (fun s => filter (fun _ => true) (run_concs su s)) (fun _ => run_count su v) = grand_total (range_up lo (hi + 1)) (fun s => map six (run_hnfs su s)) (run_concs su) (fun _ => run_count su v)) as -> by auto.
    unfold grand_total. apply PropertiesDistCommand.total_ext_in. intros s _. unfold available. rewrite !Hkeep. auto.
  - intros s h c Hs' Hh Hc. apply Hr in Hs'. unfold PropertiesDistCommand.kept in *. rewrite Hkeep in Hh, Hc. apply (Hm1 s); auto.
  - set (d2 := after d1 [("enum.in"%string, txt)]). exists d2, txt, asked.
    assert (from_counts lo hi (fun s => map six (run_hnfs su s)) (run_concs su) asked) as Hfc.
    { split; auto. intros h c x Hx. destruct (R4 h c x Hx) as [s [Hs' [Hh [Hc Hx']]]]. unfold PropertiesDistCommand.kept in *. rewrite Hkeep in Hh, Hc. apply Hr in Hs'. split; [lia|]. exists s. auto. }
    assert (forall h c x, In (h, c, x) asked -> 0 < x) as Hpos by (intros h c x Hx; destruct (R4 h c x Hx) as [s [_ [_ [_ Hx']]]]; lia).
    assert (dfile d2 "lattice.in" = Some text) as Hl2 by (unfold d2; rewrite after_other; auto; constructor; [discriminate|constructor]).
    assert (dfile d2 "enum.in" = Some txt) as Hi2 by (unfold d2; apply dfile_same).
    assert (globbed "polya.out" d1 = true) as Hgl.
    { apply globbed_iff. exists (str hi). apply dfile_names. exists (count_file v su hi). apply Hc1. lia. }
    rewrite (script_dist _ d1 text _ _ Hl1) in R1. split; [intros fuel; apply ends_after; rewrite (script_dist _ d1 text _ _ Hl1), enum_in_fuel by exact Hgl; exact R1|]. split; [intros f; unfold d2; rewrite after_names; cbn [map fst In]; intuition|]. do 5 (split; [assumption|]).
    intros e3 He3 Hfair. destruct (sampling_enum _ _ _ _ _ _ _ _ _ _ v Hset Hsm e3 d2 txt asked He3 Hfair Hl2 Hi2 R2 Hfc) as [HA HB]. split; [|exact HB]. intros Hne. destruct (HA Hne) as [f0 [file [d' [K1 [K2 [K3 [K4 K5]]]]]]].
    pose proof K5 as [sys [structs [Er [_ [_ [_ [_ [_ [Htot _]]]]]]]]]. exists f0, file, d', sys, structs. do 5 (split; [assumption|]). specialize (Htot Hpos). lia.
Qed.

(** ** C76 *)
(** One atom per cell. *)
Theorem C76_asked_partial : forall text A k lo hi ranges v e1 d, plain_file text A k lo hi ranges -> small k hi -> proper v e1 -> fresh d text -> samples text A 1 [(0, 0, 0)] k lo hi ranges v e1 d.
Proof. intros text A k lo hi ranges v e1 d Hp Hsm. apply sampling_samples; [apply plain_sampling; auto|]. unfold small in *. cbn [length]. lia. Qed.
Theorem C76_workflow_partial : forall text A k lo hi ranges v e1 d, plain_file text A k lo hi ranges -> small k hi -> proper v e1 -> fresh d text -> sampled_workflow text A 1 [(0, 0, 0)] k lo hi ranges v e1 d.
Proof. intros text A k lo hi ranges v e1 d Hp Hsm. apply sampling_workflow; [apply plain_sampling; auto|]. unfold small in *. cbn [length]. lia. Qed.
(** Several atoms per cell. *)
Theorem C76_several_atoms_partial : forall text A D bas k lo hi ranges v e1 d, atoms_file text A D bas k lo hi ranges -> small k (hi * Z.of_nat (length bas)) -> proper v e1 -> fresh d text ->
  samples text A D bas k lo hi ranges v e1 d /\ sampled_workflow text A D bas k lo hi ranges v e1 d.
Proof. intros text A D bas k lo hi ranges v e1 d Hp Hsm He Hf. split; [apply sampling_samples|apply sampling_workflow]; auto; apply atoms_sampling; auto. Qed.

(** The simple cubic lattice, one and two cells: lines for the first shapes and a composition; one structure of the many. *)
Lemma some_fair n date : fair (some_env n date). Proof. intros i l. apply Permutation_refl. Qed.
Example C76_example : samples (sc_file "1 2") (simple_cubic 1) 1 [(0, 0, 0)] 2 1 2 None Py3 (some_env 0 "Monday") (sc_dir "1 2") /\
  forall hnfs concs count, real_counts 1 2 1 2 None hnfs concs count -> (exists h h', from_counts 1 2 hnfs concs [(h', [1; 1], 1); (h, [0; 1], 5)]) /\ 1 < grand_total (range_up 1 (2 + 1)) hnfs concs count.
Proof.
  split; [apply (C76_asked_partial _ _ _ _ _ _ Py3 _ _ sc_12); [left; lia|apply some_proper; repeat split|exact (sc_fresh "1 2")]|].
  intros hnfs concs count Hr. pose proof (Hr 1 ltac:(lia)) as [N1 [_ [C1 P1]]]. pose proof (Hr 2 ltac:(lia)) as [N2 [_ [C2 P2]]].
  destruct (hnfs 1) as [|h l1] eqn:E1; [congruence|]. destruct (hnfs 2) as [|h' l2] eqn:E2; [congruence|].
  assert (In [0; 1] (concs 1)) as I1 by (apply C1; split; [reflexivity|]; split; [intros a [<-|[<-|[]]]; lia|]; split; [reflexivity|exact Logic.I]).
  assert (In [1; 1] (concs 2)) as I2 by (apply C2; split; [reflexivity|]; split; [intros a [<-|[<-|[]]]; lia|]; split; [reflexivity|exact Logic.I]).
  split.
  - exists h, h'. split; [cbn; constructor; [intros [E|[]]; congruence|]; constructor; [intros []|constructor]|]. intros h0 c x [E|[E|[]]]; injection E as <- <- <-; (split; [lia|]).
    + exists 2. rewrite E2. split; [lia|]. split; [left; auto|auto].
    + exists 1. rewrite E1. split; [lia|]. split; [left; auto|auto].
  - change (range_up 1 (2 + 1)) with [1; 2]. unfold grand_total, available, total at 1. cbn [map fold_right]. rewrite E1, E2.
    pose proof (total_member (fun h => total (count 1 h) (concs 1)) (h :: l1) h ltac:(intros y Hy; apply DistProofs.total_nonneg; intros z Hz; specialize (P1 y z Hy Hz); lia) (or_introl eq_refl)) as T1.
    pose proof (total_member (fun h => total (count 2 h) (concs 2)) (h' :: l2) h' ltac:(intros y Hy; apply DistProofs.total_nonneg; intros z Hz; specialize (P2 y z Hy Hz); lia) (or_introl eq_refl)) as T2.
    pose proof (total_member (count 1 h) (concs 1) _ ltac:(intros z Hz; specialize (P1 h z (or_introl eq_refl) Hz); lia) I1) as T3.
    pose proof (total_member (count 2 h') (concs 2) _ ltac:(intros z Hz; specialize (P2 h' z (or_introl eq_refl) Hz); lia) I2) as T4.
    pose proof (P1 h _ (or_introl eq_refl) I1). pose proof (P2 h' _ (or_introl eq_refl) I2). cbv beta in *.
    change (1 < total (fun h => total (count 1 h) (concs 1)) (h :: l1) + (total (fun h => total (count 2 h) (concs 2)) (h' :: l2) + 0)). lia.
Qed.
Example C76_example_workflow : sampled_workflow (sc_file "1 2") (simple_cubic 1) 1 [(0, 0, 0)] 2 1 2 None Py3 (some_env 0 "Monday") (sc_dir "1 2") /\ fair (some_env 0 "Tuesday").
Proof. split; [|apply some_fair]. apply (C76_workflow_partial _ _ _ _ _ _ Py3 _ _ sc_12); [left; lia|apply some_proper; repeat split|exact (sc_fresh "1 2")]. Qed.
Example C76_example_several_atoms : samples (text_lines box_lines) (box_lattice 1 2 3) 2 [(0, 0, 0); (0, 1, 0)] 2 1 3 None Py3 (some_env 0 "Monday") box_dir.
Proof. apply (C76_several_atoms_partial _ _ _ _ _ _ _ _ Py3 _ _ box_file); [left; cbn; lia|apply some_proper; repeat split|exact box_fresh]. Qed.
Print Assumptions C76_asked_partial.
Print Assumptions C76_workflow_partial.
Print Assumptions C76_several_atoms_partial.
Print Assumptions C76_example.
Print Assumptions C76_example_workflow.
Print Assumptions C76_example_several_atoms.
