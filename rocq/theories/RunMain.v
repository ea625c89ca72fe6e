(** A run from scratch (C60). *)
From Coq Require Import Permutation.
From Verif Require Import TextModel PyBase Spec ListFacts PermFacts TransFacts PhononsModel TreeModel HashProofs TreeSearch ArrowProofs DecoFacts EnumSysModel EnumSysProofs Mat3 HNFModel HNFProofs PolyaModel PolyaSpec ConcsModel ConcsProofs.
From Verif Require Import LatSpec LatGroupModel LatFacts LatSites LatProofs LatMain LatTop LatGroupThm LatNoDup LatFirst SNFModel SuperModel StructSpec StructProofs StructThm StructMain StructAll PropertiesGroup PropertiesConcs.
From Verif Require Import DistModel DistSpec FilesModel FilesMain PropertiesFiles EnumOutModel EnumOutSpec RunModel RunProofs RunSystem RunSpec.
Local Open Scope Z_scope.

(** ** Bounds for the numbers *)
Lemma total_bound {A} (f : A -> Z) l B : 0 <= B -> (forall x, In x l -> f x <= B) -> total f l <= B * Z.of_nat (length l).
Proof. intros HB. induction l as [|x l IH]; intros H; cbn [length]; [unfold total; cbn; lia|]. change (total f (x :: l)) with (f x + total f l). specialize (IH ltac:(intros; apply H; cbn; auto)). specialize (H x ltac:(cbn; auto)). lia. Qed.
Lemma few_HNFs n : 1 <= n <= 20 -> (length (find_all_HNFs n) <= 1100)%nat.
Proof.
  intros Hn. assert (forallb (fun i => (length (find_all_HNFs (Z.of_nat i)) <=? 1100)%nat) (seq 1 20) = true) as H by (vm_compute; reflexivity).
  rewrite forallb_forall in H. specialize (H (Z.to_nat n)). rewrite Z2Nat.id in H by lia. apply Nat.leb_le, H. apply in_seq. lia.
Qed.
Lemma find_shape n H : In H (find_all_HNFs n) -> exists a b c d e f, H = ((a, 0, 0), (b, c, 0), (d, e, f)) /\ 0 < a /\ 0 <= b < c /\ 0 <= d < f /\ 0 <= e < f /\ a * c * f = n.
Proof. intros Hin. apply in_find_all in Hin. destruct Hin as [a [b [c [d [e [f Hx]]]]]]. exists a, b, c, d, e, f. intuition lia. Qed.
Lemma six_full n H : In H (find_all_HNFs n) -> full_HNF (six H) = H.
Proof. intros Hin. destruct (find_shape n H Hin) as [a [b [c [d [e [f [-> _]]]]]]]. reflexivity. Qed.
Lemma six_hnf n H : 1 <= n -> In H (find_all_HNFs n) -> is_hnf (six H) /\ nth 0 (six H) 0 * nth 2 (six H) 0 * nth 5 (six H) 0 = n.
Proof. intros Hn Hin. destruct (find_shape n H Hin) as [a [b [c [d [e [f [-> [Ha [Hb [Hd [He E]]]]]]]]]]]. split; [exists a, b, c, d, e, f; auto|exact E]. Qed.
Lemma six_writable n H : 1 <= n <= 20 -> In H (find_all_HNFs n) -> writable_hnf (six H).
Proof.
  intros Hn Hin. destruct (find_shape n H Hin) as [a [b [c [d [e [f [-> [Ha [Hb [Hd [He E]]]]]]]]]]].
  assert (a <= 20 /\ c <= 20 /\ f <= 20) as [La [Lc Lf]] by (assert (1 <= a * c) by nia; assert (1 <= c * f) by nia; assert (1 <= a * f) by nia; nia).
  split; [reflexivity|]. repeat constructor; cbn; lia.
Qed.

Lemma rmap_pure {A B} (f : A -> res B) (g : A -> B) l : (forall x, In x l -> f x = Ok (g x)) -> rmap f l = Ok (map g l).
Proof. induction l as [|x l IH]; intros H; cbn [rmap map]; auto. rewrite H by (cbn; auto). cbn [rbind]. rewrite IH by (intros; apply H; cbn; auto). auto. Qed.

Lemma nonneg_bound d n r a : 0 < d -> 0 <= n -> (let '(x, y, z) := r in z = d /\ 0 <= x /\ 0 <= y) -> fraction_within n r a -> 0 <= a.
Proof. intros Hd Hn H Ha. destruct r as [[x y] z]. destruct H as [-> [Hx Hy]]. unfold fraction_within in Ha. assert (0 <= Z.min x y * n) by nia. nia. Qed.
Lemma fuel_for_all {A} (P : A -> nat -> Prop) l : (forall x, In x l -> exists f0, forall fuel, (f0 <= fuel)%nat -> P x fuel) -> exists f0, forall fuel, (f0 <= fuel)%nat -> forall x, In x l -> P x fuel.
Proof.
  induction l as [|a l IH]; intros H; [exists 0%nat; intros fuel _ x []|]. destruct (H a) as [f1 H1]; [cbn; auto|]. destruct IH as [f2 H2]; [intros; apply H; cbn; auto|].
  exists (f1 + f2)%nat. intros fuel Hf x [<-|Hx]; [apply H1; lia|apply H2; auto; lia].
Qed.

(** Amounts of species. *)
Lemma filter_perm {A} (p : A -> bool) a b : Permutation a b -> Permutation (filter p a) (filter p b).
Proof. induction 1 as [|x a b _ IH|x y a|a b c _ IH1 _ IH2]; cbn [filter]; auto; [destruct (p x); auto|destruct (p x), (p y); auto; apply perm_swap|eapply Permutation_trans; eauto]. Qed.
Lemma amount_perm a b s : Permutation a b -> amount a s = amount b s.
Proof. intros H. unfold amount. f_equal. apply Permutation_length, filter_perm. auto. Qed.
Lemma amount_sites c i : (i < length c)%nat -> amount (plain_sites c) (Z.of_nat i + 1) = Z.of_nat (nth i c 0%nat).
Proof.
  intros Hi. pose proof (runs_occ c 1 (S i)) as H. destruct (Nat.leb_spec 1 (S i)), (Nat.ltb_spec (S i) (1 + length c)); try lia. cbn [andb] in H. replace (S i - 1)%nat with i in H by lia. rewrite <- H.
  rewrite plain_runs. unfold amount, as_sites, occ. f_equal. clear. induction (runs_of 1 c) as [|x l IH]; [reflexivity|]. cbn [map filter snd count_occ]. destruct (Nat.eq_dec x (S i)) as [->|Hne].
  - replace (Z.of_nat (S i) =? Z.of_nat i + 1) with true by (symmetry; apply Z.eqb_eq; lia). cbn [length]. rewrite IH. auto.
  - replace (Z.of_nat x =? Z.of_nat i + 1) with false by (symmetry; apply Z.eqb_neq; lia). auto.
Qed.
Lemma amounts_within n l c : length l = length c ->
  (forall i r, nth_error l i = Some r -> fraction_within n r (amount (plain_sites c) (Z.of_nat i + 1))) <-> Forall2 (fraction_within n) l (map Z.of_nat c).
Proof.
  intros Hl. transitivity (forall i r, nth_error l i = Some r -> fraction_within n r (Z.of_nat (nth i c 0%nat))).
  - split; intros H i r Hr; assert (i < length c)%nat as Hi by (rewrite <- Hl; apply nth_error_Some; congruence); specialize (H i r Hr); rewrite amount_sites in * by auto; auto.
  - revert c Hl. induction l as [|r l IH]; intros [|x c] Hl; try discriminate; cbn [map].
    + split; [constructor|]. intros _ [|i] r Hr; discriminate.
    + cbn [length] in Hl. specialize (IH c ltac:(lia)). split.
      * intros H. constructor; [apply (H 0%nat r); auto|]. apply IH. intros i r' Hr. apply (H (S i) r' Hr).
      * intros H. inversion H; subst. intros [|i] r' Hr; [injection Hr as <-; auto|]. cbn [nth]. apply IH; auto.
Qed.

(** The restrictions of lattice.in. *)
Definition ranges_of (su : setup) : option (list (Z * Z * Z)) := if s_restricted su then Some (s_concs su) else None.

Section Run.
Variables (su : setup) (v : pyversion).
Hypothesis HD : 0 < s_D su.
Hypothesis Hgb : good_basis (s_pg su) (s_D su) (s_bas su) (s_lo su) (s_hi su).
Hypothesis Hpg : forall C R, In (C, R) (s_pg su) -> unimodular C /\ orthogonal R.
Hypothesis Hgr : rotation_group (s_pg su).
Hypothesis Hdiff : NoDup (map snd (s_pg su)).
Notation pg := (s_pg su).
Notation D := (s_D su).
Notation bas := (s_bas su).
Notation nb := (Z.of_nat (length (s_bas su))).
Notation k := (s_species su).

Definition run_sizes : list Z := range_up (s_lo su) (s_hi su + 1).
Definition run_hnfs (s : Z) : list mat := match get_HNFs pg D bas s with Ok l => l | Err _ => [] end.
Definition run_concs (s : Z) : list (list Z) :=
  if s_restricted su then match s_concs su with [] => [] | c0 :: _ => restricted_list s nb (s_concs su) c0 end else concs_unrestricted s nb k.
Definition run_count (h c : list Z) : Z :=
  match (do G <- sym_group pg D bas (full_HNF h) true; count_conc v (s_na su) c G) with Ok (x, _) => x | Err _ => 0 end.

(** With one to three species, usable ranges, and counts that are right and not too large. *)
Section Counts.
Hypothesis Hk1 : (1 <= s_species su <= 3)%nat.
Hypothesis Hsizes1 : 1 <= s_lo su <= s_hi su /\ s_hi su * Z.of_nat (length (s_bas su)) <= 20.
Hypothesis Hur : usable_ranges (s_species su) (ranges_of su).
Lemma nb_pos : 1 <= nb.
Proof. pose proof (gb_pos _ _ _ _ _ Hgb). lia. Qed.
Lemma hi_20 : s_hi su <= 20.
Proof. pose proof nb_pos. nia. Qed.
Lemma in_sizesB s : In s run_sizes <-> s_lo su <= s <= s_hi su.
Proof. unfold run_sizes. rewrite in_range_up. lia. Qed.
Lemma hnfs_factsB s : In s run_sizes -> get_HNFs pg D bas s = Ok (run_hnfs s) /\ (forall H, In H (run_hnfs s) -> In H (find_all_HNFs s)) /\
  (forall K, Z.abs (mdet K) = s -> exists H C R t, In H (run_hnfs s) /\ In (C, R) pg /\ crystal_symmetry D bas C t /\ same_lattice (mmul C K) H) /\
  (forall H K C R t, In H (run_hnfs s) -> In K (run_hnfs s) -> In (C, R) pg -> crystal_symmetry D bas C t -> same_lattice (mmul C H) K -> H = K) /\ NoDup (run_hnfs s) /\ run_hnfs s <> [].
Proof.
  pose proof nb_pos as Hnb. pose proof hi_20 as Hhi. intros Hs. apply in_sizesB in Hs.
  destruct (get_HNFs_runs pg D bas HD (gb_ne _ _ _ _ _ Hgb) (gb_nd _ _ _ _ _ Hgb) (gb_red _ _ _ _ _ Hgb) Hpg Hgr s (repeat (-1, 1) (length bas * Z.to_nat s)) ltac:(lia) ltac:(rewrite repeat_length; auto) (fun H Hin => gb_self _ _ _ _ _ Hgb H ltac:(rewrite (find_det s H) by (auto; lia); lia))) as [hnfs [E [H1 [H2 H3]]]].
  unfold run_hnfs. rewrite E. split; auto. split; auto. split; [intros K HK; apply H2; lia|]. split; [|split].
  - intros H K C R t HH HK HC Ht Hs'. clear - HH HK HC Ht Hs' H3. induction H3 as [|a l Ha H3 IH]; [destruct HH|]. rewrite Forall_forall in Ha. destruct HH as [->|HH], HK as [->|HK]; auto.
    + exfalso. apply (proj1 (Ha K HK C R t HC Ht)); auto.
    + exfalso. apply (proj2 (Ha H HH C R t HC Ht)); auto.
  - apply FOP_NoDup. eapply FOP_impl; [|exact H3]. cbv beta. intros H K _ _ Hn <-. apply (proj1 (Hn mid mid (0, 0, 0) (proj1 Hgr) (symmetry_id D bas))). rewrite mmul_id_l. intros w; tauto.
  - intros ->. destruct (H2 ((1, 0, 0), (0, 1, 0), (0, 0, s))) as [H [_ [_ [_ [[] _]]]]]. left. unfold mdet. ring.
Qed.
Lemma concs_iffB s c : In s run_sizes -> In c (run_concs s) <-> length c = k /\ (forall a, In a c -> 0 <= a) /\ sum_Z c = s * nb /\ (s_restricted su = true -> Forall2 (fraction_within (s * nb)) (s_concs su) c).
Proof.
  pose proof nb_pos as Hnb. pose proof hi_20 as Hhi. intros Hs. apply in_sizesB in Hs. unfold run_concs. pose proof Hur as Hr. unfold ranges_of in Hr. destruct (s_restricted su) eqn:E.
  - destruct Hr as [Hl [d [Hd Hc]]]. destruct (s_concs su) as [|c0 cs] eqn:Ec; [cbn [length] in Hl; lia|].
    assert (Forall (fun c => c_den c = d) (c0 :: cs)) as Hden by (apply Forall_forall; intros [[x y] z] Hin; cbn [c_den]; apply (Hc x y z Hin)).
    assert (Forall (fun c => 0 < c_den c) (c0 :: cs)) as Hdp by (eapply Forall_impl; [|exact Hden]; cbv beta; intros; lia).
    assert (c_den c0 = d) as E0 by (inversion Hden; auto).
    assert (In c (restricted_list s nb (c0 :: cs) c0) <-> sum_Z c = s * nb /\ Forall2 (fraction_within (s * nb)) (c0 :: cs) c) as Hin.
    { split; [apply (restricted_sound s nb _ c0)|]. intros [H1 H2]. apply (restricted_complete s nb (c0 :: cs) c0 cs); auto; try lia. rewrite E0; auto. }
    rewrite Hin. split; [intros [H1 H2]|intros [H1 [H2 [H3 H4]]]; auto]. split; [rewrite <- Hl; symmetry; eapply Forall2_length; eauto|]. split; [|auto].
    assert (0 <= s * nb) as Hn by nia. clear - H2 Hd Hc Hn. assert (forall r, In r (c0 :: cs) -> let '(x, y, z) := r in z = d /\ 0 <= x /\ 0 <= y) as Hc' by (intros [[x y] z] H; apply Hc; auto). clear Hc. revert Hc'.
    induction H2 as [|r a rs c Ha _ IH]; intros Hc' x Hx; [destruct Hx|]. destruct Hx as [<-|Hx]; [|apply IH; auto; intros; apply Hc'; cbn; auto]. apply (nonneg_bound d (s * nb) r); auto. apply Hc'. cbn; auto.
  - rewrite in_unrestricted. split; [intros [H1 [H2 H3]]; split; auto; split; auto; split; auto; discriminate|tauto].
Qed.
Lemma concs_NoDup s : NoDup (run_concs s).
Proof. unfold run_concs. destruct (s_restricted su); [|apply NoDup_unrestricted]. destruct (s_concs su) as [|c0 cs]; [constructor|apply restricted_NoDup]. Qed.
Lemma concs_listB s : In s run_sizes -> exists fuel0, forall fuel, (fuel0 <= fuel)%nat -> get_concs_for_size fuel s k (s_restricted su) nb (s_concs su) = Ok (run_concs s).
Proof.
  pose proof nb_pos as Hnb. pose proof hi_20 as Hhi. intros Hs. apply in_sizesB in Hs. unfold run_concs, get_concs_for_size. pose proof Hur as Hr. unfold ranges_of in Hr. destruct (s_restricted su) eqn:E; [|exists 0%nat; auto].
  destruct Hr as [Hl [d [Hd Hc]]]. destruct (s_concs su) as [|c0 cs] eqn:Ec; [cbn [length] in Hl; lia|]. apply (restricted_run s nb (c0 :: cs) c0 cs); auto; [nia|].
  apply Forall_forall; intros [[x y] z] Hin; cbn [c_den]. destruct (Hc x y z Hin). lia.
Qed.
Lemma concs_factsB s c : In s run_sizes -> In c (run_concs s) -> exists c', c = map Z.of_nat c' /\ length c' = k /\ Z.of_nat (sum_nat c') = s * nb.
Proof.
  intros Hs Hc. apply (concs_iffB s c Hs) in Hc. destruct Hc as [Hl [Hp [Hsum _]]]. exists (map Z.to_nat c). rewrite map_map. split; [|split].
  - transitivity (map (fun x => x) c); [symmetry; apply map_id|]. apply map_ext_in. intros x Hx. rewrite Z2Nat.id; auto.
  - rewrite map_length. auto.
  - rewrite <- Hsum. clear - Hp. induction c as [|x c IH]; [reflexivity|]. cbn [map]. change (sum_nat (Z.to_nat x :: map Z.to_nat c)) with (Z.to_nat x + sum_nat (map Z.to_nat c))%nat. rewrite Nat2Z.inj_add, IH by (intros; apply Hp; cbn; auto). rewrite Z2Nat.id by (apply Hp; cbn; auto). reflexivity.
Qed.
Lemma concs_inB s c : In s run_sizes -> length c = k -> Z.of_nat (sum_nat c) = s * nb -> (s_restricted su = true -> Forall2 (fraction_within (s * nb)) (s_concs su) (map Z.of_nat c)) -> In (map Z.of_nat c) (run_concs s).
Proof.
  intros Hs Hl E Hr. apply (concs_iffB _ _ Hs). rewrite map_length. split; auto. split; [intros a Ha; apply in_map_iff in Ha; destruct Ha as [x [<- _]]; lia|]. split; auto. rewrite <- E.
  clear. induction c as [|x c IH]; [reflexivity|]. cbn [map]. change (sum_nat (x :: c)) with (x + sum_nat c)%nat. rewrite Nat2Z.inj_add, <- IH. reflexivity.
Qed.

(** *** The files of the counts *)
Hypothesis Hcount : forall s H c, In s run_sizes -> In H (run_hnfs s) -> In c (run_concs s) -> exists Gt,
  sym_group pg D bas H true = Ok Gt /\ count_conc v (s_na su) c Gt = Ok (run_count (six H) c, Gt) /\ 0 < run_count (six H) c <= 3 ^ 20.
Lemma count_concs_ok G : forall cs, (forall c, In c cs -> exists x, count_conc v (s_na su) c G = Ok (x, G)) ->
  count_concs v (s_na su) cs G = Ok (map (fun c => match count_conc v (s_na su) c G with Ok (x, _) => x | Err _ => 0 end) cs).
Proof.
  induction cs as [|c cs IH]; intros H; auto. cbn [count_concs map]. destruct (H c) as [x E]; [cbn; auto|]. rewrite E. cbn [rbind]. rewrite IH by (intros; apply H; cbn; auto). auto.
Qed.
Lemma polya_of_size_okB s : In s run_sizes -> exists fuel0, forall fuel, (fuel0 <= fuel)%nat -> polya_of_size v fuel su s = Ok (polya_file (run_concs s) (map six (run_hnfs s)) run_count).
Proof.
  intros Hs. destruct (hnfs_factsB s Hs) as [E [Hf _]]. destruct (concs_listB s Hs) as [f0 Hfu]. exists f0. intros fuel Hfuel. unfold polya_of_size. rewrite E. cbn [rbind].
  rewrite Hfu by auto. cbn [rbind].
  rewrite (rmap_pure _ (fun H => (six H, map (run_count (six H)) (run_concs s)))).
  - cbn [rbind]. unfold polya_file. rewrite map_map. auto.
  - intros H HH.
    assert (exists Gt, sym_group pg D bas H true = Ok Gt /\ forall c, In c (run_concs s) -> count_conc v (s_na su) c Gt = Ok (run_count (six H) c, Gt)) as [Gt [Et Hc]].
    { destruct (run_concs s) as [|c0 cs0] eqn:Ecs.
      - destruct (basis_group pg D bas _ _ HD Hpg Hgr Hdiff Hgb H true) as [Gt [Et _]]; [pose proof hi_20; apply in_sizesB in Hs; rewrite (find_det s H) by (auto; lia); lia|apply in_sizesB in Hs; rewrite (find_det s H) by (auto; lia); lia|]. exists Gt. split; auto. intros c [].
      - rewrite <- Ecs. destruct (Hcount s H c0 Hs HH) as [Gt [Et _]]; [rewrite Ecs; cbn; auto|]. exists Gt. split; auto. intros c Hin.
        destruct (Hcount s H c Hs HH Hin) as [Gt' [Et' [Hc _]]]. congruence. }
    rewrite Et. cbn [rbind]. rewrite count_concs_ok by (intros c Hin; eauto). cbn [rbind]. f_equal. f_equal. apply map_ext_in. intros c Hin. rewrite Hc by auto. auto.
Qed.
Lemma polya_out_okB : exists fuel0, forall fuel, (fuel0 <= fuel)%nat -> polya_out v fuel su = Ok (map (fun s => (s, polya_file (run_concs s) (map six (run_hnfs s)) run_count)) run_sizes).
Proof.
  destruct (fuel_for_all (fun s fuel => polya_of_size v fuel su s = Ok (polya_file (run_concs s) (map six (run_hnfs s)) run_count)) run_sizes polya_of_size_okB) as [f0 H].
  exists f0. intros fuel Hf. unfold polya_out. apply rmap_pure. intros s Hs. rewrite (H fuel Hf s Hs). auto.
Qed.

(** *** enum.in *)
Definition run_files : list (Z * string) := map (fun s => (s, polya_file (run_concs s) (map six (run_hnfs s)) run_count)) run_sizes.
Lemma sizes_NoDup : NoDup run_sizes.
Proof. unfold run_sizes. apply NoDup_range_up. Qed.
Lemma files_get s : In s run_sizes -> dget Z.eqb run_files s = Some (polya_file (run_concs s) (map six (run_hnfs s)) run_count).
Proof.
  unfold run_files. clear Hcount. induction run_sizes as [|a l IH]; intros Hs; [destruct Hs|]. cbn [map dget]. destruct (Z.eqb_spec s a) as [->|Hne]; auto. apply IH. destruct Hs; congruence.
Qed.
Lemma concs_fewB s : In s run_sizes -> Z.of_nat (length (run_concs s)) <= 9261.
Proof.
  intros Hs. transitivity (Z.of_nat (length (Spec.words (map Z.of_nat (seq 0 21)) k))).
  - apply inj_le, NoDup_incl_length; [apply concs_NoDup|]. intros c Hc. apply (concs_iffB _ _ Hs) in Hc. destruct Hc as [Hl [Hp [Hsum _]]]. apply in_words. split; auto. intros a Ha.
    apply in_map_iff. exists (Z.to_nat a). pose proof (Hp a Ha). split; [lia|]. apply in_seq. apply in_sizesB in Hs.
    assert (a <= sum_Z c) by (clear - Hp Ha; unfold sum_Z; induction c as [|x c IH]; [destruct Ha|]; cbn [fold_right] in *; assert (0 <= x) by (apply Hp; cbn; auto); assert (0 <= fold_right Z.add 0 c) by (clear - Hp; assert (forall a, In a c -> 0 <= a) as Hq by (intros; apply Hp; cbn; auto); clear Hp; induction c as [|y c IH]; cbn; [lia|]; assert (0 <= y) by (apply Hq; cbn; auto); specialize (IH ltac:(intros; apply Hq; cbn; auto)); lia);
      destruct Ha as [->|Ha]; [lia|]; specialize (IH ltac:(intros; apply Hp; cbn; auto) Ha); lia).
    pose proof nb_pos. nia.
  - rewrite length_words, map_length, seq_length, Nat2Z.inj_pow. change 9261 with (21 ^ 3). apply Z.pow_le_mono_r; lia.
Qed.
Lemma six_inj s H K : In H (find_all_HNFs s) -> In K (find_all_HNFs s) -> six H = six K -> H = K.
Proof. intros HH HK E. rewrite <- (six_full s H HH), <- (six_full s K HK), E. auto. Qed.
Lemma enum_in_filesB file others listing rnd0 save : (forall s, In s run_sizes -> file s = dget Z.eqb run_files s) -> NoDup listing ->
  (forall f, In f listing <-> In f others \/ exists s, In s run_sizes /\ f = polya_name s) ->
  (forall f, In f others -> contains "polya.out" f = false \/ first_char f <> first_char "polya.out") ->
  exists sizes text systems, found_sizes "polya.out" listing = Ok sizes /\ make_enum_in file sizes FAll None NoFilter rnd0 save = Ok (Some text) /\
    read_enum text = Ok systems /\ NoDup (map fst systems) /\
    forall h c x, In (h, c, x) systems <-> exists s H, In s run_sizes /\ In H (run_hnfs s) /\ h = six H /\ In c (run_concs s) /\ x = run_count h c.
Proof.
  intros Hfile Hnl Hin Hoth. pose proof hi_20 as Hhi.
  assert (forall s, contains "polya.out" (polya_name s) = true) as Hc by (intros s; apply (contains_app "polya.out" ("." ++ str s))).
  assert (forall f, In f others -> forall s, f <> polya_name s) as Hdis.
  { intros f Hf s ->. destruct (Hoth _ Hf) as [E|E]; [rewrite Hc in E; discriminate|apply E; reflexivity]. }
  destruct (C58_sizes_found "polya.out" listing) as [sizes [Es [Hs Hn]]]; [discriminate| | |].
  { intros f Hf. apply Hin in Hf. destruct Hf as [Hf|[s [_ ->]]]; [right; auto|left; exists s; auto]. }
  { exists (s_lo su). apply Hin. right. exists (s_lo su). split; [apply in_sizesB; lia|auto]. }
  assert (forall s, In s sizes <-> In s run_sizes) as Hs'.
  { intros s. rewrite Hs, Hin. split; [|intros Hr; right; exists s; auto]. intros [Hf|[t [Ht E]]]; [exfalso; apply (Hdis _ Hf s); auto|]. change (polya_name s = polya_name t) in E. unfold polya_name in E. apply app_inj_s, str_inj in E. congruence. }
  assert (NoDup sizes) as Hnd by (apply Hn; auto).
  destruct (C58_all_systems file sizes (fun s => map six (run_hnfs s)) run_concs (fun _ => run_count) None k rnd0 save) as [text [systems [E1 [E2 [N Hsys]]]]]; auto.
  - intros s Hi. rewrite Hfile by (apply Hs'; auto). apply files_get, Hs'; auto.
  - intros s Hi. apply Hs' in Hi. destruct (hnfs_factsB s Hi) as [_ [Hf [_ [_ [Hnd' Hne]]]]]. split; [apply concs_NoDup|]. split; [|intros E; apply Hne; apply map_eq_nil in E; auto].
    apply NoDup_map_inj; auto. intros a b Ha Hb. apply (six_inj s); auto.
  - intros s c Hi Hci. apply Hs' in Hi. pose proof Hi as Hi'. apply in_sizesB in Hi'. destruct (concs_factsB s c Hi Hci) as [c' [-> [Hl Hsum]]]. rewrite map_length. split; [|auto]. split; [rewrite map_length; lia|].
    apply Forall_forall. intros x Hx. apply in_map_iff in Hx. destruct Hx as [y [<- Hy]].
    assert (y <= sum_nat c')%nat by (clear - Hy; unfold sum_nat; induction c' as [|z c IH]; [destruct Hy|]; cbn [fold_right] in *; destruct Hy as [->|Hy]; [lia|specialize (IH Hy); lia]). pose proof nb_pos. nia.
  - intros s h Hi Hh. apply Hs' in Hi. apply in_map_iff in Hh. destruct Hh as [H [<- HH]]. destruct (hnfs_factsB s Hi) as [_ [Hf _]]. specialize (Hf H HH). apply in_sizesB in Hi. split; [apply (six_writable s); auto; lia|apply six_hnf; auto; lia].
  - intros s h c Hi Hh Hci. apply Hs' in Hi. apply in_map_iff in Hh. destruct Hh as [H [<- HH]]. destruct (Hcount s H c Hi HH Hci) as [_ [_ [_ Hb]]]. lia.
  - unfold grand_total, available. assert (length sizes <= 20)%nat as Hlen.
    { transitivity (length (map (fun i => Z.of_nat i) (seq 1 20))); [|cbn; lia]. apply NoDup_incl_length; auto. intros s Hi. apply Hs', in_sizesB in Hi. apply in_map_iff. exists (Z.to_nat s). split; [lia|apply in_seq; lia]. }
    assert (3 ^ 20 = 3486784401) as E320 by reflexivity. assert (2 ^ 63 = 9223372036854775808) as E263 by reflexivity.
    apply Z.le_lt_trans with (3486784401 * 9261 * 1100 * Z.of_nat (length sizes)).
    + apply total_bound; [lia|]. intros s Hi. apply Hs' in Hi. etransitivity; [apply (total_bound _ _ (3486784401 * 9261)); [lia|]|].
      * intros h Hh. apply in_map_iff in Hh. destruct Hh as [H [<- HH]]. etransitivity; [apply (total_bound _ _ 3486784401); [lia|]|].
        -- intros c Hci. destruct (Hcount s H c Hi HH Hci) as [_ [_ [_ Hb]]]. lia.
        -- pose proof (concs_fewB s Hi). lia.
      * rewrite map_length. destruct (hnfs_factsB s Hi) as [_ [Hf [_ [_ [Hnd' _]]]]]. pose proof (NoDup_incl_length Hnd' Hf) as Hle. apply in_sizesB in Hi. pose proof (few_HNFs s ltac:(lia)). lia.
    + lia.
  - intros n E. discriminate.
  - exists sizes, text, systems. repeat (split; [auto; fail|]). intros h c x. rewrite Hsys. split.
    + intros [s [Hi [Hh [Hci [-> _]]]]]. apply in_map_iff in Hh. destruct Hh as [H [<- HH]]. exists s, H. split; [apply Hs'; auto|auto].
    + intros [s [H [Hi [HH [-> [Hci ->]]]]]]. exists s. split; [apply Hs'; auto|]. split; [apply in_map; auto|]. split; auto. split; auto. destruct (Hcount s H c Hi HH Hci) as [_ [_ [_ Hb]]]. lia.
Qed.
Lemma enum_in_okB others listdir rnd0 : (forall l : list string, Permutation (listdir l) l) -> NoDup others ->
  (forall f, In f others -> contains "polya.out" f = false \/ first_char f <> first_char "polya.out") ->
  exists text systems, enum_in_all run_files others listdir rnd0 = Ok text /\ read_enum text = Ok systems /\ NoDup (map fst systems) /\
    forall h c x, In (h, c, x) systems <-> exists s H, In s run_sizes /\ In H (run_hnfs s) /\ h = six H /\ In c (run_concs s) /\ x = run_count h c.
Proof.
  intros Hls Hno Hoth. set (listing := listdir (others ++ map (fun f => polya_name (fst f)) run_files)).
  destruct (enum_in_filesB (fun s => dget Z.eqb run_files s) others listing rnd0 false) as [sizes [text [systems [E0 [E1 [E2 [N H]]]]]]]; auto.
  - unfold listing. eapply Permutation_NoDup; [apply Permutation_sym, Hls|]. apply NoDup_app_intro; [auto| |].
    + unfold run_files. rewrite map_map. cbn [fst]. apply NoDup_map_inj; [|apply sizes_NoDup]. intros a b _ _ E. unfold polya_name in E. apply app_inj_s, str_inj in E. auto.
    + intros f Hf Hf2. unfold run_files in Hf2. rewrite map_map in Hf2. apply in_map_iff in Hf2. destruct Hf2 as [s [<- _]]. cbn [fst] in Hf. destruct (Hoth _ Hf) as [E|E]; [|apply E; reflexivity].
      pose proof (contains_app "polya.out" ("." ++ str s)) as E'. change (contains "polya.out" (polya_name s) = true) in E'. congruence.
  - intros f. transitivity (In f (others ++ map (fun f => polya_name (fst f)) run_files)); [split; apply Permutation_in; [apply Hls|apply Permutation_sym, Hls]|]. rewrite in_app_iff. unfold run_files. rewrite map_map. cbn [fst]. rewrite in_map_iff. clear. firstorder.
  - exists text, systems. split; [|auto]. unfold enum_in_all. fold listing. rewrite E0. cbn [rbind]. rewrite E1. auto.
Qed.

End Counts.

Hypothesis Hk : (2 <= s_species su <= 3)%nat.
Hypothesis Hsizes : 1 <= s_lo su <= s_hi su /\ s_hi su * Z.of_nat (length (s_bas su)) <= 20.
Hypothesis Hplain : usable_ranges (s_species su) (ranges_of su) /\ s_arrows su = false /\ forall c, length c = s_species su -> s_na su c = map (fun _ => 0) c.

Lemma Hk1 : (1 <= s_species su <= 3)%nat.
Proof. lia. Qed.
Lemma in_sizes s : In s run_sizes <-> s_lo su <= s <= s_hi su.
Proof. unfold run_sizes. rewrite in_range_up. lia. Qed.
Lemma hnfs_facts s : In s run_sizes -> get_HNFs pg D bas s = Ok (run_hnfs s) /\ (forall H, In H (run_hnfs s) -> In H (find_all_HNFs s)) /\
  (forall K, Z.abs (mdet K) = s -> exists H C R t, In H (run_hnfs s) /\ In (C, R) pg /\ crystal_symmetry D bas C t /\ same_lattice (mmul C K) H) /\
  (forall H K C R t, In H (run_hnfs s) -> In K (run_hnfs s) -> In (C, R) pg -> crystal_symmetry D bas C t -> same_lattice (mmul C H) K -> H = K) /\ NoDup (run_hnfs s) /\ run_hnfs s <> [].
Proof. pose proof Hk1. destruct Hplain as [Hur _]. eapply hnfs_factsB; eauto. Qed.
Lemma concs_iff s c : In s run_sizes -> In c (run_concs s) <-> length c = k /\ (forall a, In a c -> 0 <= a) /\ sum_Z c = s * nb /\ (s_restricted su = true -> Forall2 (fraction_within (s * nb)) (s_concs su) c).
Proof. pose proof Hk1. destruct Hplain as [Hur _]. eapply concs_iffB; eauto. Qed.
Lemma concs_list s : In s run_sizes -> exists fuel0, forall fuel, (fuel0 <= fuel)%nat -> get_concs_for_size fuel s k (s_restricted su) nb (s_concs su) = Ok (run_concs s).
Proof. pose proof Hk1. destruct Hplain as [Hur _]. eapply concs_listB; eauto. Qed.
Lemma concs_facts s c : In s run_sizes -> In c (run_concs s) -> exists c', c = map Z.of_nat c' /\ length c' = k /\ Z.of_nat (sum_nat c') = s * nb.
Proof. pose proof Hk1. destruct Hplain as [Hur _]. eapply concs_factsB; eauto. Qed.
Lemma concs_in s c : In s run_sizes -> length c = k -> Z.of_nat (sum_nat c) = s * nb -> (s_restricted su = true -> Forall2 (fraction_within (s * nb)) (s_concs su) (map Z.of_nat c)) -> In (map Z.of_nat c) (run_concs s).
Proof. pose proof Hk1. destruct Hplain as [Hur _]. eapply concs_inB; eauto. Qed.
(** *** The files of the counts *)
(** What is known of one system. *)
Lemma system_facts s H c rnd : In s run_sizes -> In H (run_hnfs s) -> In c (run_concs s) -> exists Gt Gf l fuel0,
  sym_group pg D bas H true = Ok Gt /\ sym_group pg D bas H false = Ok Gf /\ count_conc v (s_na su) c Gt = Ok (run_count (six H) c, Gt) /\
  0 < run_count (six H) c <= 3 ^ 20 /\
  (forall draw shuffled fuel, (fuel0 <= fuel)%nat -> enum_sys v draw rnd shuffled fuel Gf (length bas) (map Z.to_nat c) (s_na su c) (Z.to_nat (run_count (six H) c)) false false = Ok l) /\
  sound_list pg D bas (decos (map Z.to_nat c)) H (map (fun w => (H, w)) l) /\ complete_list pg D bas (decos (map Z.to_nat c)) H (map (fun w => (H, w)) l) /\
  (forall w, In w l -> Permutation w (decos (map Z.to_nat c))).
Proof.
  intros Hs HH Hc. destruct (concs_facts s c Hs Hc) as [c' [-> [Hl E]]]. destruct (hnfs_facts s Hs) as [_ [Hf _]]. specialize (Hf H HH). pose proof Hs as Hs'. apply in_sizes in Hs'. assert (1 <= s /\ s * nb <= 20) as Hr1 by (pose proof (gb_pos _ _ _ _ _ Hgb); nia).
  destruct (one_system pg D bas _ _ HD Hpg Hgr Hdiff Hgb s c' (conj (proj1 Hr1) (conj Hs' (proj2 Hr1))) ltac:(lia) E H rnd Hf) as [Gt [Gf [num [l [f0 [Et [Ef [Hcount [Hnum [Hpos [Hrun [Hsound Hcomp]]]]]]]]]]]].
  assert (map Z.to_nat (map Z.of_nat c') = c') as Eb by (rewrite map_map; transitivity (map (fun x => x) c'); [apply map_ext; intros; lia|apply map_id]).
  assert (count_conc v (s_na su) (map Z.of_nat c') Gt = Ok (Z.of_nat num, Gt)) as Ec by (rewrite <- (Hcount v); unfold count_conc; destruct Hplain as [_ [_ ->]]; [auto|rewrite map_length; auto]).
  assert (run_count (six H) (map Z.of_nat c') = Z.of_nat num) as En by (unfold run_count; rewrite (six_full s H Hf), Et; cbn [rbind]; rewrite Ec; auto).
  exists Gt, Gf, l, f0. rewrite En, Eb, Nat2Z.id. split; auto. split; auto. split; auto. split; [|split; [|auto]].
  - pose proof (c_labelings bas _ _ s c' (conj (proj1 Hr1) (conj Hs' (proj2 Hr1))) ltac:(lia) E). lia.
  - intros draw shuffled fuel Hfu. destruct Hplain as [_ [_ ->]]; [|rewrite map_length; auto]. rewrite map_map. apply Hrun. auto.
Qed.
Lemma counts_right s H c : In s run_sizes -> In H (run_hnfs s) -> In c (run_concs s) -> exists Gt,
  sym_group pg D bas H true = Ok Gt /\ count_conc v (s_na su) c Gt = Ok (run_count (six H) c, Gt) /\ 0 < run_count (six H) c <= 3 ^ 20.
Proof. intros Hs HH Hc. destruct (system_facts s H c (fun _ => false) Hs HH Hc) as [Gt [_ [_ [_ [E1 [_ [E2 [E3 _]]]]]]]]. exists Gt. auto. Qed.
Lemma polya_of_size_ok s : In s run_sizes -> exists fuel0, forall fuel, (fuel0 <= fuel)%nat -> polya_of_size v fuel su s = Ok (polya_file (run_concs s) (map six (run_hnfs s)) run_count).
Proof. pose proof Hk1. pose proof counts_right. destruct Hplain as [Hur _]. eapply polya_of_size_okB; eauto. Qed.
Lemma polya_out_ok : exists fuel0, forall fuel, (fuel0 <= fuel)%nat -> polya_out v fuel su = Ok (map (fun s => (s, polya_file (run_concs s) (map six (run_hnfs s)) run_count)) run_sizes).
Proof. pose proof Hk1. pose proof counts_right. destruct Hplain as [Hur _]. eapply polya_out_okB; eauto. Qed.
Lemma enum_in_files file others listing rnd0 save : (forall s, In s run_sizes -> file s = dget Z.eqb run_files s) -> NoDup listing ->
  (forall f, In f listing <-> In f others \/ exists s, In s run_sizes /\ f = polya_name s) ->
  (forall f, In f others -> contains "polya.out" f = false \/ first_char f <> first_char "polya.out") ->
  exists sizes text systems, found_sizes "polya.out" listing = Ok sizes /\ make_enum_in file sizes FAll None NoFilter rnd0 save = Ok (Some text) /\
    read_enum text = Ok systems /\ NoDup (map fst systems) /\
    forall h c x, In (h, c, x) systems <-> exists s H, In s run_sizes /\ In H (run_hnfs s) /\ h = six H /\ In c (run_concs s) /\ x = run_count h c.
Proof. pose proof Hk1. pose proof counts_right. destruct Hplain as [Hur _]. eapply enum_in_filesB; eauto. Qed.
Lemma enum_in_ok others listdir rnd0 : (forall l : list string, Permutation (listdir l) l) -> NoDup others ->
  (forall f, In f others -> contains "polya.out" f = false \/ first_char f <> first_char "polya.out") ->
  exists text systems, enum_in_all run_files others listdir rnd0 = Ok text /\ read_enum text = Ok systems /\ NoDup (map fst systems) /\
    forall h c x, In (h, c, x) systems <-> exists s H, In s run_sizes /\ In H (run_hnfs s) /\ h = six H /\ In c (run_concs s) /\ x = run_count h c.
Proof. pose proof Hk1. pose proof counts_right. destruct Hplain as [Hur _]. eapply enum_in_okB; eauto. Qed.
(** *** The lists *)
Definition wanted (c : list Z) (H : mat) (f : decoration) : Prop := primitive D bas H f /\ contents D bas H f (decos (map Z.to_nat c)).
Lemma decos_point c H f x : wanted c H f -> crystal_point D bas x -> In (f x) (decos (map Z.to_nat c)).
Proof.
  intros [Pf [pts [[T1 [T2 T3]] P]]] Hx. destruct (T2 x Hx) as [y [Hy [t [Ht ->]]]]. eapply Permutation_in; [exact P|]. apply in_map_iff. exists (vadd x (vscale D t)). split; auto. apply (Pf t); auto.
Qed.
Lemma wanted_nodir c H f : wanted c H f -> no_directions D bas f.
Proof. intros Hw x Hx. pose proof (decos_point c H f x Hw Hx) as Hi. pose proof (decos_plain (map Z.to_nat c)) as Hp. rewrite Forall_forall in Hp. apply Hp; auto. Qed.
Lemma decos_species c s : In s (decos c) -> fst s = -1 /\ 1 <= snd s <= Z.of_nat (length c).
Proof.
  intros Hs. apply (Permutation_in _ (decos_perm c)) in Hs. rewrite plain_runs in Hs. apply in_map_iff in Hs. destruct Hs as [l [<- Hl]]. cbn [fst snd]. split; auto.
  apply occ_pos in Hl. rewrite runs_occ in Hl. destruct (Nat.leb_spec 1 l), (Nat.ltb_spec l (1 + length c)); cbn [andb] in Hl; lia.
Qed.
Lemma plain_sites_inj c c' : length c = length c' -> Permutation (plain_sites c) (plain_sites c') -> c = c'.
Proof.
  intros Hl Hp. rewrite !plain_runs in Hp. unfold as_sites in Hp. apply (Permutation_map (fun s : Z * Z => Z.to_nat (snd s))) in Hp. rewrite !map_map in Hp. cbn [snd] in Hp.
  assert (forall l, map (fun x => Z.to_nat (Z.of_nat x)) l = l) as E by (intros l; transitivity (map (fun x : nat => x) l); [apply map_ext; intros; lia|apply map_id]). rewrite !E in Hp.
  apply nth_ext with 0%nat 0%nat; auto. intros i Hi. pose proof (proj1 (Permutation_count_occ Nat.eq_dec _ _) Hp (S i)) as Ho.
  fold (occ (S i) (runs_of 1 c)) in Ho. fold (occ (S i) (runs_of 1 c')) in Ho. rewrite !runs_occ in Ho. destruct (Nat.leb_spec 1 (S i)), (Nat.ltb_spec (S i) (1 + length c)), (Nat.ltb_spec (S i) (1 + length c')); cbn [andb] in Ho; try lia.
  replace (S i - 1)%nat with i in Ho by lia. auto.
Qed.
(** Every word of species has a composition. *)
Lemma composition w m : (forall a : Z * Z, In a w -> fst a = -1 /\ 1 <= snd a <= Z.of_nat m) -> exists c, length c = m /\ sum_nat c = length w /\ Permutation w (plain_sites c).
Proof.
  intros Hw. set (x := map (fun a : Z * Z => Z.to_nat (snd a)) w).
  assert (w = as_sites x) as Ew. { unfold x, as_sites. rewrite map_map. transitivity (map (fun a : Z * Z => a) w); [symmetry; apply map_id|]. apply map_ext_in. intros [a b] Hi. destruct (Hw _ Hi). cbn [fst snd] in *. f_equal; [auto|lia]. }
  exists (map (fun i => occ i x) (seq 1 m)). assert (length (map (fun i => occ i x) (seq 1 m)) = m) as El by (rewrite map_length, seq_length; auto). split; auto.
  assert (Permutation x (runs_of 1 (map (fun i => occ i x) (seq 1 m)))) as HP.
  { apply (Permutation_count_occ Nat.eq_dec). intros l. fold (occ l x). fold (occ l (runs_of 1 (map (fun i => occ i x) (seq 1 m)))). rewrite runs_occ, El.
    destruct (Nat.leb_spec 1 l), (Nat.ltb_spec l (1 + m)); cbn [andb].
    - rewrite nth_indep with (d' := occ 0 x) by lia. rewrite (map_nth (fun i => occ i x)). rewrite seq_nth by lia. f_equal. lia.
    - apply occ_zero. intros Hi. unfold x in Hi. apply in_map_iff in Hi. destruct Hi as [a [<- Ha]]. destruct (Hw a Ha). lia.
    - apply occ_zero. intros Hi. unfold x in Hi. apply in_map_iff in Hi. destruct Hi as [a [E Ha]]. destruct (Hw a Ha). lia.
    - apply occ_zero. intros Hi. unfold x in Hi. apply in_map_iff in Hi. destruct Hi as [a [E Ha]]. destruct (Hw a Ha). lia. }
  split; [rewrite <- (runs_length _ 1), <- (Permutation_length HP); unfold x; apply map_length|]. rewrite plain_runs. rewrite Ew at 1. apply Permutation_map. auto.
Qed.

Lemma same_key s H c s' K c' f g : In s run_sizes -> In H (run_hnfs s) -> In c (run_concs s) -> In s' run_sizes -> In K (run_hnfs s') -> In c' (run_concs s') ->
  wanted c H f -> wanted c' K g -> same_structure pg D bas f g -> H = K /\ c = c' /\ same_in_supercell pg D bas H f g.
Proof.
  intros Hs HH Hc Hs' HK Hc' Wf Wg [C [R [t [HC [Ht Hcar]]]]]. pose proof (wanted_nodir _ _ _ Wf) as Nf. pose proof (wanted_nodir _ _ _ Wg) as Ng.
  destruct (Hpg C R HC) as [HCu HCo].
  assert (same_lattice (mmul C H) K) as Hsl.
  { apply (carried_primitive D bas C R t f g H K); auto; [| |apply Wf|apply Wg]; intros x Hx; [rewrite (Nf x Hx)|rewrite (Ng x Hx)]; lia. }
  destruct (hnfs_facts s Hs) as [_ [Hf [_ [Hu _]]]]. destruct (hnfs_facts s' Hs') as [_ [Hf' _]].
  pose proof (find_det s H ltac:(apply in_sizes in Hs; lia) (Hf H HH)) as DH. pose proof (find_det s' K ltac:(apply in_sizes in Hs'; lia) (Hf' K HK)) as DK.
  assert (s = s') as Ess.
  { apply same_lattice_det in Hsl; [|apply in_sizes in Hs'; lia]. rewrite mdet_mmul, Z.abs_mul in Hsl. apply in_sizes in Hs, Hs'. destruct HCu as [E|E]; rewrite E in Hsl; lia. }
  rewrite <- Ess in *. assert (H = K) as EHK by exact (Hu H K C R t HH HK HC Ht Hsl). rewrite EHK in *. split; auto. split.
  - destruct (concs_facts s c Hs Hc) as [d [-> [Ld Ed]]]. destruct (concs_facts s c' Hs Hc') as [d' [-> [Ld' Ed']]].
    assert (forall l, map Z.to_nat (map Z.of_nat l) = l) as Eb by (intros l; rewrite map_map; transitivity (map (fun x : nat => x) l); [apply map_ext; intros; lia|apply map_id]).
    f_equal. apply plain_sites_inj; [congruence|]. destruct Wf as [Pf Cf], Wg as [Pg Cg]. rewrite Eb in Cf, Cg.
    apply Permutation_trans with (decos d); [apply Permutation_sym, decos_perm|]. apply Permutation_trans with (decos d'); [|apply decos_perm].
    apply (contents_unique D bas K g); auto; [intros t' Ht'; apply Pg; auto|]. apply (contents_lattice D bas (mmul C K)); auto. apply (contents_carried D bas C t K f g); auto. apply (plain_carries D bas C R t f g); auto.
  - exists C, R, t. split; auto. split; auto.
Qed.

(** *** Enumerating *)
Definition good_line (y : list Z * list Z * Z) (e : list Z * list config) : Prop :=
  fst e = fst (fst y) /\ exists l, snd e = map Arrowed l /\ let H := full_HNF (fst e) in
    sound_list pg D bas (decos (map Z.to_nat (snd (fst y)))) H (map (fun w => (H, w)) l) /\ complete_list pg D bas (decos (map Z.to_nat (snd (fst y)))) H (map (fun w => (H, w)) l) /\
    forall w, In w l -> Permutation w (decos (map Z.to_nat (snd (fst y)))).
Definition are_systems (systems : list (list Z * list Z * Z)) : Prop :=
  forall h c x, In (h, c, x) systems <-> exists s H, In s run_sizes /\ In H (run_hnfs s) /\ h = six H /\ In c (run_concs s) /\ x = run_count h c.
Lemma Forall2_combine {A B C} (P : B -> C -> Prop) : forall (xs : list A) (ys : list B) (zs : list C), length xs = length ys -> Forall2 (fun xy z => P (snd xy) z) (combine xs ys) zs -> Forall2 P ys zs.
Proof.
  induction xs as [|x xs IH]; intros [|y ys] zs Hl HF; cbn in *; try discriminate; [inversion HF; constructor|]. inversion HF; subst. constructor; auto.
Qed.
Lemma enum_lines_ok draw rnd shuffled systems : are_systems systems ->
  exists found fuel0, (forall fuel, (fuel0 <= fuel)%nat -> enum_lines v draw rnd shuffled fuel su false false systems = Ok found) /\ Forall2 good_line systems found.
Proof.
  intros Hsys. unfold enum_lines.
  set (step := fun (y : nat * (list Z * list Z * Z)) (fuel : nat) =>
    let '(i, (h, c, num)) := y in
    do G <- sym_group pg D (s_bas su) (full_HNF h) (s_arrows su);
    do configs <- enum_sys v (draw i) (rnd i) (shuffled i) fuel G (length (s_bas su)) (map Z.to_nat c) (s_na su c) (Z.to_nat num) false false;
    Ok (h, map Arrowed configs)).
  assert (forall y, In y (combine (seq 0 (length systems)) systems) -> exists l fuel0, (forall fuel, (fuel0 <= fuel)%nat -> step y fuel = Ok (fst (fst (snd y)), map Arrowed l)) /\
    good_line (snd y) (fst (fst (snd y)), map Arrowed l)) as Hstep.
  { intros [i [[h c] x]] Hy. apply in_combine_r in Hy. apply Hsys in Hy. destruct Hy as [s [H [Hs [HH [-> [Hc ->]]]]]].
    destruct (system_facts s H c (rnd i) Hs HH Hc) as [Gt [Gf [l [f0 [_ [Ef [_ [_ [Hrun [Hsound Hcomp]]]]]]]]]].
    destruct (hnfs_facts s Hs) as [_ [Hf _]]. pose proof (six_full s H (Hf H HH)) as E6.
    exists l, f0. split.
    - intros fuel Hfu. unfold step. rewrite E6. destruct Hplain as [_ [-> _]]. rewrite Ef. cbn [rbind length]. rewrite Hrun by auto. auto.
    - split; auto. exists l. cbn [fst snd]. rewrite E6. auto. }
  destruct (rmap_each step (combine (seq 0 (length systems)) systems)) with (P := fun (y : nat * (list Z * list Z * Z)) e => good_line (snd y) e) as [found [f0 [HF Hrun]]].
  { intros y Hy. destruct (Hstep y Hy) as [l [f0 [H1 _]]]. eauto. }
  { intros y b f0 Hy Hr. destruct (Hstep y Hy) as [l [f1 [H1 H2]]]. specialize (Hr (f0 + f1)%nat ltac:(lia)). rewrite H1 in Hr by lia. injection Hr as <-. auto. }
  exists found, f0. split; [|apply (Forall2_combine good_line (seq 0 (length systems))); auto; apply seq_length].
  intros fuel Hfu. rewrite <- (Hrun fuel Hfu). f_equal.
Qed.

(** *** The catalogue *)
Definition row_means (r : list Z * config) (f : decoration) : Prop := exists w, snd r = Arrowed w /\ means D bas (full_HNF (fst r), w) f.
Lemma listed_line systems found r : Forall2 good_line systems found -> In r (listed found) ->
  exists y e l, In y systems /\ In e found /\ good_line y e /\ snd e = map Arrowed l /\ exists w, In w l /\ r = (fst e, Arrowed w).
Proof.
  intros HF Hr. unfold listed in Hr. apply in_flat_map in Hr. destruct Hr as [[h cs] [He Hr]]. apply in_map_iff in Hr. destruct Hr as [cfg [<- Hcfg]].
  assert (exists y, In y systems /\ good_line y (h, cs)) as [y [Hy Hg]].
  { clear - HF He. induction HF as [|y e ys es H HF IH]; [destruct He|]. destruct He as [->|He]; [exists y; cbn; auto|]. destruct (IH He) as [y' [A B]]. exists y'. cbn; auto. }
  pose proof Hg as [E1 [l [E2 [H1 H2]]]]. cbn [fst snd] in *. exists y, (h, cs), l. split; auto. split; auto. split; auto. split; auto. rewrite E2 in Hcfg. apply in_map_iff in Hcfg. destruct Hcfg as [w [<- Hw]]. exists w. auto.
Qed.
Lemma line_system systems y : are_systems systems -> In y systems -> exists s H, In s run_sizes /\ In H (run_hnfs s) /\ fst (fst y) = six H /\ full_HNF (fst (fst y)) = H /\ In (snd (fst y)) (run_concs s).
Proof.
  intros Hsys Hy. destruct y as [[h c] x]. apply Hsys in Hy. destruct Hy as [s [H [Hs [HH [-> [Hc _]]]]]]. exists s, H. cbn [fst snd]. destruct (hnfs_facts s Hs) as [_ [Hf _]]. rewrite (six_full s H (Hf H HH)). auto.
Qed.
Lemma line_wanted systems y e r f : are_systems systems -> In y systems -> good_line y e -> In r (let '(h, cs) := e in map (pair h) cs) -> row_means r f ->
  exists s H, In s run_sizes /\ In H (run_hnfs s) /\ fst (fst y) = six H /\ In (snd (fst y)) (run_concs s) /\ wanted (snd (fst y)) H f.
Proof.
  intros Hsys Hy [E1 [l [E2 [[Hs _] _]]]] Hr [w [Ew Hm]]. destruct (line_system systems y Hsys Hy) as [s [H [Hsz [HH [E4 [E5 Hc]]]]]]. exists s, H. do 4 (split; auto).
  destruct e as [h cs]. cbn [fst snd] in *. apply in_map_iff in Hr. destruct Hr as [cfg [<- Hcfg]]. cbn [fst snd] in *. rewrite E2 in Hcfg. apply in_map_iff in Hcfg. destruct Hcfg as [w' [Ec Hw]]. assert (w' = w) as -> by congruence.
  rewrite E1, E5 in *. destruct (Hs (H, w)) as [_ [_ Hs3]]; [apply in_map_iff; eauto|]. apply Hs3; auto.
Qed.
Lemma catalogue_found systems found : are_systems systems -> NoDup (map fst systems) -> Forall2 good_line systems found ->
  catalogue (run_structures D bas k (s_lo su) (s_hi su) (ranges_of su)) (same_structure pg D bas) row_means (listed found).
Proof.
  intros Hsys Hnd HF. 
  assert (forall r f, In r (listed found) -> row_means r f -> exists y s H, In y systems /\ In s run_sizes /\ In H (run_hnfs s) /\ fst r = six H /\ fst (fst y) = six H /\ In (snd (fst y)) (run_concs s) /\ wanted (snd (fst y)) H f) as Hrow.
  { intros r f Hr [w [Ew Hm]]. destruct (listed_line systems found r HF Hr) as [y [e [l [Hy [He [[E1 [l' [E2 [Hs _]]]] [E3 [w' [Hw ->]]]]]]]]]. cbn [fst snd] in *. injection Ew as <-.
    destruct (line_system systems y Hsys Hy) as [s [H [Hsz [HH [E4 [E5 Hc]]]]]]. exists y, s, H. rewrite E1 in *. rewrite E5 in *. do 6 (split; auto).
    assert (l' = l) as -> by (rewrite E3 in E2; clear - E2; revert l' E2; induction l as [|a l IH]; intros [|b l'] E; cbn in *; try discriminate; auto; injection E as -> E; f_equal; auto).
    destruct Hs as [Hs _]. destruct (Hs (H, w')) as [_ [_ Hs3]]; [apply in_map_iff; eauto|]. apply Hs3; auto. }
  split; [|split; [|split]].
  - intros r Hr. destruct (listed_line systems found r HF Hr) as [y [e [l [Hy [He [[E1 [l' [E2 [Hs _]]]] [E3 [w' [Hw ->]]]]]]]]].
    assert (l' = l) as -> by (rewrite E3 in E2; clear - E2; revert l' E2; induction l as [|a l IH]; intros [|b l'] E; cbn in *; try discriminate; auto; injection E as -> E; f_equal; auto).
    destruct Hs as [Hs _]. destruct (Hs (full_HNF (fst e), w')) as [_ [[f Hf] _]]; [apply in_map_iff; eauto|]. exists f, w'. auto.
  - intros r f Hr Hm. destruct (Hrow r f Hr Hm) as [y [s [H [Hy [Hs [HH [E1 [E2 [Hc Hw]]]]]]]]]. destruct (concs_facts s _ Hs Hc) as [c' [Ec [Lc Sc2]]]. split.
    + intros x Hx. pose proof (decos_point _ H f x Hw Hx) as Hi. apply decos_species in Hi. rewrite map_length, Ec, map_length, Lc in Hi. auto.
    + exists H. destruct (hnfs_facts s Hs) as [_ [Hf _]]. split; [|split; [apply Hw|]].
      { apply in_sizes in Hs. rewrite (find_det s H) by (auto; lia). lia. }
      pose proof (proj1 (concs_iff s _ Hs) Hc) as [_ [_ [Sc Hrc]]]. pose proof Hplain as [Hur _]. unfold ranges_of in *. destruct (s_restricted su); [|auto]. specialize (Hrc eq_refl). destruct Hur as [Hlr _].
      destruct Hw as [_ Cw]. rewrite Ec in Cw, Hrc. rewrite map_map, (map_ext (fun x => Z.to_nat (Z.of_nat x)) (fun x => x)), map_id in Cw by (intros; apply Nat2Z.id).
      exists (decos c'). split; auto.
      rewrite decos_length, Sc2. intros i r' Hr'. rewrite (amount_perm _ _ _ (decos_perm c')). revert i r' Hr'. apply amounts_within; [congruence|auto].
  - intros f [Hsp [K [HK [Pf Hrng]]]]. set (n := Z.abs (mdet K)) in *. assert (In n run_sizes) as Hs by (apply in_sizes; auto).
    destruct (hnfs_facts n Hs) as [_ [Hf [Hall _]]]. destruct (Hall K eq_refl) as [H [C [R [t [HH [HC [Ht Hsl]]]]]]]. destruct (Hpg C R HC) as [HCu HCo].
    set (f1 := fun y => f (mvec (minv C) (vsub y t))).
    assert (forall x, f1 (affine C t x) = f x) as Ef1 by (intros x; unfold f1, affine; rewrite vadd_vsub, minv_vec_l by auto; auto).
    assert (no_directions D bas f) as Nf by (intros x Hx; apply Hsp; auto).
    assert (forall y, crystal_point D bas y -> fst (f1 y) = -1 /\ 1 <= snd (f1 y) <= Z.of_nat k) as Hsp1 by (intros y Hy; destruct (symmetry_onto D bas C t y HCu Ht Hy) as [x [Hx <-]]; rewrite Ef1; auto).
    assert (no_directions D bas f1) as Nf1 by (intros x Hx; apply Hsp1; auto).
    assert (carries D bas C R t f f1) as Hc1 by (apply plain_carries; auto).
    assert (primitive D bas H f1) as Pf1 by (apply (carried_primitive D bas C R t f f1 K H); auto; intros x Hx; [rewrite (Nf x Hx)|rewrite (Nf1 x Hx)]; lia).
    pose proof (find_det n H ltac:(apply in_sizes in Hs; lia) (Hf H HH)) as Hdet.
    assert (s_hi su <= 20) as H20 by (pose proof (gb_pos _ _ _ _ _ Hgb); nia).
    destruct (snf_facts H ltac:(apply in_sizes in Hs; lia)) as [M [L [B [E [HL [HB [Hsn [Hp [Hsm Hv]]]]]]]]].
    destruct (described D bas H L B (diag_of M) HD (gb_red _ _ _ _ _ Hgb) (gb_nd _ _ _ _ _ Hgb) HL HB Hsn Hp f1 ltac:(intros q Hq; apply Pf1; auto)) as [w [Hlw Hw]].
    assert (contents D bas H f1 w) as Cw by (apply (describes_contents D bas H L B (diag_of M)); auto; [apply (gb_red _ _ _ _ _ Hgb)|apply (gb_nd _ _ _ _ _ Hgb)]).
    assert (forall a, In a w -> fst a = -1 /\ 1 <= snd a <= Z.of_nat k) as Hwa.
    { intros a Ha. destruct Cw as [pts [[T1 _] P]]. apply Permutation_sym in P. apply (Permutation_in _ P) in Ha. apply in_map_iff in Ha. destruct Ha as [x [<- Hx]]. auto. }
    destruct (composition w k Hwa) as [c [Lc [Sc Pc]]]. rewrite Hlw in Sc. rewrite Hv, Hdet in Sc.
    assert (In (map Z.of_nat c) (run_concs n)) as Hc.
    { apply concs_in; auto; [rewrite Sc; apply in_sizes in Hs; lia|]. intros Er. unfold ranges_of in Hrng. pose proof Hplain as [Hr _]. unfold ranges_of in Hr. rewrite Er in Hrng, Hr. destruct Hrng as [cell [Ccell Hin]]. destruct Hr as [Hlr _].
      assert (Permutation cell w) as Pcw.
      { apply (contents_unique D bas H f1); auto; [intros q Hq; apply Pf1; auto|]. apply (contents_lattice D bas (mmul C K)); auto. apply (contents_carried D bas C t K f f1); auto. }
      apply amounts_within; [congruence|]. intros i r Hi. specialize (Hin i r Hi). rewrite (amount_perm _ _ _ Pcw), (amount_perm _ _ _ Pc) in Hin. replace (Z.of_nat (length cell)) with (n * nb) in Hin; auto.
      rewrite (Permutation_length Pcw), Hlw. rewrite Hv, Hdet. apply in_sizes in Hs. lia. }
    assert (map Z.to_nat (map Z.of_nat c) = c) as Eb by (rewrite map_map; transitivity (map (fun x : nat => x) c); [apply map_ext; intros; lia|apply map_id]).
    assert (In (six H, map Z.of_nat c, run_count (six H) (map Z.of_nat c)) systems) as Hy by (apply Hsys; exists n, H; auto).
    assert (exists e, In e found /\ good_line (six H, map Z.of_nat c, run_count (six H) (map Z.of_nat c)) e) as [e [He [E1 [l [E2 [_ [Hcomp _]]]]]]].
    { clear - HF Hy. induction HF as [|y e ys es Hg HF IH]; [destruct Hy|]. destruct Hy as [->|Hy]; [exists e; cbn; auto|]. destruct (IH Hy) as [e' [A A']]. exists e'. cbn; auto. }
    cbn [fst snd] in *. rewrite E1, Eb, (six_full n H (Hf H HH)) in Hcomp.
    destruct (Hcomp f1) as [[H' w1] [g [Hin [Hm [C' [R' [t' [[S1 [S2 S3]] Hc2]]]]]]]].
    { split; auto. destruct Cw as [pts [T P]]. exists pts. split; auto. apply Permutation_trans with w; auto. apply Permutation_trans with (plain_sites c); auto. apply Permutation_sym, decos_perm. }
    apply in_map_iff in Hin. destruct Hin as [w2 [Ee Hw2]]. injection Ee as <- <-.
    exists (six H, Arrowed w2), g. split; [|split].
    + unfold listed. apply in_flat_map. exists e. split; auto. destruct e as [h cs]. cbn [fst snd] in *. rewrite E1, E2. apply in_map. apply in_map. auto.
    + exists w2. cbn [fst snd]. rewrite (six_full n H (Hf H HH)). auto.
    + exists (mmul C' C), (mmul R' R), (affine C' t' t). split; [apply Hgr; auto|]. split; [apply symmetry_comp; auto|]. apply plain_carries; auto.
      intros x Hx. rewrite <- affine_comp. pose proof (proj1 (plain_carries D bas C' R' t' f1 g Nf1) Hc2) as Hc3. rewrite Hc3, Ef1; auto. apply (proj1 (Ht x)); auto.
  - unfold listed. rewrite flat_map_concat_map. apply FOP_concat.
    + intros [h cs] He.
      assert (exists y, In y systems /\ good_line y (h, cs)) as [y [Hy [E1 [l [E2 [[Hs1 Hs2] _]]]]]].
      { clear - HF He. induction HF as [|y e ys es H HF IH]; [destruct He|]. destruct He as [->|He]; [exists y; cbn; auto|]. destruct (IH He) as [y' [A B]]. exists y'. cbn; auto. }
      cbn [fst snd] in *. rewrite E2, map_map. destruct (line_system systems y Hsys Hy) as [s [H [Hsz [HH [E4 [E5 Hc]]]]]]. rewrite <- E1 in E5. rewrite E5 in *.
      apply FOP_map. apply FOP_map in Hs2. eapply FOP_impl; [|exact Hs2]. cbv beta. intros w1 w2 H1 H2 Hnot f g [w1' [F1 M1]] [w2' [F2 M2]] Hsame. cbn [fst snd] in *. injection F1 as <-. injection F2 as <-. rewrite E5 in *.
      apply (Hnot f g M1 M2). destruct (Hs1 (H, w1)) as [_ [_ W1]]; [apply in_map_iff; eauto|]. destruct (Hs1 (H, w2)) as [_ [_ W2]]; [apply in_map_iff; eauto|].
      apply (same_key s H (snd (fst y)) s H (snd (fst y)) f g); auto; [apply W1; auto|apply W2; auto].
    + assert (forall ys es, Forall2 good_line ys es -> NoDup (map fst ys) -> (forall y, In y ys -> In y systems) ->
        ForallOrdPairs (fun a b : list Z * list config => forall x y, In x ((let '(h, cs) := a in map (pair h) cs)) -> In y ((let '(h, cs) := b in map (pair h) cs)) ->
          forall f g, row_means x f -> row_means y g -> ~ same_structure pg D bas f g) es) as Hgen; [|apply (Hgen systems); auto].
      clear Hnd HF Hrow. intros ys es HF. induction HF as [|y e ys es Hg HF IH]; intros Hnd Hincl; constructor.
      * cbn [map] in Hnd. inversion Hnd as [|? ? Hnot _]; subst. apply Forall_forall. intros e' He' r r' Hr Hr' f g Mf Mg Hsame.
        assert (exists y', In y' ys /\ good_line y' e') as [y' [Hy' Hg']].
        { clear - HF He'. induction HF as [|y e ys es H HF IH]; [destruct He'|]. destruct He' as [->|He]; [exists y; cbn; auto|]. destruct (IH He) as [y' [A B]]. exists y'. cbn; auto. }
        destruct (line_wanted systems y e r f Hsys ltac:(apply Hincl; cbn; auto) Hg Hr Mf) as [s [H [Hs [HH [E1 [Hc W]]]]]].
        destruct (line_wanted systems y' e' r' g Hsys ltac:(apply Hincl; cbn; auto) Hg' Hr' Mg) as [s' [H' [Hs' [HH' [E1' [Hc' W']]]]]].
        destruct (same_key s H _ s' H' _ f g Hs HH Hc Hs' HH' Hc' W W' Hsame) as [EH [Ec _]]. apply Hnot. apply in_map_iff. exists y'. split; auto.
        destruct (fst y') as [h' c'], (fst y) as [h c]. cbn [fst snd] in *. congruence.
      * apply IH; [cbn [map] in Hnd; inversion Hnd; auto|intros; apply Hincl; cbn; auto].
Qed.
End Run.
