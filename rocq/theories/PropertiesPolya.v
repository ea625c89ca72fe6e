(** Property theorems C11-C15 (see /verif/properties.jsonl). *)
From Coq Require Import Permutation.
From Verif Require Import PyBase Spec ListFacts PermFacts NumericsModel NumericsProofs PhononsModel TreeModel HashProofs ColorProofs DecoFacts BranchTheorems Decide
  MultiProofs TransFacts PropertiesTree PolyaModel PolyaSpec Burnside CycleProofs PolyaCount FloatProofs ChooseProofs PolyaCoeff PolyaTerm PolyaSum PolyaMain PolyaThm PolyaUse.
Local Open Scope nat_scope.

(** ** C11: [reps] holds one structure of every class, so [length reps] is the number of classes. *)
Theorem C11_polya_counts_classes : forall v concs G a n d reps,
  0 < n -> 0 < d -> a <= length concs -> fold_right Nat.add 0 concs = n -> op_group n d G -> NoDup G ->
  transversal (decorated concs (last_ones (length concs) a) d) (op_equiv G) reps ->
  (Z.of_nat (max n (length G)) * Z.of_nat (structure_count concs (last_ones (length concs) a) d) < 2 ^ 53)%Z ->
  polya v concs G a = Ok (Z.of_nat (length reps), G).
Proof. exact polya_decorated. Qed.
(** There is such a list, and all such lists have the same length. *)
Theorem C11_classes_exist : forall concs G a n d, fold_right Nat.add 0 concs = n -> op_group n d G ->
  exists reps, transversal (decorated concs (last_ones (length concs) a) d) (op_equiv G) reps.
Proof. exact transversal_exists. Qed.
Theorem C11_classes_number : forall concs G a n d reps reps', fold_right Nat.add 0 concs = n -> op_group n d G ->
  transversal (decorated concs (last_ones (length concs) a) d) (op_equiv G) reps ->
  transversal (decorated concs (last_ones (length concs) a) d) (op_equiv G) reps' -> length reps = length reps'.
Proof.
  intros concs G a n d reps reps' Hs HG.
  assert (forall x, decorated concs (last_ones (length concs) a) d x -> okw n (Z.of_nat d) x) as Hok.
  { intros x Hx. apply std_structs in Hx. apply in_structs in Hx; [|apply std_skel].
    destruct Hx as [H1 [H2 _]]. split; [rewrite H1; auto|]. intros s Hss. apply H2; auto. }
  apply transversal_length.
  - intros x y Hx _. apply (op_equiv_sym n d (Z.of_nat d) G eq_refl HG). auto.
  - intros x y z Hx _ _. apply (op_equiv_trans n d (Z.of_nat d) G eq_refl HG). auto.
Qed.
(** [structure_count] is the number of decorated structures. *)
Theorem C11_structure_count : forall concs a d, a <= length concs -> 0 < d ->
  exists all, NoDup all /\ (forall w, In w all <-> decorated concs (last_ones (length concs) a) d w) /\
              length all = structure_count concs (last_ones (length concs) a) d.
Proof.
  intros concs a d Ha Hd. set (fl := last_ones (length concs) a).
  assert (length fl = length concs) as Hfl by (unfold fl, last_ones; rewrite map_length, seq_length; auto).
  set (n := sum_nat concs).
  exists (structs (std_kinds concs fl) d n (map Z.of_nat concs)). split; [apply structs_nodup; [apply std_nodup|apply std_skel]|].
  split; [intros w; apply std_structs|].
  set (cs := map (fun i => [i]) (seq 0 n)).
  assert (cycle_decomposition (idperm n) cs) as Hcs.
  { split.
    - unfold idperm. rewrite seq_length. replace (concat cs) with (seq 0 n); auto. unfold cs. generalize 0. clear. induction n; intros m; cbn; auto. f_equal. auto.
    - apply Forall_forall. intros c Hc. unfold cs in Hc. apply in_map_iff in Hc. destruct Hc as [i [<- Hi]]. apply in_seq in Hi. split; [discriminate|].
      split; [repeat constructor; auto|]. cbn. intros [|k] Hk; [|lia]. cbn. unfold idperm. rewrite seq_nth; lia. }
  pose proof (fixed_count (std_kinds concs fl) d n (std_nodup _ _) (std_skel _ _) (idperm n) (idperm d) (idperm_is_perm n) (idperm_is_perm d) cs Hcs (map Z.of_nat concs)) as H.
  rewrite filter_all in H.
  - rewrite H by (rewrite map_length, std_length; auto). unfold flags. rewrite std_flags by auto.
    unfold structure_count. rewrite <- wt_count by auto. fold (mult concs). rewrite <- cw_identity by auto. unfold n in *. f_equal.
    unfold cs. rewrite map_map. cbn [length]. rewrite map_const, seq_length. do 2 f_equal. unfold fixed_directions.
    rewrite filter_all; [unfold idperm; rewrite !seq_length; auto|].
    intros x Hx. unfold idperm in *. rewrite seq_length in Hx. apply in_seq in Hx. cbn. rewrite seq_nth by lia. apply Nat.eqb_refl.
  - intros x Hx. apply w_eqb_spec. apply in_structs in Hx; [|apply std_skel]. destruct Hx as [H1 [H2 _]].
    apply (act_op_id n d (Z.of_nat d)); auto. intros s Hs. apply H2; auto.
Qed.
(** Four directions, two sites, the second species carrying the arrow. *)
Example C11_example :
  op_group 2 4 quarter /\ NoDup quarter /\ structure_count [1; 1] (last_ones 2 1) 4 = 8 /\
  polya Py3 [1; 1] quarter 1 = Ok (2%Z, quarter) /\ polya Py2 [1; 1] quarter 1 = Ok (2%Z, quarter).
Proof.
  split; [apply op_groupb_spec; reflexivity|]. split; [repeat constructor; cbn; intuition discriminate|].
  split; [vm_compute; reflexivity|]. split; vm_compute; reflexivity.
Qed.

(** ** C12 *)
(** The decorations are sorted and summarised by the code itself; the number of structures returned by the
    enumeration is the number predicted. *)
Theorem C12_prediction_is_enumeration : forall v cwa l G m dim cellsize rnd,
  cwa = col_sort l -> (exists s, In s cwa /\ has_arrow s = true) ->
  (forall s t, In s cwa -> In t cwa -> skeleton s = skeleton t -> s = t) ->
  (0 < dim)%Z -> Z.of_nat m = dim -> op_group (length cwa) m G -> NoDup G ->
  let '(n_arrows, arrow_types, concs) := how_many_arrows cwa in
  (Z.of_nat (max (length cwa) (length G)) * Z.of_nat (length (labelings concs) * m ^ n_arrows) < 2 ^ 53)%Z ->
  exists L fuel0, (forall fuel, fuel0 <= fuel -> brancher concs G cwa dim true cellsize false rnd fuel SNone = Ok L) /\
    polya v concs G arrow_types = Ok (Z.of_nat (length L), G).
Proof.
  intros v cwa l G m dim cs rnd Hl Ha Hcons Hd Hm HG Hnd.
  destruct (C05_full_enumeration_with_arrows cwa G m dim cs rnd Ha Hcons Hd Hm HG) as [L [HL [f Hf]]].
  assert (cwa <> []) as Hne by (destruct Ha as [s [Hs _]]; intros ->; destruct Hs).
  assert (0 < m) as Hm0 by lia. subst dim.
  pose proof (polya_cwa v cwa l G m L Hl Hne Hm0 HG Hnd Hcons HL) as Hp.
  rewrite cwa_how_many in * by auto. intros HB. exists L, f. split; [exact Hf|apply Hp; auto].
Qed.
(** Without arrows [polya] is given the concentrations as they stand in the input (absent species, any order). *)
Theorem C12_prediction_is_enumeration_plain : forall v concs cwa G m dim cellsize rnd,
  Permutation cwa (plain_sites concs) -> cwa <> [] -> 0 < m -> op_group (length cwa) m G -> NoDup G ->
  (Z.of_nat (max (length cwa) (length G)) * Z.of_nat (length (labelings concs)) < 2 ^ 53)%Z ->
  exists L fuel0,
    (forall fuel, fuel0 <= fuel -> brancher (snd (how_many_arrows cwa)) G cwa dim true cellsize false rnd fuel SNone = Ok L) /\
    polya v concs G 0 = Ok (Z.of_nat (length L), G).
Proof.
  intros v concs cwa G m dim cs rnd Hperm Hne Hm HG Hnd HB.
  assert (Forall (fun s => fst s = (-1)%Z) cwa) as Hno.
  { apply Forall_forall. intros s Hs. apply (Permutation_in _ Hperm) in Hs. unfold plain_sites in Hs. apply in_flat_map in Hs.
    destruct Hs as [[i c] [_ Hs]]. apply repeat_spec in Hs. subst. auto. }
  destruct (C04_full_enumeration cwa G dim cs rnd Hne Hno) as [L [HL [f Hf]]]; [eapply op_group_perm_group; eauto|].
  exists L, f. split.
  - unfold how_many_arrows. cbn [snd]. rewrite find_concentrations_spec by apply site_eqb_spec.
    replace (somes (map Some cwa)) with cwa; auto. clear. unfold somes. induction cwa as [|x l IH]; cbn; [auto|]. rewrite <- IH. auto.
  - eapply polya_plain; eauto.
Qed.
Example C12_example :
  one_arrow = col_sort [(1, 2); (-1, 1)]%Z /\ how_many_arrows one_arrow = (1, 1, [1; 1]) /\
  brancher [1; 1] quarter one_arrow 4 true 2 false (fun _ => false) 100 SNone = Ok [[(-1, 1); (0, 2)]; [(-1, 1); (1, 2)]]%Z /\
  polya Py3 [1; 1] quarter 1 = Ok (2%Z, quarter) /\
  two_two = plain_sites [2; 2] /\ polya Py2 [2; 2] square 0 = Ok (2%Z, square).
Proof. split; [|split; [|split; [|split; [|split]]]]; vm_compute; reflexivity. Qed.

(** ** C13 *)
(** Exact while (number of sites or operations) * (number of structures) is below 2^53: see C11.  Beyond that it is
    not: one operation, 67 sites. *)
Lemma identity_only : forall concs a n d reps, fold_right Nat.add 0 concs = n -> a <= length concs -> 0 < d ->
  op_group n d [(idperm n, idperm d)] ->
  transversal (decorated concs (last_ones (length concs) a) d) (op_equiv [(idperm n, idperm d)]) reps ->
  length reps = structure_count concs (last_ones (length concs) a) d.
Proof.
  intros concs a n d reps Hs Ha Hd HG Hr. destruct (C11_structure_count concs a d) as [all [Hnd [Hall <-]]]; auto.
  assert (forall x, decorated concs (last_ones (length concs) a) d x -> act_op (idperm n, idperm d) x = x) as Hid.
  { intros x Hx. apply std_structs in Hx. apply in_structs in Hx; [|apply std_skel]. destruct Hx as [H1 [H2 _]].
    apply (act_op_id n d (Z.of_nat d)); auto; [rewrite H1; auto|]. intros s Hss. apply H2; auto. }
  refine (C11_classes_number concs _ a n d reps all Hs HG Hr _). split; [|split].
  - intros r Hrr. apply Hall; auto.
  - intros x Hx. exists x. split; [apply Hall; auto|]. exists (idperm n, idperm d). split; [left; auto|]. symmetry; auto.
  - apply FOP_NoDup in Hnd. eapply TransFacts.FOP_impl; [|exact Hnd]. cbn beta. intros x y Hx Hy Hne [g [[<-|[]] E]]. apply Hne.
    apply Hall in Hx. rewrite E. symmetry; auto.
Qed.
Theorem C13_exact_refuted : forall v, exists concs G reps z,
  op_group 67 1 G /\ NoDup G /\ fold_right Nat.add 0 concs = 67 /\
  transversal (decorated concs (last_ones (length concs) 0) 1) (op_equiv G) reps /\
  polya v concs G 0 = Ok (z, G) /\ z <> Z.of_nat (length reps).
Proof.
  intros v. set (G := [(idperm 67, idperm 1)]).
  assert (op_group 67 1 G) as HG by (apply op_groupb_spec; vm_compute; reflexivity).
  destruct (C11_classes_exist [33; 34] G 0 67 1 eq_refl HG) as [reps Hr].
  assert (Z.of_nat (length reps) = 14226520737620288370)%Z as Hlen.
  { pose proof (identity_only [33; 34] 0 67 1 reps eq_refl (Nat.le_0_l _) Nat.lt_0_1 HG Hr) as Hc.
    rewrite Hc. unfold structure_count. rewrite Nat2Z.inj_mul, labelings_prod. vm_compute. reflexivity. }
  destruct v.
  - exists [33; 34], G, reps, 14226520737620287488%Z. split; [auto|]. split; [repeat constructor; auto|]. split; [reflexivity|]. split; [auto|].
    split; [vm_compute; reflexivity|]. rewrite Hlen. discriminate.
  - exists [33; 34], G, reps, 14226520737620289536%Z. split; [auto|]. split; [repeat constructor; auto|]. split; [reflexivity|]. split; [auto|].
    split; [vm_compute; reflexivity|]. rewrite Hlen. discriminate.
Qed.

(** ** C14 *)
Theorem C14_cycle_dictionary : forall n d o, is_perm n (fst o) -> is_perm d (snd o) ->
  exists cycles dict, cycle_decomposition (fst o) cycles /\ polynomials o = Ok dict /\ NoDup (map fst dict) /\
    (forall L c m, In ((L, c), m) dict ->
        0 < m /\ m = length (filter (fun cy => length cy =? L) cycles) /\ c = length (fixed_directions (snd o) L)) /\
    (forall cy, In cy cycles -> exists c m, In ((length cy, c), m) dict) /\
    fold_right Nat.add 0 (map (fun '((L, c), m) => L * m) dict) = n.
Proof.
  intros n d o Hp Hs. destruct (polynomials_spec n d o Hp Hs) as [cs [dict [H1 [H2 [H3 [H4 [H5 H6]]]]]]].
  assert (Hdec : forall a b : nat * nat, {a = b} + {a <> b}) by (decide equality; apply Nat.eq_dec).
  exists cs, dict. split; auto. split; auto. split; auto. split; [|split].
  - intros L c m Hin. rewrite Forall_forall in H4. pose proof (H4 _ Hin) as Hm. cbn in Hm. split; auto.
    assert (In (L, c) (cyc_data o cs)) as Hk by (apply H6; apply in_map_iff; exists ((L, c), m); auto).
    assert (c = length (fixed_directions (snd o) L)) as Hc.
    { unfold cyc_data in Hk. apply in_map_iff in Hk. destruct Hk as [cy [E _]]. inversion E. auto. }
    split; auto.
    transitivity (count_occ Hdec (flat_map ex (map triple dict)) (L, c)).
    + clear - H5 Hin. induction dict as [|[[L' c'] m'] dict IH]; [destruct Hin|]. cbn [map flat_map triple ex]. rewrite count_occ_app.
      inversion H5; subst. destruct Hin as [E|Hin].
      * inversion E; subst. replace (count_occ Hdec (repeat (L, c) m) (L, c)) with m.
        -- replace (count_occ Hdec (flat_map ex (map triple dict)) (L, c)) with 0; [lia|]. symmetry. apply count_occ_not_In. intros Hi.
           apply in_flat_map in Hi. destruct Hi as [[[a b] e] [G1 G2]]. apply repeat_spec in G2. inversion G2; subst. apply H1.
           apply in_map_iff in G1. destruct G1 as [[[a' b'] e'] [E' G1]]. inversion E'; subst. apply in_map_iff. exists ((a, b), e). auto.
        -- symmetry. apply count_occ_repeat_eq. auto.
      * rewrite <- (IH H2 Hin). rewrite count_occ_repeat_neq; auto. intros E. apply H1. cbn. rewrite <- E. apply in_map_iff. exists ((L, c), m). auto.
    + rewrite (proj1 (Permutation_count_occ Hdec _ _) H3). subst c. unfold cyc_data. clear.
      induction cs as [|cy cs IH]; auto. cbn [map count_occ filter]. destruct (Nat.eqb_spec (length cy) L) as [E|E].
      * destruct (Hdec (length cy, length (fixed_directions (snd o) (length cy))) (L, length (fixed_directions (snd o) L))) as [E'|E'].
        -- cbn [length]. auto.
        -- exfalso. apply E'. rewrite E. auto.
      * destruct (Hdec (length cy, length (fixed_directions (snd o) (length cy))) (L, length (fixed_directions (snd o) L))) as [E'|E']; auto.
        inversion E'. congruence.
  - intros cy Hcy. assert (In (length cy, length (fixed_directions (snd o) (length cy))) (map fst dict)) as Hin.
    { apply H6. unfold cyc_data. apply in_map_iff. exists cy. auto. }
    apply in_map_iff in Hin. destruct Hin as [[[a b] m] [E Hin]]. inversion E; subst. eauto.
  - transitivity (total (map triple dict)).
    + unfold total, sum_nat. rewrite map_map. f_equal. apply map_ext. intros [[L c] m]; auto.
    + rewrite <- ex_sum. rewrite (sum_nat_perm _ (map fst (cyc_data o cs))) by (apply Permutation_map; auto).
      unfold cyc_data. rewrite map_map. cbn [fst]. rewrite <- concat_length_sum. destruct H1 as [H1 _].
      rewrite (Permutation_length H1), seq_length. apply Hp.
Qed.
(** [_group_to_cyclic] does this for every operation of the group, in order. *)
Theorem C14_whole_group : forall n d G, 0 < n -> G <> [] -> (forall g, In g G -> is_perm n (fst g) /\ is_perm d (snd g)) ->
  exists dicts, group_to_cyclic G = Ok dicts /\ Forall2 (fun g dict => polynomials g = Ok dict) G dicts.
Proof.
  intros n d G Hn Hne Hp. destruct G as [|g0 G0] eqn:EG; [congruence|]. rewrite <- EG in *.
  assert (In g0 G) as Hg0 by (rewrite EG; cbn; auto). destruct (Hp g0 Hg0) as [P1 _].
  unfold group_to_cyclic. assert (get G 0 = Ok g0) as -> by (rewrite EG; auto). cbn [rbind]. rewrite (perm_has_zero n) by auto.
  destruct (rmap_exists polynomials (fun g dict => polynomials g = Ok dict) G) as [dicts [E HF]].
  - intros g Hg. destruct (Hp g Hg) as [Q1 Q2]. destruct (polynomials_spec n d g Q1 Q2) as [cs [dict [_ [E _]]]]. eauto.
  - exists dicts. auto.
Qed.
Example C14_example : polynomials ([1; 2; 0; 4; 3; 5; 6], [1; 0; 3; 2; 4; 5]) = Ok [((3, 2), 1); ((2, 6), 1); ((1, 2), 2)].
Proof. vm_compute. reflexivity. Qed.

(** ** C15 *)
Definition one_based (G : list (list nat * list nat)) : list (list nat * list nat) :=
  map (fun g => (map S (fst g), map S (snd g))) G.
Theorem C15_value_error : forall v concs G a n d, 0 < n -> G <> [] -> (forall g, In g G -> is_perm n (fst g) /\ is_perm d (snd g)) ->
  (fold_right Nat.add 0 concs <> n -> polya v concs G a = Err ValueError) /\
  (fold_right Nat.add 0 concs = n -> exists z, polya v concs G a = Ok (z, G)).
Proof.
  intros v concs G a n d Hn Hne Hp. unfold polya. destruct G as [|g0 G0] eqn:EG; [congruence|]. rewrite <- EG in *.
  assert (In g0 G) as Hg0 by (rewrite EG; cbn; auto). destruct (Hp g0 Hg0) as [[P1 _] _].
  assert (get G 0 = Ok g0) as E0 by (rewrite EG; auto). rewrite E0. cbn [rbind]. rewrite P1. change (fold_right Nat.add 0 concs) with (sum_nat concs).
  destruct (Nat.eqb_spec (sum_nat concs) n) as [E|E]; cbn [negb]; [|split; [auto|lia]]. split; [congruence|]. intros _.
  assert (map (fun o : op => (zero_based (fst o), zero_based (snd o))) G = G) as ->.
  { rewrite <- (map_id G) at 2. apply map_ext_in. intros o Ho. destruct (Hp o Ho) as [Q1 Q2].
    rewrite (zero_based_perm n), (zero_based_perm d) by auto. destruct o; auto. }
  destruct (C14_whole_group n d G Hn Hne Hp) as [dicts [-> _]]. cbn [rbind]. eauto.
Qed.
Theorem C15_one_based : forall v concs G a n d, 0 < n -> G <> [] -> (forall g, In g G -> is_perm n (fst g) /\ is_perm d (snd g)) ->
  polya v concs (one_based G) a = polya v concs G a.
Proof.
  intros v concs G a n d Hn Hne Hp. unfold polya, one_based.
  assert (forall p, zero_based (map S p) = p) as Hz.
  { intros p. unfold zero_based, has_zero, shift.
    assert (existsb (Nat.eqb 0) (map S p) = false) as -> by (induction p; cbn; auto).
    rewrite map_map. cbn. apply map_id. }
  assert (map (fun o : op => (zero_based (fst o), zero_based (snd o))) G = G) as ->.
  { rewrite <- (map_id G) at 2. apply map_ext_in. intros o Ho. destruct (Hp o Ho) as [Q1 Q2].
    rewrite (zero_based_perm n), (zero_based_perm d) by auto. destruct o; auto. }
  rewrite map_map. cbn [fst snd]. rewrite (map_ext (fun x : op => (zero_based (map S (fst x)), zero_based (map S (snd x)))) (fun x => x)) by (intros [p s]; cbn; rewrite !Hz; auto).
  rewrite map_id, map_length. destruct G as [|g0 G0]; [congruence|]. cbn [map get nth_error rbind fst]. rewrite map_length. reflexivity.
Qed.
Example C15_example : polya Py3 [1; 1] (one_based quarter) 1 = Ok (2%Z, quarter) /\ polya Py3 [1; 2] quarter 1 = Err ValueError.
Proof. split; vm_compute; reflexivity. Qed.

Print Assumptions C11_polya_counts_classes.
Print Assumptions C11_classes_exist.
Print Assumptions C11_classes_number.
Print Assumptions C11_structure_count.
Print Assumptions C12_prediction_is_enumeration.
Print Assumptions C12_prediction_is_enumeration_plain.
Print Assumptions C13_exact_refuted.
Print Assumptions C14_cycle_dictionary.
Print Assumptions C14_whole_group.
Print Assumptions C15_value_error.
Print Assumptions C15_one_based.
