(** C40, C41, C42, C51, C52: [enum_sys] and what it dispatches to. *)
From Coq Require Import Permutation Sorted.
From Verif Require Import PyBase Spec ListFacts PermFacts NumericsModel PhononsModel TreeModel ColorProofs DecoFacts BranchTheorems Decide
  PolyaModel PolyaSpec PolyaUse EnumSysModel DecoProofs ArrowEnum SmallProofs EnumSysProofs EnumSysFail EnumSysGuess EnumSysMore PropertiesTree.
Local Open Scope Z_scope.

(** ** C42: decorations.  [na_i = int(cList[i]*aconcs[i])] atoms of species i+1 carry an arrow. *)
Theorem C42_decorations : forall (cList : list nat) (na : list Z),
  length na = length cList -> (forall i, (i < length cList)%nat -> 0 <= nth i na 0 <= Z.of_nat (nth i cList 0%nat)) ->
  exists D, arrow_concs cList na = Ok D /\
    length D = fold_right Nat.add 0%nat cList /\
    (forall i, (i < length cList)%nat ->
       Z.of_nat (multiplicity site_eqb D (1, Z.of_nat (S i))) = nth i na 0 /\
       Z.of_nat (multiplicity site_eqb D (-1, Z.of_nat (S i))) = Z.of_nat (nth i cList 0%nat) - nth i na 0) /\
    (exists unarrowed arrowed, D = unarrowed ++ arrowed /\
       Forall (fun s => has_arrow s = false) unarrowed /\ Forall (fun s => has_arrow s = true) arrowed) /\
    D = flat_map (fun d => repeat d (multiplicity site_eqb D d)) (first_occurrences site_eqb D) /\
    how_many_arrows D = (Z.to_nat (fold_right Z.add 0 na), length (filter (fun a => 0 <? a) na),
                         map (multiplicity site_eqb D) (first_occurrences site_eqb D)).
Proof.
  intros cl na Hl Hle. assert (nonneg_at_most cl na) as Hna by (split; auto).
  destruct (arrow_concs_shape cl na Hna) as [u [a [E [Hp [Hu [Ha _]]]]]]. exists (runs (u ++ a)). split; auto. split; [|split; [|split; [|split]]].
  - apply (D_length cl na); auto.
  - intros i Hi. destruct (deco_runs_in cl na i Hi) as [H1 H2]. rewrite (shape_mult cl na _ _ _ Hp H1), (shape_mult cl na _ _ _ Hp H2).
    specialize (Hle i Hi). lia.
  - exists (runs u), (runs a). split; [apply runs_app|]. split; apply Forall_forall; intros s Hs; apply runs_in in Hs; apply in_map_iff in Hs; destruct Hs as [b [<- Hb]].
    + rewrite Forall_forall in Hu. auto.
    + rewrite Forall_forall in Ha. auto.
  - apply (shape_contiguous cl na); auto.
  - apply (shape_counts cl na); auto.
Qed.
Example C42_example : arrow_concs [4; 2; 3]%nat [1; 0; 3] =
    Ok [(-1, 2); (-1, 2); (-1, 1); (-1, 1); (-1, 1); (1, 1); (1, 3); (1, 3); (1, 3)] /\
  how_many_arrows [(-1, 2); (-1, 2); (-1, 1); (-1, 1); (-1, 1); (1, 1); (1, 3); (1, 3); (1, 3)] = (4, 2, [2; 3; 1; 3])%nat.
Proof. split; reflexivity. Qed.
(** A fraction above 1 is not an error: the species loses its arrows. *)
Theorem C42_too_many_arrows : forall c a, Z.of_nat c < a -> arrow_concs [c] [a] = Ok (repeat (-1, 1) c).
Proof.
  intros c a H. unfold arrow_concs, species_decorations. cbn -[col_sort Z.leb]. destruct (Z.leb_spec a (Z.of_nat c)); [lia|]. rewrite app_nil_r. f_equal.
  destruct c as [|c]; auto.
  assert (nonneg_at_most [S c] [0]) as Hna by (split; auto; intros [|i] Hi; cbn in *; lia).
  pose proof (arrow_concs_runs [S c] [0] Hna) as E. destruct (arrow_concs_shape [S c] [0] Hna) as [u [w [E' [Hp _]]]]. rewrite E in E'. inversion E' as [E''].
  unfold deco_runs, runs in E''. cbn [flat_map seq length nth Z.to_nat repeat app fst snd Nat.sub] in E''. rewrite !app_nil_r in E''. change (Z.of_nat 1) with 1 in E''. transitivity (runs (u ++ w)); [exact E''|].
  unfold deco_runs in Hp. cbn in Hp. apply Permutation_sym, Permutation_length_1_inv in Hp. rewrite Hp. unfold runs. cbn. rewrite app_nil_r. auto.
Qed.

(** ** C51: [add_arrows ... small=True].  [draw] are the random numbers. *)
Theorem C51_small_sample : forall n m dim col A draw num fuel k L k',
  0 < dim -> Z.of_nat m = dim -> length col = n -> op_group n m A ->
  (forall j, 0 <= draw j < dim ^ Z.of_nat (length (filter has_arrow col)) - 1) ->
  add_arrows_small draw fuel col A dim num k = Ok (L, k') ->
  length L = num /\ (forall w, In w L -> map skeleton w = map skeleton col /\ directions_below dim w) /\
  ForallOrdPairs (fun r s => ~ op_equiv A r s) L.
Proof.
  intros n m dim col A draw num fuel k L k' Hd Hm Hl HA Hdraw E.
  apply (small_sound n m dim col A Hm Hd Hl (proj1 HA) draw Hdraw HA num fuel k L k' E).
Qed.
(** It never ends when more arrangements are wanted than there are numbers to draw: the last of the
    dim^k arrangements is never drawn. *)
Theorem C51_never_ends_refuted : forall n m dim col A draw num fuel k r,
  0 < dim -> Z.of_nat m = dim -> length col = n -> op_group n m A ->
  (forall j, 0 <= draw j < dim ^ Z.of_nat (length (filter has_arrow col)) - 1) ->
  dim ^ Z.of_nat (length (filter has_arrow col)) <= Z.of_nat num ->
  add_arrows_small draw fuel col A dim num k <> Ok r.
Proof.
  intros n m dim col A draw num fuel k r Hd Hm Hl HA Hdraw Hnum.
  apply (small_never n m dim col A Hm Hd Hl (proj1 HA) draw Hdraw). pose proof (Hdraw 0%nat). change (filter arrowed col) with (filter has_arrow col). lia.
Qed.
Example C51_example : op_group 2 4 quarter /\ 4 ^ Z.of_nat (length (filter has_arrow [(1, 2); (1, 2)])) - 1 = 15 /\
  (forall j, 0 <= (fun j => Z.of_nat (4 * j) mod 15) j < 15) /\
  add_arrows_small (fun j => Z.of_nat (4 * j) mod 15) 100 [(1, 2); (1, 2)] quarter 4 2 0 = Ok ([[(0, 2); (0, 2)]; [(0, 2); (1, 2)]], 2%nat).
Proof.
  split; [apply op_groupb_spec; reflexivity|]. split; auto. split; [intros; apply Z.mod_pos_bound; lia|]. vm_compute. reflexivity.
Qed.

(** ** C40: the number wanted.
    [v]: Python version; [draw], [rnd], [shuffled]: random numbers, acceptance tests, shuffle; [G]: symmetry
    group of the cell; [nbasis]: atoms per primitive cell; [na_i]: arrowed atoms of species i+1. *)

(** Two species or more, arrows, below the thresholds for sampling. *)
Theorem C40_sample_arrows_partial : forall v draw rnd shuffled G nbasis concs na num D m reps,
  (forall l, Permutation (shuffled l) l) -> (0 < nbasis)%nat -> (2 <= length concs)%nat ->
  length na = length concs -> (forall i, (i < length concs)%nat -> 0 <= nth i na 0 <= Z.of_nat (nth i concs 0%nat)) ->
  arrow_concs concs na = Ok D -> D <> [] -> NumericsModel.multinomial (map Z.of_nat concs) = Ok m ->
  0 < fold_right Z.add 0 na -> op_group (length D) 6 G -> NoDup G ->
  (100 < num)%nat \/ (m <= 100000 /\ (fold_right Nat.add 0 concs < 12)%nat) ->
  Z.of_nat (max (length D) (length G)) *
    Z.of_nat (length (labelings (map (multiplicity site_eqb D) (first_occurrences site_eqb D))) * 6 ^ Z.to_nat (fold_right Z.add 0 na)) < 2 ^ 53 ->
  transversal (fun w => Permutation (map skeleton w) (map skeleton D) /\ directions_below 6 w) (op_equiv G) reps ->
  (1 <= num <= length reps)%nat -> Z.of_nat (length reps) < 1000000 ->
  exists L fuel0, (forall fuel, (fuel0 <= fuel)%nat -> enum_sys v draw rnd shuffled fuel G nbasis concs na num true false = Ok L) /\
    length L = num /\ (forall w, In w L -> Permutation (map skeleton w) (map skeleton D) /\ directions_below 6 w) /\
    ForallOrdPairs (fun r s => ~ op_equiv G r s) L.
Proof. intros. eapply enum_arrows; eauto. split; auto. Qed.

(** Two species or more, no arrows. *)
Theorem C40_sample_plain_partial : forall v draw rnd shuffled G nbasis concs na num D m d reps,
  (forall l, Permutation (shuffled l) l) -> (0 < nbasis)%nat -> (2 <= length concs)%nat ->
  length na = length concs -> (forall i, (i < length concs)%nat -> 0 <= nth i na 0 <= Z.of_nat (nth i concs 0%nat)) ->
  arrow_concs concs na = Ok D -> D <> [] -> NumericsModel.multinomial (map Z.of_nat concs) = Ok m ->
  fold_right Z.add 0 na = 0 -> (0 < d)%nat -> op_group (length D) d G -> NoDup G ->
  (100 < num)%nat \/ m <= 100000 ->
  Z.of_nat (max (length D) (length G)) * Z.of_nat (length (labelings concs)) < 2 ^ 53 ->
  transversal (fun w => Permutation w D) (site_equiv G) reps ->
  (1 <= num <= length reps)%nat -> Z.of_nat (length reps) < 1000000 ->
  exists L fuel0, (forall fuel, (fuel0 <= fuel)%nat -> enum_sys v draw rnd shuffled fuel G nbasis concs na num true false = Ok L) /\
    length L = num /\ (forall w, In w L -> Permutation w D) /\ ForallOrdPairs (fun r s => ~ site_equiv G r s) L.
Proof. intros. eapply enum_plain; eauto. split; auto. Qed.

(** Four sites on a ring, six directions left alone. *)
Definition ring (n : nat) : list op := map (fun k => (map (fun i => Nat.modulo (i + k) n) (seq 0 n), seq 0 6)) (seq 0 n).
Lemma nodup_ops (G : list op) : nodupb Decide.op_eqb G = true -> NoDup G.
Proof. apply (nodupb_spec _ Decide.op_eqb_spec). Qed.
Example C40_example : let D := [(-1, 1); (-1, 1); (-1, 2); (-1, 2)] in
  arrow_concs [2; 2]%nat [0; 0] = Ok D /\ op_group (length D) 6 (ring 4) /\ NoDup (ring 4) /\
  NumericsModel.multinomial (map Z.of_nat [2; 2]%nat) = Ok 6 /\
  (exists reps, transversal (fun w => Permutation w D) (site_equiv (ring 4)) reps /\ length reps = 2%nat) /\
  enum_sys Py3 (fun _ _ => 0) (fun _ => false) (@rev Z) 100 (ring 4) 1 [2; 2]%nat [0; 0] 1 true false = Ok [[(-1, 1); (-1, 2); (-1, 1); (-1, 2)]].
Proof.
  cbn zeta. split; [reflexivity|]. assert (op_group 4 6 (ring 4)) as HG by (apply op_groupb_spec; vm_compute; reflexivity).
  split; auto. split; [apply nodup_ops; vm_compute; reflexivity|]. split; [reflexivity|]. split; [|vm_compute; reflexivity].
  exists (colourings [(-1, 1); (-1, 1); (-1, 2); (-1, 2)] (ring 4)). split; [|vm_compute; reflexivity].
  apply colourings_transversal. apply (op_group_perm_group 4 6); auto.
Qed.
Example C40_example_arrows : let D := [(-1, 1); (1, 2)] in
  arrow_concs [1; 1]%nat [0; 1] = Ok D /\ op_group (length D) 6 (ring 2) /\ NoDup (ring 2) /\
  (exists reps, transversal (fun w => Permutation (map skeleton w) (map skeleton D) /\ directions_below 6 w) (op_equiv (ring 2)) reps /\ length reps = 6%nat) /\
  enum_sys Py3 (fun _ _ => 0) (fun _ => false) (@rev Z) 100 (ring 2) 1 [1; 1]%nat [0; 1] 2 true false = Ok [[(-1, 1); (4, 2)]; [(-1, 1); (5, 2)]].
Proof.
  cbn zeta. split; [reflexivity|]. assert (op_group 2 6 (ring 2)) as HG by (apply op_groupb_spec; vm_compute; reflexivity).
  split; auto. split; [apply nodup_ops; vm_compute; reflexivity|]. split; [|vm_compute; reflexivity].
  exists (all_structures [(-1, 1); (1, 2)] (ring 2) 6). split; [|vm_compute; reflexivity].
  apply (all_structures_transversal [(-1, 1); (1, 2)] (ring 2) 6 6); auto; [lia|].
  intros s t [<-|[<-|[]]] [<-|[<-|[]]] E; vm_compute in E; congruence.
Qed.

(** A result of the wrong length is not reported: if none, too many or (with a million classes) any
    number are wanted, every class is returned, and no error. *)
Theorem C40_wrong_length_refuted : forall v draw rnd shuffled G nbasis concs na num D m d reps,
  (0 < nbasis)%nat -> (2 <= length concs)%nat ->
  length na = length concs -> (forall i, (i < length concs)%nat -> 0 <= nth i na 0 <= Z.of_nat (nth i concs 0%nat)) ->
  arrow_concs concs na = Ok D -> D <> [] -> NumericsModel.multinomial (map Z.of_nat concs) = Ok m ->
  fold_right Z.add 0 na = 0 -> (0 < d)%nat -> op_group (length D) d G -> NoDup G ->
  (100 < num)%nat \/ m <= 100000 ->
  Z.of_nat (max (length D) (length G)) * Z.of_nat (length (labelings concs)) < 2 ^ 53 ->
  transversal (fun w => Permutation w D) (site_equiv G) reps ->
  num = 0%nat \/ (length reps <= num)%nat \/ 1000000 <= Z.of_nat (length reps) ->
  exists L fuel0, (forall fuel, (fuel0 <= fuel)%nat -> enum_sys v draw rnd shuffled fuel G nbasis concs na num true false = Ok L) /\
    length L = length reps /\ transversal (fun w => Permutation w D) (site_equiv G) L.
Proof. intros. eapply enum_plain_whole; eauto. split; auto. Qed.
Example C40_wrong_length_example :
  enum_sys Py3 (fun _ _ => 0) (fun _ => false) (@rev Z) 100 (ring 4) 1 [2; 2]%nat [0; 0] 0 true false =
    Ok [[(-1, 1); (-1, 1); (-1, 2); (-1, 2)]; [(-1, 1); (-1, 2); (-1, 1); (-1, 2)]] /\
  enum_sys Py3 (fun _ _ => 0) (fun _ => false) (@rev Z) 100 (ring 4) 1 [2; 2]%nat [0; 0] 3 true false =
    Ok [[(-1, 1); (-1, 1); (-1, 2); (-1, 2)]; [(-1, 1); (-1, 2); (-1, 1); (-1, 2)]].
Proof. split; vm_compute; reflexivity. Qed.

(** One species of twelve atoms or more with arrows: an internal error, or no end. *)
Theorem C40_one_species_refuted : forall v draw rnd shuffled G nbasis c a num supers fuel,
  (forall k b, 0 < b -> 0 <= draw k b < b) -> (0 < nbasis)%nat -> 0 < a <= Z.of_nat c ->
  (forall g, In g G -> is_perm c (fst g) /\ is_perm 6 (snd g)) -> (12 <= c)%nat -> (1 <= num <= 100)%nat ->
  enum_sys v draw rnd shuffled fuel G nbasis [c] [a] num supers false = Err NameError \/
  enum_sys v draw rnd shuffled fuel G nbasis [c] [a] num supers false = Err OutOfFuel.
Proof. intros. apply one_species_fails; auto. Qed.
Theorem C40_one_species_one_refuted : forall v draw rnd shuffled G nbasis c a supers fuel,
  (forall k b, 0 < b -> 0 <= draw k b < b) -> (0 < nbasis)%nat -> 0 < a <= Z.of_nat c ->
  (forall g, In g G -> is_perm c (fst g) /\ is_perm 6 (snd g)) -> (12 <= c)%nat -> (0 < fuel)%nat ->
  enum_sys v draw rnd shuffled fuel G nbasis [c] [a] 1 supers false = Err NameError.
Proof. intros. apply one_species_one; auto; lia. Qed.
Example C40_one_species_example :
  (forall g, In g (ring 12) -> is_perm 12 (fst g) /\ is_perm 6 (snd g)) /\
  enum_sys Py3 (fun k b => Z.of_nat k mod b) (fun _ => false) (@rev Z) 10 (ring 12) 1 [12]%nat [12] 3 true false = Err NameError.
Proof.
  split; [|vm_compute; reflexivity]. assert (op_group 12 6 (ring 12)) as [H _] by (apply op_groupb_spec; vm_compute; reflexivity). exact H.
Qed.

(** ** C41: guess and check, as reached through [enum_sys]. *)
(** With arrows a result is what was asked for, but it never goes beyond one colouring. *)
Theorem C41_guess_arrows : forall v draw rnd shuffled G nbasis concs na num supers accept D fuel L,
  (forall k b, 0 < b -> 0 <= draw k b < b) -> (0 < nbasis)%nat -> (2 <= length concs)%nat ->
  length na = length concs -> (forall i, (i < length concs)%nat -> 0 <= nth i na 0 <= Z.of_nat (nth i concs 0%nat)) ->
  arrow_concs concs na = Ok D -> (1 <= num <= 100)%nat -> (12 <= fold_right Nat.add 0 concs)%nat -> 0 < fold_right Z.add 0 na ->
  op_group (length D) 6 G ->
  enum_sys v draw rnd shuffled fuel G nbasis concs na num supers accept = Ok L ->
  length L = num /\ (forall w, In w L -> Permutation (map skeleton w) (map skeleton D) /\ directions_below 6 w) /\
  ForallOrdPairs (fun r s => ~ op_equiv G r s) L /\
  forall w u, In w L -> In u L -> map skeleton w = map skeleton u.
Proof.
  intros v draw rnd sh G nb concs na num sp acc D fuel L Hd Hnb Hlen Hl Hle HD Hnum H12 Hpos HG HL.
  eapply (enum_guess_arrows v draw rnd sh Hd G nb concs na num sp acc D); eauto; try lia. split; auto.
Qed.
(** It never ends if as many are wanted as one colouring has arrow arrangements, however many
    inequivalent structures there are. *)
Theorem C41_never_ends_refuted : forall v draw rnd shuffled G nbasis concs na num supers accept D fuel r,
  (forall k b, 0 < b -> 0 <= draw k b < b) -> (0 < nbasis)%nat -> (2 <= length concs)%nat ->
  length na = length concs -> (forall i, (i < length concs)%nat -> 0 <= nth i na 0 <= Z.of_nat (nth i concs 0%nat)) ->
  arrow_concs concs na = Ok D -> (num <= 100)%nat -> (12 <= fold_right Nat.add 0 concs)%nat -> 0 < fold_right Z.add 0 na ->
  op_group (length D) 6 G -> 6 ^ fold_right Z.add 0 na <= Z.of_nat num ->
  enum_sys v draw rnd shuffled fuel G nbasis concs na num supers accept <> Ok r.
Proof.
  intros v draw rnd sh G nb concs na num sp acc D fuel r Hd Hnb Hlen Hl Hle HD Hnum H12 Hpos HG Hbig.
  eapply (enum_guess_never v draw rnd sh Hd G nb concs na num sp acc D); eauto; try (split; auto; fail). apply HG.
Qed.
(** Without arrows, the species of the output are numbered by increasing concentration instead of in the
    order given. *)
Theorem C41_guess_plain : forall v draw rnd shuffled G nbasis concs na num supers accept D m fuel L,
  (forall k b, 0 < b -> 0 <= draw k b < b) -> (0 < nbasis)%nat -> (2 <= length concs)%nat ->
  length na = length concs -> (forall i, (i < length concs)%nat -> nth i na 0 = 0) ->
  Forall (fun a => (0 < a)%nat) concs ->
  arrow_concs concs na = Ok D -> (num <= 100)%nat -> NumericsModel.multinomial (map Z.of_nat concs) = Ok m -> 100000 < m ->
  enum_sys v draw rnd shuffled fuel G nbasis concs na num supers accept = Ok L ->
  length L = num /\ NoDup L /\ exists s, Permutation s concs /\ StronglySorted le s /\
    forall w, In w L -> forall i, (i < length concs)%nat -> multiplicity site_eqb w (-1, Z.of_nat (S i)) = nth i s 0%nat.
Proof.
  intros v draw rnd sh G nb concs na num sp acc D m fuel L Hd Hnb Hlen Hl Hz Hpos HD Hnum Hm Hbig HL.
  assert (nonneg_at_most concs na) as Hna by (split; auto; intros i Hi; rewrite Hz by auto; lia).
  assert (fold_right Z.add 0 na = 0) as H0.
  { rewrite <- Hl in Hz. clear - Hz. induction na as [|a r IH]; auto. cbn. rewrite IH by (intros i Hi; apply (Hz (S i)); cbn; lia). specialize (Hz 0%nat ltac:(cbn; lia)). cbn in Hz. lia. }
  eapply (enum_guess_plain v draw rnd sh Hd G nb concs na num sp acc D); eauto.
Qed.
(** Listed in increasing order, the concentrations are kept. *)
Theorem C41_guess_plain_partial : forall v draw rnd shuffled G nbasis concs na num supers accept D m fuel L,
  (forall k b, 0 < b -> 0 <= draw k b < b) -> (0 < nbasis)%nat -> (2 <= length concs)%nat ->
  length na = length concs -> (forall i, (i < length concs)%nat -> nth i na 0 = 0) ->
  Forall (fun a => (0 < a)%nat) concs -> StronglySorted le concs ->
  arrow_concs concs na = Ok D -> (num <= 100)%nat -> NumericsModel.multinomial (map Z.of_nat concs) = Ok m -> 100000 < m ->
  enum_sys v draw rnd shuffled fuel G nbasis concs na num supers accept = Ok L ->
  length L = num /\ NoDup L /\ forall w, In w L -> Permutation w D.
Proof.
  intros v draw rnd sh G nb concs na num sp acc D m fuel L Hd Hnb Hlen Hl Hz Hpos Hs HD Hnum Hm Hbig HL.
  assert (nonneg_at_most concs na) as Hna by (split; auto; intros i Hi; rewrite Hz by auto; lia).
  assert (fold_right Z.add 0 na = 0) as H0.
  { rewrite <- Hl in Hz. clear - Hz. induction na as [|a r IH]; auto. cbn. rewrite IH by (intros i Hi; apply (Hz (S i)); cbn; lia). specialize (Hz 0%nat ltac:(cbn; lia)). cbn in Hz. lia. }
  eapply (enum_guess_plain_ordered v draw rnd sh Hd G nb concs na num sp acc D); eauto.
Qed.
(** 11 atoms of species 1 and 10 of species 2 wanted: every structure has 10 of species 1. *)
Theorem C41_composition_refuted : forall v draw rnd shuffled G nbasis num supers accept fuel L,
  (forall k b, 0 < b -> 0 <= draw k b < b) -> (0 < nbasis)%nat -> (num <= 100)%nat ->
  enum_sys v draw rnd shuffled fuel G nbasis [11; 10]%nat [0; 0] num supers accept = Ok L ->
  forall w, In w L -> multiplicity site_eqb w (-1, 1) = 10%nat.
Proof.
  intros v draw rnd sh G nb num sp acc fuel L Hd Hnb Hnum HL w Hw.
  destruct (C41_guess_plain v draw rnd sh G nb [11; 10]%nat [0; 0] num sp acc
     (match arrow_concs [11; 10]%nat [0; 0] with Ok D => D | Err _ => [] end) 352716 fuel L) as [_ [_ [s [Hp [Hs H]]]]]; auto.
  - intros [|[|i]] Hi; cbn in *; auto; lia.
  - repeat constructor.
  - vm_compute. reflexivity.
  - change (-1, 1) with (-1, Z.of_nat 1). rewrite (H w Hw 0%nat) by (cbn; lia).
    assert (In (nth 0 s 0%nat) [11; 10]%nat) as Hin.
    { apply (Permutation_in _ Hp), nth_In. rewrite (Permutation_length Hp). cbn. lia. }
    destruct Hin as [E|[E|[]]]; auto. exfalso.
    destruct s as [|a s]; [cbn in E; discriminate|]. cbn in E. subst a. inversion Hs as [|? ? _ Hf]; subst. rewrite Forall_forall in Hf.
    assert (In 10%nat (11 :: s)%nat) as H10 by (apply (Permutation_in _ (Permutation_sym Hp)); cbn; auto).
    destruct H10 as [H10|H10]; [lia|]. apply Hf in H10. lia.
Qed.
(** Two structures related by a translation are both returned. *)
Definition shift_stream (k : nat) (b : Z) : Z := (if Nat.eqb k 2 then 11 else 0) mod b.
Theorem C41_equivalent_refuted : exists draw L x y,
  (forall k b, 0 < b -> 0 <= draw k b < b) /\ op_group 21 6 (ring 21) /\
  enum_sys Py3 draw (fun _ => false) (fun l => l) 10 (ring 21) 1 [10; 11]%nat [0; 0] 2 true false = Ok L /\
  L = [x; y] /\ site_equiv (ring 21) x y.
Proof.
  exists shift_stream. eexists _, _, _. split; [intros; apply Z.mod_pos_bound; auto|]. split; [apply op_groupb_spec; vm_compute; reflexivity|].
  split; [vm_compute; reflexivity|]. split; [reflexivity|]. exists (nth 1 (ring 21) ([], [])). split; [right; left; reflexivity|]. vm_compute. reflexivity.
Qed.
Example C41_example :
  let D := match arrow_concs [6; 6]%nat [0; 2] with Ok D => D | Err _ => [] end in
  arrow_concs [6; 6]%nat [0; 2] = Ok D /\ op_group (length D) 6 (ring 12) /\
  exists L, enum_sys Py3 (fun k b => Z.of_nat (7 * k) mod b) (fun _ => false) (fun l => l) 40 (ring 12) 1 [6; 6]%nat [0; 2] 3 true false = Ok L /\
  map skeleton (nth 0 L []) = [(-1, 2); (-1, 2); (-1, 2); (-1, 2); (-1, 1); (-1, 1); (-1, 1); (0, 2); (-1, 1); (-1, 1); (0, 2); (-1, 1)].
Proof.
  cbn zeta. split; [vm_compute; reflexivity|]. split; [apply op_groupb_spec; vm_compute; reflexivity|]. eexists. split; [vm_compute; reflexivity|]. vm_compute. reflexivity.
Qed.

(** ** C52: one species. *)
(** Every atom arrowed: [num] inequivalent arrow arrangements; when the number wanted is below a thousandth of
    the total they are drawn at random and there may be no end. *)
Theorem C52_all_arrowed : forall v draw rnd shuffled G nbasis c num reps,
  (forall k b, 0 < b -> 0 <= draw k b < b) -> (0 < nbasis)%nat -> (0 < c)%nat -> op_group c 6 G -> NoDup G ->
  (c < 12)%nat \/ (100 < num)%nat ->
  transversal (fun w => length w = c /\ forall s, In s w -> 0 <= fst s < 6 /\ snd s = 1) (op_equiv G) reps ->
  (1 <= num <= length reps)%nat -> Z.of_nat (max c (length G)) * 6 ^ Z.of_nat c < 2 ^ 53 ->
  forall fuel,
  (exists L, enum_sys v draw rnd shuffled fuel G nbasis [c] [Z.of_nat c] num true false = Ok L /\ length L = num /\
    (forall w, In w L -> length w = c /\ forall s, In s w -> 0 <= fst s < 6 /\ snd s = 1) /\ ForallOrdPairs (fun r s => ~ op_equiv G r s) L) \/
  (1000 * Z.of_nat num < Z.of_nat (length reps) /\ enum_sys v draw rnd shuffled fuel G nbasis [c] [Z.of_nat c] num true false = Err OutOfFuel).
Proof. intros. apply one_species_all; auto. Qed.
Example C52_example : op_group 2 6 (ring 2) /\ NoDup (ring 2) /\
  enum_sys Py3 (fun _ _ => 0) (fun _ => false) (@rev Z) 0 (ring 2) 1 [2]%nat [2] 3 true false =
   Ok [[(0, 1); (0, 1)]; [(1, 1); (0, 1)]; [(2, 1); (0, 1)]].
Proof. split; [apply op_groupb_spec; vm_compute; reflexivity|]. split; [apply nodup_ops; vm_compute; reflexivity|]. vm_compute. reflexivity. Qed.
(** One of two inequivalent atoms arrowed: the arrow never leaves the last atom, half of the twelve
    structures are missing, and no error. *)
Theorem C52_some_arrowed_refuted : exists G reps L, op_group 2 6 G /\ NoDup G /\
  transversal (fun w => Permutation (map skeleton w) [(-1, 1); (0, 1)] /\ directions_below 6 w) (op_equiv G) reps /\ length reps = 12%nat /\
  (forall draw rnd shuffled fuel, enum_sys Py3 draw rnd shuffled fuel G 1 [2]%nat [1] 12 true false = Ok L) /\
  length L = 6%nat /\ forall w, In w L -> nth 0 w (0, 0) = (-1, 1).
Proof.
  exists [(seq 0 2, seq 0 6)]. eexists (all_structures [(-1, 1); (1, 1)] [(seq 0 2, seq 0 6)] 6), _.
  assert (op_group 2 6 [(seq 0 2, seq 0 6)]) as HG by (apply op_groupb_spec; vm_compute; reflexivity).
  split; auto. split; [repeat constructor; intros []|]. split.
  - apply (all_structures_transversal [(-1, 1); (1, 1)] [(seq 0 2, seq 0 6)] 6 6); auto; [lia|].
    intros s t [<-|[<-|[]]] [<-|[<-|[]]] E; vm_compute in E; congruence.
  - split; [vm_compute; reflexivity|]. split; [intros; vm_compute; reflexivity|]. split; [reflexivity|]. intros w Hw. repeat (destruct Hw as [<-|Hw]; [reflexivity|]). destruct Hw.
Qed.

Print Assumptions C42_decorations.
Print Assumptions C42_too_many_arrows.
Print Assumptions C51_small_sample.
Print Assumptions C51_never_ends_refuted.
Print Assumptions C40_sample_arrows_partial.
Print Assumptions C40_sample_plain_partial.
Print Assumptions C40_wrong_length_refuted.
Print Assumptions C40_one_species_refuted.
Print Assumptions C40_one_species_one_refuted.
Print Assumptions C41_guess_arrows.
Print Assumptions C41_never_ends_refuted.
Print Assumptions C41_guess_plain.
Print Assumptions C41_guess_plain_partial.
Print Assumptions C41_composition_refuted.
Print Assumptions C41_equivalent_refuted.
Print Assumptions C52_all_arrowed.
Print Assumptions C52_some_arrowed_refuted.
