(** C75: random samples of the structures that no translation fixes. *)
From Coq Require Import Permutation Sorted.
From Verif Require Import PyBase Spec ListFacts PermFacts NumericsModel PhononsModel TreeModel HashProofs CanonProofs TreeSearch BranchRun ColorProofs ArrowProofs DecoFacts ArrowEnum DecoBij BranchProofs BranchTheorems SuperProofs Decide TransFacts MultiProofs
  PolyaModel PolyaSpec PolyaUse EnumSysModel DecoProofs ArrowEnum SmallProofs EnumSysProofs EnumSysFail EnumSysGuess EnumSysMore PropertiesTree PropertiesEnumSys SampleSuper.
Local Open Scope Z_scope.

Lemma subseq_NoDup {A} (l m : list A) : subseq l m -> NoDup m -> NoDup l.
Proof. induction 1; intros H'; inversion H'; subst; auto. constructor; auto. intros K. eapply subseq_In in K; eauto. Qed.
(** Different representatives are not equivalent. *)
Lemma reps_differ cwa G M : perm_group (length cwa) (map fst G) -> NoDup M -> (forall x, In x M -> In x (colourings cwa G)) ->
  ForallOrdPairs (fun r s => ~ site_equiv G r s) M.
Proof.
  intros HG HMnd Hin. pose proof (colourings_transversal cwa G HG) as [T1 [T2 T3]].
  assert (forall x y, site_equiv G x y -> In x (colourings cwa G) -> In y (colourings cwa G) -> x = y) as Huniq.
  { intros x y E Hx Hy. destruct (ForallOrdPairs_In T3 _ _ Hx Hy) as [K|[K|K]]; auto; [tauto|].
    exfalso. apply K. apply (site_equiv_sym (length cwa)); auto. apply (Permutation_length (T1 x Hx)). }
  clear - HMnd Hin Huniq. induction HMnd as [|a l Ha Hl IH]; constructor.
  - apply Forall_forall. intros y Hy E. apply Huniq in E; [subst; auto|apply Hin; left; auto|apply Hin; right; auto].
  - apply IH. intros; apply Hin; right; auto.
Qed.

(** [brancher] with a list of positions.  [L]: the full list; [L']: the list without superperiodic structures. *)
Theorem C75_sample_primitive : forall cwa G dim cellsize rnd S,
  cwa <> [] -> Forall (fun s => fst s = -1) cwa -> perm_group (length cwa) (map fst G) ->
  (cellsize <= length G)%nat -> S <> [] ->
  exists L L' M fuel0, (forall fuel, (fuel0 <= fuel)%nat ->
    let run supers := brancher (map (multiplicity site_eqb cwa) (first_occurrences site_eqb cwa)) G cwa dim supers
                               cellsize false rnd fuel in
    run true SNone = Ok L /\ run false SNone = Ok L' /\ run false (SList S) = Ok M) /\
    subseq M L' /\ (length M <= length S)%nat /\ NoDup M /\
    (forall w, In w M -> Permutation w cwa /\ ~ fixed_by_some (translations G cellsize) w) /\
    ForallOrdPairs (fun r s => ~ site_equiv G r s) M /\
    ((length (first_occurrences site_eqb cwa) <= 3)%nat -> forall i w, In (Z.of_nat i) S -> (1 <= i)%nat -> nth_error L (i - 1) = Some w ->
       ~ fixed_by_some (translations G cellsize) w -> In w M).
Proof.
  intros cwa G dim cs rnd S Hne Hno HG Hcell HS.
  destruct (plain_full cwa G HG Hne Hno dim cs rnd) as [f1 H1].
  destruct (super_run cwa G cs HG Hne Hno Hcell dim rnd) as [f2 H2].
  destruct (super_sub cwa G cs HG Hne Hno Hcell S dim rnd HS) as [M [f3 [H3 [H4 [H5 H6]]]]].
  destruct (reduced_sound cwa G cs HG Hne Hno Hcell) as [Hnd Hs].
  pose proof (colourings_transversal cwa G HG) as Htr.
  pose proof (subseq_NoDup _ _ H4 Hnd) as HMnd.
  exists (colourings cwa G), (reduced cwa G cs), M, (f1 + f2 + f3)%nat. split; [|split; [|split; [|split; [|split; [|split]]]]]; auto.
  - intros fuel Hf. split; [apply H1; lia|]. split; [apply H2; lia|apply H3; lia].
  - intros w Hw. pose proof (Hs w (subseq_In _ _ H4 w Hw)) as [K1 K2]. split; auto. apply Htr; auto.
  - apply (reps_differ cwa); auto. intros x Hx. apply Hs. apply (subseq_In _ _ H4); auto.
  - intros Hk i w Hi Hi1 Hw Hf. apply (H6 ltac:(rewrite map_length; auto) (i - 1)%nat); auto.
    + replace (Z.of_nat (i - 1) + 1) with (Z.of_nat i) by lia. auto.
    + destruct (reduced_short cwa G cs HG Hne Hno Hcell) as [keep [E Hkeep]]; [rewrite map_length; auto|]. rewrite E. apply filter_In.
      pose proof (nth_error_In _ _ Hw) as Hin. split; auto. apply Hkeep; auto.
Qed.
Definition ring4 : list site := [(-1, 1); (-1, 1); (-1, 2); (-1, 2)].
Example C75_sample_example : length (first_occurrences site_eqb ring4) = 2%nat /\ perm_group (length ring4) (map fst (ring 4)) /\
  brancher [2; 2]%nat (ring 4) ring4 6 true 4 false (fun _ => false) 100 SNone = Ok [[(-1, 1); (-1, 1); (-1, 2); (-1, 2)]; [(-1, 1); (-1, 2); (-1, 1); (-1, 2)]] /\
  brancher [2; 2]%nat (ring 4) ring4 6 false 4 false (fun _ => false) 100 (SList [1]) = Ok [[(-1, 1); (-1, 1); (-1, 2); (-1, 2)]].
Proof. split; [reflexivity|]. split; [apply perm_groupb_spec; vm_compute; reflexivity|]. split; vm_compute; reflexivity. Qed.

(** [enum_sys] without superperiodic structures, two species or more, no arrows, a number wanted below the number of
    classes: at most as many structures as wanted, none superperiodic, no two equivalent. *)
Theorem C75_enum_sys_partial : forall v draw rnd shuffled G nbasis concs na num D m d reps,
  (forall l, Permutation (shuffled l) l) -> (0 < nbasis)%nat -> (2 <= length concs)%nat ->
  length na = length concs -> (forall i, (i < length concs)%nat -> 0 <= nth i na 0 <= Z.of_nat (nth i concs 0%nat)) ->
  arrow_concs concs na = Ok D -> D <> [] -> NumericsModel.multinomial (map Z.of_nat concs) = Ok m ->
  fold_right Z.add 0 na = 0 -> (0 < d)%nat -> op_group (length D) d G -> NoDup G ->
  (fold_right Nat.add 0 concs / nbasis <= length G)%nat ->
  (100 < num)%nat \/ m <= 100000 ->
  Z.of_nat (max (length D) (length G)) * Z.of_nat (length (labelings concs)) < 2 ^ 53 ->
  transversal (fun w => Permutation w D) (site_equiv G) reps ->
  (1 <= num < length reps)%nat -> Z.of_nat (length reps) < 1000000 ->
  exists L fuel0, (forall fuel, (fuel0 <= fuel)%nat -> enum_sys v draw rnd shuffled fuel G nbasis concs na num false false = Ok L) /\
    (length L <= num)%nat /\
    (forall w, In w L -> Permutation w D /\ ~ fixed_by_some (translations G (fold_right Nat.add 0%nat concs / nbasis)) w) /\
    ForallOrdPairs (fun r s => ~ site_equiv G r s) L.
Proof.
  intros v draw rnd shuffled G nbasis concs na num D m d reps Hsh Hnb Hlen Hna1 Hna2 HD Hne Hm Hzero Hd HG HGnd Hcell Hskip HB Hreps Hnum Hmil.
  assert (nonneg_at_most concs na) as Hna by (split; auto).
  pose proof (D_counts concs na D Hna HD) as Hc. pose proof (D_plain concs na D Hna HD Hzero) as Hperm.
  assert (Forall (fun s => fst s = -1) D) as Hno.
  { apply Forall_forall. intros s Hs. apply (Permutation_in _ Hperm) in Hs. unfold plain_sites in Hs. apply in_flat_map in Hs.
    destruct Hs as [[i c] [_ Hs]]. apply repeat_spec in Hs. subst. auto. }
  assert (perm_group (length D) (map fst G)) as HGp by (eapply op_group_perm_group; eauto).
  pose proof (colourings_transversal D G HGp) as Htr.
  assert (length (colourings D G) = length reps) as Elen.
  { eapply transversal_length; [| |exact Htr|exact Hreps].
    - intros x y Hx _. apply (site_equiv_sym (length D)); auto. apply (Permutation_length Hx).
    - intros x y z Hx _ _. apply (site_equiv_trans (length D)); auto. }
  set (t := length (filter (fun a => 0 <? a) na)) in *.
  assert ((t =? 0)%nat = true) as Ht by (apply (na_types concs na Hna); auto).
  assert (skip_count m t (sum_nat concs) num = false) as Hsk.
  { unfold skip_count. rewrite Ht. cbn [negb andb]. rewrite orb_false_r. destruct Hskip as [Hs|Hs].
    - destruct (Nat.leb_spec num 100); [lia|]. rewrite andb_false_r. auto.
    - destruct (Z.ltb_spec 100000 m); [lia|]. auto. }
  assert (polya v concs G 0 = Ok (Z.of_nat (length (colourings D G)), G)) as Hp by (eapply polya_plain; eauto).
  destruct (sample_spec shuffled Hsh num (Z.of_nat (length reps)) ltac:(lia) ltac:(lia)) as [S1 [S2 [S3 S4]]].
  set (S := firstn num (shuffled (range_up 1 (Z.of_nat (length reps) + 1)))) in *.
  set (cs := (sum_nat concs / nbasis)%nat) in *.
  destruct (C75_sample_primitive D G 6 cs rnd S Hne Hno HGp Hcell S1) as [La [Lb [M [f [HM [M1 [M2 [M3 [M4 [M5 M6]]]]]]]]]].
  exists M, f. split; [|split; [lia|split; auto]].
  intros fuel Hfu. destruct (HM fuel Hfu) as [_ [_ Hrun]]. rewrite <- Hrun.
  unfold enum_sys. destruct (Nat.eqb_spec nbasis 0); [lia|]. rewrite HD. cbn [rbind]. rewrite Hc. fold t.
  unfold plan. rewrite Hm. cbn [rbind]. rewrite Hsk, Ht. cbn [negb]. rewrite Hp. cbn [rbind]. rewrite Elen.
  destruct (Z.ltb_spec (Z.of_nat num) (Z.of_nat (length reps))); [|lia]. destruct (Z.ltb_spec (Z.of_nat (length reps)) 1000000); [|lia].
  destruct (Nat.eqb_spec (length concs) 1); [lia|].
  assert (((100000 <? m) || (false && (12 <=? sum_nat concs)%nat)) && (num <=? 100)%nat = false) as Eg.
  { unfold skip_count in Hsk. rewrite Ht in Hsk. cbn [negb andb] in *. destruct (100000 <? m), (num <=? 100)%nat; cbn in *; auto. }
  rewrite Eg. cbn [andb]. reflexivity.
Qed.
(** ... and with nothing, everything or too much wanted, up to three species: exactly the representatives that no
    translation fixes. *)
Theorem C75_enum_sys_all_partial : forall v draw rnd shuffled G nbasis concs na num D m d reps,
  (0 < nbasis)%nat -> (2 <= length concs)%nat ->
  length na = length concs -> (forall i, (i < length concs)%nat -> 0 <= nth i na 0 <= Z.of_nat (nth i concs 0%nat)) ->
  arrow_concs concs na = Ok D -> D <> [] -> NumericsModel.multinomial (map Z.of_nat concs) = Ok m ->
  fold_right Z.add 0 na = 0 -> (0 < d)%nat -> op_group (length D) d G -> NoDup G ->
  (fold_right Nat.add 0 concs / nbasis <= length G)%nat -> (length (first_occurrences site_eqb D) <= 3)%nat ->
  (100 < num)%nat \/ m <= 100000 ->
  Z.of_nat (max (length D) (length G)) * Z.of_nat (length (labelings concs)) < 2 ^ 53 ->
  transversal (fun w => Permutation w D) (site_equiv G) reps ->
  num = 0%nat \/ (length reps <= num)%nat \/ 1000000 <= Z.of_nat (length reps) ->
  exists L keep fuel0, (forall fuel, (fuel0 <= fuel)%nat -> enum_sys v draw rnd shuffled fuel G nbasis concs na num false false = Ok (filter keep L)) /\
    transversal (fun w => Permutation w D) (site_equiv G) L /\
    (forall w, In w L -> keep w = true <-> ~ fixed_by_some (translations G (fold_right Nat.add 0%nat concs / nbasis)) w).
Proof.
  intros v draw rnd shuffled G nbasis concs na num D m d reps Hnb Hlen Hna1 Hna2 HD Hne Hm Hzero Hd HG HGnd Hcell Hk3 Hskip HB Hreps Hnum.
  assert (nonneg_at_most concs na) as Hna by (split; auto).
  pose proof (D_counts concs na D Hna HD) as Hc. pose proof (D_plain concs na D Hna HD Hzero) as Hperm.
  assert (Forall (fun s => fst s = -1) D) as Hno.
  { apply Forall_forall. intros s Hs. apply (Permutation_in _ Hperm) in Hs. unfold plain_sites in Hs. apply in_flat_map in Hs.
    destruct Hs as [[i c] [_ Hs]]. apply repeat_spec in Hs. subst. auto. }
  assert (perm_group (length D) (map fst G)) as HGp by (eapply op_group_perm_group; eauto).
  pose proof (colourings_transversal D G HGp) as Htr.
  assert (length (colourings D G) = length reps) as Elen.
  { eapply transversal_length; [| |exact Htr|exact Hreps].
    - intros x y Hx _. apply (site_equiv_sym (length D)); auto. apply (Permutation_length Hx).
    - intros x y z Hx _ _. apply (site_equiv_trans (length D)); auto. }
  set (t := length (filter (fun a => 0 <? a) na)) in *.
  assert ((t =? 0)%nat = true) as Ht by (apply (na_types concs na Hna); auto).
  assert (skip_count m t (sum_nat concs) num = false) as Hsk.
  { unfold skip_count. rewrite Ht. cbn [negb andb]. rewrite orb_false_r. destruct Hskip as [Hs|Hs].
    - destruct (Nat.leb_spec num 100); [lia|]. rewrite andb_false_r. auto.
    - destruct (Z.ltb_spec 100000 m); [lia|]. auto. }
  assert (polya v concs G 0 = Ok (Z.of_nat (length (colourings D G)), G)) as Hp by (eapply polya_plain; eauto).
  set (cs := (sum_nat concs / nbasis)%nat) in *.
  set (s := if Z.of_nat num <? Z.of_nat (length (colourings D G)) then
              if Z.of_nat (length (colourings D G)) <? 1000000 then SList (firstn num (shuffled (range_up 1 (Z.of_nat (length (colourings D G)) + 1)))) else SInt (Z.of_nat num)
            else SList []).
  assert (use_subset false s = false) as Hs.
  { unfold s. rewrite Elen. destruct (Z.ltb_spec (Z.of_nat num) (Z.of_nat (length reps))); auto. destruct (Z.ltb_spec (Z.of_nat (length reps)) 1000000); auto.
    destruct Hnum as [->|[H1|H1]]; auto; lia. }
  destruct (super_run_any D G cs HGp Hne Hno Hcell 6 rnd s Hs) as [f Hf].
  destruct (reduced_short D G cs HGp Hne Hno Hcell) as [keep [E Hkeep]]; [rewrite map_length; auto|].
  exists (colourings D G), keep, f. split; [|split; auto].
  intros fuel Hfu. rewrite <- E, <- (Hf fuel Hfu).
  unfold enum_sys. destruct (Nat.eqb_spec nbasis 0); [lia|]. rewrite HD. cbn [rbind]. rewrite Hc. fold t.
  unfold plan. rewrite Hm. cbn [rbind]. rewrite Hsk, Ht. cbn [negb]. rewrite Hp. cbn [rbind].
  destruct (Nat.eqb_spec (length concs) 1); [lia|].
  assert (((100000 <? m) || (false && (12 <=? sum_nat concs)%nat)) && (num <=? 100)%nat = false) as Eg.
  { unfold skip_count in Hsk. rewrite Ht in Hsk. cbn [negb andb] in *. destruct (100000 <? m), (num <=? 100)%nat; cbn in *; auto. }
  rewrite Eg. cbn [andb]. reflexivity.
Qed.

(** The promised number is not reached: of the two classes on a ring of four sites one is not superperiodic; with one
    structure wanted the result is empty when the other is drawn, and no error is raised. *)
Theorem C75_sample_size_refuted : let D := ring4 in
  arrow_concs [2; 2]%nat [0; 0] = Ok D /\ op_group (length D) 6 (ring 4) /\
  (exists reps, transversal (fun w => Permutation w D) (site_equiv (ring 4)) reps /\ length reps = 2%nat /\
    ~ fixed_by_some (translations (ring 4) 4) (nth 0 reps [])) /\
  (forall l : list Z, Permutation (rev l) l) /\
  enum_sys Py3 (fun _ _ => 0) (fun _ => false) (@rev Z) 100 (ring 4) 1 [2; 2]%nat [0; 0] 1 false false = Ok [].
Proof.
  cbn zeta. split; [reflexivity|]. assert (op_group 4 6 (ring 4)) as HG by (apply op_groupb_spec; vm_compute; reflexivity).
  split; auto. split; [|split; [intros l; symmetry; apply Permutation_rev|vm_compute; reflexivity]].
  exists (colourings ring4 (ring 4)). split; [apply colourings_transversal; apply (op_group_perm_group 4 6); auto|].
  split; [vm_compute; reflexivity|]. intros [p [Hp E]]. revert Hp E. vm_compute. intros [<-|[<-|[<-|[]]]]; discriminate.
Qed.
Example C75_enum_sys_example : let D := ring4 in
  arrow_concs [2; 2]%nat [0; 0] = Ok D /\ op_group (length D) 6 (ring 4) /\ NoDup (ring 4) /\ (fold_right Nat.add 0 [2; 2] / 1 <= length (ring 4))%nat /\
  NumericsModel.multinomial (map Z.of_nat [2; 2]%nat) = Ok 6 /\ (length (first_occurrences site_eqb D) <= 3)%nat /\
  (exists reps, transversal (fun w => Permutation w D) (site_equiv (ring 4)) reps /\ length reps = 2%nat) /\
  enum_sys Py3 (fun _ _ => 0) (fun _ => false) (fun l => l) 100 (ring 4) 1 [2; 2]%nat [0; 0] 1 false false = Ok [[(-1, 1); (-1, 1); (-1, 2); (-1, 2)]] /\
  enum_sys Py3 (fun _ _ => 0) (fun _ => false) (fun l => l) 100 (ring 4) 1 [2; 2]%nat [0; 0] 2 false false = Ok [[(-1, 1); (-1, 1); (-1, 2); (-1, 2)]].
Proof.
  cbn zeta. split; [reflexivity|]. assert (op_group 4 6 (ring 4)) as HG by (apply op_groupb_spec; vm_compute; reflexivity).
  split; auto. split; [apply nodup_ops; vm_compute; reflexivity|]. split; [vm_compute; lia|]. split; [reflexivity|]. split; [vm_compute; lia|].
  split; [|split; vm_compute; reflexivity].
  exists (colourings ring4 (ring 4)). split; [|vm_compute; reflexivity].
  apply colourings_transversal. apply (op_group_perm_group 4 6); auto.
Qed.

Print Assumptions C75_sample_primitive.
Print Assumptions C75_enum_sys_partial.
Print Assumptions C75_enum_sys_all_partial.
Print Assumptions C75_sample_size_refuted.
