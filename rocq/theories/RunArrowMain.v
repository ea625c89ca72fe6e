(** A run from scratch with displaced species (C68). *)
From Coq Require Import Permutation.
From Verif Require Import TextModel PyBase Spec ListFacts PermFacts TransFacts PhononsModel TreeModel HashProofs TreeSearch ArrowProofs DecoFacts EnumSysModel EnumSysProofs Mat3 HNFModel HNFProofs PolyaModel PolyaSpec ConcsModel ConcsProofs.
From Verif Require Import LatSpec LatGroupModel LatFacts LatSites LatProofs LatMain LatTop LatGroupThm LatNoDup LatFirst SNFModel SuperModel StructSpec StructProofs StructThm StructMain StructAll StructArrows PropertiesGroup PropertiesConcs.
From Verif Require Import DistModel DistSpec FilesModel FilesMain PropertiesFiles EnumOutModel EnumOutSpec RunModel RunProofs RunSystem RunSpec RunMain RunArrowDeco RunArrowSystem RunArrowSpec.
Local Open Scope Z_scope.

Lemma back_nat c : map Z.to_nat (map Z.of_nat c) = c.
Proof. rewrite map_map, (map_ext (fun x => Z.to_nat (Z.of_nat x)) (fun x => x)), map_id; auto. intros; apply Nat2Z.id. Qed.
Lemma contents_map D bas H f (h : Z * Z -> Z * Z) c : contents D bas H f c -> contents D bas H (fun x => h (f x)) (map h c).
Proof. intros [pts [T P]]. exists pts. split; auto. rewrite <- (map_map f h). apply Permutation_map. auto. Qed.
Lemma map_arrowed_inj l l' : map Arrowed l = map Arrowed l' -> l = l'.
Proof. revert l'; induction l as [|a l IH]; intros [|b l'] E; cbn in *; try discriminate; auto; injection E as -> E; f_equal; auto. Qed.

Section RunA.
Variables (su : setup) (v : pyversion) (fl : list bool).
Hypothesis HD : 0 < s_D su.
Hypothesis Hgb : good_basis (s_pg su) (s_D su) (s_bas su) (s_lo su) (s_hi su).
Hypothesis Hpg : forall C R, In (C, R) (s_pg su) -> unimodular C /\ orthogonal R.
Hypothesis Hgr : rotation_group (s_pg su).
Hypothesis Hdiff : NoDup (map snd (s_pg su)).
Notation pg := (s_pg su).
Notation D := (s_D su).
Notation bas := (s_bas su).
Notation nb := (Z.of_nat (length (s_bas su))).
Notation k := (s_species su).
Notation run_sizes := (run_sizes su).
Notation run_hnfs := (run_hnfs su).
Notation run_concs := (run_concs su).
Notation run_count := (run_count su v).
Hypothesis Hk1 : (1 <= s_species su <= 3)%nat.
Hypothesis Hsizes1 : 1 <= s_lo su <= s_hi su /\ s_hi su * Z.of_nat (length (s_bas su)) <= 20.
Hypothesis Hur : usable_ranges (s_species su) (ranges_of su).
Hypothesis Hfl : length fl = k.
Hypothesis Harr : s_arrows su = true.
Hypothesis Hna : forall c, length c = k -> s_na su (map Z.of_nat c) = moved_counts fl c.
Hypothesis Hsystem : forall s H c rnd, In s run_sizes -> In H (find_all_HNFs s) -> length c = k -> Z.of_nat (sum_nat c) = s * nb -> systemA pg D bas fl c H rnd.
Notation hnfs_facts := (hnfs_factsB su HD Hgb Hpg Hgr Hk1).
Notation in_sizes := (in_sizesB su Hk1).

Lemma system_factsA s H c rnd : In s run_sizes -> In H (run_hnfs s) -> In c (run_concs s) -> exists Gt l fuel0,
  sym_group pg D bas H true = Ok Gt /\ count_conc v (s_na su) c Gt = Ok (run_count (six H) c, Gt) /\ 0 < run_count (six H) c <= 3 ^ 20 /\
  (forall draw shuffled fuel, (fuel0 <= fuel)%nat -> enum_sys v draw rnd shuffled fuel Gt (length bas) (map Z.to_nat c) (s_na su c) (Z.to_nat (run_count (six H) c)) false false = Ok l) /\
  listA pg D bas fl (map Z.to_nat c) H l.
Proof.
  intros Hs HH Hc. destruct (concs_factsB su Hgb Hk1 Hsizes1 Hur s c Hs Hc) as [c' [-> [Hl E]]]. destruct (hnfs_facts Hsizes1 s Hs) as [_ [Hf _]]. specialize (Hf H HH).
  destruct (Hsystem s H c' rnd Hs Hf Hl E) as [Gt [num [l [f0 [Et [Hcount [Hnum [Hrun Hlist]]]]]]]].
  assert (s_na su (map Z.of_nat c') = moved_counts fl c') as Ena by (apply Hna; auto).
  pose proof (Hcount v (s_na su) Ena) as Ec.
  assert (run_count (six H) (map Z.of_nat c') = Z.of_nat num) as En by (unfold RunMain.run_count; rewrite (six_full s H Hf), Et; cbn [rbind]; rewrite Ec; auto).
  exists Gt, l, f0. rewrite En, back_nat, Nat2Z.id. split; auto. split; auto. split; [|split; auto].
  - assert (10 ^ 8 = 100000000) as E1 by reflexivity. assert (3 ^ 20 = 3486784401) as E2 by reflexivity. lia.
  - intros draw shuffled fuel Hfu. rewrite Ena. apply Hrun. auto.
Qed.
Lemma counts_rightA s H c : In s run_sizes -> In H (run_hnfs s) -> In c (run_concs s) -> exists Gt,
  sym_group pg D bas H true = Ok Gt /\ count_conc v (s_na su) c Gt = Ok (run_count (six H) c, Gt) /\ 0 < run_count (six H) c <= 3 ^ 20.
Proof. intros Hs HH Hc. destruct (system_factsA s H c (fun _ => false) Hs HH Hc) as [Gt [l [f0 [E1 [E2 [E3 _]]]]]]. exists Gt. auto. Qed.

(** *** The lists *)
Notation wantedF := (fun c => wantedA D bas (decosF fl (map Z.to_nat c))).
Lemma wanted_point c H f x : length fl = length c -> wantedF c H f -> crystal_point D bas x -> displaced_site fl (f x).
Proof.
  intros Hl [Pf [[pts [[T1 [T2 T3]] P]] Sf]] Hx. destruct (T2 x Hx) as [y [Hy [t [Ht Ey]]]].
  assert (f y = f x) as Ef by (rewrite Ey; apply (Pf t); auto).
  assert (length fl = length (map Z.to_nat c)) as Hl' by (rewrite map_length; auto).
  assert (In (skeleton (f y)) (map skeleton (decosF fl (map Z.to_nat c)))) as Hi by (eapply Permutation_in; [exact P|]; apply (in_map (fun x => skeleton (f x))); auto).
  rewrite Ef in Hi. apply (Permutation_in _ (decosF_skeleton fl _ Hl')) in Hi. apply in_map_iff in Hi. destruct Hi as [l [E Hi]].
  apply runs_of_range in Hi. destruct (bare_fits fl l (f x)) as [E1 E2]; [lia|apply Sf; auto|auto|]. split; [lia|exact E2].
Qed.
Lemma same_keyA s H c s' K c' f g : In s run_sizes -> In H (run_hnfs s) -> In c (run_concs s) -> In s' run_sizes -> In K (run_hnfs s') -> In c' (run_concs s') ->
  wantedF c H f -> wantedF c' K g -> same_structure pg D bas f g -> H = K /\ c = c' /\ same_in_supercell pg D bas H f g.
Proof.
  intros Hs HH Hc Hs' HK Hc' [Pf [Cf Sf]] [Pg [Cg Sg]] [C [R [t [HC [Ht Hcar]]]]].
  destruct (Hpg C R HC) as [HCu HCo].
  assert (same_lattice (mmul C H) K) as Hsl by (apply (carried_primitive D bas C R t f g H K); auto).
  destruct (hnfs_facts Hsizes1 s Hs) as [_ [Hf [_ [Hu _]]]]. destruct (hnfs_facts Hsizes1 s' Hs') as [_ [Hf' _]].
  pose proof (find_det s H ltac:(apply in_sizes in Hs; lia) (Hf H HH)) as DH. pose proof (find_det s' K ltac:(apply in_sizes in Hs'; lia) (Hf' K HK)) as DK.
  assert (s = s') as Ess.
  { apply same_lattice_det in Hsl; [|apply in_sizes in Hs'; lia]. rewrite mdet_mmul, Z.abs_mul in Hsl. apply in_sizes in Hs, Hs'. destruct HCu as [E|E]; rewrite E in Hsl; lia. }
  rewrite <- Ess in *. assert (H = K) as EHK by exact (Hu H K C R t HH HK HC Ht Hsl). rewrite EHK in *. split; auto. split.
  - destruct (concs_factsB su Hgb Hk1 Hsizes1 Hur s c Hs Hc) as [d [-> [Ld Ed]]]. destruct (concs_factsB su Hgb Hk1 Hsizes1 Hur s c' Hs Hc') as [d' [-> [Ld' Ed']]].
    rewrite back_nat in Cf, Cg. f_equal. apply (decosF_inj fl); try congruence.
    apply (contents_unique D bas K (fun x => skeleton (g x))); auto; [intros t' Ht' x Hx; cbv beta; f_equal; apply Pg; auto|].
    apply (contents_lattice D bas (mmul C K)); auto. apply (contents_carried D bas C t K (fun x => skeleton (f x)) (fun x => skeleton (g x))); auto.
    intros x Hx. apply (rotated_skeleton R). apply Hcar; auto.
  - exists C, R, t. split; auto. split; auto.
Qed.

(** *** Enumerating *)
Definition good_lineA (y : list Z * list Z * Z) (e : list Z * list config) : Prop :=
  fst e = fst (fst y) /\ exists l, snd e = map Arrowed l /\ listA pg D bas fl (map Z.to_nat (snd (fst y))) (full_HNF (fst e)) l.
Notation are_systems := (are_systems su v).
Lemma enum_lines_okA draw rnd shuffled systems : are_systems systems ->
  exists found fuel0, (forall fuel, (fuel0 <= fuel)%nat -> enum_lines v draw rnd shuffled fuel su false false systems = Ok found) /\ Forall2 good_lineA systems found.
Proof.
  intros Hsys. unfold enum_lines.
  set (step := fun (y : nat * (list Z * list Z * Z)) (fuel : nat) =>
    let '(i, (h, c, num)) := y in
    do G <- sym_group pg D (s_bas su) (full_HNF h) (s_arrows su);
    do configs <- enum_sys v (draw i) (rnd i) (shuffled i) fuel G (length (s_bas su)) (map Z.to_nat c) (s_na su c) (Z.to_nat num) false false;
    Ok (h, map Arrowed configs)).
  assert (forall y, In y (combine (seq 0 (length systems)) systems) -> exists l fuel0, (forall fuel, (fuel0 <= fuel)%nat -> step y fuel = Ok (fst (fst (snd y)), map Arrowed l)) /\
    good_lineA (snd y) (fst (fst (snd y)), map Arrowed l)) as Hstep.
  { intros [i [[h c] x]] Hy. apply in_combine_r in Hy. apply Hsys in Hy. destruct Hy as [s [H [Hs [HH [-> [Hc ->]]]]]].
    destruct (system_factsA s H c (rnd i) Hs HH Hc) as [Gt [l [f0 [Ef [_ [_ [Hrun Hlist]]]]]]].
    destruct (hnfs_facts Hsizes1 s Hs) as [_ [Hf _]]. pose proof (six_full s H (Hf H HH)) as E6.
    exists l, f0. split.
    - intros fuel Hfu. unfold step. rewrite E6, Harr. rewrite Ef. cbn [rbind length]. rewrite Hrun by auto. auto.
    - split; auto. exists l. cbn [fst snd]. rewrite E6. auto. }
  destruct (rmap_each step (combine (seq 0 (length systems)) systems)) with (P := fun (y : nat * (list Z * list Z * Z)) e => good_lineA (snd y) e) as [found [f0 [HF Hrun]]].
  { intros y Hy. destruct (Hstep y Hy) as [l [f0 [H1 _]]]. eauto. }
  { intros y b f0 Hy Hr. destruct (Hstep y Hy) as [l [f1 [H1 H2]]]. specialize (Hr (f0 + f1)%nat ltac:(lia)). rewrite H1 in Hr by lia. injection Hr as <-. auto. }
  exists found, f0. split; [|apply (Forall2_combine good_lineA (seq 0 (length systems))); auto; apply seq_length].
  intros fuel Hfu. rewrite <- (Hrun fuel Hfu). f_equal.
Qed.

(** *** The catalogue *)
Notation row_means := (row_means su).
Lemma found_line systems found e : Forall2 good_lineA systems found -> In e found -> exists y, In y systems /\ good_lineA y e.
Proof. intros HF He. induction HF as [|y e' ys es H HF IH]; [destruct He|]. destruct He as [->|He]; [exists y; cbn; auto|]. destruct (IH He) as [y' [A B]]. exists y'. cbn; auto. Qed.
Lemma line_found systems found y : Forall2 good_lineA systems found -> In y systems -> exists e, In e found /\ good_lineA y e.
Proof. intros HF He. induction HF as [|y' e' ys es H HF IH]; [destruct He|]. destruct He as [->|He]; [exists e'; cbn; auto|]. destruct (IH He) as [y'' [A B]]. exists y''. cbn; auto. Qed.
Lemma listed_lineA systems found r : Forall2 good_lineA systems found -> In r (listed found) ->
  exists y e l w, In y systems /\ In e found /\ fst e = fst (fst y) /\ snd e = map Arrowed l /\ listA pg D bas fl (map Z.to_nat (snd (fst y))) (full_HNF (fst e)) l /\ In w l /\ r = (fst e, Arrowed w).
Proof.
  intros HF Hr. unfold listed in Hr. apply in_flat_map in Hr. destruct Hr as [[h cs] [He Hr]]. apply in_map_iff in Hr. destruct Hr as [cfg [<- Hcfg]].
  destruct (found_line systems found (h, cs) HF He) as [y [Hy [E1 [l [E2 Hl]]]]]. cbn [fst snd] in *. subst cs. apply in_map_iff in Hcfg. destruct Hcfg as [w [<- Hw]].
  exists y, (h, map Arrowed l), l, w. auto 10.
Qed.
Lemma line_systemA systems y : are_systems systems -> In y systems -> exists s H, In s run_sizes /\ In H (run_hnfs s) /\ fst (fst y) = six H /\ full_HNF (fst (fst y)) = H /\ In (snd (fst y)) (run_concs s) /\ length fl = length (snd (fst y)).
Proof.
  intros Hsys Hy. destruct y as [[h c] x]. apply Hsys in Hy. destruct Hy as [s [H [Hs [HH [-> [Hc _]]]]]]. exists s, H. cbn [fst snd]. destruct (hnfs_facts Hsizes1 s Hs) as [_ [Hf _]]. rewrite (six_full s H (Hf H HH)).
  do 5 (split; auto). destruct (concs_factsB su Hgb Hk1 Hsizes1 Hur s c Hs Hc) as [d [-> [Ld Ed]]]. rewrite map_length. congruence.
Qed.
Lemma row_wanted systems found r f : are_systems systems -> Forall2 good_lineA systems found -> In r (listed found) -> row_means r f ->
  exists y s H, In y systems /\ In s run_sizes /\ In H (run_hnfs s) /\ fst r = six H /\ fst (fst y) = six H /\ In (snd (fst y)) (run_concs s) /\ wantedF (snd (fst y)) H f.
Proof.
  intros Hsys HF Hr [w [Ew Hm]]. destruct (listed_lineA systems found r HF Hr) as [y [e [l [w' [Hy [He [E1 [E2 [[[Hs _] _] [Hw ->]]]]]]]]]]. cbn [fst snd] in *. injection Ew as <-.
  destruct (line_systemA systems y Hsys Hy) as [s [H [Hsz [HH [E4 [E5 [Hc _]]]]]]]. exists y, s, H. rewrite E1 in *. rewrite E5 in *. do 6 (split; auto).
  destruct (Hs (H, w')) as [_ [_ Hs3]]; [apply in_map_iff; eauto|]. apply Hs3; auto.
Qed.
Lemma line_wantedA systems y e r f : are_systems systems -> In y systems -> good_lineA y e -> In r (let '(h, cs) := e in map (pair h) cs) -> row_means r f ->
  exists s H, In s run_sizes /\ In H (run_hnfs s) /\ fst (fst y) = six H /\ In (snd (fst y)) (run_concs s) /\ wantedF (snd (fst y)) H f.
Proof.
  intros Hsys Hy [E1 [l [E2 [[Hs _] _]]]] Hr [w [Ew Hm]]. destruct (line_systemA systems y Hsys Hy) as [s [H [Hsz [HH [E4 [E5 [Hc _]]]]]]]. exists s, H. do 4 (split; auto).
  destruct e as [h cs]. cbn [fst snd] in *. apply in_map_iff in Hr. destruct Hr as [cfg [<- Hcfg]]. cbn [fst snd] in *. rewrite E2 in Hcfg. apply in_map_iff in Hcfg. destruct Hcfg as [w' [Ec Hw]]. assert (w' = w) as -> by congruence.
  rewrite E1, E5 in *. destruct (Hs (H, w)) as [_ [_ Hs3]]; [apply in_map_iff; eauto|]. apply Hs3; auto.
Qed.
Lemma catalogue_foundA systems found : are_systems systems -> NoDup (map fst systems) -> Forall2 good_lineA systems found ->
  catalogue (displaced_run_structures D bas fl (s_lo su) (s_hi su) (ranges_of su)) (same_structure pg D bas) row_means (listed found).
Proof.
  intros Hsys Hnd HF.
  pose proof (fun r f => row_wanted systems found r f Hsys HF) as Hrow.
  split; [|split; [|split]].
  - intros r Hr. destruct (listed_lineA systems found r HF Hr) as [y [e [l [w' [Hy [He [E1 [E2 [[[Hs _] _] [Hw ->]]]]]]]]]].
    destruct (Hs (full_HNF (fst e), w')) as [_ [[f Hf] _]]; [apply in_map_iff; eauto|]. exists f, w'. auto.
  - intros r f Hr Hm. destruct (Hrow r f Hr Hm) as [y [s [H [Hy [Hs [HH [E1 [E2 [Hc Hw]]]]]]]]]. destruct (concs_factsB su Hgb Hk1 Hsizes1 Hur s _ Hs Hc) as [c' [Ec [Lc Sc2]]]. split.
    + intros x Hx. apply (wanted_point (snd (fst y)) H); auto. rewrite Ec, map_length. congruence.
    + exists H. destruct (hnfs_facts Hsizes1 s Hs) as [_ [Hf _]]. pose proof (find_det s H ltac:(apply in_sizes in Hs; lia) (Hf H HH)) as Hdet. split; [|split; [apply Hw|]].
      { apply in_sizes in Hs. lia. }
      pose proof (proj1 (concs_iffB su Hgb Hk1 Hsizes1 Hur s _ Hs) Hc) as [_ [_ [Sc Hrc]]]. unfold ranges_of in *. destruct (s_restricted su) eqn:Er; [|auto]. specialize (Hrc eq_refl). destruct Hur as [Hlr _].
      destruct Hw as [Pw [Cw Sw]]. rewrite Ec in Cw, Hrc. rewrite back_nat in Cw. destruct Cw as [pts [T P]].
      exists (map f pts). split; [exists pts; split; auto|].
      assert (Permutation (map skeleton (map f pts)) (map skeleton (decosF fl c'))) as P2 by (rewrite map_map; auto).
      rewrite map_length, <- (map_length (fun x => skeleton (f x))), (Permutation_length P), map_length, decosF_length, Sc2 by congruence.
      intros i r' Hr'. rewrite <- amount_skeleton, (amount_perm _ _ _ P2), amount_skeleton, decosF_amount by congruence. revert i r' Hr'. apply amounts_within; [congruence|auto].
  - intros f [Hsp [K [HK [Pf Hrng]]]]. set (n := Z.abs (mdet K)) in *. assert (In n run_sizes) as Hs by (apply in_sizes; auto).
    destruct (hnfs_facts Hsizes1 n Hs) as [_ [Hf [Hall _]]]. destruct (Hall K eq_refl) as [H [C [R [t [HH [HC [Ht Hsl]]]]]]]. destruct (Hpg C R HC) as [HCu HCo]. destruct (turns_exists R HCo) as [a Ha].
    assert (forall x, crystal_point D bas x -> fst (f x) < 6) as Sf by (intros x Hx; destruct (Hsp x Hx) as [_ Hd]; destruct (nth _ fl false); lia).
    set (f1 := carried C R t a f).
    assert (carries D bas C R t f f1) as Hc1 by (apply carried_carries; auto).
    assert (six_directions D bas f1) as S1 by (apply carried_six; auto).
    assert (primitive D bas H f1) as Pf1 by (apply (carried_primitive D bas C R t f f1 K H); auto).
    pose proof (find_det n H ltac:(apply in_sizes in Hs; lia) (Hf H HH)) as Hdet.
    assert (s_hi su <= 20) as H20 by (pose proof (gb_pos _ _ _ _ _ Hgb); nia).
    destruct (snf_facts H ltac:(apply in_sizes in Hs; lia)) as [M [L [B [E [HL [HB [Hsn [Hp [Hsm Hv]]]]]]]]].
    destruct (described D bas H L B (diag_of M) HD (gb_red _ _ _ _ _ Hgb) (gb_nd _ _ _ _ _ Hgb) HL HB Hsn Hp f1 ltac:(intros q Hq; apply Pf1; auto)) as [w [Hlw Hw]].
    assert (contents D bas H f1 w) as Cw by (apply (describes_contents D bas H L B (diag_of M)); auto; [apply (gb_red _ _ _ _ _ Hgb)|apply (gb_nd _ _ _ _ _ Hgb)]).
    assert (forall x, crystal_point D bas x -> snd (f1 (affine C t x)) = snd (f x) /\ skeleton (f1 (affine C t x)) = skeleton (f x)) as Esk.
    { intros x Hx. specialize (Hc1 x Hx). split; [apply Hc1|apply (rotated_skeleton R); auto]. }
    assert (forall y, crystal_point D bas y -> displaced_site fl (f1 y)) as Hsp1.
    { intros y Hy. destruct (symmetry_onto D bas C t y HCu Ht Hy) as [x [Hx Ey]]. destruct (Hsp x Hx) as [Hr Hd]. destruct (Esk x Hx) as [E1 E2]. rewrite Ey in E1, E2.
      destruct (bare_fits fl (Z.to_nat (snd (f1 y))) (f1 y)) as [_ E3]; [lia|apply S1; auto| |split; [lia|exact E3]]. rewrite E2, E1. apply fits_skeleton; [lia|exact Hd]. }
    assert (forall a, In a w -> 1 <= snd a <= Z.of_nat (length fl) /\ fits fl a) as Hwa.
    { intros b Hb. destruct Cw as [pts [[T1 _] P]]. apply Permutation_sym in P. apply (Permutation_in _ P) in Hb. apply in_map_iff in Hb. destruct Hb as [x [<- Hx]]. apply Hsp1; auto. }
    destruct (compositionF fl w Hwa) as [c [Lc [Sc [Pc Ac]]]]. rewrite Hlw in Sc. rewrite Hv, Hdet in Sc.
    assert (contents D bas H (fun x => skeleton (f1 x)) (map skeleton (decosF fl c))) as Cs.
    { destruct Cw as [pts [T P]]. exists pts. split; auto. rewrite <- (map_map f1 skeleton). rewrite <- Pc. apply Permutation_map. auto. }
    assert (In (map Z.of_nat c) (run_concs n)) as Hc.
    { apply (concs_inB su Hgb Hk1 Hsizes1 Hur); auto; [congruence|rewrite Sc; apply in_sizes in Hs; lia|]. intros Er. unfold ranges_of in Hrng. pose proof Hur as Hr. unfold ranges_of in Hr. rewrite Er in Hrng, Hr. destruct Hrng as [cell [Ccell Hin]]. destruct Hr as [Hlr _].
      assert (Permutation (map skeleton cell) (map skeleton (decosF fl c))) as Pcw.
      { apply (contents_unique D bas H (fun x => skeleton (f1 x))); auto; [intros q Hq x Hx; cbv beta; f_equal; apply Pf1; auto|]. apply (contents_lattice D bas (mmul C K)); auto.
        apply (contents_carried D bas C t K (fun x => skeleton (f x)) (fun x => skeleton (f1 x))); auto; [intros x Hx; apply Esk; auto|]. apply contents_map. auto. }
      apply amounts_within; [congruence|]. intros i r Hi. specialize (Hin i r Hi). rewrite <- amount_skeleton, (amount_perm _ _ _ Pcw), amount_skeleton, decosF_amount in Hin by auto. replace (Z.of_nat (length cell)) with (n * nb) in Hin; auto.
      rewrite <- (map_length skeleton), (Permutation_length Pcw), map_length, decosF_length, Sc by auto. apply in_sizes in Hs. lia. }
    assert (In (six H, map Z.of_nat c, run_count (six H) (map Z.of_nat c)) systems) as Hy by (apply Hsys; exists n, H; auto).
    destruct (line_found systems found _ HF Hy) as [e [He [E1 [l [E2 [_ [Hcomp _]]]]]]].
    cbn [fst snd] in *. rewrite E1, back_nat, (six_full n H (Hf H HH)) in Hcomp.
    destruct (Hcomp f1) as [[H' w1] [g [Hin [Hm [C' [R' [t' [[S1' [S2 S3]] Hc2]]]]]]]]; [split; [auto|split; auto]|].
    apply in_map_iff in Hin. destruct Hin as [w2 [Ee Hw2]]. injection Ee as <- <-.
    exists (six H, Arrowed w2), g. split; [|split].
    + unfold listed. apply in_flat_map. exists e. split; auto. destruct e as [h cs]. cbn [fst snd] in *. rewrite E1, E2. apply in_map. apply in_map. auto.
    + exists w2. cbn [fst snd]. rewrite (six_full n H (Hf H HH)). auto.
    + exists (mmul C' C), (mmul R' R), (affine C' t' t). split; [apply Hgr; auto|]. split; [apply symmetry_comp; auto|].
      apply (carries_comp D bas C R t C' R' t' f f1 g); auto. apply (Hpg C' R' S1').
  - unfold listed. rewrite flat_map_concat_map. apply FOP_concat.
    + intros [h cs] He. destruct (found_line systems found (h, cs) HF He) as [y [Hy [E1 [l [E2 [[Hs1 Hs2] _]]]]]].
      cbn [fst snd] in *. rewrite E2, map_map. destruct (line_systemA systems y Hsys Hy) as [s [H [Hsz [HH [E4 [E5 [Hc _]]]]]]]. rewrite <- E1 in E5. rewrite E5 in *.
      apply FOP_map. apply FOP_map in Hs2. eapply FOP_impl; [|exact Hs2]. cbv beta. intros w1 w2 H1 H2 Hnot f g [w1' [F1 M1]] [w2' [F2 M2]] Hsame. cbn [fst snd] in *. injection F1 as <-. injection F2 as <-. rewrite E5 in *.
      apply (Hnot f g M1 M2). destruct (Hs1 (H, w1)) as [_ [_ W1]]; [apply in_map_iff; eauto|]. destruct (Hs1 (H, w2)) as [_ [_ W2]]; [apply in_map_iff; eauto|].
      apply (same_keyA s H (snd (fst y)) s H (snd (fst y)) f g); auto.
    + assert (forall ys es, Forall2 good_lineA ys es -> NoDup (map fst ys) -> (forall y, In y ys -> In y systems) ->
        ForallOrdPairs (fun a b : list Z * list config => forall x y, In x ((let '(h, cs) := a in map (pair h) cs)) -> In y ((let '(h, cs) := b in map (pair h) cs)) ->
          forall f g, row_means x f -> row_means y g -> ~ same_structure pg D bas f g) es) as Hgen; [|apply (Hgen systems); auto].
      clear Hnd HF Hrow. intros ys es HF. induction HF as [|y e ys es Hg HF IH]; intros Hnd Hincl; constructor.
      * cbn [map] in Hnd. inversion Hnd as [|? ? Hnot _]; subst. apply Forall_forall. intros e' He' r r' Hr Hr' f g Mf Mg Hsame.
        destruct (found_line ys es e' HF He') as [y' [Hy' Hg']].
        destruct (line_wantedA systems y e r f Hsys ltac:(apply Hincl; cbn; auto) Hg Hr Mf) as [s [H [Hs [HH [E1 [Hc W]]]]]].
        destruct (line_wantedA systems y' e' r' g Hsys ltac:(apply Hincl; cbn; auto) Hg' Hr' Mg) as [s' [H' [Hs' [HH' [E1' [Hc' W']]]]]].
        destruct (same_keyA s H _ s' H' _ f g Hs HH Hc Hs' HH' Hc' W W' Hsame) as [EH [Ec _]]. apply Hnot. apply in_map_iff. exists y'. split; auto.
        destruct (fst y') as [h' c'], (fst y) as [h c]. cbn [fst snd] in *. congruence.
      * apply IH; [cbn [map] in Hnd; inversion Hnd; auto|intros; apply Hincl; cbn; auto].
Qed.
End RunA.
