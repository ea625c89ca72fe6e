(** The enumeration of one size with displacements: all supercells together, superperiodic structures left out
    (C50_displaced). *)
From Coq Require Import Permutation Sorted.
From Verif Require Import Decide PyBase Spec ListFacts PermFacts CanonProofs TransFacts PhononsModel TreeModel DecoFacts BranchTheorems EnumSysProofs Mat3 HNFModel HNFProofs.
From Verif Require Import LatSpec LatGroupModel LatFacts LatSites LatProofs LatMain LatTop LatGroupThm TransPerm LatNoDup LatFirst.
From Verif Require Import SNFModel SuperModel StructSpec StructProofs StructThm StructMain StructAll ArrowSuper PropertiesTree PropertiesLattice PropertiesGroup PropertiesArrowSuper.
Local Open Scope Z_scope.

(** [enumerate_size] (SuperModel.v) with displacements: enumeration.py:169-183, phonons.py:398-420, 483; [get_sym_group] is
    called with arrows=True (phonons.py:403-409). *)
Definition enumerate_size_displaced (pg : list (mat * mat)) (D : Z) (bas : list vec) (n : Z) (cwa : list site) (supers : bool)
    (rnd : nat -> bool) (fuel : nat) : res (list (mat * list site)) :=
  let '(_, _, concs) := how_many_arrows cwa in
  do hnfs <- get_HNFs pg D bas n;
  do lists <- rmap (fun H =>
                do G <- sym_group pg D bas H true;
                do configs <- brancher concs G cwa 6 supers (Z.to_nat n) false rnd fuel SNone;
                Ok (map (fun w => (H, w)) configs)) hnfs;
  Ok (concat lists).

(** The decorations whose primitive cell has [n] parent cells and contents [c] up to the directions of the displacements. *)
Definition displaced_structures (D : Z) (bas : list vec) (n : Z) (c : list (Z * Z)) (f : decoration) : Prop :=
  exists H, Z.abs (mdet H) = n /\ primitive D bas H f /\ contents D bas H (fun x => skeleton (f x)) (map skeleton c) /\
    six_directions D bas f.

(** ** The first operations, with the permutations of the directions *)
Lemma lex_app a a' b b' : length a = length a' -> lex_leb a a' = true -> lex_leb b b' = true -> lex_leb (a ++ b) (a' ++ b') = true.
Proof.
  revert a'; induction a as [|x a IH]; intros [|y a'] Hl H1 H2; try discriminate; auto. cbn [app lex_leb] in *.
  destruct (x <? y)%nat; auto. destruct (x =? y)%nat; auto.
Qed.
Lemma reduce_first_arrows rps aps N M : length rps = length aps ->
  (forall p a, In (p, a) (combine rps aps) -> is_perm N p /\ is_perm M a) -> In (idperm N, idperm M) (combine rps aps) ->
  exists m, reduce_rotations true rps aps = (idperm N, idperm M) :: m.
Proof.
  intros Hl Hp Hid. unfold reduce_rotations. destruct (Nat.leb_spec (length rps) 1) as [Hle|Hgt].
  - destruct rps as [|r [|r' rps]]; cbn in Hle; try lia; [destruct Hid|]. destruct aps as [|a [|a' aps]]; try discriminate.
    destruct Hid as [E|[]]. injection E as -> ->. cbn. eauto.
  - assert (length (nth 0 rps []) = N) as ->.
    { destruct rps as [|r rps]; [cbn in Hgt; lia|]. destruct aps as [|a aps]; [discriminate|]. apply (Hp r a). cbn. auto. }
    set (l := map (fun '(r, a) => r ++ a) (combine rps aps)).
    assert (In (idperm N ++ idperm M) (lex_sort (group_runs l))) as Hin.
    { apply lex_sort_in, group_runs_in. unfold l. apply in_map_iff. exists (idperm N, idperm M). auto. }
    pose proof (lex_sort_sorted (group_runs l)) as Hs.
    destruct (lex_sort (group_runs l)) as [|h s] eqn:E; [destruct Hin|].
    assert (h = idperm N ++ idperm M) as ->.
    { assert (In h l) as Hh by (apply group_runs_in, lex_sort_in; rewrite E; cbn; auto).
      unfold l in Hh. apply in_map_iff in Hh as [[p a] [<- Hpa]]. destruct (Hp p a Hpa) as [[P1 [P2 P3]] [A1 [A2 A3]]].
      assert (lex_leb (idperm N ++ idperm M) (p ++ a) = true) as H1.
      { unfold idperm. rewrite <- P1, <- A1. apply lex_app; [apply seq_length| |]; apply lex_seq_min; auto; intros; lia. }
      destruct Hin as [E'|Hin]; [exact E'|]. apply lex_antisym; auto. inversion Hs as [|? ? _ Hf]; subst.
      rewrite Forall_forall in Hf. apply (Hf _ Hin). }
    cbn [map]. exists (map (fun p => (firstn N p, skipn N p)) s). f_equal.
    assert (length (idperm N) = N) as Hn by apply seq_length.
    rewrite firstn_app, skipn_app, Hn, Nat.sub_diag, firstn_O, skipn_O, app_nil_r, firstn_all2, skipn_all2 by lia. auto.
Qed.

Section FirstArrows.
Variables (pg : list (mat * mat)) (D : Z) (bas : list vec) (H L B : mat) (diag : vec).
Hypothesis HD : 0 < D.
Hypothesis Hne : bas <> [].
Hypothesis Hred : forall d, In d bas -> reduced (D, D, D) d.
Hypothesis Hnd : NoDup bas.
Hypothesis Hpg : forall C R, In (C, R) pg -> unimodular C /\ orthogonal R.
Hypothesis Hid : In (mid, mid) pg.
Hypothesis HL : unimodular L.
Hypothesis HB : unimodular B.
Hypothesis Hsnf : mmul (mmul L H) B = diagonal diag.
Hypothesis Hpos : positive diag.
Hypothesis Hsmall : forall i, (i < 3)%nat -> vget diag i <= 10 ^ 5.
Hypothesis Hself : self_inverse_on_basis pg D bas H.
Notation n := (Z.to_nat (volume diag)).
Notation N := (length bas * n)%nat.
Notation g := (make_member_list diag).
Notation tperm := (translation_perm n (length bas) diag g).

Lemma first_operations_arrows G : get_sym_group pg D bas H L diag true = Ok G ->
  firstn n G = map (fun t => (t, idperm 6)) (translation_perms n (length bas) diag g) /\ (n <= length G)%nat.
Proof.
  intros E. assert (forall C R, In (C, R) pg -> unimodular C) as Huni by (intros C R Hin; apply (Hpg C R); auto).
  assert (forall C R, In (C, R) pg -> orthogonal R) as Horth by (intros C R Hin; apply (Hpg C R); auto).
  destruct (sym_group_shape pg D bas HD Hred Hnd Hne Huni H L B diag HL HB Hsnf Hpos Hsmall Hself true Horth) as [pairs [E' [Hp HF]]].
  rewrite E in E'. inversion E' as [EG]. clear E E'. cbv zeta in Hp.
  assert (In (idperm N, idperm 6) pairs) as Hin.
  { apply Hp. exists {| rot := mid; cart := mid; shift := (0, 0, 0) |}. cbn [rot cart shift].
    split; [|split; [apply fixes_id|split; [apply (induces_id D bas L diag HD Hred Hnd Hpos)|apply turns_id]]].
    apply (spaceGroup_in pg D bas HD Hred Hnd Hne Huni). cbn [rot cart shift]. split; auto. split; [|apply symmetry_id].
    intros i Hi. destruct i as [|[|[|]]]; cbn; lia. }
  destruct (reduce_first_arrows (map fst pairs) (map snd pairs) N 6) as [m Em].
  { rewrite !map_length. auto. }
  { intros p a Hpa. rewrite combine_fst_snd in Hpa. apply Hp in Hpa. destruct Hpa as [o [Ho [Hf [Hi Ht]]]].
    apply (spaceGroup_in pg D bas HD Hred Hnd Hne Huni) in Ho. destruct Ho as [Ho1 [_ Ho2]]. split; [|apply Ht].
    apply (induces_perm D bas H L B diag HD Hred Hnd HL HB Hsnf Hpos (rot o) (shift o) p); auto. apply (Huni _ _ Ho1). }
  { rewrite combine_fst_snd. auto. }
  rewrite Em. cbn [flat_map]. set (F := map _ (translation_perms n (length bas) diag g)).
  assert (F = map (fun t => (t, idperm 6)) (translation_perms n (length bas) diag g)) as EF.
  { unfold F. apply map_ext_in. intros t Ht. f_equal. apply in_map_iff in Ht. destruct Ht as [u [<- _]].
    change (comp (idperm N) (translation_perm n (length bas) diag g u) = translation_perm n (length bas) diag g u).
    apply comp_id_l. apply (tperm_length diag (length bas) Hpos Hsmall). }
  rewrite EF. clear F EF Em. set (F := map _ _).
  assert (length F = n) as HFl by (unfold F, translation_perms; rewrite !map_length; apply member_length; auto).
  split.
  - rewrite firstn_app, HFl, Nat.sub_diag, firstn_O, app_nil_r. apply firstn_all2. lia.
  - rewrite app_length. lia.
Qed.

Lemma act_op_translation p w : length p = N -> (forall j, In j p -> (j < N)%nat) -> length w = N -> directions_below 6 w ->
  act_op (p, idperm 6) w = act (-1, 0) p w.
Proof.
  intros Hl Hp Hw Hb. unfold act_op. cbn [fst snd]. rewrite <- map_id. apply map_ext_in. intros s Hs. apply (turn_id 6 6); auto.
  unfold act in Hs. apply in_map_iff in Hs as [j [<- Hj]]. apply Hb, nth_In. rewrite Hw. auto.
Qed.

Lemma primitive_iff_arrows G w f : get_sym_group pg D bas H L diag true = Ok G -> length w = N -> directions_below 6 w -> describes D bas L diag w f ->
  primitive D bas H f <-> ~ exists o, In o (firstn n G) /\ o <> (idperm N, idperm 6) /\ act_op o w = w.
Proof.
  intros EG Hl Hb Hd. assert (periodic D bas H f) as Hper by (apply (describes_periodic D bas H L B diag HL HB Hsnf Hpos w f); auto).
  assert (forall t, period D bas f (mvec (minv L) t) <-> act (-1, 0) (tperm t) w = w) as Ht.
  { intros t. apply (period_act D bas L diag HL Hpos); auto. apply translation_ok; auto. }
  destruct (first_operations_arrows G EG) as [EF _]. rewrite EF. pose proof (n_pos diag Hpos) as Hn.
  assert (0 < length bas)%nat as Hbas by (destruct bas; [congruence|cbn; lia]).
  assert (forall t, act_op (tperm t, idperm 6) w = act (-1, 0) (tperm t) w) as Ea.
  { intros t. pose proof (tperm_length diag (length bas) Hpos Hsmall t) as P1.
    assert (forall j, In j (tperm t) -> (j < N)%nat) as P3.
    { intros j Hj. apply In_nth with (d := 0%nat) in Hj. destruct Hj as [i [Hi <-]]. rewrite P1 in Hi. apply (tperm_bound diag (length bas) Hpos Hsmall); auto. }
    apply act_op_translation; auto. }
  split.
  - intros Hp [o [Hin [Hno E]]]. unfold translation_perms in Hin. rewrite map_map in Hin. apply in_map_iff in Hin as [t [<- Hin]].
    apply (member_in diag t Hpos) in Hin. rewrite Ea in E. apply Ht, Hp in E. apply Hno. f_equal.
    assert (t = (0, 0, 0)) as ->.
    { apply (reduced_unique diag); auto.
      - intros i Hi. destruct diag as [[a b] c]. cbn in Hpos. destruct i as [|[|[|]]]; cbn; lia.
      - apply (L_lattice H L B diag HL HB Hsnf Hpos) in E. rewrite minv_vec_r in E; auto. }
    apply (tperm_id diag (length bas) Hpos Hsmall).
  - intros Hnf k. split; [apply Hper|]. intros Hk. set (t := vmod (mvec L k) diag).
    assert (in_lattice H (vsub k (mvec (minv L) t))) as Hd1.
    { apply (L_lattice H L B diag HL HB Hsnf Hpos). rewrite mvec_vsub, minv_vec_r by auto. rewrite <- congruent_diff. apply vmod_congruent; auto. }
    destruct (vec_eqb t (0, 0, 0)) eqn:Et.
    + apply vec_eqb_spec in Et. rewrite Et, mvec_0 in Hd1. replace k with (vsub k (0, 0, 0)) by vec_ring. auto.
    + exfalso. apply Hnf. exists (tperm t, idperm 6). split; [|split].
      * apply (in_map (fun t => (t, idperm 6))). apply in_map. apply member_in; auto. apply vmod_reduced; auto.
      * intros E. injection E as E. assert (t = (0, 0, 0)) as E0; [|rewrite E0 in Et; discriminate].
        apply (tperm_inj diag (length bas) Hpos Hsmall t (0, 0, 0) 0%nat 0%nat); auto.
        -- apply vmod_reduced; auto.
        -- intros i Hi. destruct diag as [[a b] c]. cbn in Hpos. destruct i as [|[|[|]]]; cbn; lia.
        -- rewrite E, (tperm_id diag (length bas) Hpos Hsmall). auto.
      * rewrite Ea. apply Ht. replace (mvec (minv L) t) with (vadd k (vsub (0, 0, 0) (vsub k (mvec (minv L) t)))).
        -- apply period_add; auto. apply period_neg. apply Hper. auto.
        -- generalize (mvec (minv L) t). vec_ring.
Qed.
End FirstArrows.

(** ** Carrying displacements along *)
Lemma rotated_comp R R' a b c : orthogonal R -> orthogonal R' -> fst a < 6 -> fst b < 6 -> rotated R a b -> rotated R' b c -> rotated (mmul R' R) a c.
Proof.
  intros HR HR' Ha Hb [E1 H1] [E2 H2]. split; [congruence|]. destruct (has_arrow a) eqn:Ea.
  - destruct H1 as [Hb1 H1]. rewrite Hb1 in H2. destruct H2 as [Hc H2]. split; auto. rewrite H2, H1, mvec_mmul. auto.
  - assert (has_arrow b = false) as Eb. { unfold has_arrow in *. rewrite H1. auto. } rewrite Eb in H2. congruence.
Qed.
Lemma carries_comp D bas C R s C' R' s' f g h : orthogonal R -> orthogonal R' -> crystal_symmetry D bas C s ->
  six_directions D bas f -> six_directions D bas g -> carries D bas C R s f g -> carries D bas C' R' s' g h ->
  carries D bas (mmul C' C) (mmul R' R) (affine C' s' s) f h.
Proof.
  intros HR HR' Hs Sf Sg Hc Hc' x Hx. rewrite <- affine_comp. assert (crystal_point D bas (affine C s x)) as Hx' by (apply (proj1 (Hs x)); auto).
  apply (rotated_comp R R' (f x) (g (affine C s x))); auto.
Qed.
(** The decoration an operation makes of another. *)
Definition carried (C R : mat) (s : vec) (a : list nat) (f : decoration) : decoration :=
  fun y => turn a (f (mvec (minv C) (vsub y s))).
Lemma turn_six R a t : turns R a -> fst t < 6 -> fst (turn a t) < 6.
Proof.
  intros [[A1 [_ A2]] _] Ht. unfold turn. destruct (has_arrow t) eqn:E; auto. cbn [fst].
  unfold has_arrow in E. apply Z.leb_le in E. assert (nth (Z.to_nat (fst t)) a 0 < 6)%nat by (apply A2, nth_In; lia). lia.
Qed.
Lemma carried_carries D bas C R s a f : unimodular C -> turns R a -> six_directions D bas f -> carries D bas C R s f (carried C R s a f).
Proof.
  intros HC Ha Sf x Hx. unfold carried, affine. rewrite vadd_vsub, minv_vec_l by auto. apply (rotated_turn R a); auto. apply (turn_six R); auto.
Qed.
Lemma carried_six D bas C R s a f : unimodular C -> crystal_symmetry D bas C s -> turns R a -> six_directions D bas f -> six_directions D bas (carried C R s a f).
Proof.
  intros HC Hs Ha Sf y Hy. destruct (symmetry_onto D bas C s y HC Hs Hy) as [x [Hx <-]]. unfold carried, affine. rewrite vadd_vsub, minv_vec_l by auto.
  apply (turn_six R); auto.
Qed.
Lemma rotated_skeleton R a b : rotated R a b -> skeleton b = skeleton a.
Proof.
  intros [E H]. unfold skeleton. rewrite E. destruct (has_arrow a) eqn:Ea.
  - destruct H as [-> _]. auto.
  - assert (has_arrow b = false) as ->; [|congruence]. unfold has_arrow in *. rewrite H. auto.
Qed.

Section AllArrows.
Variables (pg : list (mat * mat)) (D : Z) (bas : list vec).
Hypothesis HD : 0 < D.
Hypothesis Hne : bas <> [].
Hypothesis Hnd : NoDup bas.
Hypothesis Hred : forall d, In d bas -> reduced (D, D, D) d.
Hypothesis Hpg : forall C R, In (C, R) pg -> unimodular C /\ orthogonal R.
Hypothesis Hgr : rotation_group pg.
Variables (n : Z) (cwa : list site).
Hypothesis Hn : 1 <= n <= 10 ^ 5.
Hypothesis Hlen : length cwa = (length bas * Z.to_nat n)%nat.
Hypothesis Harr : exists s, In s cwa /\ has_arrow s = true.
Hypothesis Hcons : forall s t, In s cwa -> In t cwa -> skeleton s = skeleton t -> s = t.
(** no species both with and without displacement *)
Definition uniform_species : Prop := forall s t, In s cwa -> In t cwa -> snd s = snd t -> s = t.
Notation concs := (map (multiplicity site_eqb cwa) (first_occurrences site_eqb cwa)).
Definition wantedA (H : mat) (f : decoration) : Prop :=
  primitive D bas H f /\ contents D bas H (fun x => skeleton (f x)) (map skeleton cwa) /\ six_directions D bas f.
Notation means := (means D bas).
Let one (rnd : nat -> bool) (H : mat) (fuel : nat) : res (list (mat * list site)) :=
  do G <- sym_group pg D bas H true;
  do configs <- brancher concs G cwa 6 false (Z.to_nat n) false rnd fuel SNone;
  Ok (map (fun w => (H, w)) configs).

Definition sound_listA (H : mat) (l : list (mat * list site)) : Prop :=
  (forall e, In e l -> fst e = H /\ (exists f, means e f) /\ forall f, means e f -> wantedA H f) /\
  ForallOrdPairs (fun v w => forall f g, means v f -> means w g -> ~ same_in_supercell pg D bas H f g) l.
Definition complete_listA (H : mat) (l : list (mat * list site)) : Prop :=
  forall f, wantedA H f -> exists e g, In e l /\ means e g /\ same_in_supercell pg D bas H f g.

Lemma one_supercell_arrows rnd H : In H (find_all_HNFs n) -> self_inverse_on_basis pg D bas H ->
  exists l fuel0, (forall fuel, (fuel0 <= fuel)%nat -> one rnd H fuel = Ok l) /\ sound_listA H l /\ (uniform_species -> complete_listA H l).
Proof.
  intros Hin Hself. pose proof (hnf_det pg D bas n cwa Hn Hlen H Hin) as Hdet.
  destruct (snf_facts H ltac:(lia)) as [M [L [B [E [HL [HB [Hs [Hp [Hsm Hv]]]]]]]]]. rewrite Hdet in Hv.
  destruct (C48_symmetry_group_partial pg D bas H L B (diag_of M) HD Hne Hnd Hred Hpg HL HB Hs Hp Hsm Hself) as [G [EG HG]].
  destruct (C48_is_group_partial pg D bas H L B (diag_of M) true HD Hne Hnd Hred Hpg Hgr HL HB Hs Hp Hsm Hself) as [G' [EG' HG']].
  rewrite EG in EG'. inversion EG'; subst G'. rewrite Hv in HG'. rewrite <- Hlen in HG'.
  destruct (C05_full_enumeration_with_arrows cwa G 6%nat 6 (Z.to_nat n) rnd Harr Hcons ltac:(lia) eq_refl HG') as [l [Ht [f0 Hf0]]].
  assert (In (mid, mid) pg) as Hid by apply Hgr.
  pose proof (arrow_catalogue D bas H L B (diag_of M) HD Hred Hnd HL HB Hs Hp pg Hpg G cwa l ltac:(rewrite Hv; auto) HG Ht) as [K1 [K2 [K3 K4]]].
  destruct (first_operations_arrows pg D bas H L B (diag_of M) HD Hne Hred Hnd Hpg Hid HL HB Hs Hp Hsm Hself G EG) as [_ HlG]. rewrite Hv in HlG.
  destruct Ht as [T1 [T2 T3]].
  assert (forall w, In w l -> length w = length cwa) as Hwl by (intros w Hw; apply T1 in Hw; destruct Hw as [Hw _]; apply Permutation_length in Hw; rewrite !map_length in Hw; auto).
  assert (forall w f, In w l -> describes D bas L (diag_of M) w f ->
    primitive D bas H f <-> ~ exists o, In o (firstn (Z.to_nat n) G) /\ o <> (idperm (length cwa), idperm 6) /\ act_op o w = w) as Hprim.
  { intros w f Hw Hf. rewrite Hlen, <- Hv. apply (primitive_iff_arrows pg D bas H L B (diag_of M) HD Hne Hred Hnd Hpg Hid HL HB Hs Hp Hsm Hself G w f EG); auto.
    - rewrite Hv, Hwl; auto.
    - apply T1; auto. }
  assert (forall w f, means (H, w) f <-> describes D bas L (diag_of M) w f) as Hmeans.
  { intros w f. unfold StructAll.means. cbn [fst snd]. split; [|intros; exists M, L, B; auto]. intros [M' [L' [B' [E' Hd]]]]. rewrite E in E'. inversion E'; subst. auto. }
  assert (forall l' fuel0, subseq l' l -> (forall w, In w l' -> ~ exists o, In o (firstn (Z.to_nat n) G) /\ o <> (idperm (length cwa), idperm 6) /\ act_op o w = w) ->
    (forall fuel, (fuel0 <= fuel)%nat -> brancher concs G cwa 6 false (Z.to_nat n) false rnd fuel SNone = Ok l') ->
    (forall fuel, (fuel0 <= fuel)%nat -> one rnd H fuel = Ok (map (fun w => (H, w)) l')) /\ sound_listA H (map (fun w => (H, w)) l')) as Main.
  { intros l' fuel0 Hsub Hfx Hrun. split.
    { intros fuel Hfu. unfold one, sym_group. rewrite E. cbn [rbind]. rewrite EG. cbn [rbind]. rewrite Hrun by auto. auto. }
    split.
    - intros e He. apply in_map_iff in He. destruct He as [w [<- Hw]]. pose proof (subseq_In _ _ Hsub w Hw) as Hwl'. cbn [fst]. split; auto. split.
      + destruct (K1 w Hwl') as [f Hf]. exists f. apply Hmeans; auto.
      + intros f Hf. apply Hmeans in Hf. split; [apply (Hprim w f); auto|]. destruct (K2 w f Hwl' Hf) as [_ K]. exact K.
    - apply FOP_map. assert (ForallOrdPairs (fun v w => forall f g, describes D bas L (diag_of M) v f -> describes D bas L (diag_of M) w g -> ~ same_in_supercell pg D bas H f g) l') as Hpw by (eapply subseq_FOP; eauto).
      eapply FOP_impl; [|exact Hpw]. cbv beta. intros v w _ _ Hno f g Hf Hg. apply Hmeans in Hf, Hg. auto. }
  destruct (C67_superperiodic_arrows_sound cwa G 6%nat 6 (Z.to_nat n) rnd Harr Hcons ltac:(lia) eq_refl HG' HlG) as [l2 [l' [f1 [Hsub [HN [Hfix Hrun]]]]]].
  assert (l2 = l) as ->.
  { destruct (Hrun (f0 + f1)%nat ltac:(lia)) as [R1 _]. cbv zeta in R1. rewrite Hf0 in R1 by lia. congruence. }
  destruct (Main l' f1) as [Hone Hsound]; auto; [intros fuel Hfu; apply Hrun; auto|].
  exists (map (fun w => (H, w)) l'), f1. split; auto. split; auto. intros Huni f [Hf1 [Hf2 Hf3]].
  destruct (C67_superperiodic_arrows_partial cwa G 6%nat 6 (Z.to_nat n) rnd Harr Huni ltac:(lia) eq_refl HG' HlG) as [l3 [keep [f2 [Hkeep Hrun2]]]].
  assert (l3 = l /\ l' = filter keep l) as [-> ->].
  { destruct (Hrun (f0 + f1 + f2)%nat ltac:(lia)) as [R1 R2]. destruct (Hrun2 (f0 + f1 + f2)%nat ltac:(lia)) as [R3 R4]. cbv zeta in *. rewrite R1 in R3. rewrite R2 in R4. split; congruence. }
  destruct (K3 f) as [w [g [Hw [Hd Hsame]]]]; [split; auto; intros k Hk'; apply Hf1; auto|].
  exists (H, w), g. split; [|split; auto; apply Hmeans; auto]. apply in_map. apply filter_In. split; auto. apply Hkeep; auto. apply (Hprim w g); auto.
  destruct (K2 w g Hw Hd) as [G1 [G2 G3]]. destruct Hsame as [C [R [s [[S1 [S2 S3]] Hcar]]]].
  apply (carried_primitive D bas C R s f g H H); auto; try (apply (Hpg C R S1)).
Qed.

Hypothesis Hself : forall H, In H (find_all_HNFs n) -> self_inverse_on_basis pg D bas H.

Lemma all_supercells_arrows rnd : exists l fuel0, (forall fuel, (fuel0 <= fuel)%nat -> enumerate_size_displaced pg D bas n cwa false rnd fuel = Ok l) /\
  (forall e, In e l -> exists f, means e f) /\
  (forall e f, In e l -> means e f -> displaced_structures D bas n cwa f) /\
  ForallOrdPairs (fun v w => forall f g, means v f -> means w g -> ~ same_structure pg D bas f g) l /\
  (uniform_species -> forall f, displaced_structures D bas n cwa f -> exists e g, In e l /\ means e g /\ same_structure pg D bas f g).
Proof.
  destruct (get_HNFs_runs pg D bas HD Hne Hnd Hred Hpg Hgr n cwa Hn Hlen Hself) as [hnfs [EH [Hin [Hall Hpairs]]]].
  set (good := fun H (l : list (mat * list site)) => sound_listA H l /\ (uniform_species -> complete_listA H l)).
  destruct (rmap_each (one rnd) hnfs) with (P := good) as [ls [f0 [HF Hrun]]].
  { intros H HH. destruct (one_supercell_arrows rnd H) as [l [f0 [Hr _]]]; auto. eauto. }
  { intros H l f0 HH Hr. destruct (one_supercell_arrows rnd H) as [l' [f1 [Hr' [Hs Hc]]]]; auto. assert (l' = l) as ->; [|split; auto].
    specialize (Hr (f0 + f1)%nat ltac:(lia)). specialize (Hr' (f0 + f1)%nat ltac:(lia)). congruence. }
  exists (concat ls), f0.
  assert (forall l, In l ls -> exists H, In H hnfs /\ sound_listA H l) as Hwhich.
  { intros l Hl. clear - HF Hl. induction HF as [|H m hs ms Hg HF IH]; [destruct Hl|].
    destruct Hl as [->|Hl]; [exists H; split; cbn; auto; apply Hg|]. destruct (IH Hl) as [H' [A A']]. exists H'. cbn. auto. }
  assert (forall e, In e (concat ls) -> exists H l, In H hnfs /\ In e l /\ sound_listA H l) as Hwhere.
  { intros e He. apply in_concat in He. destruct He as [l [Hl He]]. destruct (Hwhich l Hl) as [H [A A']]. exists H, l. auto. }
  split; [|split; [|split; [|split]]].
  - intros fuel Hfu. unfold enumerate_size_displaced. destruct (concs_count cwa) as [a [b Ec]]. rewrite Ec. rewrite EH. cbn [rbind].
    specialize (Hrun fuel Hfu). unfold one in Hrun. rewrite Hrun. cbn [rbind]. auto.
  - intros e He. destruct (Hwhere e He) as [H [l [HH [Hel [Hs _]]]]]. apply (Hs e Hel).
  - intros e f He Hf. destruct (Hwhere e He) as [H [l [HH [Hel [Hs _]]]]]. exists H. split; [rewrite (hnf_det pg D bas n cwa Hn Hlen H) by auto; lia|]. apply (Hs e Hel); auto.
  - rewrite <- (map_id ls).
    assert (forall H f K g C R s, wantedA H f -> wantedA K g -> In (C, R) pg -> crystal_symmetry D bas C s -> carries D bas C R s f g -> same_lattice (mmul C H) K) as Key.
    { intros H f K g C R s [W1 [_ W2]] [V1 [_ V2]] HC Hs Hcar. apply (carried_primitive D bas C R s f g H K); auto; apply (Hpg C R HC). }
    apply FOP_concat.
    + intros l Hl. destruct (Hwhich l Hl) as [H [HH [Hs1 Hs2]]].
      eapply FOP_impl; [|exact Hs2]. cbv beta. intros v w Hv Hw Hnot f g Hf Hg [C [R [s [HC [Hsym Hcar]]]]]. apply (Hnot f g Hf Hg).
      destruct (Hs1 v Hv) as [_ [_ Wf]]. destruct (Hs1 w Hw) as [_ [_ Wg]]. exists C, R, s. split; auto. split; auto. split; auto. apply (Key H f H g C R s); auto.
    + clear Hall EH Hrun Hwhere Hwhich Hin. induction HF as [|H m hs ms Hg HF IH]; [constructor|]. inversion Hpairs as [|? ? Hp1 Hp2]; subst. constructor; [|apply IH; auto].
      apply Forall_forall. intros l Hl v w Hv Hw f g Hf Hg' [C [R [s [HC [Hsym Hcar]]]]]. cbn [id] in Hv, Hw.
      assert (exists K, In K hs /\ sound_listA K l) as [K [HK [Hs1 Hs2]]].
      { clear - HF Hl. induction HF as [|H m hs ms Hg HF IH]; [destruct Hl|]. destruct Hl as [->|Hl]; [exists H; split; cbn; auto; apply Hg|]. destruct (IH Hl) as [H' [A A']]. exists H'. cbn; auto. }
      destruct Hg as [[Hm1 _] _]. destruct (Hm1 v Hv) as [_ [_ Wf]]. destruct (Hs1 w Hw) as [_ [_ Wg]]. rewrite Forall_forall in Hp1.
      apply (proj1 (Hp1 K HK C R s HC Hsym)). apply (Key H f K g C R s); auto.
  - intros Hk f [K [HK [Pf [Cf Sf]]]]. destruct (Hall K) as [H [C [R [s [HH [HC [Hsym Hsl]]]]]]]; [lia|].
    destruct (Hpg C R HC) as [HCu HCo]. destruct (turns_exists R HCo) as [a Ha].
    set (f1 := carried C R s a f).
    assert (carries D bas C R s f f1) as Hc1 by (apply carried_carries; auto).
    assert (six_directions D bas f1) as S1 by (apply carried_six; auto).
    assert (wantedA H f1) as Wf1.
    { split; [|split; auto].
      - apply (carried_primitive D bas C R s f f1 K H); auto.
      - apply (contents_lattice D bas (mmul C K) H); auto. apply (contents_carried D bas C s K (fun x => skeleton (f x)) (fun x => skeleton (f1 x))); auto.
        intros x Hx. apply (rotated_skeleton R). apply Hc1; auto. }
    assert (exists l, In l ls /\ complete_listA H l) as [l [Hl Hcl]].
    { clear - HF HH Hk. induction HF as [|H' m hs ms Hg HF IH]; [destruct HH|]. destruct HH as [->|HH]; [exists m; split; cbn; auto; apply Hg; auto|].
      destruct (IH HH) as [l [A A']]. exists l. cbn; auto. }
    destruct (Hcl f1 Wf1) as [e [g [He [Hm [C' [R' [s' [[S1' [S2 S3]] Hc2]]]]]]]]. exists e, g. split; [apply in_concat; eauto|]. split; auto.
    exists (mmul C' C), (mmul R' R), (affine C' s' s). split; [apply Hgr; auto|]. split; [apply symmetry_comp; auto|].
    apply (carries_comp D bas C R s C' R' s' f f1 g); auto. apply (Hpg C' R' S1').
Qed.
End AllArrows.
