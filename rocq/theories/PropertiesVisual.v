(** The pictures of the supercells (C77): the properties. *)
From Coq Require Import Permutation QArith Lqa.
From Verif Require Import TextModel TextProofs PyBase ListFacts Spec Mat3 HNFModel SNFModel LatSpec LatFacts StructSpec StructThm EnumOutModel EnumOutSpec MapModel MapSpec MapProofs MapSites MapDoubles.
From Verif Require Import SuperModel TransFacts CellModel CellProofs ReduceModel ReduceSpec ReduceMink PropertiesReduce LatticeInModel LatticeInSpec LatticeInProofs PropertiesLatticeIn RunText PropertiesSetup ScriptModel VisualModel VisualProofs.
Local Open Scope Z_scope.

Lemma det_mul3 P H : mdet (mmul P H) = mdet P * mdet H. Proof. apply mdet_mmul. Qed.
Lemma mdet_trans3 P : mdet (transpose P) = mdet P. Proof. destruct P as [[[[? ?] ?] [[? ?] ?]] [[? ?] ?]]. mat_unfold. ring. Qed.
Lemma inject_abs z : (inject_Z (Z.abs z) == Qabs.Qabs (inject_Z z))%Q. Proof. destruct z; reflexivity. Qed.
Lemma in_lattice_add H u v : in_lattice H u -> in_lattice H v -> in_lattice H (vadd u v).
Proof. intros [k ->] [l ->]. exists (vadd k l). destruct H as [[[[? ?] ?] [[? ?] ?]] [[? ?] ?]], k as [[? ?] ?], l as [[? ?] ?]. cbn [mvec vdot vadd]. f_equal; [f_equal|]; ring. Qed.
Lemma in_lattice_scale H v c : in_lattice H v -> in_lattice H (vscale c v).
Proof. intros [k ->]. exists (vscale c k). destruct H as [[[[? ?] ?] [[? ?] ?]] [[? ?] ?]], k as [[? ?] ?]. cbn [mvec vdot vscale]. f_equal; [f_equal|]; ring. Qed.
Lemma visual_pos : (0 <= visual_eps < 1)%Q. Proof. split; reflexivity || discriminate. Qed.
Lemma big_volume D plv V H : 0 < D -> 1 <= mdet H -> mat_eq (rows_q D plv) V -> (visual_eps < Qabs.Qabs (qdet V))%Q ->
  (inject_Z (Z.abs (mdet (transpose (mmul plv H)))) <= visual_eps * inject_Z (D * D * D))%Q -> False.
Proof.
  intros HD Hd1 EV HV Hs. pose proof (qdet_morph _ _ EV) as EdV.
      rewrite mdet_trans3, det_mul3, Z.abs_mul, (Z.abs_eq (mdet H)) in Hs by lia.
      assert (inject_Z (Z.abs (mdet plv)) == Qabs.Qabs (qdet V) * inject_Z (D * D * D))%Q as Ea.
      { rewrite inject_abs, (qdet_over D plv HD), EdV, Qabs.Qabs_Qmult, (Qabs.Qabs_pos (inject_Z (D * D * D))); [reflexivity|]. change 0%Q with (inject_Z 0). rewrite <- Zle_Qle. nia. }
      assert (0 < inject_Z (D * D * D))%Q as HD3 by (change 0%Q with (inject_Z 0); rewrite <- Zlt_Qlt; nia).
      assert (inject_Z (Z.abs (mdet plv)) <= inject_Z (Z.abs (mdet plv) * mdet H))%Q as Hle by (rewrite <- Zle_Qle; nia).
      assert (visual_eps * inject_Z (D * D * D) < Qabs.Qabs (qdet V) * inject_Z (D * D * D))%Q as Hlt by (apply Qmult_lt_compat_r; auto). lra.
Qed.
(** The vectors, as three rows of numbers, and one atom. *)
Definition one_atom (par : lattice) (V : qmat) (b : qvec) : Prop := l_vecs par = map comps [fst (fst V); snd (fst V); snd V] /\ l_bas par = [comps b].

(** Whatever limits of the loops give every column its full length (C35): for one atom per cell, what is drawn is right for the lattice whose vectors
    are the columns of the matrix in lattice.in, unless the reduction gives up. *)
Theorem C77_columns_partial : forall lim shapes par V b h, one_atom par V b -> 1 <= l_nspecies par -> (visual_eps < Qabs.Qabs (qdet V))%Q ->
  is_hnf h -> mdet (full_HNF h) <= 10 ^ 5 -> full (lim (full_HNF h)) (full_HNF h) ->
  exists f0, forall fuel, (f0 <= fuel)%nat -> figure_of fuel lim shapes par h = Err SystemExit \/
    exists fig, figure_of fuel lim shapes par h = Ok fig /\ right_picture (qtrans V) b (full_HNF h) shapes fig.
Proof.
  intros lim shapes par V b h [E1 E2] Hk HV Hhnf Hdet Hf. set (H := full_HNF h) in *.
  assert (hnf_form H /\ (length h = 6)%nat) as [Hh Hl6].
  { destruct Hhnf as [a [b0 [c [d [e [f [-> Hc]]]]]]]. split; [|reflexivity]. exists a, b0, c, d, e, f. split; [reflexivity|tauto]. }
  assert (1 <= mdet H) as Hd1. { destruct Hh as [a [b0 [c0 [d [e [f [-> [Ha [Hb [Hd He]]]]]]]]]]. assert (0 < a * c0) by nia. assert (0 < a * c0 * f) by nia. mat_unfold. nia. }
  destruct (snf_facts H (conj Hd1 Hdet)) as [M [L [B [Es [HL [HB [HS [HP [_ Hvol]]]]]]]]].
  destruct (lattice_numbers par V b E1 E2) as [HD [plv [bv [Ep [Eb [EV Ebv]]]]]]. set (D := common (lowest (l_vecs par) ++ lowest (l_bas par))) in *.
  destruct (cells_reps (lim H) H Hh (conj Hd1 Hdet) Hf) as [[_ [Z2 Z3]] Hlen]. set (zs := MapModel.cells (lim H) (mget H 0 0)) in *.
  assert (points (lim H) (mget H 0 0) 1 = map (pair 0%nat) zs) as Epts by (unfold points; cbn [seq flat_map]; apply app_nil_r).
  set (gs := map (g_index L (diag_of M)) (map (pair 0%nat) zs)).
  assert (real_space (lim H) (mdet H) 1 H L (diag_of M) = Ok (map (pair 0%nat) zs, gs)) as Er.
  { unfold real_space. rewrite Epts, map_length. replace (Z.of_nat (length zs) =? mdet H * Z.of_nat 1) with true by (symmetry; apply Z.eqb_eq; lia). reflexivity. }
  assert (forall g, In g gs -> 0 <= g < Z.of_nat (Z.to_nat (mdet H))) as Hg.
  { intros g Hi. apply in_map_iff in Hi as [p [<- Hp]].
    destruct (point_site 1 [(0, 0, 0)] H L B (diag_of M) HS HP Hvol (lim H) p) as [_ Hr]; [|cbn [length] in Hr; rewrite Hvol in Hr; lia].
    cbn [length]. rewrite Epts. exact Hp. }
  destruct (occupants_zero (l_nspecies par) (Z.to_nat (mdet H)) gs Hk Hg) as [oc Eo].
  assert (forall fuel, figure_of fuel lim shapes par h =
    do OUT <- minkowski_reduce visual_eps D (transpose (mmul plv H));
    do direct <- cartesian2direct fuel (rows_q D OUT) (map (fun z => over_q D (vadd (mvec plv z) bv)) zs) visual_eps;
    Ok {| f_edges := if shapes then cell_edges (rows_q D OUT) else []; f_dots := map (fun p => qvecm p (rows_q D OUT)) direct |}) as EF.
  { intros fuel. unfold figure_of. rewrite Hl6. cbn [Nat.ltb Nat.leb]. fold H. rewrite Es. cbn [rbind]. fold D. rewrite Ep. cbn [rbind]. rewrite Eb. cbn [rbind length].
    assert (mget M 0 0 * mget M 1 1 * mget M 2 2 = mdet H) as -> by exact Hvol. change (mget M 0 0, mget M 1 1, mget M 2 2) with (diag_of M). rewrite Er. cbn [rbind]. rewrite Eo. cbn [rbind].
    destruct (minkowski_reduce visual_eps D (transpose (mmul plv H))) as [OUT|]; [|reflexivity]. cbn [rbind]. rewrite map_map. reflexivity. }
  assert (qdet (rows_q D plv) == qdet V)%Q as EdV by (apply qdet_morph; exact EV).
  assert (~ qdet V == 0)%Q as HV0 by (intros E; rewrite E in HV; compute in HV; discriminate).
  destruct (minkowski_reduce visual_eps D (transpose (mmul plv H))) as [OUT|x] eqn:Em.
  2:{ exists 0%nat. intros fuel _. left. rewrite EF. cbn [rbind]. destruct (C45_errors _ _ _ _ visual_pos HD Em) as [[_ Hs]| ->]; [exfalso|reflexivity].
      eapply big_volume; eauto. }
  pose proof (C45_supercell _ _ _ _ visual_pos HD Em) as Hsame. destruct (C45_basis_lattice _ _ _ _ visual_pos HD Em) as [_ Hdo].
  pose proof (qdet_rows D OUT HD Hdo) as HU. set (U := rows_q D OUT) in *.
  destruct (C39_cartesian2direct U (map (fun z => over_q D (vadd (mvec plv z) bv)) zs) visual_eps) as [f0 Hc]; [intros E; rewrite E in HU; discriminate HU|].
  exists f0. intros fuel Hfu. destruct (Hc fuel Hfu) as [direct [Ed HF]]. right. rewrite EF. cbn [rbind]. fold U. rewrite Ed. cbn [rbind]. eexists. split; [reflexivity|].
  assert (forall k, exists z, in_lattice H z /\ qeq (lattice_point U k) (lattice_point (qtrans V) z)) as HUW.
  { intros k. assert (in_lattice (mmul plv H) (mvec (transpose OUT) k)) as [j Ej] by (apply Hsame; exists k; auto). exists (mvec H j). split; [exists j; auto|].
    eapply qeq_trans; [|eapply qeq_trans; [apply (over_q_mvec D plv (mvec H j) HD)|apply point_morph, mat_eq_trans_q; exact EV]].
    rewrite <- mvec_mmul, <- Ej. apply qeq_sym. eapply qeq_trans; [apply (over_q_mvec D (transpose OUT) k HD)|]. unfold U. destruct OUT as [[[[? ?] ?] [[? ?] ?]] [[? ?] ?]]. apply qeq_refl. }
  assert (forall z, in_lattice H z -> exists k, qeq (lattice_point (qtrans V) z) (lattice_point U k)) as HWU.
  { intros z [j ->]. assert (in_lattice (transpose OUT) (mvec (mmul plv H) j)) as [k Ek] by (apply Hsame; exists j; auto). exists k.
    eapply qeq_trans; [apply qeq_sym; eapply qeq_trans; [apply (over_q_mvec D plv (mvec H j) HD)|apply point_morph, mat_eq_trans_q; exact EV]|].
    rewrite <- mvec_mmul, Ek. eapply qeq_trans; [apply (over_q_mvec D (transpose OUT) k HD)|]. unfold U. destruct OUT as [[[[? ?] ?] [[? ?] ?]] [[? ?] ?]]. apply qeq_refl. }
  set (W := qtrans V) in *. set (dots := map (fun p => qvecm p U) direct).
  assert (Forall2 (fun z x => (exists t, qeq x (qvecm t U) /\ all3 (fun c => - visual_eps <= c /\ c < 1 - visual_eps)%Q t) /\ exists j, in_lattice H j /\ qeq x (qadd b (lattice_point W (vadd z j)))) zs dots) as HF2.
  { unfold dots. clear - HF HUW HD EV Ebv. revert HF. generalize zs as zz. generalize direct as dd. intros dd zz. revert dd. induction zz as [|z l IH]; intros [|d ds] HF; cbn [map] in *; [constructor|inversion HF|inversion HF|]. inversion HF as [|? ? ? ? HX HF']. constructor; [|apply IH; exact HF']. clear - HX HUW HD EV Ebv. destruct HX as [H1 [k H2]].
    split; [exists d; split; [apply qeq_refl|exact H1]|]. destruct (HUW k) as [j [Hj Ej]]. exists j. split; auto.
    eapply qeq_trans; [exact H2|]. eapply qeq_trans; [apply qadd_morph; [|exact Ej]|].
    - eapply qeq_trans; [apply over_q_add; auto|]. apply qadd_morph; [eapply qeq_trans; [apply over_q_mvec; auto|apply point_morph, mat_eq_trans_q; exact EV]|exact Ebv].
    - fold W. eapply qeq_trans; [|apply qadd_morph; [apply qeq_refl|apply qeq_sym, point_add]]. generalize (lattice_point W z) (lattice_point W j). intros [[? ?] ?] [[? ?] ?]. destruct b as [[? ?] ?]. cbn. repeat split; ring. }
  assert (~ qdet W == 0)%Q as HW by (unfold W; rewrite qdet_trans; auto).
  exists U. split; auto. split; [|split; [|split; [|split; [|]]]].
  - intros w. split.
    + intros [k Hw]. destruct (HUW k) as [z [Hz Ez]]. exists z. split; auto. eapply qeq_trans; eauto.
    + intros [z [Hz Hw]]. destruct (HWU z Hz) as [k Ek]. exists k. eapply qeq_trans; eauto.
  - cbn [f_edges]. destruct shapes; [apply edges_ok|reflexivity].
  - cbn [f_dots]. fold dots. rewrite <- (ListFacts.Forall2_length _ _ _ HF2). exact Hlen.
  - cbn [f_dots]. fold dots. split; [|split].
    + intros x Hx. destruct (LatTop.Forall2_in_r _ _ _ _ HF2 Hx) as [z [_ [_ [j [_ Ex]]]]]. eauto.
    + intros x [z Ex]. destruct (Z2 z Logic.I) as [z' [Hz' [k [Hkk ->]]]]. destruct (LatTop.Forall2_in_l _ _ _ _ HF2 Hz') as [y [Hy [_ [j [Hj Ey]]]]].
      exists y. split; auto. exists (vadd k j). split; [apply in_lattice_add; auto|].
      eapply qeq_trans; [exact Ey|]. eapply qeq_trans; [|apply qadd_morph; [apply qeq_sym; exact Ex|apply qeq_refl]]. eapply qeq_trans; [|apply qeq_sym, qadd_assoc]. apply qadd_morph; [apply qeq_refl|].
      eapply qeq_trans; [apply point_add|]. eapply qeq_trans; [apply qadd_morph; [apply point_add|apply qeq_refl]|]. eapply qeq_trans; [apply qadd_assoc|]. apply qadd_morph; [apply qeq_refl|]. apply qeq_sym, point_add.
    + eapply Forall2_FOP; [exact HF2| |exact Z3]. cbv beta. intros z x z' x' _ _ [_ [j [Hj Ex]]] [_ [j' [Hj' Ex']]] Hn [k [Hkk Ek]]. apply Hn.
      assert (qeq (lattice_point W (vadd z' j')) (lattice_point W (vadd (vadd z j) k))) as EE.
      { apply (qadd_cancel b). eapply qeq_trans; [apply qeq_sym; exact Ex'|]. eapply qeq_trans; [exact Ek|]. eapply qeq_trans; [apply qadd_morph; [exact Ex|apply qeq_refl]|]. eapply qeq_trans; [apply qadd_assoc|].
        apply qadd_morph; [apply qeq_refl|apply qeq_sym, point_add]. }
      apply point_inj in EE; auto. exists (vadd (vadd j k) (vscale (-1) j')). split; [apply in_lattice_add; [apply in_lattice_add; auto|apply in_lattice_scale; auto]|].
      destruct z as [[? ?] ?], z' as [[? ?] ?], j as [[? ?] ?], j' as [[? ?] ?], k as [[? ?] ?]. cbn [vadd vscale] in *. injection EE as A1 A2 A3. f_equal; [f_equal|]; lia.
  - cbn [f_dots]. fold dots. intros x Hx. destruct (LatTop.Forall2_in_r _ _ _ _ HF2 Hx) as [z [_ [Ht _]]]. exact Ht.
Qed.

(** With the limits as the code computes them, up to 12 cells. *)
Lemma figure_limits fuel shapes par h : is_hnf h -> mdet (full_HNF h) <= 12 -> figure_of fuel double_limits shapes par h = figure_of fuel exact_limits shapes par h.
Proof.
  intros Hh Hd. assert (hnf_form (full_HNF h)) as Hf by (destruct Hh as [a [b0 [c [d [e [f [-> Hc]]]]]]]; exists a, b0, c, d, e, f; split; [reflexivity|tauto]).
  unfold figure_of. destruct (length h <? 6)%nat; auto. destruct (SmithNormalForm (full_HNF h)) as [[[M L] R]|]; auto. cbn [rbind].
  destruct (mat_over _ _); auto. cbn [rbind]. destruct (rmap _ (lowest (l_bas par))); auto. cbn [rbind]. destruct (minkowski_reduce _ _ _); auto. cbn [rbind].
  unfold real_space, points. rewrite doubles_exact by auto. reflexivity.
Qed.
Lemma figure_loses fuel shapes par V b h : one_atom par V b -> (visual_eps < Qabs.Qabs (qdet V))%Q -> is_hnf h -> mdet (full_HNF h) <= 10 ^ 5 -> Z.of_nat (length (MapModel.cells (exact_limits (full_HNF h)) (mget (full_HNF h) 0 0))) <> mdet (full_HNF h) -> figure_of fuel exact_limits shapes par h = Err SystemExit.
Proof.
  intros [E1 E2] HV Hhnf Hdet Hlose. set (H := full_HNF h) in *.
  assert (hnf_form H /\ (length h = 6)%nat) as [Hh Hl6].
  { destruct Hhnf as [a [b0 [c [d [e [f [-> Hc]]]]]]]. split; [|reflexivity]. exists a, b0, c, d, e, f. split; [reflexivity|tauto]. }
  assert (1 <= mdet H) as Hd1. { destruct Hh as [a [b0 [c0 [d [e [f [-> [Ha [Hb [Hd He]]]]]]]]]]. assert (0 < a * c0) by nia. assert (0 < a * c0 * f) by nia. mat_unfold. nia. }
  destruct (snf_facts H (conj Hd1 Hdet)) as [M [L [B [Es [HL [HB [HS [HP [_ Hvol]]]]]]]]].
  destruct (lattice_numbers par V b E1 E2) as [HD [plv [bv [Ep [Eb [EV Ebv]]]]]]. set (D := common (lowest (l_vecs par) ++ lowest (l_bas par))) in *.
  assert (real_space (exact_limits H) (mdet H) 1 H L (diag_of M) = Err SystemExit) as Er.
  { unfold real_space. assert (length (points (exact_limits H) (mget H 0 0) 1) = length (MapModel.cells (exact_limits H) (mget H 0 0))) as -> by (unfold points; cbn [seq flat_map]; rewrite app_nil_r, map_length; auto).
    destruct (Z.eqb_spec (Z.of_nat (length (MapModel.cells (exact_limits H) (mget H 0 0)))) (mdet H * Z.of_nat 1)) as [E|]; [lia|reflexivity]. }
  unfold figure_of. rewrite Hl6. cbn [Nat.ltb Nat.leb]. fold H. rewrite Es. cbn [rbind]. fold D. rewrite Ep. cbn [rbind]. rewrite Eb. cbn [rbind length].
  assert (mget M 0 0 * mget M 1 1 * mget M 2 2 = mdet H) as -> by exact Hvol. change (mget M 0 0, mget M 1 1, mget M 2 2) with (diag_of M). rewrite Er.
  destruct (minkowski_reduce visual_eps D (transpose (mmul plv H))) as [OUT|x] eqn:Em; [reflexivity|]. cbn [rbind].
  destruct (C45_errors _ _ _ _ visual_pos HD Em) as [[_ Hs]| ->]; [exfalso|reflexivity]. eapply big_volume; eauto.
Qed.
Definition symmetric (V : qmat) : Prop := mat_eq (qtrans V) V.
(** A symmetric matrix in lattice.in (the primitive cubic lattice, and the usual vectors of the centred ones): the picture is right. *)
Theorem C77_symmetric_partial : forall shapes par V b h, one_atom par V b -> symmetric V -> 1 <= l_nspecies par -> (visual_eps < Qabs.Qabs (qdet V))%Q -> is_hnf h -> mdet (full_HNF h) <= 12 ->
  exists f0, forall fuel, (f0 <= fuel)%nat -> figure_of fuel double_limits shapes par h = Err SystemExit \/
    exists fig, figure_of fuel double_limits shapes par h = Ok fig /\ right_picture V b (full_HNF h) shapes fig.
Proof.
  intros shapes par V b h H1 Hsy Hk HV Hh Hd. assert (hnf_form (full_HNF h)) as Hf by (destruct Hh as [a [b0 [c [d [e [f [-> Hc]]]]]]]; exists a, b0, c, d, e, f; split; [reflexivity|tauto]).
  destruct (Z.eq_dec (Z.of_nat (length (MapModel.cells (exact_limits (full_HNF h)) (mget (full_HNF h) 0 0)))) (mdet (full_HNF h))) as [Hfull|Hlose]; [apply exact_succeeds in Hfull; auto|].
  - destruct (C77_columns_partial exact_limits shapes par V b h H1 Hk HV Hh ltac:(lia) (proj2 (exact_full _ Hf) Hfull)) as [f0 H]. exists f0. intros fuel Hfu. rewrite figure_limits by auto.
    destruct (H fuel Hfu) as [E|[fig [E Hr]]]; [auto|right]. exists fig. split; auto. eapply right_morph; eauto.
  - exists 0%nat. intros fuel _. left. rewrite figure_limits by auto. eapply figure_loses; eauto. lia.
Qed.

(** ** The command *)
Lemma mat_eq_tr A B C : mat_eq A B -> mat_eq B C -> mat_eq A C.
Proof. destruct A as [[? ?] ?], B as [[? ?] ?], C as [[? ?] ?]. cbn [mat_eq]. intros [A1 [A2 A3]] [B1 [B2 B3]]. repeat split; eapply qeq_trans; eauto. Qed.
Lemma right_morph_b V b b' H shapes fig : qeq b b' -> right_picture V b H shapes fig -> right_picture V b' H shapes fig.
Proof.
  intros E [U [A1 [A2 [A3 [A4 [[B1 [B2 B3]] A5]]]]]]. exists U. split; auto. split; auto. split; auto. split; auto. split; [|auto]. split; [|split; [|auto]].
  - intros x Hx. destruct (B1 x Hx) as [z Hz]. exists z. eapply qeq_trans; [exact Hz|]. apply qadd_morph; [exact E|apply qeq_refl].
  - intros x [z Hz]. apply B2. exists z. eapply qeq_trans; [exact Hz|]. apply qadd_morph; [apply qeq_sym; exact E|apply qeq_refl].
Qed.
Lemma read_one par V b : same_numbers (l_vecs par) (map comps [fst (fst V); snd (fst V); snd V]) -> same_numbers (l_bas par) [comps b] ->
  exists V' b', one_atom par V' b' /\ mat_eq V' V /\ qeq b' b.
Proof.
  assert (forall l v, Forall2 Qeq l (comps v) -> exists v', l = comps v' /\ qeq v' v) as K.
  { intros l [[a b0] c] F. inversion F as [|x1 ? l1 ? E1 F1]; subst. inversion F1 as [|x2 ? l2 ? E2 F2]; subst. inversion F2 as [|x3 ? l3 ? E3 F3]; subst. inversion F3; subst. exists (x1, x2, x3). split; [reflexivity|]. repeat split; auto. }
  destruct V as [[r s] t]. cbn [fst snd map]. unfold same_numbers, one_atom. generalize (l_vecs par) (l_bas par). intros vs bs Fv Fb.
  inversion Fv as [|x1 ? l1 ? E1 F1]; subst. inversion F1 as [|x2 ? l2 ? E2 F2]; subst. inversion F2 as [|x3 ? l3 ? E3 F3]; subst. inversion F3; subst. inversion Fb as [|y ? m ? E4 F4]; subst. inversion F4; subst.
  destruct (K _ _ E1) as [v1 [-> Q1]]. destruct (K _ _ E2) as [v2 [-> Q2]]. destruct (K _ _ E3) as [v3 [-> Q3]]. destruct (K _ _ E4) as [b' [-> Q4]].
  exists (v1, v2, v3), b'. split; [split; reflexivity|]. split; [repeat split; auto|exact Q4].
Qed.
(** The lines of enum.in: comments (a '#' anywhere), or six entries of a form, whatever else, and one word more. *)
Inductive asks : list string -> list (list Z) -> Prop :=
| asks_end : asks [] []
| asks_comment l ls hs : has_hash l = true -> asks ls hs -> asks (l :: ls) hs
| asks_line l ls h rest w hs : has_hash l = false -> is_hnf h -> TextModel.words l = (map str (h ++ rest) ++ [w])%list -> asks ls hs -> asks (l :: ls) (h :: hs).
Lemma line_read l h rest w : is_hnf h -> TextModel.words l = (map str (h ++ rest) ++ [w])%list -> line_numbers l = Ok h.
Proof.
  intros [a [b [c [d [e [f [-> _]]]]]]] Hw. unfold line_numbers. rewrite Hw, removelast_last.
  assert (forall zs, rmap int_of (map str zs) = Ok zs) as -> by (induction zs as [|z zs IH]; [reflexivity|]; cbn [map rmap]; rewrite int_str; cbn [rbind]; rewrite IH; reflexivity). reflexivity.
Qed.
(** The pictures come in the order of the lines, each under the name made of its six entries, and all of them are right; the
    command ends well, or stops, at a form for which the loops lose a cell (C35) or the reduction gives up. *)
Definition pictures_of (V : qmat) (b : qvec) (shapes : bool) (hs : list (list Z)) (out : list (string * figure) * res unit) : Prop :=
  (Forall2 (fun h p => fst p = figure_name h /\ right_picture V b (full_HNF h) shapes (snd p)) (firstn (length (fst out)) hs) (fst out)) /\
  (snd out = Ok tt /\ length (fst out) = length hs \/ snd out = Err SystemExit /\ (length (fst out) < length hs)%nat).
Lemma lines_drawn shapes par V b : (forall h, is_hnf h -> mdet (full_HNF h) <= 12 -> exists f0, forall fuel, (f0 <= fuel)%nat -> figure_of fuel double_limits shapes par h = Err SystemExit \/
    exists fig, figure_of fuel double_limits shapes par h = Ok fig /\ right_picture V b (full_HNF h) shapes fig) ->
  forall ls hs, asks ls hs -> Forall (fun h => mdet (full_HNF h) <= 12) hs -> exists f0, forall fuel, (f0 <= fuel)%nat -> pictures_of V b shapes hs (plot_lines fuel double_limits shapes par ls).
Proof.
  intros K ls hs Ha. induction Ha as [|l ls hs Hl Ha IH|l ls h rest w hs Hl Hh Hw Ha IH]; intros Hs.
  - exists 0%nat. intros fuel _. split; [constructor|left; auto].
  - destruct (IH Hs) as [f0 H]. exists f0. intros fuel Hf. cbn [plot_lines]. rewrite Hl. auto.
  - inversion Hs as [|? ? Hd Hs']; subst. destruct (IH Hs') as [f0 H]. destruct (K h Hh Hd) as [f1 H1]. exists (f0 + f1)%nat. intros fuel Hf. cbn [plot_lines]. rewrite Hl, (line_read _ _ _ _ Hh Hw). cbn [rbind].
    destruct (H1 fuel ltac:(lia)) as [E|[fig [E Hr]]]; rewrite E; cbn [rbind].
    + split; [constructor|]. right. split; [reflexivity|]. cbn [fst length]. lia.
    + specialize (H fuel ltac:(lia)). destruct (plot_lines fuel double_limits shapes par ls) as [ps r]. destruct H as [A B]. cbn [fst snd] in *. split.
      * cbn [fst length firstn]. constructor; [split; [reflexivity|exact Hr]|exact A].
      * cbn [fst snd length]. destruct B as [[-> B]|[-> B]]; [left; split; [reflexivity|lia]|right; split; [reflexivity|lia]].
Qed.
(** [enumeration.py -visualize -input enum.in], with a symmetric matrix in lattice.in, one atom per cell, up to 12 cells. *)
Theorem C77_command_partial : forall shapes lattice_file enum_file d text asked sizes bulk V k b restricted arrows concs hs,
  dfile d lattice_file = Some text -> file_says text sizes bulk (map comps [fst (fst V); snd (fst V); snd V]) k [comps b] restricted arrows concs ->
  symmetric V -> 1 <= k -> (visual_eps < Qabs.Qabs (qdet V))%Q ->
  dfile d enum_file = Some (text_lines asked) -> Forall no_newline asked -> asks asked hs -> Forall (fun h => mdet (full_HNF h) <= 12) hs ->
  exists f0, forall fuel, (f0 <= fuel)%nat -> pictures_of V b shapes hs (visualize fuel double_limits shapes lattice_file (Some enum_file) d).
Proof.
  intros shapes lattice_file enum_file d text asked sizes bulk V k b restricted arrows concs hs Ht Hs Hsy Hk HV He Hn Ha Hd.
  destruct (C59_read _ _ _ _ _ _ _ _ _ Hs) as [par [Hr [_ [_ [Nv [Nk [Nb _]]]]]]]. destruct (read_one par V b Nv Nb) as [V' [b' [H1 [EV Eb]]]].
  destruct (lines_drawn shapes par V b) with (ls := asked) (hs := hs) as [f0 H]; auto.
  - intros h Hh Hdh. destruct (C77_symmetric_partial shapes par V' b' h H1) as [f0 H]; auto.
    + unfold symmetric in *. pose proof (mat_eq_trans_q _ _ EV) as E2. clear - EV E2 Hsy. pose proof (mat_eq_sym _ _ EV) as E3. eapply mat_eq_tr; [exact E2|]. eapply mat_eq_tr; [exact Hsy|exact E3].
    + lia.
    + rewrite (qdet_morph _ _ EV). exact HV.
    + exists f0. intros fuel Hf. destruct (H fuel Hf) as [E|[fig [E R]]]; [auto|right]. exists fig. split; auto. eapply right_morph_b; [exact Eb|]. eapply right_morph; [exact EV|exact R].
  - exists f0. intros fuel Hf. unfold visualize. rewrite Ht, Hr, He. unfold text_lines. rewrite lines_text by auto. auto.
Qed.

(** ** What fails *)
Lemma occupants_read k s gs r : occupants k s gs = Ok r -> forall g, In g gs -> exists i, label_at s g = Ok i.
Proof.
  unfold occupants. generalize (@nil Z, repeat 0 (Z.to_nat k)). revert r. induction gs as [|g0 gs IH]; intros r [sp x] E g Hg; [destruct Hg|].
  cbn [rfold] in E. destruct (label_at s g0) as [i|] eqn:El; [|discriminate]. cbn [rbind] in E. destruct (count_up x i) as [x'|]; [|discriminate]. cbn [rbind] in E.
  destruct Hg as [<-|Hg]; [eauto|]. eapply IH; eauto.
Qed.
Lemma rmap_len {A B} (f : A -> res B) l r : rmap f l = Ok r -> length r = length l.
Proof.
  revert r. induction l as [|x l IH]; intros r E; cbn [rmap] in E; [injection E as <-; auto|].
  destruct (f x); [|discriminate]. cbn [rbind] in E. destruct (rmap f l); [|discriminate]. cbn [rbind] in E. injection E as <-. cbn [length]. f_equal. apply IH. auto.
Qed.
(** With two or more atoms per cell no picture is ever drawn: the labeling has one character per cell. *)
Theorem C77_basis_refuted : forall fuel lim shapes par h, (2 <= length (l_bas par))%nat -> is_hnf h -> mdet (full_HNF h) <= 10 ^ 5 -> forall fig, figure_of fuel lim shapes par h <> Ok fig.
Proof.
  intros fuel lim shapes par h Hb Hhnf Hdet fig E. unfold figure_of in E.
  destruct (length h <? 3)%nat; [discriminate|]. destruct (length h <? 6)%nat; [discriminate|]. set (H := full_HNF h) in *.
  assert (hnf_form H) as Hh by (destruct Hhnf as [a [b0 [c [d [e [f [-> Hc]]]]]]]; exists a, b0, c, d, e, f; split; [reflexivity|tauto]).
  assert (1 <= mdet H) as Hd1. { destruct Hh as [a [b0 [c0 [d [e [f [-> [Ha [Hb' [Hd He]]]]]]]]]]. assert (0 < a * c0) by nia. assert (0 < a * c0 * f) by nia. mat_unfold. nia. }
  destruct (snf_facts H (conj Hd1 Hdet)) as [M [L [B [Es [HL [HB [HS [HP [_ Hvol]]]]]]]]]. rewrite Es in E. cbn [rbind] in E.
  destruct (mat_over _ _) as [plv|]; [|discriminate]. cbn [rbind] in E.
  destruct (rmap _ (lowest (l_bas par))) as [dvecs|] eqn:Ed; [|discriminate]. cbn [rbind] in E.
  assert (length dvecs = length (l_bas par)) as Hn. { apply rmap_len in Ed. unfold lowest in Ed. rewrite ?map_length in Ed. unfold vec in *. lia. }
  destruct (minkowski_reduce _ _ _); [|discriminate]. cbn [rbind] in E.
  assert (mget M 0 0 * mget M 1 1 * mget M 2 2 = mdet H) as En by exact Hvol. rewrite En in E.
  destruct (real_space _ _ _ _ _ _) as [[pts gs]|] eqn:Er; [|discriminate]. cbn [rbind] in E. destruct (occupants _ _ gs) as [oc|] eqn:Eo; [|discriminate].
  unfold real_space in Er. destruct (Z.eqb_spec (Z.of_nat (length (points (lim H) (mget H 0 0) (length dvecs)))) (mdet H * Z.of_nat (length dvecs))) as [El|]; [|discriminate]. injection Er as <- <-.
  destruct (MapModel.cells (lim H) (mget H 0 0)) as [|z zs] eqn:Ec.
  { unfold points in El. rewrite Ec in El. replace (flat_map (fun iD => map (pair iD) (@nil vec)) (seq 0 (length dvecs))) with (@nil (nat * vec)) in El by (induction (seq 0 (length dvecs)); auto). unfold vec in *. cbn [length] in El. nia. }
  assert (In (1%nat, z) (points (lim H) (mget H 0 0) (length dvecs))) as Hi.
  { unfold points. apply in_flat_map. exists 1%nat. split; [apply in_seq; unfold vec in *; lia|]. rewrite Ec. left. reflexivity. }
  apply (in_map (g_index L (mget M 0 0, mget M 1 1, mget M 2 2))) in Hi. destruct (occupants_read _ _ _ _ Eo _ Hi) as [i Ei]. rewrite zeros_beyond in Ei; [discriminate|].
  unfold diag_of, positive in HP. cbn [g_index snd fst]. destruct (mvec L z) as [[g0 g1] g2].
  pose proof (Z.mod_pos_bound g0 (mget M 0 0)). pose proof (Z.mod_pos_bound g1 (mget M 1 1)). pose proof (Z.mod_pos_bound g2 (mget M 2 2)).
  rewrite Z2Nat.id by lia. rewrite <- En. assert (0 <= g0 mod mget M 0 0 * mget M 1 1 * mget M 2 2) by (apply Z.mul_nonneg_nonneg; [apply Z.mul_nonneg_nonneg|]; lia).
  assert (0 <= g1 mod mget M 1 1 * mget M 2 2) by (apply Z.mul_nonneg_nonneg; lia). change (Z.of_nat 1) with 1. lia.
Qed.

Definition skew_lines : list string := ["1 2"; "bulk"; "1 0 0"; "1 2 0"; "0 0 1"; "2"; "1"; "0 0 0"; "F"; "F"]%string.
Definition skew_dir : dir := [("lattice.in", text_lines skew_lines); ("enum.in", text_lines ["# HNF and how many"; "2 0 1 0 0 1 3"])]%string.
Definition skew : qmat := ((1, 0, 0), (1, 2, 0), (0, 0, 1))%Q.
Definition skew_par : lattice := match read_lattice (text_lines skew_lines) with Ok p => p | Err _ => {| l_bulk := true; l_sizes := []; l_vecs := []; l_nspecies := 0; l_bas := []; l_restricted := false; l_arrows := false; l_concs := [] |} end.
Lemma skew_says : file_says (text_lines skew_lines) [1; 2] true [[1; 0; 0]; [1; 2; 0]; [0; 0; 1]]%Q 2 [[0; 0; 0]]%Q false false [].
Proof.
  assert (decimal "1" 1) as N1 by digit_word [1] (@nil Z). assert (decimal "2" 2) as N2 by digit_word [2] (@nil Z).
  exists skew_lines, skew_lines, ["1 2"; "bulk"; "1 0 0"; "1 2 0"; "0 0 1"; "2"; "1"; "0 0 0"]%string, ["F"; "F"]%string.
  split; [repeat constructor; auto|]. split; [reflexivity|]. split; [unfold skew_lines; repeat first [apply commented_end | apply commented_line]|split; [reflexivity|]]. split; [|split; [reflexivity|]; split; [reflexivity|]].
  - exists "1 2"%string, "bulk"%string, "b"%char, "ulk"%string, ["1 0 0"; "1 2 0"; "0 0 1"]%string, "2"%string, "1"%string, ["0 0 0"]%string.
    split; [reflexivity|]. split; [discriminate|]. split; [reflexivity|]. split; [plain_word|]. split; [discriminate|]. split; [tauto|]. split; [reflexivity|].
    split; [repeat (apply Forall2_cons; [split; [discriminate|repeat (apply Forall2_cons; [first [exact numeral_0|exact N1|exact N2]|]); apply Forall2_nil]|]); apply Forall2_nil|].
    split; [plain_word|]. split; [plain_word|].
    repeat (apply Forall2_cons; [split; [discriminate|repeat (apply Forall2_cons; [exact numeral_0|]); apply Forall2_nil]|]); apply Forall2_nil.
  - exists "F"%string, ["F"]%string. split; [reflexivity|]. split; [plain_word|].
    repeat (apply Forall_cons; [split; [intros Hb; cbn in Hb; intuition discriminate|intros [b [r [Hb E]]]; destruct b as [|x b]; [discriminate|]; injection E as <- _; destruct Hb; discriminate]|]); apply Forall_nil.
Qed.
(** The matrix is taken by columns: with a matrix that is not symmetric the dots are not even on the lattice. *)
Theorem C77_transposed_refuted : ~ forall lattice_file enum_file d text sizes bulk V k b restricted arrows concs ps fuel,
  dfile d lattice_file = Some text -> file_says text sizes bulk (map comps [fst (fst V); snd (fst V); snd V]) k [comps b] restricted arrows concs ->
  visualize fuel double_limits true lattice_file (Some enum_file) d = (ps, Ok tt) ->
  forall h fig, In (figure_name h, fig) ps -> right_picture V b (full_HNF h) true fig.
Proof.
  intros Hall. assert (file_says (text_lines skew_lines) [1; 2] true (map comps [fst (fst skew); snd (fst skew); snd skew]) 2 [comps (0, 0, 0)%Q] false false []) as Hs by apply skew_says.
  destruct (visualize 100 double_limits true "lattice.in" (Some "enum.in"%string) skew_dir) as [ps r] eqn:E.
  pose proof E as E'. vm_compute in E'. injection E' as Ep Er. rewrite <- Er in E. clear Er.
  assert (exists fig, In (figure_name [2; 0; 1; 0; 0; 1], fig) ps /\ In (262144 # 262144, 262144 # 262144, 0 # 262144)%Q (f_dots fig)) as [fig [Hf Hx]].
  { rewrite <- Ep. eexists. split; [left; reflexivity|]. right. left. reflexivity. }
  pose proof (Hall "lattice.in"%string "enum.in"%string skew_dir (text_lines skew_lines) _ _ skew _ _ _ _ _ ps 100%nat eq_refl Hs E _ _ Hf) as HR.
  destruct HR as [U [_ [_ [_ [_ [[H _] _]]]]]]. destruct (H _ Hx) as [[[x y] z] [_ [Hy _]]].
  unfold qdot, ivec in Hy. cbv iota beta in Hy. setoid_replace (262144 # 262144)%Q with 1%Q in Hy by reflexivity.
  assert (inject_Z 1 == inject_Z (2 * y))%Q as E2 by (rewrite inject_Z_mult; change (inject_Z 1) with 1%Q; change (inject_Z 2) with 2%Q; rewrite Hy; ring).
  unfold Qeq, inject_Z in E2. cbn [Qnum Qden] in E2.
  lia.
Qed.

(** The command of README.md (lines 119-122): without -input nothing is drawn. *)
Theorem C77_readme_refuted : forall fuel lim shapes lattice_file d t par, dfile d lattice_file = Some t -> read_lattice t = Ok par -> visualize fuel lim shapes lattice_file None d = ([], Err TypeError).
Proof. intros fuel lim shapes lattice_file d t par Hd Hr. unfold visualize. rewrite Hd, Hr. reflexivity. Qed.

(** Two forms may share the name of their file: the second picture replaces the first. *)
Theorem C77_names_refuted : ~ forall h h', is_hnf h -> is_hnf h' -> figure_name h = figure_name h' -> h = h'.
Proof.
  intros H. specialize (H [1; 0; 11; 0; 1; 2] [1; 0; 1; 1; 0; 12]). discriminate H; [| |reflexivity].
  - exists 1, 0, 11, 0, 1, 2. split; [reflexivity|lia].
  - exists 1, 0, 1, 1, 0, 12. split; [reflexivity|lia].
Qed.

(** ** A case *)
Definition face : qmat := ((1 # 2, 1 # 2, 0), (1 # 2, 0, 1 # 2), (0, 1 # 2, 1 # 2))%Q.
Definition face_dir : dir := [("lattice.in", text_lines fcc_lines); ("enum.in", text_lines ["# HNF and how many"; "1 0 1 0 1 2 3"; " 1 0 2 0 0 2 1"])]%string.
Lemma face_asks : asks ["# HNF and how many"; "1 0 1 0 1 2 3"; " 1 0 2 0 0 2 1"]%string [[1; 0; 1; 0; 1; 2]; [1; 0; 2; 0; 0; 2]].
Proof.
  apply asks_comment; [reflexivity|]. apply (asks_line _ _ _ [] "3"); [reflexivity|exists 1, 0, 1, 0, 1, 2; split; [reflexivity|lia]|reflexivity|]. apply (asks_line _ _ _ [] "1"); [reflexivity|exists 1, 0, 2, 0, 0, 2; split; [reflexivity|lia]|reflexivity|]. constructor.
Qed.
Example C77_command_example : exists f0, forall fuel, (f0 <= fuel)%nat -> pictures_of face (0, 0, 0)%Q true [[1; 0; 1; 0; 1; 2]; [1; 0; 2; 0; 0; 2]] (visualize fuel double_limits true "lattice.in" (Some "enum.in"%string) face_dir).
Proof.
  eapply C77_command_partial; [reflexivity|exact fcc_says|repeat split|lia|reflexivity|reflexivity|repeat constructor|exact face_asks|]. repeat constructor; vm_compute; discriminate.
Qed.
(** Both are drawn. *)
Example C77_drawn : exists f g, visualize 100 double_limits true "lattice.in" (Some "enum.in"%string) face_dir = ([("101012.pdf"%string, f); ("102002.pdf"%string, g)], Ok tt) /\
  length (f_edges f) = 12%nat /\ length (f_dots f) = 2%nat /\ length (f_dots g) = 4%nat.
Proof. eexists. eexists. split; [vm_compute; reflexivity|]. repeat split. Qed.
Print Assumptions C77_columns_partial.
Print Assumptions C77_symmetric_partial.
Print Assumptions C77_command_partial.
Print Assumptions C77_basis_refuted.
Print Assumptions C77_transposed_refuted.
Print Assumptions C77_readme_refuted.
Print Assumptions C77_names_refuted.
Example C77_readme_example : visualize 100 double_limits true "lattice.in" None face_dir = ([], Err TypeError).
Proof. vm_compute. reflexivity. Qed.
(** hcp-like: two atoms in a cubic cell. *)
Example C77_basis_example : visualize 100 double_limits true "lattice.in" (Some "enum.in"%string)
  [("lattice.in", text_lines ["1 2"; "bulk"; "1 0 0"; "0 1 0"; "0 0 1"; "2"; "2"; "0 0 0"; "0.5 0.5 0.5"; "F"; "F"]); ("enum.in", text_lines ["1 0 1 0 0 2 3"])]%string = ([], Err IndexError).
Proof. vm_compute. reflexivity. Qed.
