(** The places of the atoms (C59): what the steps take for the coordinates of the basis. *)
From Coq Require Import QArith.
From Verif Require Import TextModel PyBase ListFacts Mat3 FilesModel EnumOutModel PointGroupModel RunModel LatticeInModel LatticeInSpec LatticeInProofs PropertiesLatticeIn RunText.
Local Open Scope Z_scope.

(** The point with coordinates u/D along the vectors is q. *)
Definition at_coordinates (vecs : list (list Q)) (D : Z) (u : vec) (q : list Q) : Prop :=
  exists a b c, vecs = [a; b; c] /\ length q = 3%nat /\ let '(x, y, z) := u in
  forall j, (j < 3)%nat -> (nth j q 0 * inject_Z D == inject_Z x * nth j a 0 + inject_Z y * nth j b 0 + inject_Z z * nth j c 0)%Q.

Lemma over_value d q : 0 < d -> (Zpos (Qden q) | d) -> (inject_Z (over d q) == q * inject_Z d)%Q.
Proof.
  intros Hd [k ->]. unfold over. rewrite Z.div_mul by discriminate. unfold Qeq. cbn -[Z.mul]. rewrite !Z.mul_1_r, Pos.mul_1_r. ring.
Qed.
Definition qof3 (l : list Q) (d : Z) (v : vec) : Prop :=
  length l = 3%nat /\ let '(x, y, z) := v in (inject_Z x == nth 0 l 0 * inject_Z d /\ inject_Z y == nth 1 l 0 * inject_Z d /\ inject_Z z == nth 2 l 0 * inject_Z d)%Q.
Lemma vec_over_value d l v : 0 < d -> (forall q, In q l -> (Zpos (Qden q) | d)) -> vec_over d l = Ok v -> qof3 l d v.
Proof.
  intros Hd Hl E. destruct l as [|x [|y [|z [|]]]]; try discriminate. injection E as <-. split; [reflexivity|]. cbn [nth].
  split; [|split]; apply over_value; auto; apply Hl; cbn; auto.
Qed.
Lemma rmap_values d l vs : 0 < d -> (forall r q, In r l -> In q r -> (Zpos (Qden q) | d)) -> rmap (vec_over d) l = Ok vs -> Forall2 (fun r v => qof3 r d v) l vs.
Proof.
  intros Hd. revert vs. induction l as [|r l IH]; intros vs Hl E; cbn [rmap] in E; [injection E as <-; constructor|].
  destruct (vec_over d r) as [v|] eqn:Ev; cbn [rbind] in E; [|discriminate]. destruct (rmap (vec_over d) l) as [vs'|] eqn:Es; cbn [rbind] in E; [|discriminate]. injection E as <-.
  constructor; [apply vec_over_value; auto; intros q Hq; apply (Hl r); cbn; auto|apply IH; auto; intros r' q Hr Hq; apply (Hl r'); cbn; auto].
Qed.
Lemma nth_red l j : (nth j (map Qred l) 0 == nth j l 0)%Q.
Proof. revert j. induction l as [|x l IH]; intros [|j]; cbn [map nth]; try reflexivity; [apply Qred_correct|apply IH]. Qed.

Lemma gcd_pos d l : 0 < d -> 0 < gcd_all d l /\ (gcd_all d l | d) /\ forall x y z, In (x, y, z) l -> (gcd_all d l | x) /\ (gcd_all d l | y) /\ (gcd_all d l | z).
Proof.
  intros Hd. induction l as [|[[x y] z] l [IH1 [IH2 IH3]]]; [cbn; repeat split; [lia|apply Z.divide_refl|destruct H|destruct H|destruct H]|].
  cbn [gcd_all fold_right]. fold (gcd_all d l). set (g := gcd_all d l) in *. set (g1 := Z.gcd z g). set (g2 := Z.gcd y g1). set (g3 := Z.gcd x g2).
  assert (g1 <> 0) as E1 by (unfold g1; intros E; apply Z.gcd_eq_0_r in E; lia). assert (g2 <> 0) as E2 by (unfold g2; intros E; apply Z.gcd_eq_0_r in E; lia).
  assert (g3 <> 0) as E3 by (unfold g3; intros E; apply Z.gcd_eq_0_r in E; lia).
  assert (g3 | g2) as D3 by apply Z.gcd_divide_r. assert (g2 | g1) as D2 by apply Z.gcd_divide_r. assert (g1 | g) as D1 by apply Z.gcd_divide_r.
  assert (g3 | g1) as D4 by (eapply Z.divide_trans; eauto). assert (g3 | g) as D5 by (eapply Z.divide_trans; eauto).
  split; [pose proof (Z.gcd_nonneg x g2); unfold g3 in *; lia|]. split; [eapply Z.divide_trans; eauto|].
  intros x' y' z' [E|Hi].
  - injection E as <- <- <-. split; [apply Z.gcd_divide_l|]. split; [eapply Z.divide_trans; [exact D3|apply Z.gcd_divide_l]|eapply Z.divide_trans; [exact D4|apply Z.gcd_divide_l]].
  - destruct (IH3 _ _ _ Hi) as [A [B C]]. repeat split; eapply Z.divide_trans; eauto.
Qed.
Lemma solve_row a1 a2 a3 b D x y z (vj : Q * Q * Q) (q : Q) DL DB g : 0 < DL -> 0 < DB -> g <> 0 ->
  let '(v1, v2, v3) := vj in
  (inject_Z a1 == v1 * inject_Z DL -> inject_Z a2 == v2 * inject_Z DL -> inject_Z a3 == v3 * inject_Z DL -> inject_Z b == q * inject_Z DB ->
   forall V, (x * g * a1 + y * g * a2 + z * g * a3 = DL * V * b)%Z -> (D * g = V * DB)%Z ->
   q * inject_Z D == inject_Z x * v1 + inject_Z y * v2 + inject_Z z * v3)%Q.
Proof.
  intros HDL HDB Hg. destruct vj as [[v1 v2] v3]. intros E1 E2 E3 E4 V H1 H2.
  assert (~ inject_Z DL == 0)%Q as N1 by (change 0%Q with (inject_Z 0); rewrite inject_Z_injective; lia).
  assert (~ inject_Z g == 0)%Q as N2 by (change 0%Q with (inject_Z 0); rewrite inject_Z_injective; lia).
  apply (f_equal inject_Z) in H1, H2. rewrite !inject_Z_plus, !inject_Z_mult in H1. rewrite !inject_Z_mult in H2.
  apply (Qmult_inj_r _ _ (inject_Z DL * inject_Z g)); [intros E; apply Qmult_integral in E; tauto|].
  transitivity (inject_Z x * inject_Z g * inject_Z a1 + inject_Z y * inject_Z g * inject_Z a2 + inject_Z z * inject_Z g * inject_Z a3)%Q; [|rewrite E1, E2, E3; ring].
  rewrite H1, E4. transitivity (q * inject_Z DL * (inject_Z D * inject_Z g))%Q; [ring|]. rewrite H2. ring.
Qed.

(** Whatever lattice vectors and atoms: the steps work with the coordinates of the atoms along the lattice vectors. *)
Theorem C59_basis : forall par su, setup_of par = Ok su ->
  0 < s_D su /\ Forall2 (fun q u => at_coordinates (l_vecs par) (s_D su) u q) (l_bas par) (s_bas su).
Proof.
  intros par su E. unfold setup_of in E. set (vecs := lowest (l_vecs par)) in *. set (DL := common vecs) in *. pose proof (common_pos vecs) as HDL. fold DL in HDL.
  destruct (mat_over DL vecs) as [A|] eqn:EA; cbn [rbind] in E; [|discriminate]. destruct (point_group (1 # 10000000000) DL A) as [pg|] eqn:Epg; cbn [rbind] in E; [|discriminate].
  set (bas0 := lowest (l_bas par)) in *. set (DB := common bas0) in *. pose proof (common_pos bas0) as HDB. fold DB in HDB.
  destruct (rmap (vec_over DB) bas0) as [basis|] eqn:Eb; cbn [rbind] in E; [|discriminate].
  set (coords := map _ basis) in E. destruct (zget (l_sizes par) 0); cbn [rbind] in E; [|discriminate]. destruct (zget (l_sizes par) 1); cbn [rbind] in E; [|discriminate].
  destruct (rmap _ (l_concs par)); cbn [rbind] in E; [|discriminate]. injection E as <-. cbn [s_D s_bas].
  assert (mdet A <> 0) as Hd.
  { intros Ed. unfold point_group, get_lattice_pointGroup in Epg. rewrite Ed in Epg. discriminate. }
  set (D0 := Z.abs (mdet A) * DB) in *. assert (0 < D0) as HD0 by (unfold D0; nia). destruct (gcd_pos D0 coords HD0) as [Hg [HgD Hgc]]. set (g := gcd_all D0 coords) in *.
  split. { destruct HgD as [k Ek]. rewrite Ek, Z.div_mul by lia. nia. }
  unfold mat_over in EA. destruct (rmap (vec_over DL) vecs) as [rows|] eqn:Er; cbn [rbind] in EA; [|discriminate].
  apply rmap_values in Er; auto; [|intros r q Hr Hq; eapply divides_common; eauto]. apply rmap_values in Eb; auto; [|intros r q Hr Hq; eapply divides_common; eauto].
  destruct rows as [|r1 [|r2 [|r3 [|]]]]; try discriminate. injection EA as <-.
  pose proof (Forall2_length _ _ _ Er) as Hl. unfold vecs, lowest in Er, Hl. rewrite map_length in Hl. destruct (l_vecs par) as [|va [|vb [|vc [|vd l]]]]; try discriminate. clear Hl. cbn [map] in Er.
  inversion Er as [|? ? ? ? Q1 K1]. inversion K1 as [|? ? ? ? Q2 K2]. inversion K2 as [|? ? ? ? Q3 _]. subst. clear Er K1 K2.
  unfold bas0, lowest in Eb. remember (map Qred) as red eqn:Ered.
  assert (forall q b u, qof3 (red q) DB b -> vscale (DL * Z.sgn (mdet (r1, r2, r3))) (mvec (madj (transpose (r1, r2, r3))) b) = u -> In u coords ->
    at_coordinates [va; vb; vc] (D0 / g) (let '(x, y, z) := u in (x / g, y / g, z / g)) q) as H.
  { clear Eb. intros q b u Hq Eu Hu. exists va, vb, vc. split; auto. subst red. destruct Hq as [Lq Hq]. rewrite map_length in Lq. split; auto.
    destruct u as [[ux uy] uz]. destruct (Hgc _ _ _ Hu) as [[x ->] [[y ->] [z ->]]]. destruct HgD as [D ED]. rewrite ED, !Z.div_mul by lia.
    assert (mvec (transpose (r1, r2, r3)) (x * g, y * g, z * g) = vscale (DL * Z.abs (mdet (r1, r2, r3))) b) as Em.
    { rewrite <- Eu. assert (forall k M v, mvec M (vscale k v) = vscale k (mvec M v)) as -> by (intros; mat_ring). assert (mdet (transpose (r1, r2, r3)) = mdet (r1, r2, r3)) as Edt by mat_ring. rewrite <- mvec_mmul, madj_r, Edt, mscale_vec, mvec_id.
      assert (forall h k v, vscale h (vscale k v) = vscale (h * k) v) as -> by (intros; destruct v as [[? ?] ?]; mat_unfold; repeat match goal with |- (_, _) = (_, _) => f_equal end; ring).
      f_equal. rewrite <- (Z.sgn_abs (mdet (r1, r2, r3))). ring. }
    assert (D * g = Z.abs (mdet (r1, r2, r3)) * DB)%Z as EDg by (rewrite <- ED; reflexivity).
    destruct b as [[b0 b1] b2]. destruct Hq as [B0 [B1 B2]]. destruct r1 as [[p0 p1] p2], r2 as [[s0 s1] s2], r3 as [[t0 t1] t2]. destruct Q1 as [_ [A0 [A1 A2]]], Q2 as [_ [C0 [C1 C2]]], Q3 as [_ [E0 [E1 E2]]].
    set (V := Z.abs _) in *. clearbody V. rewrite !nth_red in *. cbn [transpose mvec vdot vscale] in Em. injection Em as M0 M1 M2.
    intros j Hj. destruct j as [|[|[|j]]]; [..|lia].
    - apply (solve_row p0 s0 t0 b0 D x y z (nth 0 va 0, nth 0 vb 0, nth 0 vc 0)%Q (nth 0 q 0%Q) DL DB g HDL HDB ltac:(lia)) with (V := V); auto; rewrite <- ?M0, <- ?M1, <- ?M2; ring.
    - apply (solve_row p1 s1 t1 b1 D x y z (nth 1 va 0, nth 1 vb 0, nth 1 vc 0)%Q (nth 1 q 0%Q) DL DB g HDL HDB ltac:(lia)) with (V := V); auto; rewrite <- ?M0, <- ?M1, <- ?M2; ring.
    - apply (solve_row p2 s2 t2 b2 D x y z (nth 2 va 0, nth 2 vb 0, nth 2 vc 0)%Q (nth 2 q 0%Q) DL DB g HDL HDB ltac:(lia)) with (V := V); auto; rewrite <- ?M0, <- ?M1, <- ?M2; ring. }
  assert (forall bs qs, Forall2 (fun r v => qof3 r DB v) (map red qs) bs -> (forall b, In b bs -> In b basis) ->
    Forall2 (fun q u => at_coordinates [va; vb; vc] (D0 / g) u q) qs (map (fun '(x, y, z) => (x / g, y / g, z / g)) (map (fun b => vscale (DL * Z.sgn (mdet (r1, r2, r3))) (mvec (madj (transpose (r1, r2, r3))) b)) bs))) as HF.
  { induction bs as [|b bs IH]; intros [|q qs] HF Hi; cbn [map] in *; try solve [inversion HF]; constructor; inversion_clear HF as [|? ? ? ? Hr HF'].
    - apply (H q b); auto. unfold coords. apply in_map_iff. exists b. split; auto. apply Hi. left; auto.
    - apply IH; auto. intros; apply Hi; right; auto. }
  apply HF; auto.
Qed.
(** Face-centred vectors and two atoms, the second one at a quarter of the diagonal. *)
Example C59_basis_example : exists su, setup_of {| l_bulk := true; l_sizes := [1; 2]; l_vecs := [[0; 1 # 2; 1 # 2]; [1 # 2; 0; 1 # 2]; [1 # 2; 1 # 2; 0]]%Q; l_nspecies := 2;
    l_bas := [[0; 0; 0]; [1 # 4; 1 # 4; 1 # 4]]%Q; l_restricted := false; l_arrows := false; l_concs := [] |} = Ok su /\ s_D su = 4 /\ s_bas su = [(0, 0, 0); (1, 1, 1)].
Proof. eexists. split; [vm_compute; reflexivity|]. split; reflexivity. Qed.

Print Assumptions C59_basis.
Print Assumptions C59_basis_example.
