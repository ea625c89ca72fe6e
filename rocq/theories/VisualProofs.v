(** The pictures of the supercells (C77): specification and lemmas. *)
From Coq Require Import Permutation QArith Lqa.
From Verif Require Import TextModel TextProofs PyBase ListFacts Spec Mat3 HNFModel SNFModel LatSpec LatFacts StructSpec StructThm EnumOutModel EnumOutSpec MapModel MapSpec MapProofs MapSites MapDoubles.
From Verif Require LatTop.
From Verif Require Import SuperModel TransFacts CellModel CellProofs ReduceModel ReduceSpec ReduceMink PropertiesReduce LatticeInModel LatticeInSpec RunText PropertiesSetup ScriptModel VisualModel.
Local Open Scope Z_scope.

(** ** What a picture should show *)
(** The rows of [W] are three vectors; [lattice_point W z] is their combination. *)
Definition lattice_point (W : qmat) (z : vec) : qvec := qvecm (ivec z) W.
Definition bit (b : bool) : Z := if b then 1 else 0.
Definition corner (U : qmat) (s : bool * bool * bool) : qvec := let '(a, b, c) := s in lattice_point U (bit a, bit b, bit c).
Definition neighbours (s t : bool * bool * bool) : Prop :=
  let '(a, b, c) := s in let '(a', b', c') := t in (a <> a' /\ b = b' /\ c = c') \/ (a = a' /\ b <> b' /\ c = c') \/ (a = a' /\ b = b' /\ c <> c').
(** The twelve edges of the parallelepiped on the rows of [U]. *)
Definition edges_of_cell (U : qmat) (edges : list (qvec * qvec)) : Prop :=
  length edges = 12%nat /\ forall s t, neighbours s t -> exists p q, (In (p, q) edges \/ In (q, p) edges) /\ qeq p (corner U s) /\ qeq q (corner U t).
(** Of the lattice on the rows of [W] with an atom at [b] and the supercell with the Hermite normal form [H]: the edges are those of a
    right-handed cell on a basis of the superlattice; the dots are sites, one from each class modulo the superlattice, all in that
    cell (up to the tolerance). *)
Definition right_picture (W : qmat) (b : qvec) (H : mat) (shapes : bool) (fig : figure) : Prop := exists U,
  (0 < qdet U)%Q /\ (forall w, (exists k, qeq w (lattice_point U k)) <-> exists z, in_lattice H z /\ qeq w (lattice_point W z)) /\
  (if shapes then edges_of_cell U (f_edges fig) else f_edges fig = []) /\
  Z.of_nat (length (f_dots fig)) = mdet H /\
  transversal (fun x => exists z, qeq x (qadd b (lattice_point W z))) (fun x y => exists z, in_lattice H z /\ qeq y (qadd x (lattice_point W z))) (f_dots fig) /\
  forall x, In x (f_dots fig) -> exists t, qeq x (qvecm t U) /\ all3 (fun c => - visual_eps <= c /\ c < 1 - visual_eps)%Q t.

(** ** Proofs *)
Lemma over1 x D : 0 < D -> (x # Z.to_pos D == inject_Z x * / inject_Z D)%Q.
Proof. intros HD. destruct D as [|p|p]; try lia. cbn. unfold Qeq, Qmult. cbn. ring. Qed.
Ltac qring := repeat match goal with v : vec |- _ => destruct v as [[? ?] ?] | M : mat |- _ => destruct M as [[[[? ?] ?] [[? ?] ?]] [[? ?] ?]] end;
  cbn [over_q rows_q lattice_point qvecm qtrans qmvec qdot qadd ivec qeq vadd mvec vdot transpose qdet mdet]; rewrite ?over1 by lia; rewrite ?inject_Z_plus, ?inject_Z_mult, ?inject_Z_opp; repeat split; ring.
Lemma over_q_add D u v : 0 < D -> qeq (over_q D (vadd u v)) (qadd (over_q D u) (over_q D v)).
Proof. intros HD. qring. Qed.
Lemma over_q_mvec D P z : 0 < D -> qeq (over_q D (mvec P z)) (lattice_point (qtrans (rows_q D P)) z).
Proof. intros HD. qring. Qed.
Lemma qdet_rows D P : 0 < D -> 0 < mdet P -> (0 < qdet (rows_q D P))%Q.
Proof.
  intros HD HP. assert (qdet (rows_q D P) == inject_Z (mdet P) * (/ inject_Z D * / inject_Z D * / inject_Z D))%Q as ->.
  { destruct P as [[[[a b] c] [[d e] f]] [[g h] i]]. cbn [rows_q over_q qdet]. rewrite !over1 by lia. mat_unfold. unfold Z.sub. rewrite ?inject_Z_plus, ?inject_Z_opp, ?inject_Z_mult, ?inject_Z_plus, ?inject_Z_opp, ?inject_Z_mult. ring. }
  assert (0 < / inject_Z D)%Q as Hi by (apply Qinv_lt_0_compat; change 0%Q with (inject_Z 0); rewrite <- Zlt_Qlt; auto).
  apply Qmult_lt_0_compat; [change 0%Q with (inject_Z 0); rewrite <- Zlt_Qlt; auto|]. apply Qmult_lt_0_compat; auto. apply Qmult_lt_0_compat; auto.
Qed.
Definition mat_eq (V W : qmat) : Prop := let '(a, b, c) := V in let '(x, y, z) := W in qeq a x /\ qeq b y /\ qeq c z.
Lemma point_morph V W z : mat_eq V W -> qeq (lattice_point V z) (lattice_point W z).
Proof.
  destruct V as [[[[a b] c] [[d e] f]] [[g h] i]], W as [[[[a' b'] c'] [[d' e'] f']] [[g' h'] i']], z as [[x y] z].
  cbn [mat_eq qeq lattice_point qvecm qtrans qmvec qdot ivec]. intros [[-> [-> ->]] [[-> [-> ->]] [-> [-> ->]]]]. repeat split; reflexivity.
Qed.
Lemma mat_eq_trans_q V W : mat_eq V W -> mat_eq (qtrans V) (qtrans W).
Proof.
  destruct V as [[[[a b] c] [[d e] f]] [[g h] i]], W as [[[[a' b'] c'] [[d' e'] f']] [[g' h'] i']]. cbn. tauto.
Qed.
Lemma mat_eq_sym V W : mat_eq V W -> mat_eq W V.
Proof. destruct V as [[? ?] ?], W as [[? ?] ?]. cbn. intros [A [B C]]. repeat split; apply qeq_sym; auto. Qed.
Lemma right_morph V W b H shapes fig : mat_eq V W -> right_picture V b H shapes fig -> right_picture W b H shapes fig.
Proof.
  intros E [U [A1 [A2 [A3 [A4 [[B1 [B2 B3]] A5]]]]]]. pose proof (fun z => point_morph _ _ z E) as P. pose proof (fun z => qeq_sym _ _ (P z)) as P'.
  assert (forall x y z, qeq y (qadd x (lattice_point V z)) <-> qeq y (qadd x (lattice_point W z))) as Q.
  { intros x y z. split; intros Hy; (eapply qeq_trans; [exact Hy|]); apply qadd_morph; auto using qeq_refl. }
  exists U. split; auto. split; [|split; auto; split; auto; split; auto].
  - intros w. rewrite A2. split; intros [z [Hz Hw]]; exists z; (split; [auto|]); (eapply qeq_trans; [exact Hw|]); auto.
  - split; [|split].
    + intros x Hx. destruct (B1 x Hx) as [z Hz]. exists z. apply Q; auto.
    + intros x [z Hz]. destruct (B2 x) as [y [Hy [z' [Hz' Ey]]]]; [exists z; apply Q; auto|]. exists y. split; auto. exists z'. split; auto. apply Q; auto.
    + eapply FOP_impl; [|exact B3]. cbv beta. intros x y _ _ Hn [z [Hz Ey]]. apply Hn. exists z. split; auto. apply Q; auto.
Qed.
Lemma edges_ok U : edges_of_cell U (cell_edges U).
Proof.
  destruct U as [[[[a b] c] [[d e] f]] [[g h] i]]. split; [reflexivity|]. intros [[s1 s2] s3] [[t1 t2] t3] Hn.
  assert (forall p q p' q', qeq p p' /\ qeq q q' -> In (p, q) (cell_edges (a, b, c, (d, e, f), (g, h, i))) -> exists p q, (In (p, q) (cell_edges (a, b, c, (d, e, f), (g, h, i))) \/ In (q, p) (cell_edges (a, b, c, (d, e, f), (g, h, i)))) /\ qeq p p' /\ qeq q q') as X1 by (intros; eauto).
  assert (forall p q p' q', qeq p p' /\ qeq q q' -> In (q, p) (cell_edges (a, b, c, (d, e, f), (g, h, i))) -> exists p q, (In (p, q) (cell_edges (a, b, c, (d, e, f), (g, h, i))) \/ In (q, p) (cell_edges (a, b, c, (d, e, f), (g, h, i)))) /\ qeq p p' /\ qeq q q') as X2 by (intros; eauto).
  cbn [neighbours] in Hn.
  Ltac pick k := match k with O => left; reflexivity | Datatypes.S ?k' => right; pick k' end.
  Ltac try_edge X k := eapply X; [|cbn [cell_edges]; pick k]; cbn [corner lattice_point bit qvecm qtrans qmvec qdot ivec qeq qplus3 origin3]; repeat split; ring.
  Ltac try_all X := first [try_edge X 0%nat|try_edge X 1%nat|try_edge X 2%nat|try_edge X 3%nat|try_edge X 4%nat|try_edge X 5%nat|try_edge X 6%nat|try_edge X 7%nat|try_edge X 8%nat|try_edge X 9%nat|try_edge X 10%nat|try_edge X 11%nat].
  destruct s1, s2, s3, t1, t2, t3; try (exfalso; intuition congruence); first [try_all X1|try_all X2].
Qed.

(** *** The sites in the order of the loops *)
Lemma cells_reps lim H : hnf_form H -> 1 <= mdet H <= 10 ^ 5 -> full lim H ->
  transversal (fun _ : vec => True) (fun x y => exists k, in_lattice H k /\ y = vadd x k) (MapModel.cells lim (mget H 0 0)) /\ Z.of_nat (length (MapModel.cells lim (mget H 0 0))) = mdet H.
Proof.
  intros Hh Hd Hf. split; [|apply full_length; auto].
  destruct (snf_facts H Hd) as [M [L [B [E [HL [HB [HS [HP [_ HV]]]]]]]]].
  destruct (points_transversal 1 [(0, 0, 0)] H L B (diag_of M)) with (lim := lim) as [_ [T2 T3]]; auto; try lia.
  { intros d [<-|[]] [|[|[|i]]] Hi; cbn [vget]; lia. }
  { constructor; [intros []|constructor]. }
  assert (map (position 1 [(0, 0, 0)]) (points lim (mget H 0 0) (length [(0, 0, 0)])) = MapModel.cells lim (mget H 0 0)) as EP.
  { unfold points. cbn [length seq flat_map]. rewrite app_nil_r, map_map. rewrite <- (map_id (MapModel.cells lim (mget H 0 0))) at 2. apply map_ext. intros [[x y] z]. unfold position. cbn [fst snd nth vadd vscale]. f_equal; [f_equal|]; ring. }
  change (map (position 1 [(0, 0, 0)]) (points lim (mget H 0 0) (length [(0, 0, 0)]))) with (map (position 1 [(0, 0, 0)]) (points lim (mget H 0 0) 1)) in *; cbn [length] in *; rewrite EP in T2, T3. split; [auto|]. split.
  - intros x _. destruct (T2 x) as [y [Hy [k [Hk Ey]]]].
    { exists (0, 0, 0), x. split; [left; auto|]. destruct x as [[? ?] ?]. cbn [vadd vscale]. f_equal; [f_equal|]; ring. }
    exists y. split; auto. exists k. split; auto. rewrite Ey. destruct k as [[? ?] ?]. f_equal. cbn [vscale]. f_equal; [f_equal|]; ring.
  - eapply FOP_impl; [|exact T3]. cbv beta. intros x y _ _ Hn [k [Hk ->]]. apply Hn. exists k. split; auto. f_equal. destruct k as [[? ?] ?]. cbn [vscale]. f_equal; [f_equal|]; ring.
Qed.
Lemma zeros_at n g : 0 <= g < Z.of_nat n -> label_at (zeros_text n) g = Ok 0.
Proof.
  intros Hg. unfold label_at, char_at. destruct (Z.ltb_spec g 0); [lia|]. destruct (Z.ltb_spec g 0); [lia|].
  assert (String.get (Z.to_nat g) (zeros_text n) = Some "0"%char) as ->; [|reflexivity].
  assert (Z.to_nat g < n)%nat as Hi by lia. clear - Hi. revert Hi. generalize (Z.to_nat g). induction n as [|n IH]; intros [|i] Hi; try lia; [reflexivity|]. cbn [zeros_text String.get]. apply IH. lia.
Qed.
Lemma zeros_length n : String.length (zeros_text n) = n.
Proof. induction n as [|n IH]; cbn; auto. Qed.
Lemma zeros_beyond n g : Z.of_nat n <= g -> label_at (zeros_text n) g = Err IndexError.
Proof.
  intros Hg. unfold label_at, char_at. destruct (Z.ltb_spec g 0); [lia|]. destruct (Z.ltb_spec g 0); [lia|].
  assert (String.get (Z.to_nat g) (zeros_text n) = None) as ->; [|reflexivity].
  assert (n <= Z.to_nat g)%nat as Hi by lia. clear - Hi. revert Hi. generalize (Z.to_nat g). induction n as [|n IH]; intros [|i] Hi; try lia; try reflexivity. cbn [zeros_text String.get]. apply IH. lia.
Qed.
Lemma occupants_zero k n gs : 1 <= k -> (forall g, In g gs -> 0 <= g < Z.of_nat n) -> exists r, occupants k (zeros_text n) gs = Ok r.
Proof.
  intros Hk. unfold occupants. assert (repeat 0 (Z.to_nat k) <> []) as Hne by (destruct (Z.to_nat k) eqn:E; [lia|discriminate]).
  intros Hg. revert Hne. generalize (repeat 0 (Z.to_nat k)) as x. intros x. change (@nil Z, x) with ((fun t : list Z => (t, x)) []). cbv beta.
  enough (forall sp, x <> [] -> exists r, rfold (fun '(spin, x0) (g : Z) => do i <- label_at (zeros_text n) g; do x' <- count_up x0 i; Ok (spin ++ [spin_of k i], x')) gs (sp, x) = Ok r) as K by (apply K).
  revert x. induction gs as [|g gs IH]; intros x sp Hne; [cbn; eauto|].
  cbn [rfold]. rewrite zeros_at by (apply Hg; left; auto). cbn [rbind]. destruct x as [|x0 x]; [congruence|].
  change (count_up (x0 :: x) 0) with (Ok ((x0 + 1) :: x)). cbn [rbind]. apply IH; [|discriminate]. intros; apply Hg; right; auto.
Qed.
(** *** The numbers of the lattice *)
Definition row_list (v : qvec) : list Q := comps v.
Lemma row_read D r v : 0 < D -> qof3 (map Qred (comps r)) D v -> qeq (over_q D v) r.
Proof.
  intros HD. destruct r as [[a b] c], v as [[x y] z]. intros [_ [H1 [H2 H3]]]. cbn [comps map nth over_q qeq] in *. rewrite !over1 by auto.
  assert (~ inject_Z D == 0)%Q as N by (change 0%Q with (inject_Z 0); rewrite inject_Z_injective; lia).
  rewrite Qred_correct in H1, H2, H3. rewrite H1, H2, H3. repeat split; field; auto.
Qed.
Lemma lattice_numbers par V b : l_vecs par = map comps [fst (fst V); snd (fst V); snd V] -> l_bas par = [comps b] ->
  let D := common (lowest (l_vecs par) ++ lowest (l_bas par)) in
  0 < D /\ exists plv bv, mat_over D (lowest (l_vecs par)) = Ok plv /\ rmap (vec_over D) (lowest (l_bas par)) = Ok [bv] /\ mat_eq (rows_q D plv) V /\ qeq (over_q D bv) b.
Proof.
  intros E1 E2 D. pose proof (common_pos (lowest (l_vecs par) ++ lowest (l_bas par))) as HD. fold D in HD. split; auto.
  assert (forall r q, In r (lowest (l_vecs par) ++ lowest (l_bas par)) -> In q r -> (Zpos (Qden q) | D)) as Hdiv by (intros r q Hr Hq; eapply divides_common; eauto).
  destruct V as [[r s] t]. cbn [fst snd map] in E1. rewrite E1, E2 in *. unfold lowest in *. cbn [map] in *.
  assert (forall v, exists x, vec_over D (map Qred (comps v)) = Ok x) as Hv by (intros [[? ?] ?]; cbn; eauto).
  destruct (Hv r) as [xr Er], (Hv s) as [xs Es], (Hv t) as [xt Et], (Hv b) as [xb Eb].
  exists (xr, xs, xt), xb. unfold mat_over. cbn [rmap]. rewrite Er, Es, Et, Eb. cbn [rbind]. split; auto. split; auto.
  assert (forall v x, In (map Qred (comps v)) [map Qred (comps r); map Qred (comps s); map Qred (comps t); map Qred (comps b)] -> vec_over D (map Qred (comps v)) = Ok x -> qeq (over_q D x) v) as Hx.
  { intros v x Hin E. apply row_read; auto. apply vec_over_value; auto. intros q Hq. eapply Hdiv; eauto. }
  split; [|apply Hx; auto; cbn; auto]. cbn [rows_q mat_eq]. repeat split; apply Hx; auto; cbn; auto.
Qed.
(** *** The picture *)
Lemma point_add W z k : qeq (lattice_point W (vadd z k)) (qadd (lattice_point W z) (lattice_point W k)).
Proof.
  destruct W as [[[[a b] c] [[d e] f]] [[g h] i]], z as [[x y] z], k as [[x' y'] z']. cbn [lattice_point qvecm qtrans qmvec qdot ivec vadd qadd qeq]. rewrite !inject_Z_plus. repeat split; ring.
Qed.
Lemma qadd_assoc u v w : qeq (qadd (qadd u v) w) (qadd u (qadd v w)).
Proof. destruct u as [[? ?] ?], v as [[? ?] ?], w as [[? ?] ?]. cbn. repeat split; ring. Qed.
Lemma qadd_cancel u v w : qeq (qadd u v) (qadd u w) -> qeq v w.
Proof. destruct u as [[? ?] ?], v as [[? ?] ?], w as [[? ?] ?]. cbn. intros [A [B C]]. repeat split; lra. Qed.
Lemma point_inj W z z' : ~ (qdet W == 0)%Q -> qeq (lattice_point W z) (lattice_point W z') -> z = z'.
Proof.
  intros Hd E. pose proof (qinv_ok2 W (ivec z) Hd) as E1. pose proof (qinv_ok2 W (ivec z') Hd) as E2.
  assert (qeq (qvecm (qvecm (ivec z) W) (qinv W)) (qvecm (qvecm (ivec z') W) (qinv W))) as E3 by (unfold qvecm at 1 3; apply qmvec_morph; exact E).
  assert (qeq (ivec z) (ivec z')) as E4 by (eapply qeq_trans; [apply qeq_sym; exact E1|]; eapply qeq_trans; eauto).
  destruct z as [[x y] z], z' as [[x' y'] z']. cbn [ivec qeq] in E4. rewrite !inject_Z_injective in E4. destruct E4 as [-> [-> ->]]. auto.
Qed.
Lemma qdet_trans W : (qdet (qtrans W) == qdet W)%Q.
Proof. destruct W as [[[[a b] c] [[d e] f]] [[g h] i]]. cbn. ring. Qed.
Lemma qdet_morph V W : mat_eq V W -> (qdet V == qdet W)%Q.
Proof.
  destruct V as [[[[a b] c] [[d e] f]] [[g h] i]], W as [[[[a' b'] c'] [[d' e'] f']] [[g' h'] i']]. cbn [mat_eq qeq qdet]. intros [[-> [-> ->]] [[-> [-> ->]] [-> [-> ->]]]]. reflexivity.
Qed.
Lemma qdet_over D P : 0 < D -> (inject_Z (mdet P) == qdet (rows_q D P) * inject_Z (D * D * D))%Q.
Proof.
  intros HD. destruct P as [[[[a b] c] [[d e] f]] [[g h] i]]. cbn [rows_q over_q qdet]. rewrite !over1 by lia. assert (~ inject_Z D == 0)%Q as N by (change 0%Q with (inject_Z 0); rewrite inject_Z_injective; lia).
  mat_unfold. unfold Z.sub. rewrite ?inject_Z_plus, ?inject_Z_opp, ?inject_Z_mult, ?inject_Z_plus, ?inject_Z_opp, ?inject_Z_mult. field. auto.
Qed.
Lemma Forall2_FOP {A B} (P : A -> B -> Prop) (R : A -> A -> Prop) (S : B -> B -> Prop) l m : Forall2 P l m -> (forall a b a' b', In b m -> In b' m -> P a b -> P a' b' -> R a a' -> S b b') -> ForallOrdPairs R l -> ForallOrdPairs S m.
Proof.
  intros HF. induction HF as [|a b l m Hab HF IH]; intros H HR; [constructor|]. inversion HR as [|? ? H1 H2]; subst. constructor.
  - rewrite Forall_forall in *. intros b' Hb'. destruct (LatTop.Forall2_in_r _ _ _ _ HF Hb') as [a' [Ha' Hp]]. eapply H; eauto; [left|right]; auto.
  - apply IH; auto. intros a0 b0 a' b' I1 I2. apply H; right; auto.
Qed.
