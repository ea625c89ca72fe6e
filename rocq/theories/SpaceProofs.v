(** Positions near the points of a grid: what the loops of [get_spaceGroup] compute (SpaceModel.v). *)
From Coq Require Import QArith Qabs Lqa.
From Verif Require Import PyBase Mat3 CellModel CellProofs LatSpec LatGroupModel LatFacts SpaceModel SpaceSpec.
Local Open Scope Q_scope.

Ltac qdestruct := repeat match goal with v : qvec |- _ => destruct v as [[? ?] ?] | v : pt |- _ => destruct v as [[? ?] ?] | v : vec |- _ => destruct v as [[? ?] ?] | M : qmat |- _ => destruct M as [[[[? ?] ?] [[? ?] ?]] [[? ?] ?]] end.

Lemma abs_le x e : Qabs x <= e <-> - e <= x /\ x <= e.
Proof. rewrite Qabs_Qle_condition. tauto. Qed.
Lemma small_morph e e' u v : e == e' -> qeq u v -> small e u -> small e' v.
Proof. qdestruct. cbn [small within qeq qadd qminus]. rewrite !abs_le. intros. lra. Qed.
Lemma within_morph e u v u' v' : qeq u u' -> qeq v v' -> within e u v -> within e u' v'.
Proof. qdestruct. cbn [small within qeq qadd qminus]. rewrite !abs_le. intros. lra. Qed.
Lemma within_weaken e e' u v : e <= e' -> within e u v -> within e' u v.
Proof. qdestruct. cbn [small within qeq qadd qminus]. rewrite !abs_le. intros. lra. Qed.
Lemma within_sym e u v : within e u v -> within e v u.
Proof. qdestruct. cbn [small within qeq qadd qminus]. rewrite !abs_le. intros. lra. Qed.
Lemma within_trans e e' u v w : within e u v -> within e' v w -> within (e + e') u w.
Proof. qdestruct. cbn [small within qeq qadd qminus]. rewrite !abs_le. intros. lra. Qed.
Lemma within_plus e e' u v u' v' : within e u v -> within e' u' v' -> within (e + e') (qadd u u') (qadd v v').
Proof. qdestruct. cbn [small within qeq qadd qminus]. rewrite !abs_le. intros. lra. Qed.
Lemma within_minus e e' u v u' v' : within e u v -> within e' u' v' -> within (e + e') (qminus u u') (qminus v v').
Proof. qdestruct. cbn [small within qeq qadd qminus]. rewrite !abs_le. intros. lra. Qed.
Lemma within_refl e u : 0 <= e -> within e u u.
Proof. qdestruct. cbn [small within qeq qadd qminus]. rewrite !abs_le. intros. lra. Qed.
Lemma within_small e u v : within e u v <-> small e (qminus u v).
Proof. qdestruct. tauto. Qed.
Lemma close_within eps u v : close eps u v = true <-> within eps u v.
Proof. qdestruct. unfold close, within, small. rewrite !andb_true_iff, !Qle_bool_iff. tauto. Qed.

Lemma qmvec_minus M u v : qeq (qmvec M (qminus u v)) (qminus (qmvec M u) (qmvec M v)).
Proof. qdestruct. cbn. qsplit; ring. Qed.
Lemma combo_qmvec L x y z : qeq (combo L x y z) (qmvec (qtrans L) (x, y, z)).
Proof. destruct L as [[[[? ?] ?] [[? ?] ?]] [[? ?] ?]]. cbn. qsplit; ring. Qed.

Lemma qdet_trans M : qdet (qtrans M) == qdet M.
Proof. qdestruct. cbn. ring. Qed.
Lemma qinv_trans_mvec M v : ~ qdet M == 0 -> qeq (qmvec (qinv (qtrans M)) v) (qmvec (qtrans (qinv M)) v).
Proof.
  intros H. assert (H' : ~ qdet (qtrans M) == 0) by (rewrite qdet_trans; auto). revert H H'. qdestruct. unfold qinv. cbn [qtrans qmvec qdot qeq].
  intros H H'. set (D' := qdet _) in H' |- *. match goal with |- context [_ / qdet ?M] => set (D := qdet M) in * end.
  assert (D' == D) as E by (unfold D', D; cbn; ring). qsplit; rewrite E; field; auto.
Qed.
Lemma inv_l2c M : ~ qdet M == 0 -> inverse_of (qtrans M) (qinv (qtrans M)).
Proof. intros H v. eapply qeq_trans; [apply qmvec_morph, qinv_trans_mvec; auto|]. apply (qinv_ok M v H). Qed.
Lemma inv_c2l M : ~ qdet M == 0 -> inverse_of (qinv (qtrans M)) (qtrans M).
Proof. intros H v. eapply qeq_trans; [apply qinv_trans_mvec; auto|]. apply (qinv_ok2 M v H). Qed.

Lemma qof_add d u v : ~ inject_Z d == 0 -> qeq (qof d (vadd u v)) (qadd (qof d u) (qof d v)).
Proof. intros H. qdestruct. cbn. rewrite !inject_Z_plus. qsplit; field; auto. Qed.
Lemma qof_sub d u v : ~ inject_Z d == 0 -> qeq (qof d (vsub u v)) (qminus (qof d u) (qof d v)).
Proof. intros H. qdestruct. unfold vsub. cbn [vadd vscale qof qminus qeq]. rewrite !inject_Z_plus, !inject_Z_mult. change (inject_Z (-1)) with (-1). qsplit; field; auto. Qed.
Lemma qof_scale d k : ~ inject_Z d == 0 -> qeq (qof d (vscale d k)) (ivec k).
Proof. intros H. qdestruct. cbn [vscale qof ivec qeq]. rewrite !inject_Z_mult. qsplit; field; auto. Qed.

(** A number near z/N and in the cell has 0 <= z < N. *)
Lemma in_cell_int N z x e eps : (0 < N)%Z -> e < eps -> (eps + e) * inject_Z N < 1 -> - e <= x - inject_Z z / inject_Z N -> x - inject_Z z / inject_Z N <= e ->
  - eps <= x -> x <= 1 - eps -> (0 <= z < N)%Z.
Proof.
  intros HN He Hs H1 H2 H3 H4. assert (HN' : 0 < inject_Z N) by (change 0 with (inject_Z 0); rewrite <- Zlt_Qlt; auto).
  set (q := inject_Z z / inject_Z N) in *. assert (Eq : q * inject_Z N == inject_Z z) by (unfold q; field; intros E; lra).
  split.
  - assert (- 1 < inject_Z z) as L.
    { rewrite <- Eq. assert ((- (eps + e)) * inject_Z N <= q * inject_Z N) by (apply Qmult_le_compat_r; lra). lra. }
    change (- 1) with (inject_Z (-1)) in L. rewrite <- Zlt_Qlt in L. lia.
  - rewrite Zlt_Qlt, <- Eq. assert (q * inject_Z N < 1 * inject_Z N) by (apply Qmult_lt_compat_r; lra). lra.
Qed.
Lemma near_int N z z' e : (0 < N)%Z -> e * inject_Z N < 1 -> - e <= inject_Z z / inject_Z N - inject_Z z' / inject_Z N -> inject_Z z / inject_Z N - inject_Z z' / inject_Z N <= e -> z = z'.
Proof.
  intros HN He H1 H2. assert (HN' : 0 < inject_Z N) by (change 0 with (inject_Z 0); rewrite <- Zlt_Qlt; auto).
  set (q := inject_Z z / inject_Z N - inject_Z z' / inject_Z N) in *. assert (Eq : q * inject_Z N == inject_Z (z - z')) by (unfold q, Z.sub; rewrite inject_Z_plus, inject_Z_opp; field; intros E; lra).
  assert (q * inject_Z N <= e * inject_Z N) by (apply Qmult_le_compat_r; lra). assert ((- e) * inject_Z N <= q * inject_Z N) by (apply Qmult_le_compat_r; lra).
  assert (inject_Z (z - z') < inject_Z 1) as L1 by (change (inject_Z 1) with 1; lra). assert (inject_Z (-1) < inject_Z (z - z')) as L2 by (change (inject_Z (-1)) with (-1); lra).
  rewrite <- Zlt_Qlt in L1, L2. lia.
Qed.

(** ** The loops on positions near a grid *)
(** The integer form (typed atoms [zs], reduced modulo N). *)
Section Integer.
Variables (N : Z) (zs : list (Z * vec)).
Definition imapped (C : mat) (s : vec) (a : Z * vec) : bool :=
  existsb (fun b => (fst b =? fst a)%Z && vec_eqb (into_cell N (vadd (mvec C (snd a)) s)) (snd b)) zs.
Definition iatom (C : mat) (v : vec) (t0 : Z) (a : Z * vec) : list (mat * vec) :=
  if negb (fst a =? t0)%Z then [] else
  let s := into_cell N (vsub (snd a) v) in
  if forallb (imapped C s) zs then [(C, s)] else [].
Definition iop (C : mat) : list (mat * vec) :=
  match zs with [] => [] | (t0, z0) :: _ => concat (map (iatom C (mvec C z0) t0) zs) end.
End Integer.

Section Grid.
Variables (l2c c2l : qmat) (N : Z) (c eps : Q).
Hypothesis I1 : inverse_of l2c c2l.
Hypothesis I2 : inverse_of c2l l2c.
Hypothesis HN : (0 < N)%Z.
Hypothesis Hc : forall e x, small e (qmvec l2c x) -> small (c * e) x.
Hypothesis E0 : 0 <= eps.
Hypothesis E1 : eps <= 1.
Definition grid (z : vec) : qvec := qmvec l2c (qof N z).
Definition cnear (e : Q) (v : qvec) (z : vec) : Prop := within e v (grid z).

Lemma N_ne0 : ~ inject_Z N == 0.
Proof. assert (0 < inject_Z N) by (change 0 with (inject_Z 0); rewrite <- Zlt_Qlt; auto). intros E. lra. Qed.
Lemma grid_add y z : qeq (grid (vadd y z)) (qadd (grid y) (grid z)).
Proof. eapply qeq_trans; [apply qmvec_morph, qof_add, N_ne0|apply qmvec_add]. Qed.
Lemma grid_sub y z : qeq (grid (vsub y z)) (qminus (grid y) (grid z)).
Proof. eapply qeq_trans; [apply qmvec_morph, qof_sub, N_ne0|apply qmvec_minus]. Qed.
Lemma grid_lat k : qeq (grid (vscale N k)) (qmvec l2c (ivec k)).
Proof. apply qmvec_morph, qof_scale, N_ne0. Qed.
(** The lattice coordinates of a point near a point of the grid. *)
Lemma cnear_coords e v z : cnear e v z -> within (c * e) (qmvec c2l v) (qof N z).
Proof.
  intros H. apply within_small. apply Hc. eapply small_morph; [apply Qeq_refl|apply qeq_sym, qmvec_minus|]. apply within_small.
  eapply within_morph; [apply qeq_sym, I1|apply qeq_refl|exact H].
Qed.
Lemma bring_near e v z : c * e < eps -> (eps + c * e) * inject_Z N < 1 -> cnear e v z ->
  exists r, bring_into_cell v c2l l2c eps = Ok r /\ cnear e r (into_cell N z).
Proof.
  intros S1 S2 H. destruct (bring_into_cell_ok v c2l l2c eps I1 I2 E0 E1) as (r & k & R1 & R2 & R3). exists r. split; auto.
  assert (W : cnear e r (vadd z (vscale N k))).
  { unfold cnear. eapply within_morph; [apply qeq_sym; exact R2|apply qeq_sym, grid_add|].
    eapply within_morph; [apply qeq_refl|apply qadd_morph; [apply qeq_refl|apply qeq_sym, grid_lat]|].
    unfold cnear in H. revert H. generalize (qmvec l2c (ivec k)) (grid z). clear. intros. qdestruct. cbn [within small qadd] in *. rewrite !abs_le in *. lra. }
  replace (into_cell N z) with (vadd z (vscale N k)); auto.
  assert (B : reduced (N, N, N) (vadd z (vscale N k))).
  { pose proof (cnear_coords _ _ _ W) as B. destruct (vadd z (vscale N k)) as [[a b] d]. destruct (qmvec c2l r) as [[x y] w]. cbn [within small qof] in B. rewrite !abs_le in B. unfold all3 in R3.
    apply reduced_triple. destruct B as [[B1 B2] [[B3 B4] [B5 B6]]], R3 as [[R3 R4] [[R5 R6] [R7 R8]]].
    split; [apply (in_cell_int N a x (c * e) eps)|split; [apply (in_cell_int N b y (c * e) eps)|apply (in_cell_int N d w (c * e) eps)]]; auto. }
  apply (reduced_unique (N, N, N)); auto.
  - apply vmod_reduced. cbn. auto.
  - eapply congruent_trans; [|apply vmod_congruent; cbn; auto]. clear. destruct z as [[a b] d], k as [[x y] w]. cbn [vadd vscale]. apply congruent_triple.
    split; [|split]; [exists x|exists y|exists w]; ring.
Qed.
Lemma close_near e e' u v y z : e + e' <= eps -> (c * (eps + e + e')) * inject_Z N < 1 -> cnear e u y -> cnear e' v z ->
  close eps u v = vec_eqb y z.
Proof.
  intros S1 S2 Hu Hv. apply eq_true_iff_eq. rewrite close_within, vec_eqb_spec. split.
  - intros H. assert (W : within (eps + e + e') (grid y) (grid z)).
    { eapply within_weaken; [|eapply within_trans; [apply within_sym; exact Hu|eapply within_trans; [exact H|exact Hv]]]. lra. }
    assert (W' : within (c * (eps + e + e')) (qof N y) (qof N z)).
    { pose proof (cnear_coords _ _ _ W) as B. eapply within_morph; [|apply qeq_refl|exact B]. apply I2. }
    destruct y as [[a b] d], z as [[a' b'] d']. cbn [within small qof] in W'. rewrite !abs_le in W'. destruct W' as [[B1 B2] [[B3 B4] [B5 B6]]].
    f_equal; [f_equal; [apply (near_int N a a' (c * (eps + e + e')))|apply (near_int N b b' (c * (eps + e + e')))]|apply (near_int N d d' (c * (eps + e + e')))]; auto.
  - intros ->. eapply within_weaken; [|eapply within_trans; [exact Hu|apply within_sym; exact Hv]]. auto.
Qed.

(** *** One operation *)
Variables (delta : Q) (op : qmat) (C : mat).
Hypothesis D0 : 0 <= delta.
Hypothesis C1 : 1 <= c.
Hypothesis S1 : 8 * c * delta < eps.
Hypothesis S2 : 2 * c * eps * inject_Z N < 1.
Hypothesis Hop : forall z, qeq (qmvec op (grid z)) (grid (mvec C z)).
Hypothesis Hsm : forall e u, small e u -> small (3 * e) (qmvec op u).

Lemma cd_le : delta <= c * delta.
Proof. assert (0 <= (c - 1) * delta) by (apply Qmult_le_0_compat; lra). lra. Qed.
Lemma eps_le : eps <= c * eps.
Proof. assert (0 <= (c - 1) * eps) by (apply Qmult_le_0_compat; lra). lra. Qed.
Lemma s_bring e : e <= 7 * delta -> c * e < eps /\ (eps + c * e) * inject_Z N < 1.
Proof.
  intros He. assert (0 < inject_Z N) by (change 0 with (inject_Z 0); rewrite <- Zlt_Qlt; auto). pose proof cd_le. pose proof eps_le.
  assert (c * e <= c * (7 * delta)) by (apply Qmult_le_l; lra). assert (L : c * e < eps) by lra. split; auto.
  assert ((eps + c * e) * inject_Z N <= (2 * c * eps) * inject_Z N) by (apply Qmult_le_compat_r; lra). lra.
Qed.
Lemma s_close e e' : e + e' <= 8 * delta -> e + e' <= eps /\ (c * (eps + e + e')) * inject_Z N < 1.
Proof.
  intros He. assert (0 < inject_Z N) by (change 0 with (inject_Z 0); rewrite <- Zlt_Qlt; auto). pose proof cd_le. pose proof eps_le.
  assert (L : e + e' <= eps) by lra. split; auto.
  assert (c * (eps + e + e') <= c * (2 * eps)) by (apply Qmult_le_l; lra).
  assert (c * (eps + e + e') * inject_Z N <= (2 * c * eps) * inject_Z N) by (apply Qmult_le_compat_r; lra). lra.
Qed.
Lemma rotate_near e v z : cnear e v z -> cnear (3 * e) (qmvec op v) (mvec C z).
Proof.
  intros H. unfold cnear. eapply within_morph; [apply qeq_refl|apply Hop|]. unfold cnear in H.
  apply within_small in H. apply Hsm in H. apply within_small. eapply small_morph; [apply Qeq_refl|apply qmvec_minus|]. auto.
Qed.

Variables (ps : list (Z * qvec)) (zs : list (Z * vec)).
Hypothesis Hps : Forall2 (fun a b => fst a = fst b /\ cnear delta (snd a) (snd b)) ps zs.

Lemma mapping_near e v y t : e <= 7 * delta -> cnear e v y ->
  does_mapping_exist v t ps eps = existsb (fun b => (fst b =? t)%Z && vec_eqb y (snd b)) zs.
Proof.
  intros He Hv. unfold does_mapping_exist.
  enough (G : forall l m, Forall2 (fun a b => fst a = fst b /\ cnear delta (snd a) (snd b)) l m ->
    existsb (fun '(a_type, p) => (a_type =? t)%Z && close eps v p) l = existsb (fun b => (fst b =? t)%Z && vec_eqb y (snd b)) m) by (apply G; exact Hps).
  induction 1 as [|[t1 p] [t2 z] l m [E W] _ IH]; cbn [existsb fst snd] in *; auto. rewrite IH. f_equal. subst t2. f_equal.
  destruct (s_close e delta) as [A B]; [lra|]. apply (close_near e delta); auto.
Qed.
Lemma all_mapped_near fract s : cnear (4 * delta) fract s -> forall l m, Forall2 (fun a b => fst a = fst b /\ cnear delta (snd a) (snd b)) l m ->
  all_mapped eps l2c c2l ps op fract l = Ok (forallb (imapped N zs C s) m).
Proof.
  intros Hf. induction 1 as [|[t1 p] [t2 z] l m [E W] _ IH]; cbn [all_mapped forallb fst snd] in *; auto. subst t2.
  assert (W2 : cnear (7 * delta) (qplus (qmvec op p) fract) (vadd (mvec C z) s)).
  { unfold cnear. eapply within_morph; [apply qeq_refl|apply qeq_sym, grid_add|]. eapply within_weaken; [|apply within_plus; [apply rotate_near; exact W|exact Hf]]. lra. }
  destruct (s_bring (7 * delta)) as [A B]; [lra|]. destruct (bring_near _ _ _ A B W2) as [r [R1 R2]]. rewrite R1. cbn [rbind].
  rewrite (mapping_near (7 * delta) r (into_cell N (vadd (mvec C z) s)) t1); [|lra|exact R2]. change (existsb _ zs) with (imapped N zs C s (t1, z)).
  destruct (imapped N zs C s (t1, z)); cbn [andb]; auto.
Qed.
Lemma try_atom_near v y t0 : cnear (3 * delta) v y -> forall a b, fst a = fst b -> cnear delta (snd a) (snd b) ->
  exists out, try_atom eps l2c c2l ps op v t0 a = Ok out /\
    Forall2 (fun o i => fst o = op /\ fst i = C /\ cnear (4 * delta) (snd o) (snd i)) out (iatom N zs C y t0 b).
Proof.
  intros Hv [t p] [t' z] E W. cbn [fst snd] in *. subst t'. unfold try_atom, iatom. cbn [fst snd].
  destruct (negb (t =? t0)%Z); [exists []; auto|].
  assert (W2 : cnear (4 * delta) (qminus p v) (vsub z y)).
  { unfold cnear. eapply within_morph; [apply qeq_refl|apply qeq_sym, grid_sub|]. eapply within_weaken; [|apply within_minus; [exact W|exact Hv]]. lra. }
  destruct (s_bring (4 * delta)) as [A B]; [lra|]. destruct (bring_near _ _ _ A B W2) as [r [R1 R2]]. rewrite R1. cbn [rbind].
  rewrite (all_mapped_near r (into_cell N (vsub z y)) R2 ps zs Hps). cbn [rbind].
  destruct (forallb _ zs); eexists; split; try reflexivity; constructor; auto.
Qed.
Lemma rmap_concat {X Y U W} (P : Y -> W -> Prop) (Q : X -> U -> Prop) (f : X -> res (list Y)) (g : U -> list W) l m : Forall2 Q l m ->
  (forall x u, Q x u -> exists out, f x = Ok out /\ Forall2 P out (g u)) ->
  exists out, rmap f l = Ok out /\ Forall2 P (concat out) (concat (map g m)).
Proof.
  intros HF H. induction HF as [|x u l m Hxu _ IH]; [exists []; cbn; auto|]. destruct (H x u Hxu) as [o [O1 O2]]. destruct IH as [os [O3 O4]].
  exists (o :: os). cbn. rewrite O1. cbn. rewrite O3. cbn. split; auto. apply Forall2_app; auto.
Qed.
Lemma try_op_near : ps <> [] -> exists out, try_op eps l2c c2l ps op = Ok out /\
  Forall2 (fun o i => fst o = op /\ fst i = C /\ cnear (4 * delta) (snd o) (snd i)) out (iop N zs C).
Proof.
  intros Hne. unfold try_op, iop. pose proof Hps as HF. pose proof try_atom_near as T. destruct ps as [|[t0 p0] ps']; [congruence|]. destruct zs as [|[t1 z0] zs']; [inversion HF|].
  inversion HF as [|? ? ? ? [E W] HF' ]; subst. cbn [fst snd] in *. subst t1.
  destruct (rmap_concat _ _ (try_atom eps l2c c2l ((t0, p0) :: ps') op (qmvec op p0) t0) (iatom N ((t0, z0) :: zs') C (mvec C z0) t0) _ _ HF (fun x u H => T _ _ t0 (rotate_near _ _ _ W) x u (proj1 H) (proj2 H))) as [out [O1 O2]].
  exists (concat out). rewrite O1. cbn. auto.
Qed.
End Grid.
