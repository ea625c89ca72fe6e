(** From the text of lattice.in to the setup of a run (C60). *)
From Coq Require Import QArith Qround Qcanon.
From Verif Require Import TextModel TextProofs PyBase Mat3 ReduceSpec PointGroupModel PointGroupSpec PointGroupProofs PropertiesPoint RunModel RunSpec LatticeInModel LatticeInSpec.
Local Open Scope Z_scope.

(** ** Common denominators *)
Definition rows_over (DL : Z) (A : mat) : list (list Q) :=
  let '((a, b, c), (d, e, f), (g, h, i)) := A in let q x := (inject_Z x / inject_Z DL)%Q in [[q a; q b; q c]; [q d; q e; q f]; [q g; q h; q i]].
Lemma lowest_same a b : same_numbers a b -> lowest a = lowest b.
Proof.
  unfold same_numbers, lowest. induction 1 as [|x y a b Hxy _ IH]; [auto|]. cbn [map]. f_equal; auto. clear - Hxy. induction Hxy; [auto|]. cbn [map]. f_equal; auto. apply Qred_complete. auto.
Qed.
Lemma den_divides x DL : 0 < DL -> (Zpos (Qden (Qred (inject_Z x / inject_Z DL))) | DL).
Proof.
  intros HD. pose proof (Qred_correct (inject_Z x / inject_Z DL)%Q) as E. set (q := Qred _) in *. assert (Z.gcd (Qnum q) (Zpos (Qden q)) = 1) as Hg by (apply Qcanon.Qred_iff; unfold q; apply Qred_involutive).
  assert (q * inject_Z DL == inject_Z x)%Q as E' by (rewrite E; field; intros K; unfold Qeq, inject_Z in K; cbn [Qnum Qden] in K; lia).
  unfold Qeq, Qmult, inject_Z in E'. cbn [Qnum Qden] in E'. rewrite Pos.mul_1_r, !Z.mul_1_r in E'.
  apply (Z.gauss _ (Qnum q)); [|rewrite Z.gcd_comm; auto]. exists x. rewrite <- E'. reflexivity.
Qed.
Lemma common_divides l d : (forall r q, In r l -> In q r -> (Zpos (Qden q) | d)) -> (common l | d).
Proof.
  intros H. unfold common. assert (forall q, In q (concat l) -> (Zpos (Qden q) | d)) as H' by (intros q Hq; apply in_concat in Hq; destruct Hq as [r [Hr Hq]]; eauto).
  clear H. induction (concat l) as [|q s IH]; [apply Z.divide_1_l|]. cbn [fold_right]. apply Z.lcm_least; [apply H'; left; auto|apply IH; intros; apply H'; right; auto].
Qed.
Lemma divides_common l r q : In r l -> In q r -> (Zpos (Qden q) | common l).
Proof.
  intros Hr Hq. assert (In q (concat l)) as H by (apply in_concat; eauto). clear Hr Hq. unfold common. induction (concat l) as [|y s IH]; [destruct H|]. cbn [fold_right]. destruct H as [->|H]; [apply Z.divide_lcm_l|].
  eapply Z.divide_trans; [apply IH; auto|apply Z.divide_lcm_r].
Qed.
Lemma common_pos l : 0 < common l.
Proof.
  unfold common. induction (concat l) as [|q s IH]; [reflexivity|]. cbn [fold_right]. pose proof (Z.lcm_nonneg (Zpos (Qden q)) (fold_right (fun q d => Z.lcm (Zpos (Qden q)) d) 1 s)).
  assert (Z.lcm (Zpos (Qden q)) (fold_right (fun q d => Z.lcm (Zpos (Qden q)) d) 1 s) <> 0) as K by (rewrite Z.lcm_eq_0; lia). lia.
Qed.
Lemma over_spec d q c x DL : 0 < d -> (Zpos (Qden q) | d) -> DL = c * d -> 0 < DL -> (q == inject_Z x / inject_Z DL)%Q -> x = c * over d q.
Proof.
  intros Hd [k Ed] Ec HD E. unfold over. rewrite Ed at 1. rewrite Z.div_mul by discriminate.
  assert (q * inject_Z DL == inject_Z x)%Q as E' by (rewrite E; field; intros K; unfold Qeq, inject_Z in K; cbn [Qnum Qden] in K; lia). rewrite Ec, Ed in E'.
  unfold Qeq, Qmult, inject_Z in E'. cbn [Qnum Qden] in E'. rewrite Pos.mul_1_r, !Z.mul_1_r in E'.
  apply (Z.mul_reg_r _ _ (Zpos (Qden q))); [discriminate|]. rewrite <- E'. ring.
Qed.
Lemma least_terms DL A : 0 < DL -> let vecs := lowest (rows_over DL A) in
  exists c A0, 0 < c /\ DL = c * common vecs /\ A = mscale c A0 /\ mat_over (common vecs) vecs = Ok A0.
Proof.
  intros HD vecs. pose proof (common_pos vecs) as Hp.
  assert (forall r q, In r vecs -> In q r -> exists x, q = Qred (inject_Z x / inject_Z DL)) as Hq.
  { intros r q Hr Hq. destruct A as [[[[a b] c] [[d e] f]] [[g h] i]]. unfold vecs, lowest, rows_over in Hr. cbn [map] in Hr. repeat (destruct Hr as [<-|Hr]; [repeat (destruct Hq as [<-|Hq]; [eauto|]); destruct Hq|]). destruct Hr. }
  assert (common vecs | DL) as [c Hc] by (apply common_divides; intros r q Hr Hi; destruct (Hq r q Hr Hi) as [x ->]; apply den_divides; auto).
  assert (0 < c) as Hcp by nia. exists c.
  assert (forall x r, In r vecs -> In (Qred (inject_Z x / inject_Z DL)) r -> x = c * over (common vecs) (Qred (inject_Z x / inject_Z DL))) as Ho.
  { intros x r Hr Hi. apply (over_spec _ _ c x DL); auto; [eapply divides_common; eauto|apply Qred_correct]. }
  destruct A as [[[[a b] c'] [[d e] f]] [[g h] i]]. unfold rows_over, lowest in vecs. cbn [map] in vecs. cbv zeta in vecs. set (q := fun x => Qred (inject_Z x / inject_Z DL)) in *.
  change vecs with [[q a; q b; q c']; [q d; q e; q f]; [q g; q h; q i]] in *. set (m := common _) in *. cbn [mat_over rmap vec_over rbind].
  eexists. split; auto. split; auto. split; [|reflexivity]. unfold mscale, vscale.
  repeat match goal with |- (_, _) = (_, _) => f_equal end;
    first [apply (Ho _ [q a; q b; q c']); cbn [In]; fold (q a) (q b) (q c'); tauto|apply (Ho _ [q d; q e; q f]); cbn [In]; fold (q d) (q e) (q f); tauto|apply (Ho _ [q g; q h; q i]); cbn [In]; fold (q g) (q h) (q i); tauto].
Qed.
(** ** Lattices and their multiples *)
Lemma len2_scale k v : len2 (vscale k v) = k * k * len2 v.
Proof. destruct v as [[x y] z]. unfold len2. mat_unfold. ring. Qed.
Lemma row_scale k A i : mrow (mscale k A) i = vscale k (mrow A i).
Proof. destruct A as [[a b] c]. destruct i as [|[|i]]; reflexivity. Qed.
Lemma det_scale k A : mdet (mscale k A) = k * k * k * mdet A.
Proof. mat_destruct. mat_unfold. ring. Qed.
Lemma image_scale k A x : mvec (transpose (mscale k A)) x = vscale k (mvec (transpose A) x).
Proof. mat_destruct. mat_unfold. repeat match goal with |- (_, _) = (_, _) => f_equal end; ring. Qed.
Lemma keeps_scale k A C : k <> 0 -> keeps_lengths (mscale k A) C <-> keeps_lengths A C.
Proof.
  intros Hk. unfold keeps_lengths. split; intros H x; specialize (H x); rewrite !image_scale, !len2_scale in *; [|rewrite H; auto].
  apply (Z.mul_reg_l _ _ (k * k)); auto. lia.
Qed.
Lemma cartesian_scale k A C R : k <> 0 -> cartesian_of (mscale k A) C R <-> cartesian_of A C R.
Proof.
  intros Hk. unfold cartesian_of. assert (forall M, mmul M (transpose (mscale k A)) = mscale k (mmul M (transpose A))) as E1 by (intros M; mat_ring).
  assert (mmul (transpose (mscale k A)) C = mscale k (mmul (transpose A) C)) as E2 by mat_ring. rewrite E1, E2. split; [apply mscale_inj; auto|intros ->; auto].
Qed.
Lemma rotations_scale k A : k <> 0 -> integer_rotations (mscale k A) -> integer_rotations A.
Proof. intros Hk H C HC. destruct (H C) as [R HR]; [apply keeps_scale; auto|]. exists R. apply (cartesian_scale k); auto. Qed.
Lemma fine_scale eps k A : (0 <= eps)%Q -> 0 < k -> fine eps (mscale k A) -> fine eps A.
Proof.
  unfold fine. intros He Hk H. eapply Qle_lt_trans; [|exact H]. rewrite (Qmult_comm eps), (Qmult_comm eps). apply Qmult_le_compat_r; auto. rewrite <- Zle_Qle, det_scale.
  assert (1 <= k * k * k) by nia. set (x := mdet A * mdet A). assert (0 <= x) by (unfold x; nia). replace (k * k * k * mdet A * (k * k * k * mdet A)) with (k * k * k * (k * k * k) * x) by (unfold x; ring). set (y := k * k * k) in *. assert (1 <= y * y) by nia. nia.
Qed.
Lemma tolerable_scale eps DL k A m : 0 < k -> tolerable eps (k * DL) (mscale k A) m -> exists m0, tolerable eps DL A m0.
Proof.
  intros Hk [Hm [He Ht]]. exists (Z.max (len2 (mrow A 0)) (Z.max (len2 (mrow A 1)) (len2 (mrow A 2)))). split; [|split; auto].
  - intros i Hi. destruct i as [|[|[|i]]]; lia.
  - set (m0 := Z.max _ _). assert (k * k * m0 <= m) as L.
    { pose proof (Hm 0%nat ltac:(lia)). pose proof (Hm 1%nat ltac:(lia)). pose proof (Hm 2%nat ltac:(lia)). rewrite !row_scale, !len2_scale in *. unfold m0. destruct (Z.max_dec (len2 (mrow A 0)) (Z.max (len2 (mrow A 1)) (len2 (mrow A 2)))) as [-> | ->]; auto. destruct (Z.max_dec (len2 (mrow A 1)) (len2 (mrow A 2))) as [-> | ->]; auto. }
    assert (0 < inject_Z (k * k))%Q as Hkk by (change 0%Q with (inject_Z 0); rewrite <- Zlt_Qlt; nia).
    apply (Qmult_lt_r _ _ _ Hkk). rewrite <- inject_Z_mult. replace (DL * DL * (k * k)) with (k * DL * (k * DL)) by ring. eapply Qle_lt_trans; [|exact Ht].
    rewrite <- Qmult_assoc, <- inject_Z_mult, (Z.mul_comm m0), (Qmult_comm _ (inject_Z (k * k * m0))), (Qmult_comm _ (inject_Z m)). apply Qmult_le_compat_r; [rewrite <- Zle_Qle; auto|].
    assert (0 <= eps * eps)%Q by (apply Qmult_le_0_compat; auto). assert (0 <= 3 * (eps * eps))%Q by (apply Qmult_le_0_compat; [discriminate|auto]). rewrite <- Qmult_assoc. auto.
Qed.

(** ** The setup *)
Lemma no_fractions m : (fold_right Qplus 0 (repeat 0 m) == 0)%Q.
Proof. induction m as [|m IH]; [reflexivity|]. cbn [repeat fold_right]. rewrite IH. reflexivity. Qed.
Lemma none_displaced m c : length c = m -> displaced (repeat 0%Q m) c = map (fun _ => 0) c.
Proof.
  revert m. induction c as [|n c IH]; intros m <-; [reflexivity|]. cbn [length repeat displaced combine map]. fold (displaced (repeat 0%Q (length c)) c). rewrite IH by auto. f_equal. cbn [Qnum Qden]. rewrite Z.mul_0_r. reflexivity.
Qed.
Lemma origin_coords k M : vscale k (mvec M (0, 0, 0)) = (0, 0, 0).
Proof. mat_destruct. mat_unfold. repeat match goal with |- (_, _) = (_, _) => f_equal end; ring. Qed.
Lemma gcd_origin d : 0 <= d -> gcd_all d [(0, 0, 0)] = d.
Proof. intros H. cbn [gcd_all fold_right]. rewrite (Z.gcd_0_l d), (Z.gcd_0_l (Z.abs d)), (Z.gcd_0_l (Z.abs (Z.abs d))). lia. Qed.
(** The restrictions of a file: lines that start with three integers. *)
Definition restrictions (ranges : option (list (Z * Z * Z))) (concs : list (list Q)) : Prop :=
  match ranges with
  | None => concs = []
  | Some l => Forall2 (fun '(x, y, z) c => Forall2 Qeq (firstn 3 c) [inject_Z x; inject_Z y; inject_Z z]) l concs
  end.
Definition is_some {A} (o : option A) : bool := match o with None => false | Some _ => true end.
Definition the_ranges (ranges : option (list (Z * Z * Z))) : list (Z * Z * Z) := match ranges with None => [] | Some l => l end.
Lemma Qred_int q x : (q == inject_Z x)%Q -> Qred q = inject_Z x.
Proof. intros E. rewrite (Qred_complete _ _ E). apply Qcanon.Qred_iff. cbn [inject_Z Qnum Qden]. apply Z.gcd_1_r. Qed.
Lemma conc_read c x y z : Forall2 Qeq (firstn 3 c) [inject_Z x; inject_Z y; inject_Z z] -> conc_of (map Qred c) = Ok (x, y, z).
Proof.
  intros H. destruct c as [|q1 [|q2 [|q3 c]]]; cbn [firstn] in H; inversion H as [|? ? ? ? H1 K]; subst; inversion K as [|? ? ? ? H2 K2]; subst; inversion K2 as [|? ? ? ? H3 K3]; subst.
  cbn [map]. rewrite (Qred_int _ _ H1), (Qred_int _ _ H2), (Qred_int _ _ H3). reflexivity.
Qed.
Lemma Forall2_Qeq_trans a b c : Forall2 Qeq a b -> Forall2 Qeq b c -> Forall2 Qeq a c.
Proof. intros H. revert c. induction H as [|x y a b Hxy _ IH]; intros c K; inversion K; subst; constructor; [etransitivity; eauto|auto]. Qed.
Lemma Forall2_firstn {A B} (P : A -> B -> Prop) n : forall a b, Forall2 P a b -> Forall2 P (firstn n a) (firstn n b).
Proof. induction n as [|n IH]; intros a b H; [constructor|]. destruct H; cbn [firstn]; constructor; auto. Qed.
Lemma concs_read ranges concs concs' : restrictions ranges concs -> same_numbers concs' concs -> rmap (fun c => conc_of (map Qred c)) concs' = Ok (the_ranges ranges) /\ length concs' = length (the_ranges ranges).
Proof.
  intros H K. destruct ranges as [l|]; cbn [restrictions the_ranges] in *; [|subst; inversion K; auto].
  revert concs' K. induction H as [|[[x y] z] c l concs Hc _ IH]; intros concs' K; inversion K as [|c' ? concs'' ? Hc' K']; subst; [auto|]. destruct (IH _ K') as [E1 E2]. cbn [rmap length]. rewrite (conc_read c' x y z); [|eapply Forall2_Qeq_trans; [apply Forall2_firstn; eauto|auto]].
  cbn [rbind]. rewrite E1. cbn [rbind]. auto.
Qed.
Lemma repeat_zero {A} (l : list A) : map (fun _ => 0%Q) l = repeat 0%Q (length l).
Proof. induction l as [|a l IH]; [auto|]. cbn [map length repeat]. rewrite IH. auto. Qed.
Lemma setup_read par DL A m k lo hi ranges concs : 0 < DL -> mdet A <> 0 -> tolerable (1 # 10000000000) DL A m -> fine (1 # 10000000000) A -> integer_rotations A ->
  same_numbers (l_vecs par) (rows_over DL A) -> same_numbers (l_bas par) [[0; 0; 0]]%Q -> l_sizes par = [lo; hi] -> l_restricted par = is_some ranges -> l_arrows par = false -> same_numbers (l_concs par) concs -> restrictions ranges concs -> usable_ranges k ranges -> l_nspecies par = Z.of_nat k ->
  exists pg c A0 m0 na, 0 < c /\ A = mscale c A0 /\ mdet A0 <> 0 /\ (exists DL0, 0 < DL0 /\ tolerable (1 # 10000000000) DL0 A0 m0 /\ fine (1 # 10000000000) A0 /\ integer_rotations A0 /\ point_group (1 # 10000000000) DL0 A0 = Ok pg) /\
    (forall c, length c = k -> na c = map (fun _ => 0) c) /\
    setup_of par = Ok {| s_pg := pg; s_D := 1; s_bas := [(0, 0, 0)]; s_species := k; s_lo := lo; s_hi := hi; s_restricted := is_some ranges; s_concs := the_ranges ranges; s_arrows := false; s_na := na |}.
Proof.
  intros HD Hd Ht Hf Hi Hv Hb Hs Hr Har Hcs Hrs Hus Hk. destruct (concs_read _ _ _ Hrs Hcs) as [Ecs Elen]. destruct (least_terms DL A HD) as [c [A0 [Hcp [EDL [EA Em]]]]]. rewrite <- (lowest_same _ _ Hv) in *. set (vecs := lowest (l_vecs par)) in *.
  assert (mdet A0 <> 0) as Hd0 by (intros E; apply Hd; rewrite EA, det_scale, E; ring). pose proof (common_pos vecs) as Hp.
  assert (0 <= 1 # 10000000000)%Q as He by discriminate.
  rewrite EA in Ht. rewrite EDL in Ht at 1. destruct (tolerable_scale _ _ _ _ _ Hcp Ht) as [m0 Ht0]. rewrite EA in Hf, Hi. apply fine_scale in Hf; auto. apply rotations_scale in Hi; [|lia].
  destruct (C56_usable (1 # 10000000000) (common vecs) A0 m0) as [pg [Epg _]]; auto.
  exists pg, c, A0, m0, (displaced (repeat 0%Q k)). split; auto. split; auto. split; auto. split; [exists (common vecs); auto|]. split; [intros; apply none_displaced; auto|].
  unfold setup_of. fold vecs. rewrite Em. cbn [rbind]. rewrite Epg. cbn [rbind]. rewrite (lowest_same _ _ Hb). change (lowest [[0; 0; 0]]%Q) with [[0; 0; 0]]%Q. change (common [[0; 0; 0]]%Q) with 1.
  change (rmap (vec_over 1) [[0; 0; 0]]%Q) with (Ok [(0, 0, 0)]). cbn [rbind map]. rewrite origin_coords, Hs. change (zget [lo; hi] 0) with (Ok lo). change (zget [lo; hi] 1) with (Ok hi). cbn [rbind]. rewrite Ecs. cbn [rbind].
  rewrite gcd_origin by lia. rewrite Z.mul_1_r, Z.div_same, Z.div_0_l by lia.
  assert (get_arrow_concs par = repeat 0%Q k) as ->.
  { unfold get_arrow_concs. rewrite Hr, Hk, Nat2Z.id. destruct ranges as [l|]; cbn [is_some]; [|auto]. cbn [the_ranges usable_ranges] in *. destruct Hus as [<- _]. rewrite <- Elen, <- repeat_zero. apply map_ext. intros c0. rewrite Har, andb_false_r. auto. }
  rewrite Hr, Hk, Nat2Z.id. replace (Qeq_bool (fold_right Qplus 0%Q (repeat 0%Q k)) 0) with true by (symmetry; apply Qeq_bool_iff, no_fractions). reflexivity.
Qed.
