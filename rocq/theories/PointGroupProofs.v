(** Proofs about PointGroupModel.v. *)
From Coq Require Import QArith Qabs Lqa.
From Verif Require Import PyBase Mat3 ReduceModel ReduceSpec ReduceGauss ListFacts PointGroupModel PointGroupSpec.
Local Open Scope Z_scope.

Lemma vdot_sq_nonneg u : 0 <= vdot u u.
Proof. mat_destruct; cbn; nia. Qed.
Lemma cauchy u v : vdot u v * vdot u v <= vdot u u * vdot v v.
Proof. destruct u as [[a b] c], v as [[x y] z]. cbn. pose proof (Z.square_nonneg (a * y - b * x)). pose proof (Z.square_nonneg (a * z - c * x)). pose proof (Z.square_nonneg (b * z - c * y)). nia. Qed.

(** Coordinates by Cramer's rule. *)
Lemma coord_0 a b c x y z : vdot (comb3 (a, b, c) x y z) (cross b c) = x * mdet (a, b, c).
Proof. unfold comb3, cross. mat_destruct. mat_unfold. ring. Qed.
Lemma coord_1 a b c x y z : vdot (comb3 (a, b, c) x y z) (cross c a) = y * mdet (a, b, c).
Proof. unfold comb3, cross. mat_destruct. mat_unfold. ring. Qed.
Lemma coord_2 a b c x y z : vdot (comb3 (a, b, c) x y z) (cross a b) = z * mdet (a, b, c).
Proof. unfold comb3, cross. mat_destruct. mat_unfold. ring. Qed.

(** A tolerance that cannot make the box too small. *)
Definition box_ok (eps : Q) (D : Z) (A : mat) : Prop :=
  (0 <= eps)%Q /\ (3 * eps * eps * inject_Z (max_norm2 A) < inject_Z (D * D))%Q.

Lemma abs_le_sq a b : 0 <= b -> a * a <= b * b -> Z.abs a <= b.
Proof. intros Hb H. apply Z.abs_le. split; nia. Qed.
Lemma sum_sq v : let '(x, y, z) := v in (x + y + z) * (x + y + z) <= 3 * vdot v v.
Proof. destruct v as [[x y] z]. unfold vdot. pose proof (Z.square_nonneg (x - y)). pose proof (Z.square_nonneg (x - z)). pose proof (Z.square_nonneg (y - z)). nia. Qed.

Lemma sqrt_up_upper a : 0 <= a -> a <= Z.sqrt_up a * Z.sqrt_up a.
Proof. intros H. destruct (Z.eq_dec a 0) as [->|Hn]; [cbn; lia|]. apply (Z.sqrt_up_spec a). lia. Qed.
Lemma extent_bound eps D A w v i : 0 < D -> mdet A <> 0 -> box_ok eps D A -> nrm2 v <= max_norm2 A ->
  vdot v w = i * mdet A -> Z.abs i <= extent eps D A w.
Proof.
  intros HD Hdet [He Hb] Hv Hi. unfold extent.
  set (V := cell_volume A). set (q := Z.pos (Qden eps)). set (p := Qnum eps).
  assert (HV : 0 < V) by (unfold V, cell_volume; lia). assert (Hq : 0 < q) by (unfold q; lia).
  assert (Hp : 0 <= p) by (unfold p; unfold Qle in He; cbn in He; lia).
  destruct w as [[x y] z]. set (s := (x * D * q + p * V, y * D * q + p * V, z * D * q + p * V)).
  set (M := max_norm2 A) in *.
  assert (HM : 0 <= M) by (unfold nrm2 in Hv; pose proof (vdot_sq_nonneg v); lia).
  assert (Hb' : 3 * p * p * M < D * D * (q * q)).
  { unfold Qlt in Hb. cbn [Qnum Qden Qmult inject_Z] in Hb. fold p in Hb. unfold q. rewrite !Pos.mul_1_r, ?Pos2Z.inj_mul in Hb. lia. }
  set (r := Z.sqrt_up (M * nrm2 s)).
  pose proof (vdot_sq_nonneg s) as Hs.
  assert (Hr : 0 <= r) by apply Z.sqrt_up_nonneg.
  assert (Hr2 : M * nrm2 s <= r * r).
  { apply sqrt_up_upper. unfold nrm2; nia. }
  (* |v . s| <= r *)
  assert (Hvs : Z.abs (vdot v s) <= r).
  { apply abs_le_sq; auto. eapply Z.le_trans; [apply cauchy|]. unfold nrm2 in *. pose proof (vdot_sq_nonneg v). nia. }
  destruct v as [[v1 v2] v3].
  assert (Hdot : vdot (v1, v2, v3) s = D * q * (i * mdet A) + p * V * (v1 + v2 + v3)).
  { rewrite <- Hi. unfold s. cbn. ring. }
  (* p |sum v| < D q *)
  assert (Hsum : p * Z.abs (v1 + v2 + v3) < D * q).
  { pose proof (sum_sq (v1, v2, v3)) as Hss. cbn beta iota in Hss. unfold nrm2 in Hv.
    assert (Hq2 : (p * Z.abs (v1 + v2 + v3)) * (p * Z.abs (v1 + v2 + v3)) < (D * q) * (D * q)).
    { set (t := v1 + v2 + v3) in *. replace (p * Z.abs t * (p * Z.abs t)) with (p * p * (Z.abs t * Z.abs t)) by ring.
      rewrite Z.abs_square. nia. }
    nia. }
  assert (HiV : Z.abs (i * mdet A) = Z.abs i * V) by (unfold V, cell_volume; apply Z.abs_mul).
  assert (Hlow : D * q * (Z.abs i * V) - V * (D * q - 1) <= r).
  { eapply Z.le_trans; [|exact Hvs]. rewrite Hdot, <- HiV.
    assert (Z.abs (p * V * (v1 + v2 + v3)) <= V * (D * q - 1)) by (rewrite !Z.abs_mul, (Z.abs_eq p), (Z.abs_eq V) by lia; nia).
    assert (Z.abs (D * q * (i * mdet A)) = D * q * Z.abs (i * mdet A)) by (rewrite (Z.abs_mul (D * q)), (Z.abs_eq (D * q)) by nia; auto).
    lia. }
  assert (Hdiv : r <= - ((- r) / (V * D * q)) * (V * D * q)).
  { assert (P : 0 < V * D * q) by nia. pose proof (Z.mul_div_le (- r) (V * D * q) P). lia. }
  set (n := - ((- r) / (V * D * q))) in *. clearbody n. clear Hdot Hvs Hr2 Hs.
  assert (Z.abs i * (V * D * q) - V * D * q < n * (V * D * q)) by nia.
  assert (0 < V * D * q) by nia. nia.
Qed.

Lemma in_both_ways n x : In x (both_ways n) <-> Z.abs x <= n.
Proof.
  unfold both_ways. rewrite in_map_iff. split.
  - intros [k [<- Hk]]. apply in_seq in Hk. lia.
  - intros H. exists (Z.to_nat (x + n)). rewrite in_seq. split; lia.
Qed.
Lemma NoDup_both_ways n : NoDup (both_ways n).
Proof. apply NoDup_map_inj; [intros x y; lia|apply seq_NoDup]. Qed.

Lemma in_r_vecs eps D A v : 0 < D -> mdet A <> 0 -> box_ok eps D A -> in_rows A v -> nrm2 v <= max_norm2 A -> In v (r_vecs eps D A).
Proof.
  intros HD Hdet Hb [x [y [z E]]] Hv. destruct A as [[a b] c]. unfold r_vecs.
  apply in_flat_map. exists x. split; [apply in_both_ways; eapply extent_bound; eauto; rewrite E; apply coord_0|].
  apply in_flat_map. exists y. split; [apply in_both_ways; eapply extent_bound; eauto; rewrite E; apply coord_1|].
  apply in_flat_map. exists z. split; [apply in_both_ways; eapply extent_bound; eauto; rewrite E; apply coord_2|].
  cbn in E. rewrite <- E. rewrite norm_ge_true by auto. left; auto.
Qed.
Lemma r_vecs_rows eps D A v : In v (r_vecs eps D A) -> in_rows A v.
Proof.
  destruct A as [[a b] c]. unfold r_vecs. intros H. apply in_flat_map in H. destruct H as [x [_ H]]. apply in_flat_map in H. destruct H as [y [_ H]].
  apply in_flat_map in H. destruct H as [z [_ H]]. destruct (norm_ge _ _ _); [|destruct H]. destruct H as [<-|[]]. exists x, y, z. reflexivity.
Qed.
Lemma comb3_inj A x y z x' y' z' : mdet A <> 0 -> comb3 A x y z = comb3 A x' y' z' -> x = x' /\ y = y' /\ z = z'.
Proof.
  intros Hd E. destruct A as [[a b] c].
  pose proof (coord_0 a b c x y z) as H0. pose proof (coord_1 a b c x y z) as H1. pose proof (coord_2 a b c x y z) as H2.
  rewrite E in H0, H1, H2. rewrite coord_0 in H0. rewrite coord_1 in H1. rewrite coord_2 in H2.
  repeat split; symmetry; eapply Z.mul_reg_r; eauto.
Qed.
Lemma NoDup_flat_map_disj {X Y} (f : X -> list Y) l : NoDup l -> (forall x, In x l -> NoDup (f x)) ->
  (forall x x' y, In x l -> In x' l -> In y (f x) -> In y (f x') -> x = x') -> NoDup (flat_map f l).
Proof.
  induction l as [|x l IH]; intros Hl Hn Hd; cbn; [constructor|]. inversion Hl; subst. apply NoDup_app_intro.
  - apply Hn. left; auto.
  - apply IH; auto; [intros; apply Hn; right; auto|]. intros u u' y Hu Hu'. apply Hd; right; auto.
  - intros y Hy Hy'. apply in_flat_map in Hy'. destruct Hy' as [x' [Hx' Hy']]. assert (x = x') by (eapply Hd; eauto; [left; auto|right; auto]). subst. auto.
Qed.
Lemma NoDup_r_vecs eps D A : mdet A <> 0 -> NoDup (r_vecs eps D A).
Proof.
  intros Hd. unfold r_vecs. destruct A as [[a b] c].
  assert (K : forall x y z v, In v (if norm_ge (max_norm2 (a, b, c)) (nrm2 (vadd (vadd (vscale x a) (vscale y b)) (vscale z c))) (eps * inject_Z D) then [vadd (vadd (vscale x a) (vscale y b)) (vscale z c)] else []) -> v = comb3 (a, b, c) x y z).
  { intros x y z v H. destruct (norm_ge _ _ _); [|destruct H]. destruct H as [<-|[]]. reflexivity. }
  apply NoDup_flat_map_disj; [apply NoDup_both_ways| |].
  - intros x _. apply NoDup_flat_map_disj; [apply NoDup_both_ways| |].
    + intros y _. apply NoDup_flat_map_disj; [apply NoDup_both_ways| |].
      * intros z _. destruct (norm_ge _ _ _); repeat constructor; intros [].
      * intros z z' v _ _ H H'. apply K in H, H'. rewrite H in H'. apply comb3_inj in H'; auto. tauto.
    + intros y y' v _ _ H H'. apply in_flat_map in H, H'. destruct H as [z [_ H]], H' as [z' [_ H']].
      apply K in H, H'. rewrite H in H'. apply comb3_inj in H'; auto. tauto.
  - intros x x' v _ _ H H'. apply in_flat_map in H, H'. destruct H as [y [_ H]], H' as [y' [_ H']]. apply in_flat_map in H, H'. destruct H as [z [_ H]], H' as [z' [_ H']].
    apply K in H, H'. rewrite H in H'. apply comb3_inj in H'; auto. tauto.
Qed.

Lemma in_permutations3 n i j k : In (i, j, k) (permutations3 n) <-> (i < n /\ j < n /\ k < n)%nat /\ i <> j /\ i <> k /\ j <> k.
Proof.
  unfold permutations3. rewrite in_flat_map. split.
  - intros [a [Ha H]]. apply in_flat_map in H. destruct H as [b [Hb H]]. apply in_flat_map in H. destruct H as [c [Hc H]].
    apply in_seq in Ha, Hb, Hc. destruct (_ || _)%bool eqn:E; [destruct H|]. destruct H as [H|[]]. inversion H; subst.
    rewrite !orb_false_iff, !Nat.eqb_neq in E. lia.
  - intros [[Hi [Hj Hk]] [H1 [H2 H3]]]. exists i. split; [apply in_seq; lia|]. apply in_flat_map. exists j. split; [apply in_seq; lia|].
    apply in_flat_map. exists k. split; [apply in_seq; lia|]. apply Nat.eqb_neq in H1, H2, H3. rewrite H1, H2, H3. left; auto.
Qed.
Lemma NoDup_permutations3 n : NoDup (permutations3 n).
Proof.
  unfold permutations3.
  assert (K : forall i j k t, In t (if (i =? j)%nat || (i =? k)%nat || (j =? k)%nat then [] else [(i, j, k)]) -> t = (i, j, k)).
  { intros i j k t H. destruct (_ || _)%bool; [destruct H|]. destruct H as [<-|[]]; auto. }
  apply NoDup_flat_map_disj; [apply seq_NoDup| |].
  - intros x _. apply NoDup_flat_map_disj; [apply seq_NoDup| |].
    + intros y _. apply NoDup_flat_map_disj; [apply seq_NoDup| |].
      * intros z _. destruct (_ || _)%bool; repeat constructor; intros [].
      * intros z z' v _ _ H H'. apply K in H, H'. congruence.
    + intros y y' v _ _ H H'. apply in_flat_map in H, H'. destruct H as [z [_ H]], H' as [z' [_ H']]. apply K in H, H'. congruence.
  - intros x x' v _ _ H H'. apply in_flat_map in H, H'. destruct H as [y [_ H]], H' as [y' [_ H']]. apply in_flat_map in H, H'. destruct H as [z [_ H]], H' as [z' [_ H']].
    apply K in H, H'. congruence.
Qed.

(** ** Isometries of the lattice *)
Lemma row_times_comb3 N x y z : row_times (x, y, z) N = comb3 N x y z.
Proof. unfold row_times, comb3. mat_destruct. mat_unfold. repeat apply (f_equal2 pair); ring. Qed.
Lemma row_times_mmul v M N : row_times v (mmul M N) = row_times (row_times v M) N.
Proof. unfold row_times. mat_ring. Qed.
Lemma len2_row v N : len2 (row_times v N) = vdot v (mvec (mmul N (transpose N)) v).
Proof. unfold row_times, len2. mat_destruct. mat_unfold. ring. Qed.
Lemma vminus_comb3 N x y z x' y' z' : vminus (comb3 N x y z) (comb3 N x' y' z') = comb3 N (x - x') (y - y') (z - z').
Proof. unfold vminus, comb3. mat_destruct. mat_unfold. repeat apply (f_equal2 pair); ring. Qed.
Definition gram (N : mat) : mat := mmul N (transpose N).
Lemma gram_entries a b c : gram (a, b, c) = ((vdot a a, vdot a b, vdot a c), (vdot b a, vdot b b, vdot b c), (vdot c a, vdot c b, vdot c c)).
Proof. unfold gram. mat_ring. Qed.
Lemma len2_comb3 N x y z : len2 (comb3 N x y z) = vdot (x, y, z) (mvec (gram N) (x, y, z)).
Proof. rewrite <- row_times_comb3. apply len2_row. Qed.
Lemma len2_0 v : len2 v = 0 -> v = zero3.
Proof. destruct v as [[x y] z]. unfold len2, vdot, zero3. intros H. assert (x = 0 /\ y = 0 /\ z = 0) as [-> [-> ->]] by nia. reflexivity. Qed.
Lemma polar u v : 2 * vdot u v = len2 u + len2 v - len2 (vminus u v).
Proof. unfold len2, vminus. mat_destruct. unfold vdot. ring. Qed.
Lemma vminus_zero v : vminus v zero3 = v.
Proof. destruct v as [[x y] z]. unfold vminus, zero3. repeat apply (f_equal2 pair); ring. Qed.
Lemma vminus_eq u v : vminus u v = zero3 -> u = v.
Proof. destruct u as [[a b] c], v as [[x y] z]. unfold vminus, zero3. intros E. inversion E. repeat apply (f_equal2 pair); lia. Qed.
Lemma rows_zero A : in_rows A zero3.
Proof. exists 0, 0, 0. unfold comb3, zero3. mat_ring. Qed.
Lemma rows_basis a b c : in_rows (a, b, c) a /\ in_rows (a, b, c) b /\ in_rows (a, b, c) c.
Proof. split; [exists 1, 0, 0|split; [exists 0, 1, 0|exists 0, 0, 1]]; unfold comb3; mat_ring. Qed.

Lemma isometry_dot A f u v : lattice_isometry A f -> in_rows A u -> in_rows A v -> vdot (f u) (f v) = vdot u v.
Proof.
  intros [F0 [F1 F2]] Hu Hv.
  assert (L : forall w, in_rows A w -> len2 (f w) = len2 w).
  { intros w Hw. pose proof (F2 w zero3 Hw (rows_zero A)) as E. rewrite F0, !vminus_zero in E. auto. }
  pose proof (polar (f u) (f v)) as P. pose proof (polar u v) as P'. rewrite (F2 u v Hu Hv), !L in P by auto. lia.
Qed.
Lemma expand p u v w x y z : len2 (vminus p (comb3 (u, v, w) x y z)) =
  vdot p p - 2 * (x * vdot p u + y * vdot p v + z * vdot p w) + vdot (x, y, z) (mvec (gram (u, v, w)) (x, y, z)).
Proof. unfold len2, vminus, comb3, gram. mat_destruct. mat_unfold. ring. Qed.
Lemma isometry_linear A f : lattice_isometry A f -> let '(a, b, c) := A in
  gram (f a, f b, f c) = gram A /\ forall x y z, f (comb3 A x y z) = comb3 (f a, f b, f c) x y z.
Proof.
  destruct A as [[a b] c]. intros Hf. destruct (rows_basis a b c) as [Ha [Hb Hc]].
  assert (G : gram (f a, f b, f c) = gram (a, b, c)) by (rewrite !gram_entries, !(isometry_dot _ f _ _ Hf); auto).
  split; auto. intros x y z. apply vminus_eq, len2_0. set (p := comb3 (a, b, c) x y z).
  assert (Hp : in_rows (a, b, c) p) by (exists x, y, z; auto).
  rewrite expand, G, !(isometry_dot _ f _ _ Hf) by auto. rewrite <- expand. fold p.
  destruct p as [[p1 p2] p3]. unfold vminus, len2, vdot. ring.
Qed.

(** ** Gram matrices and the tests of the code *)
Lemma transpose_mmul M N : transpose (mmul M N) = mmul (transpose N) (transpose M).
Proof. mat_ring. Qed.
Lemma mdet_transpose M : mdet (transpose M) = mdet M.
Proof. mat_ring. Qed.
Lemma transpose_mscale k M : transpose (mscale k M) = mscale k (transpose M).
Proof. mat_ring. Qed.
Lemma mdet_madj M : mdet (madj M) = mdet M * mdet M.
Proof. mat_ring. Qed.
Lemma mdet_mscale k M : mdet (mscale k M) = k * k * k * mdet M.
Proof. mat_ring. Qed.
Lemma A_num A N : mmul A (rotation_num A N) = mscale (mdet A) N.
Proof. unfold rotation_num. rewrite <- mmul_assoc, madj_r, mscale_mmul_l, mmul_id_l. auto. Qed.
Lemma gram_num A N : gram N = gram A -> gram (rotation_num A N) = mscale (mdet A * mdet A) mid.
Proof.
  intros G. unfold gram, rotation_num. rewrite transpose_mmul, mmul_assoc, <- (mmul_assoc N). fold (gram N). rewrite G. unfold gram.
  rewrite (mmul_assoc A), <- mmul_assoc, madj_l, mscale_mmul_l, mmul_id_l, <- transpose_mmul, madj_l.
  rewrite transpose_mscale, mscale_mscale. reflexivity.
Qed.
Lemma num_gram A N : mdet A <> 0 -> gram (rotation_num A N) = mscale (mdet A * mdet A) mid -> gram N = gram A.
Proof.
  intros Hd G. apply (mscale_inj (mdet A * mdet A)); [nia|].
  transitivity (gram (mscale (mdet A) N)); [unfold gram; rewrite transpose_mscale, mscale_mmul_l, mscale_mmul_r, mscale_mscale; auto|].
  rewrite <- A_num. unfold gram in *. rewrite transpose_mmul, mmul_assoc, <- (mmul_assoc (rotation_num A N)), G, mscale_mmul_l, mmul_id_l, mscale_mmul_r. auto.
Qed.
Lemma gram_det N A : gram N = gram A -> Z.abs (mdet N) = Z.abs (mdet A).
Proof.
  intros G. apply (f_equal mdet) in G. unfold gram in G. rewrite !mdet_mmul, !mdet_transpose in G. nia.
Qed.
Lemma entries_close d T : 0 < d -> forall eps, (eps * inject_Z d < 1)%Q ->
  forallb (fun '(x, y) => Qle_bool (inject_Z (Z.abs (x - d * y))) (eps * inject_Z d)) (combine (entries T) (entries mid)) = true -> T = mscale d mid.
Proof.
  intros Hd eps He H.
  assert (K : forall x y, Qle_bool (inject_Z (Z.abs (x - d * y))) (eps * inject_Z d) = true -> x = d * y).
  { intros x y E. apply Qle_bool_iff in E. assert (inject_Z (Z.abs (x - d * y)) < inject_Z 1)%Q as L by (eapply Qle_lt_trans; [exact E|exact He]).
    rewrite <- Zlt_Qlt in L. lia. }
  destruct T as [[[[a b] c] [[e f] g]] [[h i] j]]. cbn [entries mid combine forallb] in H. rewrite !andb_true_iff in H.
  destruct H as [H1 [H2 [H3 [H4 [H5 [H6 [H7 [H8 [H9 _]]]]]]]]]. apply K in H1, H2, H3, H4, H5, H6, H7, H8, H9. subst. reflexivity.
Qed.
Lemma entries_exact d T eps : 0 <= d -> (0 <= eps)%Q -> T = mscale d mid ->
  forallb (fun '(x, y) => Qle_bool (inject_Z (Z.abs (x - d * y))) (eps * inject_Z d)) (combine (entries T) (entries mid)) = true.
Proof.
  intros Hd He ->.
  assert (K : forall x y, x = d * y -> Qle_bool (inject_Z (Z.abs (x - d * y))) (eps * inject_Z d) = true).
  { intros x y ->. rewrite Z.sub_diag. apply Qle_bool_iff. cbn [Z.abs]. apply Qmult_le_0_compat; auto. rewrite <- (Zle_Qle 0). auto. }
  cbn [mscale mid vscale entries combine forallb]. rewrite !K by ring. reflexivity.
Qed.

(** ** What is returned *)
Definition triple (rs : list vec) (t : nat * nat * nat) : mat := let '(i, j, k) := t in (nth i rs (0, 0, 0), nth j rs (0, 0, 0), nth k rs (0, 0, 0)).
Definition passes (eps : Q) (D : Z) (A N : mat) : bool := candidate eps D A N && orthogonal_within eps (mdet A) (rotation_num A N).
Definition images (eps : Q) (D : Z) (A : mat) : list mat :=
  filter (passes eps D A) (map (triple (r_vecs eps D A)) (permutations3 (length (r_vecs eps D A)))).
Lemma pointGroup_images eps D A : mdet A <> 0 -> get_lattice_pointGroup eps D A = Ok (map (rotation_num A) (images eps D A)).
Proof. intros H. unfold get_lattice_pointGroup. apply Z.eqb_neq in H. rewrite H. reflexivity. Qed.
Lemma in_images_elim eps D A u v w : In (u, v, w) (images eps D A) ->
  passes eps D A (u, v, w) = true /\ in_rows A u /\ in_rows A v /\ in_rows A w.
Proof.
  unfold images. intros H. apply filter_In in H. destruct H as [H Hp]. split; auto. apply in_map_iff in H. destruct H as [[[i j] k] [E H]].
  apply in_permutations3 in H. destruct H as [[Hi [Hj Hk]] _]. cbn in E. inversion E; subst.
  split; [|split]; apply (r_vecs_rows eps D A); apply nth_In; auto.
Qed.
Lemma in_images_intro eps D A u v w : In u (r_vecs eps D A) -> In v (r_vecs eps D A) -> In w (r_vecs eps D A) -> u <> v -> u <> w -> v <> w ->
  passes eps D A (u, v, w) = true -> In (u, v, w) (images eps D A).
Proof.
  intros Hu Hv Hw H1 H2 H3 Hp. unfold images. apply filter_In. split; auto.
  apply In_nth with (d := (0, 0, 0)) in Hu, Hv, Hw. destruct Hu as [i [Hi Eu]], Hv as [j [Hj Ev]], Hw as [k [Hk Ew]].
  apply in_map_iff. exists (i, j, k). split; [cbn; congruence|]. apply in_permutations3. split; auto. repeat split; intros ->; congruence.
Qed.
Lemma NoDup_images eps D A : mdet A <> 0 -> NoDup (images eps D A).
Proof.
  intros Hd. apply NoDup_filter. pose proof (NoDup_r_vecs eps D A Hd) as Hn. set (rs := r_vecs eps D A) in *.
  assert (K : forall l, NoDup l -> (forall t, In t l -> In t (permutations3 (length rs))) -> NoDup (map (triple rs) l)).
  { induction l as [|t l IH]; intros Hl Hs; cbn; constructor; inversion Hl; subst.
    - intros Hin. apply in_map_iff in Hin. destruct Hin as [t' [E Ht']]. apply H1. destruct t as [[i j] k], t' as [[i' j'] k'].
      assert (In (i, j, k) (permutations3 (length rs))) as B by (apply Hs; left; auto). assert (In (i', j', k') (permutations3 (length rs))) as B' by (apply Hs; right; auto).
      apply in_permutations3 in B, B'. destruct B as [[B1 [B2 B3]] _], B' as [[B1' [B2' B3']] _].
      cbn in E. injection E as E1 E2 E3. rewrite NoDup_nth with (d := (0, 0, 0)) in Hn. apply Hn in E1, E2, E3; auto. subst. auto.
    - apply IH; auto. intros; apply Hs; right; auto. }
  apply K; auto. apply NoDup_permutations3.
Qed.
Lemma rotation_num_inj A N N' : mdet A <> 0 -> rotation_num A N = rotation_num A N' -> N = N'.
Proof. intros Hd. apply mmul_cancel_l. rewrite mdet_madj. nia. Qed.

(** Triples of lattice vectors with the Gram matrix of the basis are found... *)
Lemma gram_found eps D A u v w : 0 < D -> mdet A <> 0 -> box_ok eps D A -> gram (u, v, w) = gram A -> in_rows A u -> in_rows A v -> in_rows A w ->
  In (u, v, w) (images eps D A).
Proof.
  intros HD Hd Hb G Hu Hv Hw. destruct A as [[a b] c]. pose proof G as G'. rewrite !gram_entries in G'. injection G' as L1 X1 X2 X3 L2 X4 X5 X6 L3.
  assert (Hdet : mdet (u, v, w) <> 0) by (apply gram_det in G; lia).
  assert (He : (0 <= eps)%Q) by apply Hb.
  apply in_images_intro.
  1-3: apply in_r_vecs; auto; unfold max_norm2, nrm2; lia.
  1-3: intros ->; apply Hdet; clear; mat_destruct; unfold mdet; ring.
  unfold passes. apply andb_true_iff. split.
  - unfold candidate, same_length, nrm2. rewrite L1, L2, L3, !norm_ge_true by lia. cbn [andb]. unfold cell_volume. rewrite (gram_det _ _ G), Z.sub_diag.
    apply Qle_bool_iff. cbn [Z.abs]. apply Qmult_le_0_compat; auto. rewrite <- (Zle_Qle 0). nia.
  - unfold orthogonal_within. apply entries_exact; auto; [nia|]. apply gram_num. auto.
Qed.
(** ... and nothing else is, if the tolerance is small. *)
Lemma found_gram eps D A u v w : mdet A <> 0 -> (eps * inject_Z (mdet A * mdet A) < 1)%Q -> In (u, v, w) (images eps D A) -> gram (u, v, w) = gram A.
Proof.
  intros Hd He H. apply in_images_elim in H. destruct H as [Hp _]. unfold passes in Hp. apply andb_true_iff in Hp. destruct Hp as [_ Hp].
  unfold orthogonal_within in Hp. apply entries_close with (eps := eps) in Hp; auto; [|nia]. apply num_gram; auto.
Qed.
