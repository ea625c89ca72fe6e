(** Proofs about the Hermite normal forms. *)
From Coq Require Import Permutation.
From Verif Require Import PyBase Spec ListFacts TransFacts TreeSearch Mat3 HNFModel.
Local Open Scope Z_scope.

(** ** C16 *)
Definition is_HNF (n : Z) (H : mat) : Prop :=
  exists a b c d e f, H = ((a, 0, 0), (b, c, 0), (d, e, f)) /\
    0 < a /\ 0 <= b < c /\ 0 <= d < f /\ 0 <= e < f /\ a * c * f = n.

Lemma in_diagonals n a c f : In (a, c, f) (get_HNF_diagonals n) <-> 0 < a /\ 0 < c /\ 0 < f /\ a * c * f = n.
Proof.
  unfold get_HNF_diagonals. rewrite in_flat_map. split.
  - intros [i [Hi H]]. apply in_range_up in Hi. destruct (Z.eqb_spec (n mod i) 0); [|destruct H]. cbn [negb] in H.
    apply in_flat_map in H. destruct H as [j [Hj H]]. apply in_range_up in Hj.
    destruct (Z.eqb_spec ((n / i) mod j) 0); [|destruct H]. cbn in H. destruct H as [H|[]]. injection H as <- <- <-.
    assert (n = i * (n / i)) as E1 by (apply Z_div_exact_full_2; lia).
    assert (n / i = j * (n / i / j)) as E2 by (apply Z_div_exact_full_2; lia).
    set (q := n / i) in *. set (r := q / j) in *. assert (0 < r) by nia. repeat split; try lia; nia.
  - intros [Ha [Hc [Hf E]]].
    assert (0 < c * f) by nia. assert (a <= n) by nia.
    exists a. split; [apply in_range_up; lia|].
    assert (n = c * f * a) as -> by lia. rewrite Z.mod_mul, Z.div_mul by lia. cbn [negb Z.eqb].
    apply in_flat_map. exists c. split; [apply in_range_up; nia|].
    rewrite (Z.mul_comm c f), Z.mod_mul, Z.div_mul by lia. cbn. auto.
Qed.
Lemma in_find_all n H : In H (find_all_HNFs n) <-> is_HNF n H.
Proof.
  unfold find_all_HNFs. rewrite in_flat_map. split.
  - intros [[[a c] f] [Hd Hin]]. apply in_diagonals in Hd.
    apply in_flat_map in Hin. destruct Hin as [b [Hb Hin]]. apply in_flat_map in Hin. destruct Hin as [d [Hd' Hin]].
    apply in_map_iff in Hin. destruct Hin as [e [<- He]].
    apply in_range_up in Hb. apply in_range_up in Hd'. apply in_range_up in He.
    exists a, b, c, d, e, f. repeat split; try lia.
  - intros [a [b [c [d [e [f [-> [Ha [Hb [Hd [He E]]]]]]]]]]].
    exists (a, c, f). split; [apply in_diagonals; repeat split; lia|].
    apply in_flat_map. exists b. split; [apply in_range_up; lia|].
    apply in_flat_map. exists d. split; [apply in_range_up; lia|].
    apply in_map_iff. exists e. split; auto. apply in_range_up; lia.
Qed.
Lemma NoDup_diagonals n : NoDup (get_HNF_diagonals n).
Proof.
  unfold get_HNF_diagonals. apply NoDup_flat_map.
  - apply NoDup_range_up.
  - intros i _. destruct (negb _); [constructor|]. apply NoDup_flat_map.
    + apply NoDup_range_up.
    + intros j _. destruct (negb _); repeat constructor; cbn; tauto.
    + intros j k x _ _ H1 H2. destruct (negb (_ mod j =? 0)); [destruct H1|]. destruct (negb (_ mod k =? 0)); [destruct H2|].
      cbn in H1, H2. destruct H1 as [<-|[]]. destruct H2 as [H2|[]]. congruence.
  - intros i k x _ _ H1 H2. destruct (negb (_ mod i =? 0)); [destruct H1|]. destruct (negb (_ mod k =? 0)); [destruct H2|].
    apply in_flat_map in H1. destruct H1 as [j [_ H1]]. apply in_flat_map in H2. destruct H2 as [l [_ H2]].
    destruct (negb _); [destruct H1|]. destruct (negb _); [destruct H2|]. destruct H1 as [<-|[]]. destruct H2 as [H2|[]]. congruence.
Qed.
Lemma NoDup_find_all n : NoDup (find_all_HNFs n).
Proof.
  unfold find_all_HNFs. apply NoDup_flat_map.
  - apply NoDup_diagonals.
  - intros [[a c] f] _. apply NoDup_flat_map; [apply NoDup_range_up| |].
    + intros b _. apply NoDup_flat_map; [apply NoDup_range_up| |].
      * intros d _. apply NoDup_map_inj; [|apply NoDup_range_up]. intros; congruence.
      * intros x y z _ _ H1 H2. apply in_map_iff in H1. apply in_map_iff in H2.
        destruct H1 as [? [<- _]]. destruct H2 as [? [E _]]. congruence.
    + intros x y z _ _ H1 H2. apply in_flat_map in H1. apply in_flat_map in H2.
      destruct H1 as [? [_ H1]]. destruct H2 as [? [_ H2]]. apply in_map_iff in H1. apply in_map_iff in H2.
      destruct H1 as [? [<- _]]. destruct H2 as [? [E _]]. congruence.
  - intros [[a c] f] [[a' c'] f'] z _ _ H1 H2. apply in_flat_map in H1. apply in_flat_map in H2.
    destruct H1 as [? [_ H1]]. destruct H2 as [? [_ H2]]. apply in_flat_map in H1. apply in_flat_map in H2.
    destruct H1 as [? [_ H1]]. destruct H2 as [? [_ H2]]. apply in_map_iff in H1. apply in_map_iff in H2.
    destruct H1 as [? [<- _]]. destruct H2 as [? [E _]]. congruence.
Qed.

(** ** C17: existence *)
Lemma bezout x y : exists p q r s, p * s - q * r = 1 /\ q * x + s * y = 0.
Proof.
  destruct (Z.eq_dec (Z.gcd x y) 0) as [E|E].
  - exists 1, 0, 0, 1. apply Z.gcd_eq_0 in E. lia.
  - destruct (Z.gcd_bezout x y (Z.gcd x y) eq_refl) as [p [r Hb]].
    destruct (Z.gcd_divide_l x y) as [s Hs]. destruct (Z.gcd_divide_r x y) as [q Hq].
    set (g := Z.gcd x y) in *.
    exists p, (- q), r, s. split.
    + assert (g * (p * s + q * r - 1) = 0) by (rewrite Hs, Hq in Hb; nia). nia.
    + nia.
Qed.
Lemma zero01 M : exists N, same_lattice N M /\ mget N 0 1 = 0.
Proof.
  destruct M as [[[[a b] c] r1] r2]. destruct (bezout a b) as [p [q [r [s [H1 H2]]]]].
  exists (mmul (((a, b, c), r1), r2) ((p, q, 0), (r, s, 0), (0, 0, 1))). split.
  - apply same_lattice_mmul_r. left. mat_unfold. lia.
  - cbv [vec] in r1, r2. destruct r1 as [[? ?] ?], r2 as [[? ?] ?]. mat_unfold. nia.
Qed.
Lemma zero02 M : mget M 0 1 = 0 -> exists N, same_lattice N M /\ mget N 0 1 = 0 /\ mget N 0 2 = 0.
Proof.
  destruct M as [[[[a b] c] r1] r2]. intros E. change (b = 0) in E. subst b.
  destruct (bezout a c) as [p [q [r [s [H1 H2]]]]].
  exists (mmul (((a, 0, c), r1), r2) ((p, 0, q), (0, 1, 0), (r, 0, s))). split.
  - apply same_lattice_mmul_r. left. mat_unfold. lia.
  - cbv [vec] in r1, r2. destruct r1 as [[? ?] ?], r2 as [[? ?] ?]. mat_unfold. split; nia.
Qed.
Lemma zero12 M : mget M 0 1 = 0 -> mget M 0 2 = 0 ->
  exists N, same_lattice N M /\ mget N 0 1 = 0 /\ mget N 0 2 = 0 /\ mget N 1 2 = 0.
Proof.
  destruct M as [[[[a b] c] [[x y] z]] r2]. intros E F. change (b = 0) in E. change (c = 0) in F. subst b c.
  destruct (bezout y z) as [p [q [r [s [H1 H2]]]]].
  exists (mmul (((a, 0, 0), (x, y, z)), r2) ((1, 0, 0), (0, p, q), (0, r, s))). split.
  - apply same_lattice_mmul_r. left. mat_unfold. lia.
  - cbv [vec] in r2. destruct r2 as [[? ?] ?]. mat_unfold. repeat split; nia.
Qed.

Lemma sgn_unit z : z <> 0 -> Z.sgn z = 1 \/ Z.sgn z = -1.
Proof. destruct z; cbn; auto; lia. Qed.

Theorem HNF_exists n M : 0 < n -> Z.abs (mdet M) = n -> exists H, is_HNF n H /\ same_lattice H M.
Proof.
  intros Hn Hd.
  destruct (zero01 M) as [N1 [S1 E1]]. destruct (zero02 N1 E1) as [N2 [S2 [E2 E3]]].
  destruct (zero12 N2 E2 E3) as [N [S3 [F1 [F2 F3]]]].
  assert (same_lattice N M) as S by (eapply same_lattice_trans; [|eapply same_lattice_trans]; eauto).
  assert (Z.abs (mdet N) = n) as HN.
  { rewrite <- Hd. apply same_lattice_det; auto. lia. }
  clear S1 S2 S3 E1 E2 E3 N1 N2. destruct N as [[[[a x] y] [[b c] z]] [[d e] f]].
  change (x = 0) in F1. change (y = 0) in F2. change (z = 0) in F3. subst x y z.
  assert (Z.abs (a * c * f) = n) as HN'. { rewrite <- HN. f_equal. cbn -[Z.mul Z.add Z.sub]. ring. } clear HN.
  assert (a <> 0 /\ c <> 0 /\ f <> 0) as [Ha [Hc Hf]] by (repeat split; intros ->; lia).
  set (U := ((Z.sgn a, 0, 0), (0, Z.sgn c, 0), (0, 0, Z.sgn f)) : mat).
  set (a1 := Z.abs a). set (c1 := Z.abs c). set (f1 := Z.abs f).
  assert (0 < a1 /\ 0 < c1 /\ 0 < f1) as [Ha1 [Hc1 Hf1]] by lia.
  assert (a1 * c1 * f1 = n) as Hdet by (unfold a1, c1, f1; rewrite <- !Z.abs_mul; auto).
  set (b1 := b * Z.sgn a). set (d1 := d * Z.sgn a). set (e1 := e * Z.sgn c).
  (* after the sign change *)
  assert (same_lattice ((a1, 0, 0), (b1, c1, 0), (d1, e1, f1)) M) as S1.
  { eapply same_lattice_trans; [|exact S].
    replace ((a1, 0, 0), (b1, c1, 0), (d1, e1, f1)) with (mmul ((a, 0, 0), (b, c, 0), (d, e, f)) U).
    - apply same_lattice_mmul_r. unfold unimodular, U.
      destruct (sgn_unit a Ha) as [->| ->], (sgn_unit c Hc) as [->| ->], (sgn_unit f Hf) as [->| ->]; cbn; auto.
    - unfold U, a1, b1, c1, d1, e1, f1. rewrite <- !Z.sgn_abs. mat_ring. }
  (* reduce the off-diagonal entries *)
  set (q := b1 / c1). set (s := e1 / f1). set (d2 := d1 - q * e1). set (e2 := e1 - s * f1).
  set (t := (d2 + 0) / f1).
  exists ((a1, 0, 0), (b1 - q * c1, c1, 0), (d2 - t * f1, e2, f1)). split.
  - exists a1, (b1 - q * c1), c1, (d2 - t * f1), e2, f1.
    pose proof (Z.mod_pos_bound b1 c1 Hc1). pose proof (Z.mod_pos_bound e1 f1 Hf1).
    pose proof (Z.mod_pos_bound d2 f1 Hf1).
    rewrite Z.mod_eq in H, H0, H1 by lia. unfold e2, t, q, s in *. rewrite Z.add_0_r in *.
    repeat split; auto; try lia.
  - eapply same_lattice_trans; [|exact S1].
    replace ((a1, 0, 0), (b1 - q * c1, c1, 0), (d2 - t * f1, e2, f1)) with
      (mmul ((a1, 0, 0), (b1, c1, 0), (d1, e1, f1)) ((1, 0, 0), (- q, 1, 0), (- t, - s, 1))).
    + apply same_lattice_mmul_r. left. cbn -[Z.mul Z.add Z.sub Z.opp]. ring.
    + unfold d2, e2. clearbody a1 b1 c1 d1 e1 f1 q s t. mat_ring.
Qed.

(** uniqueness *)
Lemma pos_div_eq x y : 0 < x -> 0 < y -> (x | y) -> (y | x) -> x = y.
Proof. intros Hx Hy H1 H2. apply Z.divide_antisym_nonneg; lia || auto. Qed.
Lemma small_div x y c : 0 <= x < c -> 0 <= y < c -> (c | x - y) -> x = y.
Proof. intros Hx Hy [k Hk]. assert (k = 0) by nia. subst. lia. Qed.

Theorem HNF_unique n H H' : is_HNF n H -> is_HNF n H' -> same_lattice H H' -> H = H'.
Proof.
  intros [a [b [c [d [e [f [-> [Ha [Hb [Hd [He E]]]]]]]]]]] [a' [b' [c' [d' [e' [f' [-> [Ha' [Hb' [Hd' [He' E']]]]]]]]]]] S.
  assert (forall v, in_lattice ((a, 0, 0), (b, c, 0), (d, e, f)) v -> in_lattice ((a', 0, 0), (b', c', 0), (d', e', f')) v) as S1 by (intros v; apply S).
  assert (forall v, in_lattice ((a', 0, 0), (b', c', 0), (d', e', f')) v -> in_lattice ((a, 0, 0), (b, c, 0), (d, e, f)) v) as S2 by (intros v; apply S).
  clear S.
  assert (forall a b c d e f x y z, in_lattice ((a, 0, 0), (b, c, 0), (d, e, f)) (x, y, z) <->
            exists k l m, x = a * k /\ y = b * k + c * l /\ z = d * k + e * l + f * m) as L.
  { clear. intros. unfold in_lattice. split.
    - intros [[[k l] m] Hk]. cbn -[Z.mul Z.add] in Hk. injection Hk as -> -> ->. exists k, l, m. repeat split; ring.
    - intros [k [l [m [-> [-> ->]]]]]. exists (k, l, m). mat_ring. }
  assert (a = a').
  { apply pos_div_eq; auto.
    - destruct (proj1 (L _ _ _ _ _ _ _ _ _) (S2 (a', b', d') ltac:(apply L; exists 1, 0, 0; lia))) as [k [_ [_ [-> _]]]]. exists k; lia.
    - destruct (proj1 (L _ _ _ _ _ _ _ _ _) (S1 (a, b, d) ltac:(apply L; exists 1, 0, 0; lia))) as [k [_ [_ [-> _]]]]. exists k; lia. }
  subst a'.
  assert (c = c').
  { apply pos_div_eq; try lia.
    - destruct (proj1 (L _ _ _ _ _ _ _ _ _) (S2 (0, c', e') ltac:(apply L; exists 0, 1, 0; lia))) as [k [l [_ [Hk [Hl _]]]]].
      assert (k = 0) by nia. subst k. exists l; lia.
    - destruct (proj1 (L _ _ _ _ _ _ _ _ _) (S1 (0, c, e) ltac:(apply L; exists 0, 1, 0; lia))) as [k [l [_ [Hk [Hl _]]]]].
      assert (k = 0) by nia. subst k. exists l; lia. }
  subst c'. assert (f = f') by (apply (Z.mul_reg_l f f' (a * c)); nia). subst f'.
  assert (e = e').
  { destruct (proj1 (L _ _ _ _ _ _ _ _ _) (S1 (0, c, e) ltac:(apply L; exists 0, 1, 0; lia))) as [k [l [m [Hk [Hl Hm]]]]].
    assert (k = 0) by nia. subst k. assert (l = 1) by nia. subst l. apply (small_div e e' f); auto. exists m; lia. }
  subst e'.
  destruct (proj1 (L _ _ _ _ _ _ _ _ _) (S1 (a, b, d) ltac:(apply L; exists 1, 0, 0; lia))) as [k [l [m [Hk [Hl Hm]]]]].
  assert (k = 1) by nia. subst k.
  assert (b = b') by (apply (small_div b b' c); auto; exists l; lia). subst b'.
  assert (l = 0) by nia. subst l.
  assert (d = d') by (apply (small_div d d' f); auto; exists m; lia). subst d'. auto.
Qed.

(** ** C18 *)
Lemma vget_all (P : Z -> Prop) (v : vec) : (forall j, (j < 3)%nat -> P (vget v j)) <->
  P (fst (fst v)) /\ P (snd (fst v)) /\ P (snd v).
Proof.
  destruct v as [[x y] z]. cbn [fst snd]. split.
  - intros H. split; [apply (H 0%nat); lia|]. split; [apply (H 1%nat); lia|apply (H 2%nat); lia].
  - intros [H1 [H2 H3]] [|[|[|j]]] Hj; auto; lia.
Qed.
Lemma mat_divide d N : (forall i j, (i < 3)%nat -> (j < 3)%nat -> (d | mget N i j)) -> exists S, N = mscale d S.
Proof.
  intros H.
  assert (forall v : vec, (forall j, (j < 3)%nat -> (d | vget v j)) -> exists w, v = vscale d w) as Hv.
  { intros v Hv. apply vget_all in Hv. destruct v as [[x y] z]. cbn [fst snd] in Hv.
    destruct Hv as [[p ->] [[q ->] [r ->]]]. exists (p, q, r). mat_ring. }
  destruct N as [[r s] t].
  destruct (Hv r) as [r' ->]. { intros j Hj. apply (H 0%nat j); lia. }
  destruct (Hv s) as [s' ->]. { intros j Hj. apply (H 1%nat j); lia. }
  destruct (Hv t) as [t' ->]. { intros j Hj. apply (H 2%nat j); lia. }
  exists ((r', s'), t'). reflexivity.
Qed.
Lemma mget_mscale k M i j : mget (mscale k M) i j = k * mget M i j.
Proof. destruct M as [[[[? ?] ?] [[? ?] ?]] [[? ?] ?]]. destruct i as [|[|i]], j as [|[|j]]; reflexivity. Qed.

Lemma is_equiv_lattice_spec l1 l2 : mdet l1 <> 0 ->
  is_equiv_lattice l1 l2 = true <-> same_lattice l1 l2.
Proof.
  intros H1. unfold is_equiv_lattice. rewrite andb_true_iff, Z.eqb_eq. split.
  - intros [Hd Hf].
    destruct (mat_divide (mdet l1) (mmul (madj l1) l2)) as [S HS].
    { intros i j Hi Hj. rewrite forallb_forall in Hf.
      assert (In i [0; 1; 2]%nat) as Ii by (cbn; lia). assert (In j [0; 1; 2]%nat) as Ij by (cbn; lia).
      specialize (Hf i Ii). cbv beta in Hf. rewrite forallb_forall in Hf. specialize (Hf j Ij).
      apply Z.eqb_eq, Z.mod_divide in Hf; auto. }
    assert (l2 = mmul l1 S) as E.
    { apply (mscale_inj (mdet l1)); auto. rewrite <- mscale_mmul_r, <- HS, <- mmul_assoc, madj_r, mscale_mmul_l, mmul_id_l. auto. }
    apply same_lattice_sym. rewrite E. apply same_lattice_mmul_r.
    rewrite E, mdet_mmul, Z.abs_mul in Hd. assert (Z.abs (mdet S) = 1) by nia. unfold unimodular. lia.
  - intros H. apply same_lattice_sym in H. split.
    + symmetry. apply same_lattice_det; auto.
    + apply same_lattice_unimodular in H; auto. destruct H as [U [HU ->]].
      rewrite <- mmul_assoc, madj_l, mscale_mmul_l, mmul_id_l.
      apply forallb_forall. intros i _. apply forallb_forall. intros j _. rewrite mget_mscale.
      apply Z.eqb_eq. rewrite Z.mul_comm. apply Z.mod_mul; auto.
Qed.

Lemma unimodular_det r : unimodular r -> mdet r <> 0.
Proof. intros [->| ->]; lia. Qed.
Lemma mdet_rot r M : unimodular r -> mdet M <> 0 -> mdet (mmul r M) <> 0.
Proof. intros Hr HM. rewrite mdet_mmul. pose proof (unimodular_det r Hr). nia. Qed.

Section Dedupe.
  Variable rots : list mat.
  Hypothesis rots_uni : forall r, In r rots -> unimodular r.

  Lemma is_duplicate_spec us h : mdet h <> 0 ->
    is_duplicate rots us h = true <-> exists u, In u us /\ image_of rots u h.
  Proof.
    intros Hh. unfold is_duplicate, image_of. rewrite existsb_exists. split.
    - intros [u [Hu H]]. apply existsb_exists in H. destruct H as [r [Hr H]].
      exists u. split; auto. exists r. split; auto. apply is_equiv_lattice_spec; auto. apply mdet_rot; auto.
    - intros [u [Hu [r [Hr H]]]]. exists u. split; auto. apply existsb_exists. exists r. split; auto.
      apply is_equiv_lattice_spec; auto. apply mdet_rot; auto.
  Qed.

  Definition dedupe_fold hs us := fold_left (fun u h => if is_duplicate rots u h then u else u ++ [h]) hs us.
  Lemma dedupe_cons h hs us : dedupe_fold (h :: hs) us = dedupe_fold hs (if is_duplicate rots us h then us else us ++ [h]).
  Proof. reflexivity. Qed.
  Lemma dedupe_app hs us : exists new, dedupe_fold hs us = us ++ new /\ subseq new hs.
  Proof.
    revert us; induction hs as [|h hs IH]; intros us; [|rewrite dedupe_cons].
    - exists []. cbn. rewrite app_nil_r. split; auto. constructor.
    - destruct (is_duplicate rots us h).
      + destruct (IH us) as [new [-> Hn]]. exists new. split; auto. constructor; auto.
      + destruct (IH (us ++ [h])) as [new [-> Hn]]. exists (h :: new). rewrite <- app_assoc. split; auto. apply sub_keep; auto.
  Qed.
  Lemma dedupe_covers hs : (forall h, In h hs -> mdet h <> 0) -> In mid rots -> forall us,
    (forall h, In h hs -> exists u, In u (dedupe_fold hs us) /\ image_of rots u h) .
  Proof.
    intros Hd Hid. induction hs as [|h hs IH]; intros us g Hg; [destruct Hg|].
    destruct Hg as [<-|Hg].
    - rewrite dedupe_cons. destruct (is_duplicate rots us h) eqn:E.
      + apply is_duplicate_spec in E; [|apply Hd; cbn; auto]. destruct E as [u [Hu Hi]].
        destruct (dedupe_app hs us) as [new [-> _]]. exists u. split; auto. apply in_or_app; auto.
      + destruct (dedupe_app hs (us ++ [h])) as [new [-> _]]. exists h.
        split; [apply in_or_app; left; apply in_or_app; cbn; auto|].
        exists mid. split; auto. rewrite mmul_id_l. apply same_lattice_refl.
    - rewrite dedupe_cons. apply IH; auto. intros; apply Hd; cbn; auto.
  Qed.
  Lemma dedupe_distinct hs : (forall h, In h hs -> mdet h <> 0) -> forall us,
    ForallOrdPairs (fun a b => ~ image_of rots a b) us ->
    ForallOrdPairs (fun a b => ~ image_of rots a b) (dedupe_fold hs us).
  Proof.
    intros Hd. induction hs as [|h hs IH]; intros us Hus; auto. rewrite dedupe_cons.
    assert (forall g, In g hs -> mdet g <> 0) as Hd' by (intros; apply Hd; cbn; auto).
    destruct (is_duplicate rots us h) eqn:E; apply IH; auto.
    apply FOP_app. split; auto. split; [repeat constructor|]. intros a b Ha [<-|[]] Hi.
    assert (is_duplicate rots us h = true) by (apply is_duplicate_spec; [apply Hd; cbn; auto|eauto]). congruence.
  Qed.
End Dedupe.

Lemma subseq_refl {A} (l : list A) : subseq l l.
Proof. induction l; [constructor|apply sub_keep; auto]. Qed.
Lemma subseq_In {A} (l m : list A) : subseq l m -> forall x, In x l -> In x m.
Proof. induction 1; intros z Hz; cbn in *; auto. destruct Hz; auto. Qed.

Lemma image_of_sym rots A B : mat_group rots -> image_of rots A B -> image_of rots B A.
Proof.
  intros [_ [_ [_ Hinv]]] [r [Hr H]]. destruct (Hinv r Hr) as [s [Hs [E1 E2]]]. exists s. split; auto.
  apply (same_lattice_map s) in H. rewrite <- mmul_assoc, E2, mmul_id_l in H. apply same_lattice_sym; auto.
Qed.
Lemma image_of_trans rots A B C : mat_group rots -> image_of rots B A -> image_of rots C B -> image_of rots C A.
Proof.
  intros [_ [Hc _]] [r [Hr H]] [s [Hs K]]. exists (mmul s r). split; auto.
  rewrite mmul_assoc. eapply same_lattice_trans; [apply same_lattice_map; eauto|]; auto.
Qed.

Theorem unique_HNFs_transversal rots hnfs : mat_group rots -> (forall h, In h hnfs -> mdet h <> 0) ->
  subseq (unique_HNFs rots hnfs) hnfs /\
  transversal (fun h => In h hnfs) (fun x y => image_of rots y x) (unique_HNFs rots hnfs).
Proof.
  intros HG Hd. assert (forall r, In r rots -> unimodular r) as Hu by apply HG.
  assert (In mid rots) as Hid by apply HG.
  unfold unique_HNFs. destruct (Nat.eqb_spec (length hnfs) 1) as [E|E].
  - split; [apply subseq_refl|]. destruct hnfs as [|h [|]]; try discriminate. split; [auto|]. split.
    + intros x [<-|[]]. exists h. split; cbn; auto. exists mid. split; auto. rewrite mmul_id_l. apply same_lattice_refl.
    + repeat constructor.
  - change (fold_left _ hnfs []) with (dedupe_fold rots hnfs []).
    destruct (dedupe_app rots hnfs []) as [new [E1 Hs]]. split; [rewrite E1; auto|]. split; [|split].
    + rewrite E1. intros r Hr. apply (subseq_In _ _ Hs); auto.
    + intros x Hx. apply dedupe_covers; auto.
    + eapply FOP_impl; [|apply dedupe_distinct; auto; constructor]. intros a b _ _ H1 H2. apply H1. apply image_of_sym; auto.
Qed.

(** ** Fixing operations and degeneracies *)
Section Fixing.
  Variable rots : list mat.
  Hypothesis rots_uni : forall r, In r rots -> unimodular r.
  Variable H : mat.
  Hypothesis H_det : mdet H <> 0.
  Notation rot i := (nth i rots mid).

  Lemma rot_uni i : (i < length rots)%nat -> mdet (mmul (rot i) H) <> 0.
  Proof. intros Hi. apply mdet_rot; auto. apply rots_uni, nth_In; auto. Qed.

  Record fix_inv (is : list nat) (st : list nat * list mat) : Prop := {
    fi_sub : subseq (fst st) is;
    fi_idx : forall i, In i (fst st) <-> In i is /\ same_lattice (mmul (rot i) H) H;
    fi_img : forall N, In N (snd st) -> exists i, In i is /\ N = mmul (rot i) H;
    fi_cov : forall i, In i is -> exists N, In N (H :: snd st) /\ same_lattice (mmul (rot i) H) N;
    fi_dis : ForallOrdPairs (fun a b => ~ same_lattice a b) (H :: snd st) }.

  Lemma subseq_snoc {A} (l m : list A) x : subseq l m -> subseq (l ++ [x]) (m ++ [x]).
  Proof. induction 1; cbn; [apply sub_keep, sub_nil|apply sub_skip; auto|apply sub_keep; auto]. Qed.
  Lemma subseq_snoc_skip {A} (l m : list A) x : subseq l m -> subseq l (m ++ [x]).
  Proof. induction 1; cbn; [apply sub_skip, sub_nil|apply sub_skip; auto|apply sub_keep; auto]. Qed.

  Lemma fix_inv_step is st i : fix_inv is st -> (forall k, In k is -> (k < length rots)%nat) -> (i < length rots)%nat ->
    fix_inv (is ++ [i]) (fixing_step rots H st i).
  Proof.
    intros [I1 I2 I3 I4 I5] His Hi. destruct st as [idx deg]. unfold fixing_step. cbn [fst snd] in *.
    assert (forall k, In k (is ++ [i]) <-> In k is \/ k = i) as Hin.
    { intros k. rewrite in_app_iff. cbn. intuition. }
    destruct (is_equiv_lattice (mmul (rot i) H) H) eqn:E.
    - apply is_equiv_lattice_spec in E; [|apply rot_uni; auto]. split; cbn [fst snd].
      + apply subseq_snoc; auto.
      + intros k. rewrite Hin, in_app_iff. cbn. rewrite I2. intuition (subst; auto).
      + intros N HN. destruct (I3 N HN) as [k [Hk ->]]. exists k. rewrite Hin; auto.
      + intros k Hk. apply Hin in Hk. destruct Hk as [Hk| ->]; auto. exists H. cbn; auto.
      + auto.
    - assert (~ same_lattice (mmul (rot i) H) H) as Hns.
      { intros K. apply is_equiv_lattice_spec in K; [congruence|apply rot_uni; auto]. }
      assert (forall N, In N deg -> mdet N <> 0) as Hdeg.
      { intros N HN. destruct (I3 N HN) as [k [Hk ->]]. apply rot_uni; auto. }
      destruct (existsb _ deg) eqn:F.
      + apply existsb_exists in F. destruct F as [N [HN F]]. apply is_equiv_lattice_spec in F; auto.
        split; cbn [fst snd].
        * apply subseq_snoc_skip; auto.
        * intros k. rewrite Hin, I2. intuition (subst; tauto).
        * intros N' HN'. destruct (I3 N' HN') as [k [Hk ->]]. exists k. rewrite Hin; auto.
        * intros k Hk. apply Hin in Hk. destruct Hk as [Hk| ->]; auto.
          exists N. split; [cbn; auto|apply same_lattice_sym; auto].
        * auto.
      + assert (forall N, In N deg -> ~ same_lattice N (mmul (rot i) H)) as Hnd.
        { intros N HN K. apply is_equiv_lattice_spec in K; auto.
          assert (existsb (fun l => is_equiv_lattice l (mmul (rot i) H)) deg = true) by (apply existsb_exists; eauto).
          congruence. }
        split; cbn [fst snd].
        * apply subseq_snoc_skip; auto.
        * intros k. rewrite Hin, I2. intuition (subst; tauto).
        * intros N HN. apply in_app_or in HN. destruct HN as [HN|[<-|[]]].
          -- destruct (I3 N HN) as [k [Hk ->]]. exists k. rewrite Hin; auto.
          -- exists i. rewrite Hin; auto.
        * intros k Hk. apply Hin in Hk. destruct Hk as [Hk| ->].
          -- destruct (I4 k Hk) as [N [HN HS]]. exists N. split; auto. cbn in *. rewrite in_app_iff. tauto.
          -- exists (mmul (rot i) H). split; [cbn; rewrite in_app_iff; cbn; auto|apply same_lattice_refl].
        * change (ForallOrdPairs (fun a b => ~ same_lattice a b) ((H :: deg) ++ [mmul (rot i) H])).
          apply FOP_app. split; auto. split; [repeat constructor|].
          intros a b [<-|Ha] [<-|[]] K; [apply Hns; apply same_lattice_sym; auto|eapply Hnd; eauto].
  Qed.

  Definition degen_lattices : list mat := snd (fold_left (fixing_step rots H) (seq 0 (length rots)) ([], [])).

  Lemma fix_inv_all : fix_inv (seq 0 (length rots)) (fold_left (fixing_step rots H) (seq 0 (length rots)) ([], [])).
  Proof.
    enough (forall m, (m <= length rots)%nat ->
              fix_inv (seq 0 m) (fold_left (fixing_step rots H) (seq 0 m) ([], []))) by auto.
    induction m as [|m IH]; intros Hm.
    - cbn. split; cbn; try tauto; try constructor; try constructor.
    - rewrite seq_S, fold_left_app. cbn [fold_left plus]. apply fix_inv_step; auto; [apply IH; lia|].
      intros k Hk. apply in_seq in Hk. lia.
  Qed.

  Lemma fixing_indices i : In i (fst (get_sLV_fixing_operations H rots)) <->
    (i < length rots)%nat /\ same_lattice (mmul (rot i) H) H.
  Proof.
    pose proof fix_inv_all as [_ I2 _ _ _]. unfold get_sLV_fixing_operations.
    destruct (fold_left _ _ _) as [idx deg]. cbn [fst snd] in *. rewrite I2, in_seq. intuition lia.
  Qed.
  Lemma fixing_subseq : subseq (fst (get_sLV_fixing_operations H rots)) (seq 0 (length rots)).
  Proof.
    pose proof fix_inv_all as [I1 _ _ _ _]. unfold get_sLV_fixing_operations.
    destruct (fold_left _ _ _) as [idx deg]. auto.
  Qed.
  Lemma degen_length : snd (get_sLV_fixing_operations H rots) = length degen_lattices.
  Proof. unfold get_sLV_fixing_operations, degen_lattices. destruct (fold_left _ _ _); auto. Qed.
  Lemma degen_transversal : In mid rots ->
    transversal (fun N => exists r, In r rots /\ N = mmul r H) same_lattice (H :: degen_lattices).
  Proof.
    intros Hid. pose proof fix_inv_all as [_ _ I3 I4 I5]. split; [|split].
    - intros N [<-|HN].
      + exists mid. rewrite mmul_id_l. auto.
      + destruct (I3 N HN) as [i [Hi ->]]. apply in_seq in Hi. exists (rot i). split; auto. apply nth_In. lia.
    - intros N [r [Hr ->]]. apply (In_nth _ _ mid) in Hr. destruct Hr as [i [Hi <-]].
      apply I4. apply in_seq. lia.
    - auto.
  Qed.
End Fixing.

Lemma all_HNFs_transversal n : 0 < n ->
  transversal (fun M => Z.abs (mdet M) = n) same_lattice (find_all_HNFs n).
Proof.
  intros Hn. split; [|split].
  - intros H HH. apply in_find_all in HH. destruct HH as [a [b [c [d [e [f [-> [? [? [? [? E]]]]]]]]]]].
    assert (mdet ((a, 0, 0), (b, c, 0), (d, e, f)) = n) by (rewrite <- E; mat_ring). lia.
  - intros M HM. destruct (HNF_exists n M Hn HM) as [H [HH HS]]. exists H. rewrite in_find_all.
    split; auto. apply same_lattice_sym; auto.
  - pose proof (NoDup_find_all n) as Hnd. apply FOP_NoDup in Hnd. eapply FOP_impl; [|exact Hnd].
    intros a b Ha Hb Hne HS. apply Hne. apply in_find_all in Ha. apply in_find_all in Hb.
    eapply HNF_unique; eauto.
Qed.

Lemma FOP_flat_map {A B} (f : A -> list B) (R : B -> B -> Prop) l :
  (forall a, In a l -> ForallOrdPairs R (f a)) ->
  ForallOrdPairs (fun a b => forall x y, In x (f a) -> In y (f b) -> R x y) l ->
  ForallOrdPairs R (flat_map f l).
Proof.
  intros H1 H2. induction H2 as [|a l Ha Hl IH]; cbn; [constructor|].
  apply FOP_app. split; [apply H1; cbn; auto|]. split; [apply IH; intros; apply H1; cbn; auto|].
  intros x y Hx Hy. apply in_flat_map in Hy. destruct Hy as [b [Hb Hy]]. rewrite Forall_forall in Ha. eapply Ha; eauto.
Qed.

Lemma HNF_det n H : In H (find_all_HNFs n) -> 0 < n -> mdet H = n.
Proof.
  intros HH _. apply in_find_all in HH. destruct HH as [a [b [c [d [e [f [-> [? [? [? [? E]]]]]]]]]]].
  rewrite <- E; mat_ring.
Qed.

Theorem class_equation n rots : 0 < n -> mat_group rots ->
  sum_nat (snd (remove_duplicate_lattices rots (find_all_HNFs n))) = length (find_all_HNFs n).
Proof.
  intros Hn HG. assert (forall r, In r rots -> unimodular r) as Hu by apply HG.
  assert (In mid rots) as Hid by apply HG.
  destruct (unique_HNFs_transversal rots (find_all_HNFs n) HG) as [_ [T1 [T2 T3]]].
  { intros h Hh. rewrite (HNF_det n); auto. lia. }
  set (us := unique_HNFs rots (find_all_HNFs n)) in *.
  assert (forall u, In u us -> mdet u = n) as Hdet by (intros; apply HNF_det; auto).
  set (f := fun u => u :: degen_lattices rots u).
  transitivity (length (flat_map f us)).
  - unfold remove_duplicate_lattices. cbn [snd]. fold us. rewrite map_map.
    clear. induction us as [|u us IH]; auto. cbn [map flat_map]. rewrite app_length.
    unfold sum_nat in *. cbn [fold_right]. rewrite IH. rewrite degen_length. unfold f. cbn. lia.
  - apply (transversal_length (fun M => Z.abs (mdet M) = n) same_lattice);
      [intros; apply same_lattice_sym; auto|intros; eapply same_lattice_trans; eauto| |apply all_HNFs_transversal; auto].
    assert (forall u, In u us ->
       transversal (fun N => exists r, In r rots /\ N = mmul r u) same_lattice (f u)) as Tf.
    { intros u Hin. apply degen_transversal; auto. rewrite Hdet; auto. lia. }
    split; [|split].
    + intros N HN. apply in_flat_map in HN. destruct HN as [u [Hin HN]]. apply Tf in HN; auto.
      destruct HN as [r [Hr ->]]. rewrite mdet_mmul, (Hdet u Hin). destruct (Hu r Hr) as [->| ->]; lia.
    + intros M HM. destruct (HNF_exists n M Hn HM) as [H [HH HS]].
      destruct (T2 H) as [u [Hin Hi]]; [apply in_find_all; auto|].
      apply image_of_sym in Hi; auto. destruct Hi as [r [Hr Hrs]].
      destruct (Tf u Hin) as [_ [Tc _]]. destruct (Tc (mmul r u)) as [N [HN HNs]]; [eauto|].
      exists N. split; [apply in_flat_map; eauto|].
      eapply same_lattice_trans; [apply same_lattice_sym; exact HS|].
      eapply same_lattice_trans; [apply same_lattice_sym; exact Hrs|]. auto.
    + apply FOP_flat_map; [intros; apply Tf; auto|].
      eapply FOP_impl; [|exact T3]. intros u v Hin Hiv Hne x y Hx Hy HS. apply Hne.
      apply Tf in Hx; auto. apply Tf in Hy; auto. destruct Hx as [r [Hr ->]]. destruct Hy as [s [Hs ->]].
      apply (image_of_trans rots u (mmul r u) v); auto.
      * exists r. split; auto. apply same_lattice_refl.
      * destruct HG as [_ [_ [_ Hinv]]]. destruct (Hinv s Hs) as [t [Ht [E1 E2]]]. exists t. split; auto.
        apply (same_lattice_map t) in HS. rewrite <- (mmul_assoc t s), E2, mmul_id_l in HS. auto.
Qed.
