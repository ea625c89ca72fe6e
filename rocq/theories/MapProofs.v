(** Proofs for C35: the points [map_enumStr] visits. *)
From Coq Require Import Permutation.
From Verif Require Import TextModel PyBase Spec ListFacts TransFacts TreeSearch HNFProofs Mat3 HNFModel LatSpec LatGroupModel LatFacts LatSites StructProofs MapModel MapSpec.
Local Open Scope Z_scope.

Lemma in_cells lim a z1 z2 z3 : In (z1, z2, z3) (cells lim a) <->
  0 <= z1 < a /\ lo2 lim z1 <= z2 < hi2 lim z1 /\ lo3 lim z1 z2 <= z3 < hi3 lim z1 z2.
Proof.
  unfold cells. rewrite in_flat_map. split.
  - intros [x [Hx H]]. apply in_flat_map in H as [y [Hy H]]. apply in_map_iff in H as [z [E Hz]]. inversion E; subst. apply in_range_up in Hx, Hy, Hz. auto.
  - intros [H1 [H2 H3]]. exists z1. split; [apply in_range_up; auto|]. apply in_flat_map. exists z2. split; [apply in_range_up; auto|]. apply in_map. apply in_range_up. auto.
Qed.
Lemma cells_NoDup lim a : NoDup (cells lim a).
Proof.
  unfold cells. apply NoDup_flat_map; [apply NoDup_range_up| |].
  - intros z1 _. apply NoDup_flat_map; [apply NoDup_range_up| |].
    + intros z2 _. apply NoDup_map_inj; [intros x y _ _ E; congruence|apply NoDup_range_up].
    + intros x y z _ _ Hx Hy. apply in_map_iff in Hx as [u [<- _]]. apply in_map_iff in Hy as [v [E _]]. congruence.
  - intros x y z _ _ Hx Hy. apply in_flat_map in Hx as [u [_ Hx]]. apply in_map_iff in Hx as [u' [<- _]].
    apply in_flat_map in Hy as [v [_ Hy]]. apply in_map_iff in Hy as [v' [E _]]. congruence.
Qed.
Lemma range_up_length lo hi : length (range_up lo hi) = Z.to_nat (hi - lo).
Proof. unfold range_up. rewrite map_length, seq_length. auto. Qed.

(** ** Full columns: one point from every class *)
Lemma cells_onto lim H : hnf_form H -> full lim H -> forall z, exists w, In w (cells lim (mget H 0 0)) /\ in_lattice H (vsub z w).
Proof.
  intros [a [b [c [d [e [f [-> [Ha [Hb [Hd He]]]]]]]]]] Hf [[x y] w]. unfold full in Hf. cbn [mget mrow vget] in *.
  pose proof (Z.div_mod x a ltac:(lia)) as Ex. pose proof (Z.mod_pos_bound x a ltac:(lia)) as Bx.
  set (z1 := x mod a) in *. set (k1 := x / a) in *. destruct (Hf z1 Bx) as [W2 Hf2].
  set (y' := y - b * k1). pose proof (Z.div_mod (y' - lo2 lim z1) c ltac:(lia)) as Ey. pose proof (Z.mod_pos_bound (y' - lo2 lim z1) c ltac:(lia)) as By.
  set (k2 := (y' - lo2 lim z1) / c) in *. set (z2 := lo2 lim z1 + (y' - lo2 lim z1) mod c). 
  assert (lo2 lim z1 <= z2 < hi2 lim z1) as B2 by (unfold z2; lia). specialize (Hf2 z2 B2).
  set (w' := w - d * k1 - e * k2). pose proof (Z.div_mod (w' - lo3 lim z1 z2) f ltac:(lia)) as Ew. pose proof (Z.mod_pos_bound (w' - lo3 lim z1 z2) f ltac:(lia)) as Bw.
  set (k3 := (w' - lo3 lim z1 z2) / f) in *. exists (z1, z2, lo3 lim z1 z2 + (w' - lo3 lim z1 z2) mod f). split; [apply in_cells; repeat split; lia|].
  exists (k1, k2, k3). unfold vsub. cbn [mvec vdot vadd vscale]. f_equal; [f_equal|].
  - lia.
  - unfold z2, y' in *. lia.
  - unfold w' in *. lia.
Qed.
Lemma cells_apart lim H : hnf_form H -> full lim H -> forall z w, In z (cells lim (mget H 0 0)) -> In w (cells lim (mget H 0 0)) -> in_lattice H (vsub z w) -> z = w.
Proof.
  intros [a [b [c [d [e [f [-> [Ha [Hb [Hd He]]]]]]]]]] Hf [[x1 x2] x3] [[y1 y2] y3] Hx Hy [[[k1 k2] k3] E]. unfold full in Hf. cbn [mget mrow vget] in *.
  apply in_cells in Hx as [A1 [A2 A3]]. apply in_cells in Hy as [B1 [B2 B3]]. unfold vsub in E. cbn [mvec vdot vadd vscale] in E.
  apply pair_equal_spec in E as [E E3]. apply pair_equal_spec in E as [E1 E2].
  assert (k1 = 0) by nia. subst k1. assert (x1 = y1) by lia. subst y1. destruct (Hf x1 A1) as [W2 Hf2].
  assert (k2 = 0) by nia. subst k2. assert (x2 = y2) by lia. subst y2. specialize (Hf2 x2 A2).
  assert (k3 = 0) by nia. subst k3. assert (x3 = y3) by lia. subst. reflexivity.
Qed.

(** ** Lengths *)
Lemma flat_map_length_le {A B} (g : A -> list B) (l : list A) m : (forall x, In x l -> (length (g x) <= m)%nat) ->
  (length (flat_map g l) <= length l * m)%nat /\ (length (flat_map g l) = (length l * m)%nat <-> forall x, In x l -> length (g x) = m).
Proof.
  induction l as [|a l IH]; intros H; [cbn; split; [lia|tauto]|]. cbn [flat_map length]. rewrite app_length.
  destruct IH as [I1 I2]; [intros; apply H; right; auto|]. pose proof (H a (or_introl eq_refl)). cbn [Nat.mul]. split; [lia|]. split.
  - intros E. assert (length (flat_map g l) = (length l * m)%nat) as E' by lia. pose proof (proj1 I2 E') as I3. intros x [<-|Hx]; [lia|auto].
  - intros Hx. rewrite (Hx a) by (left; auto). rewrite (proj2 I2); [auto|]. intros; apply Hx; right; auto.
Qed.
Lemma points_length lim a nD : length (points lim a nD) = (nD * length (cells lim a))%nat.
Proof. unfold points. rewrite (length_flat_map_const _ _ (length (cells lim a))); [rewrite seq_length; auto|]. intros. apply map_length. Qed.
Lemma full_length lim H : hnf_form H -> full lim H -> Z.of_nat (length (cells lim (mget H 0 0))) = mdet H.
Proof.
  intros [a [b [c [d [e [f [-> [Ha [Hb [Hd He]]]]]]]]]] Hf. unfold full in Hf. cbn [mget mrow vget] in *. unfold cells.
  rewrite (length_flat_map_const _ _ (Z.to_nat c * Z.to_nat f)).
  - rewrite range_up_length. cbn [mdet]. nia.
  - intros z1 Hz1. apply in_range_up in Hz1. destruct (Hf z1 Hz1) as [W2 Hf2]. rewrite (length_flat_map_const _ _ (Z.to_nat f)); [rewrite range_up_length; lia|].
    intros z2 Hz2. apply in_range_up in Hz2. rewrite map_length, range_up_length. rewrite (Hf2 z2 Hz2). auto.
Qed.
(** Columns that are never too long: the right number of points means that all are full. *)
Lemma length_full lim H : hnf_form H -> (forall z1, 0 <= z1 < mget H 0 0 -> hi2 lim z1 - lo2 lim z1 = mget H 1 1 /\
    forall z2, lo2 lim z1 <= z2 < hi2 lim z1 -> hi3 lim z1 z2 - lo3 lim z1 z2 <= mget H 2 2) ->
  Z.of_nat (length (cells lim (mget H 0 0))) = mdet H -> full lim H.
Proof.
  intros [a [b [c [d [e [f [-> [Ha [Hb [Hd He]]]]]]]]]] Hf Hlen. cbn [mget mrow vget] in *. unfold cells in Hlen.
  set (col := fun z1 => flat_map (fun z2 => map (fun z3 => (z1, z2, z3)) (range_up (lo3 lim z1 z2) (hi3 lim z1 z2))) (range_up (lo2 lim z1) (hi2 lim z1))) in *.
  assert (forall z1, 0 <= z1 < a -> (length (col z1) <= Z.to_nat c * Z.to_nat f)%nat /\
     (length (col z1) = (Z.to_nat c * Z.to_nat f)%nat <-> forall z2, lo2 lim z1 <= z2 < hi2 lim z1 -> length (range_up (lo3 lim z1 z2) (hi3 lim z1 z2)) = Z.to_nat f)) as Hcol.
  { intros z1 Hz1. destruct (Hf z1 Hz1) as [W2 Hf2]. unfold col.
    destruct (flat_map_length_le (fun z2 => map (fun z3 => (z1, z2, z3)) (range_up (lo3 lim z1 z2) (hi3 lim z1 z2))) (range_up (lo2 lim z1) (hi2 lim z1)) (Z.to_nat f)) as [I1 I2].
    - intros z2 Hz2. apply in_range_up in Hz2. rewrite map_length, range_up_length. specialize (Hf2 z2 Hz2). lia.
    - rewrite range_up_length, W2 in I1, I2. split; auto. rewrite I2. split; intros Hx z2 Hz2.
      + apply in_range_up in Hz2. specialize (Hx z2 Hz2). rewrite map_length in Hx. auto.
      + apply in_range_up in Hz2. rewrite map_length. auto. }
  destruct (flat_map_length_le col (range_up 0 a) (Z.to_nat c * Z.to_nat f)) as [I1 I2]; [intros z1 Hz1; apply in_range_up in Hz1; apply Hcol; auto|].
  rewrite range_up_length in I1, I2. assert (length (flat_map col (range_up 0 a)) = (Z.to_nat (a - 0) * (Z.to_nat c * Z.to_nat f))%nat) as E.
  { apply Nat2Z.inj. etransitivity; [exact Hlen|]. cbn [mdet]. rewrite !Nat2Z.inj_mul, !Z2Nat.id by lia. ring. }
  pose proof (proj1 I2 E) as I3. intros z1 Hz1. cbn [mget mrow vget]. destruct (Hf z1 Hz1) as [W2 Hf2]. split; auto. intros z2 Hz2.
  pose proof (proj1 (proj2 (Hcol z1 Hz1)) (I3 z1 (proj2 (in_range_up 0 a z1) Hz1)) z2 Hz2) as I4. rewrite range_up_length in I4. specialize (Hf2 z2 Hz2). lia.
Qed.

(** ** Exact limits *)
Lemma exact_second H z1 : hnf_form H -> 0 <= z1 < mget H 0 0 ->
  lo2 (exact_limits H) z1 = mget H 1 0 * z1 / mget H 0 0 /\ hi2 (exact_limits H) z1 = mget H 1 1 + mget H 1 0 * z1 / mget H 0 0.
Proof.
  intros [a [b [c [d [e [f [-> [Ha [Hb [Hd He]]]]]]]]]] Hz1. cbn [exact_limits lo2 hi2 mget mrow vget] in *.
  assert (0 <= b * z1) by nia. rewrite !Z.quot_div_nonneg by nia. split; auto. replace (c * a + b * z1) with (b * z1 + c * a) by ring. rewrite Z.div_add by lia. lia.
Qed.
Lemma exact_third H z1 z2 : hnf_form H -> 0 <= z1 < mget H 0 0 -> mget H 1 0 * z1 / mget H 0 0 <= z2 ->
  hi3 (exact_limits H) z1 z2 - lo3 (exact_limits H) z1 z2 =
  if (third_limit H z1 z2 <? 0) && negb (third_limit H z1 z2 mod (mget H 0 0 * mget H 1 1) =? 0) then mget H 2 2 - 1 else mget H 2 2.
Proof.
  intros [a [b [c [d [e [f [-> [Ha [Hb [Hd He]]]]]]]]]] Hz1 Hz2. unfold third_limit. cbn [exact_limits lo3 hi3 mget mrow vget] in *.
  set (N := z1 * (d * c - e * b) + e * z2 * a). set (Q := a * c). assert (0 < Q) as HQ by (unfold Q; nia).
  assert (- (f * Q) < N) as HN.
  { pose proof (Z.div_mod (b * z1) a ltac:(lia)) as E. pose proof (Z.mod_pos_bound (b * z1) a ltac:(lia)) as Bm.
    assert (b * z1 - a < z2 * a) by nia. assert (N = z1 * d * c + e * (z2 * a - z1 * b)) as -> by (unfold N; ring). unfold Q.
    assert (0 <= z1 * d * c) by (apply Z.mul_nonneg_nonneg; nia). assert (e * - a <= e * (z2 * a - z1 * b)) by (apply Z.mul_le_mono_nonneg_l; nia).
    assert (e * a < f * (a * c)) by nia. lia. }
  rewrite (Z.quot_div_nonneg (f * Q + N)) by lia. replace (f * Q + N) with (N + f * Q) by ring. rewrite Z.div_add by lia.
  destruct (Z.ltb_spec N 0) as [Hneg|Hpos]; cbn [andb].
  - replace N with (- (- N)) at 2 by lia. rewrite Z.quot_opp_l by lia. rewrite Z.quot_div_nonneg by lia.
    destruct (Z.eqb_spec (N mod Q) 0) as [E|E]; cbn [negb].
    + rewrite (Z.div_opp_l_z N Q) by lia. lia.
    + rewrite (Z.div_opp_l_nz N Q) by lia. lia.
  - rewrite Z.quot_div_nonneg by lia. lia.
Qed.
Lemma exact_full H : hnf_form H -> (full (exact_limits H) H <-> ~ loses_a_point H).
Proof.
  intros Hh. split.
  - intros Hf [z1 [z2 [H1 [H2 [H3 H4]]]]]. destruct (Hf z1 H1) as [_ Hf2]. destruct (exact_second H z1 Hh H1) as [E1 E2].
    rewrite E1, E2 in Hf2. specialize (Hf2 z2 H2). rewrite exact_third in Hf2 by (auto; lia). destruct (Z.ltb_spec (third_limit H z1 z2) 0); [|lia].
    destruct (Z.eqb_spec (third_limit H z1 z2 mod (mget H 0 0 * mget H 1 1)) 0) as [E|E]; cbn [andb negb] in Hf2; [|lia].
    apply H4. apply Z.mod_divide; auto. destruct Hh as [a [b [c [d [e [f [-> [Ha [Hb [Hd He]]]]]]]]]]. cbn [mget mrow vget]. nia.
  - intros Hn z1 H1. destruct (exact_second H z1 Hh H1) as [E1 E2]. split; [lia|]. rewrite E1, E2. intros z2 H2. rewrite exact_third by (auto; lia).
    destruct (Z.ltb_spec (third_limit H z1 z2) 0); cbn [andb]; auto. destruct (Z.eqb_spec (third_limit H z1 z2 mod (mget H 0 0 * mget H 1 1)) 0) as [E|E]; cbn [negb]; auto.
    exfalso. apply Hn. exists z1, z2. repeat split; try lia. intros Hdv. apply E. destruct Hdv as [q ->]. apply Z.mod_mul. destruct Hh as [a [b [c [d [e [f [-> [Ha [Hb [Hd He]]]]]]]]]]. cbn [mget mrow vget]. nia.
Qed.
Lemma exact_succeeds H : hnf_form H -> (Z.of_nat (length (cells (exact_limits H) (mget H 0 0))) = mdet H <-> ~ loses_a_point H).
Proof.
  intros Hh. rewrite <- exact_full by auto. split; [|apply full_length; auto]. apply length_full; auto. intros z1 H1. destruct (exact_second H z1 Hh H1) as [E1 E2].
  rewrite E1, E2. split; [lia|]. intros z2 H2. rewrite exact_third by (auto; lia). destruct (_ && _); lia.
Qed.
(** Enough: one cell along the first axis, or e*b <= c*d. *)
Lemma no_loss H : hnf_form H -> mget H 0 0 = 1 \/ mget H 2 1 * mget H 1 0 <= mget H 1 1 * mget H 2 0 -> ~ loses_a_point H.
Proof.
  intros [a [b [c [d [e [f [-> [Ha [Hb [Hd He]]]]]]]]]] Hs [z1 [z2 [H1 [H2 [H3 _]]]]]. unfold third_limit in H3. cbn [mget mrow vget] in *.
  assert (0 <= b * z1 / a) by (apply Z.div_pos; nia). assert (0 <= z2) by lia. assert (0 <= e * z2) by nia. assert (0 <= e * z2 * a) by nia. destruct Hs as [->|Hs]; [assert (z1 = 0) by lia; subst; nia|]. nia.
Qed.
