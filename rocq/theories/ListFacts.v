(** General list lemmas. *)
From Verif Require Import PyBase Spec.

Lemma in_flat_map_iff {A B} (f : A -> list B) l y :
  In y (flat_map f l) <-> exists x, In x l /\ In y (f x).
Proof. apply in_flat_map. Qed.

Lemma NoDup_map_inj {A B} (f : A -> B) l :
  (forall x y, In x l -> In y l -> f x = f y -> x = y) -> NoDup l -> NoDup (map f l).
Proof.
  intros Hinj Hnd. induction Hnd as [|a l Ha Hnd IH]; cbn; constructor.
  - rewrite in_map_iff. intros [y [Hy Hin]].
    apply Hinj in Hy; cbn; auto. subst. contradiction.
  - apply IH. intros x y Hx Hy. apply Hinj; cbn; auto.
Qed.

Lemma NoDup_app_intro {A} (l1 l2 : list A) :
  NoDup l1 -> NoDup l2 -> (forall x, In x l1 -> In x l2 -> False) -> NoDup (l1 ++ l2).
Proof.
  intros H1 H2 Hd. induction H1 as [|a l Ha H1 IH]; cbn; auto.
  constructor.
  - rewrite in_app_iff. intros [H|H]; [contradiction|]. apply (Hd a); cbn; auto.
  - apply IH. intros x Hx. apply Hd. cbn; auto.
Qed.

Lemma NoDup_flat_map {A B} (f : A -> list B) l :
  NoDup l -> (forall x, In x l -> NoDup (f x)) ->
  (forall x y z, In x l -> In y l -> In z (f x) -> In z (f y) -> x = y) ->
  NoDup (flat_map f l).
Proof.
  intros Hnd Hf Hdisj. induction Hnd as [|a l Ha Hnd IH]; cbn; [constructor|].
  apply NoDup_app_intro.
  - apply Hf; cbn; auto.
  - apply IH; intros; [apply Hf|eapply Hdisj]; cbn; eauto.
  - intros z Hz Hz2. apply in_flat_map in Hz2 as [y [Hy Hzy]].
    assert (a = y) by (eapply Hdisj; cbn; eauto). subst. contradiction.
Qed.

Lemma length_flat_map_const {A B} (f : A -> list B) l c :
  (forall x, In x l -> length (f x) = c) -> length (flat_map f l) = length l * c.
Proof.
  intros H. induction l as [|a l IH]; cbn; auto.
  rewrite app_length, H, IH; cbn; auto. intros; apply H; cbn; auto.
Qed.

Lemma filter_app {A} (f : A -> bool) l1 l2 : filter f (l1 ++ l2) = filter f l1 ++ filter f l2.
Proof. induction l1 as [|a l IH]; cbn; auto. destruct (f a); cbn; congruence. Qed.

Lemma filter_map {A B} (f : B -> bool) (g : A -> B) l :
  filter f (map g l) = map g (filter (fun x => f (g x)) l).
Proof. induction l as [|a l IH]; cbn; auto. destruct (f (g a)); cbn; congruence. Qed.

Lemma filter_all {A} (f : A -> bool) l : (forall x, In x l -> f x = true) -> filter f l = l.
Proof.
  induction l as [|a l IH]; cbn; intros H; auto.
  rewrite (H a) by auto. f_equal. apply IH; intros; apply H; auto.
Qed.

Lemma filter_none {A} (f : A -> bool) l : (forall x, In x l -> f x = false) -> filter f l = [].
Proof.
  induction l as [|a l IH]; cbn; intros H; auto.
  rewrite (H a) by auto. apply IH; intros; apply H; auto.
Qed.

Lemma filter_filter {A} (f g : A -> bool) l :
  filter f (filter g l) = filter (fun x => g x && f x) l.
Proof. induction l as [|a l IH]; cbn; auto. destruct (g a); cbn; [destruct (f a)|]; congruence. Qed.

Lemma NoDup_filter {A} (f : A -> bool) l : NoDup l -> NoDup (filter f l).
Proof. apply NoDup_filter. Qed.

(** words *)
Lemma in_words {A} (l : list A) n w :
  In w (words l n) <-> length w = n /\ forall a, In a w -> In a l.
Proof.
  revert w; induction n as [|n IH]; intros w; cbn.
  - split.
    + intros [<-|[]]; cbn; split; auto; intros a [].
    + intros [H _]. destruct w; [auto|discriminate].
  - rewrite in_flat_map. split.
    + intros [a [Ha Hw]]. apply in_map_iff in Hw as [w' [<- Hw']].
      apply IH in Hw' as [Hl Hin]. cbn; split; [lia|].
      intros b [<-|Hb]; auto.
    + intros [Hl Hin]. destruct w as [|a w]; [discriminate|].
      exists a; split; [apply Hin; cbn; auto|].
      apply in_map, IH. split; [cbn in Hl; lia|]. intros b Hb; apply Hin; cbn; auto.
Qed.

Lemma NoDup_words {A} (l : list A) n : NoDup l -> NoDup (words l n).
Proof.
  intros Hl; induction n as [|n IH]; cbn; [repeat constructor; auto|].
  apply NoDup_flat_map; auto.
  - intros a _. apply NoDup_map_inj; auto. intros; congruence.
  - intros x y z _ _ Hx Hy. apply in_map_iff in Hx as [w1 [<- _]].
    apply in_map_iff in Hy as [w2 [H _]]. congruence.
Qed.

Lemma length_words {A} (l : list A) n : length (words l n) = length l ^ n.
Proof.
  induction n as [|n IH]; cbn; auto.
  rewrite (length_flat_map_const _ _ (length l ^ n)); auto.
  intros; rewrite map_length; auto.
Qed.

Lemma has_concsb_spec c x : has_concsb c x = true <-> has_concs c x.
Proof.
  unfold has_concsb, has_concs. rewrite andb_true_iff, Nat.eqb_eq, forallb_forall.
  split; intros [H1 H2]; split; auto; intros i Hi.
  - apply Nat.eqb_eq, H2, in_seq. lia.
  - apply in_seq in Hi. apply Nat.eqb_eq, H2. lia.
Qed.

Lemma occ_cons a x l : occ a (x :: l) = (if Nat.eqb x a then 1 else 0) + occ a l.
Proof.
  unfold occ. destruct (Nat.eqb_spec x a) as [->|H].
  - rewrite count_occ_cons_eq; auto.
  - rewrite count_occ_cons_neq; auto.
Qed.
Lemma occ_nil a : occ a [] = 0.
Proof. reflexivity. Qed.
Lemma occ_app a l1 l2 : occ a (l1 ++ l2) = occ a l1 + occ a l2.
Proof. apply count_occ_app. Qed.
Lemma occ_le a l : occ a l <= length l.
Proof. apply count_occ_bound. Qed.
Lemma occ_pos a l : 0 < occ a l <-> In a l.
Proof. unfold occ. rewrite (count_occ_In Nat.eq_dec). lia. Qed.
Lemma occ_zero a l : occ a l = 0 <-> ~ In a l.
Proof. symmetry. apply count_occ_not_In. Qed.
Lemma occ_filter a l : occ a l = length (filter (Nat.eqb a) l).
Proof.
  induction l as [|x l IH]; auto. rewrite occ_cons, IH. cbn.
  rewrite (Nat.eqb_sym x a). destruct (Nat.eqb a x); cbn; lia.
Qed.
Lemma py_count_occ l x : py_count l x = occ x l.
Proof. unfold py_count. rewrite occ_filter. auto. Qed.
Lemma occ_rev a l : occ a (rev l) = occ a l.
Proof.
  induction l as [|x l IH]; auto. cbn [rev]. rewrite occ_app, !occ_cons, occ_nil, IH. lia.
Qed.

(** the colours of a labeling: sum of occurrences bounded by the length *)
Lemma occ_sum_le (l : list nat) (cs : list nat) :
  NoDup cs -> fold_right Nat.add 0 (map (fun a => occ a l) cs) <= length l.
Proof.
  intros Hnd. induction l as [|x l IH].
  - induction cs as [|c cs IHc]; cbn; auto. inversion Hnd; subst. apply IHc; auto.
  - cbn [length]. etransitivity; [|apply le_n_S, IH].
    assert (forall cs, NoDup cs ->
      fold_right Nat.add 0 (map (fun a => occ a (x :: l)) cs) <=
      (if in_dec Nat.eq_dec x cs then 1 else 0) + fold_right Nat.add 0 (map (fun a => occ a l) cs)) as H.
    { clear. intros cs Hnd. induction Hnd as [|c cs Hc Hnd IH]; cbn [map fold_right]; [cbn; lia|].
      rewrite occ_cons. destruct (Nat.eqb_spec x c) as [->|Hne].
      - destruct (in_dec Nat.eq_dec c cs) as [Hcc|_]; [contradiction|].
        destruct (in_dec Nat.eq_dec c (c :: cs)) as [_|Hni]; [lia|cbn in Hni; tauto].
      - destruct (in_dec Nat.eq_dec x cs) as [Hi|Hi].
        + destruct (in_dec Nat.eq_dec x (c :: cs)) as [_|Hni]; [lia|cbn in Hni; tauto].
        + lia. }
    specialize (H cs Hnd). destruct (in_dec Nat.eq_dec x cs); lia.
Qed.

Lemma fold_right_add_map_nth c :
  fold_right Nat.add 0 (map (fun i => nth i c 0) (seq 0 (length c))) = fold_right Nat.add 0 c.
Proof.
  f_equal. induction c as [|x c IH]; cbn; auto. f_equal.
  rewrite <- seq_shift, map_map. exact IH.
Qed.

(** every entry of a labeling with concentrations c is a colour between 1 and length c *)
Lemma has_concs_range c x : has_concs c x -> forall a, In a x -> 1 <= a <= length c.
Proof.
  intros [Hl Ho] a Ha.
  destruct (in_dec Nat.eq_dec a (seq 1 (length c))) as [H|H]; [apply in_seq in H; lia|].
  exfalso.
  assert (NoDup (a :: seq 1 (length c))) as Hnd by (constructor; [auto|apply seq_NoDup]).
  pose proof (occ_sum_le x _ Hnd) as Hle. cbn [map fold_right] in Hle.
  rewrite <- seq_shift, map_map in Hle.
  rewrite (map_ext_in (fun i => occ (S i) x) (fun i => nth i c 0)) in Hle.
  2:{ intros i Hi. apply in_seq in Hi. apply Ho; lia. }
  rewrite fold_right_add_map_nth in Hle. apply occ_pos in Ha. lia.
Qed.

Lemma labelings_spec c x : In x (labelings c) <-> has_concs c x.
Proof.
  unfold labelings. rewrite filter_In, in_words, has_concsb_spec. split; [tauto|].
  intros H. split; auto. split; [apply H|].
  intros a Ha. apply in_seq. pose proof (has_concs_range c x H a Ha). lia.
Qed.
Lemma labelings_NoDup c : NoDup (labelings c).
Proof. apply NoDup_filter, NoDup_words, seq_NoDup. Qed.

(** upd *)
Lemma upd_length {A} (l : list A) i x : length (upd l i x) = length l.
Proof. revert i; induction l as [|y l IH]; intros [|i]; cbn; auto. Qed.
Lemma nth_error_upd_eq {A} (l : list A) i x : i < length l -> nth_error (upd l i x) i = Some x.
Proof. revert i; induction l as [|y l IH]; intros [|i]; cbn; intros; try lia; auto. apply IH; lia. Qed.
Lemma nth_error_upd_neq {A} (l : list A) i j x : i <> j -> nth_error (upd l i x) j = nth_error l j.
Proof. revert i j; induction l as [|y l IH]; intros [|i] [|j]; cbn; intros; try lia; auto. Qed.
Lemma nth_upd_eq {A} (l : list A) i x d : i < length l -> nth i (upd l i x) d = x.
Proof. revert i; induction l as [|y l IH]; intros [|i]; cbn; intros; try lia; auto. apply IH; lia. Qed.
Lemma nth_upd_neq {A} (l : list A) i j x d : i <> j -> nth j (upd l i x) d = nth j l d.
Proof. revert i j; induction l as [|y l IH]; intros [|i] [|j]; cbn; intros; try lia; auto. Qed.

Lemma list_eqb_spec {A} (eqb : A -> A -> bool) (H : forall x y, eqb x y = true <-> x = y) a b :
  list_eqb eqb a b = true <-> a = b.
Proof.
  revert b; induction a as [|x a IH]; intros [|y b]; cbn; try (split; congruence).
  rewrite andb_true_iff, H, IH. split; [intros [-> ->]; auto|intros E; inversion E; auto].
Qed.
Lemma nlist_eqb_spec a b : nlist_eqb a b = true <-> a = b.
Proof. apply list_eqb_spec, Nat.eqb_eq. Qed.
Lemma zlist_eqb_spec a b : zlist_eqb a b = true <-> a = b.
Proof. apply list_eqb_spec, Z.eqb_eq. Qed.
Lemma nlist_eqb_refl a : nlist_eqb a a = true.
Proof. apply nlist_eqb_spec; auto. Qed.

Lemma nth_ext_len {A} (l1 l2 : list A) d :
  length l1 = length l2 -> (forall i, i < length l1 -> nth i l1 d = nth i l2 d) -> l1 = l2.
Proof. intros. eapply nth_ext with (d := d) (d' := d); auto. Qed.

Lemma nth_map_lt {A B} (f : A -> B) l i d d' : i < length l -> nth i (map f l) d' = f (nth i l d).
Proof. intros. rewrite nth_indep with (d' := f d) by (rewrite map_length; auto). apply map_nth. Qed.

Lemma Forall2_length {A B} (R : A -> B -> Prop) l1 l2 : Forall2 R l1 l2 -> length l1 = length l2.
Proof. induction 1; cbn; auto. Qed.

Lemma firstn_nth_snoc {A} (d : A) j l : (j < length l)%nat -> firstn (S j) l = firstn j l ++ [nth j l d].
Proof.
  revert j; induction l as [|x l IH]; intros j H; [cbn in H; lia|].
  destruct j; [reflexivity|]. cbn [firstn nth app]. f_equal. apply IH. cbn in H; lia.
Qed.
