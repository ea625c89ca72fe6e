(** Proofs for C36: the atoms [write_POSCAR] writes. *)
From Coq Require Import Permutation QArith.
From Verif Require Import TextModel TextProofs PyBase Spec ListFacts TreeSearch Mat3 MapModel PoscarModel PoscarSpec.
Local Open Scope Z_scope.

(** ** Generic *)
Lemma rmap_ok {A B} (f : A -> res B) (g : A -> B) l : (forall x, In x l -> f x = Ok (g x)) -> rmap f l = Ok (map g l).
Proof. induction l as [|a l IH]; intros H; [auto|]. cbn [rmap map]. rewrite H by (left; auto). cbn [rbind]. rewrite IH by (intros; apply H; right; auto). auto. Qed.
Lemma rfold_ok {A S} (f : S -> A -> res S) (g : S -> A -> S) l : (forall s x, In x l -> f s x = Ok (g s x)) -> forall s, rfold f l s = Ok (fold_left g l s).
Proof. induction l as [|a l IH]; intros H s; [auto|]. cbn [rfold fold_left]. rewrite H by (left; auto). cbn [rbind]. apply IH. intros; apply H; right; auto. Qed.
Lemma get_nth {A} (l : list A) i d : (i < length l)%nat -> get l i = Ok (nth i l d).
Proof. intros H. unfold get. rewrite (nth_error_nth' l d H). auto. Qed.
Lemma fold_append {A B} (f : A -> list B) l : forall acc, fold_left (fun out x => out ++ f x) l acc = acc ++ flat_map f l.
Proof. induction l as [|a l IH]; intros acc; cbn [fold_left flat_map]; [rewrite app_nil_r; auto|]. rewrite IH, app_assoc. auto. Qed.
Lemma filter_flat_map {A B} (p : A -> bool) (f : A -> B) l : flat_map (fun x => if p x then [f x] else []) l = map f (filter p l).
Proof. induction l as [|a l IH]; [auto|]. cbn [flat_map filter]. rewrite IH. destruct (p a); auto. Qed.

(** ** Labels *)
Lemma digit_char_inj a b : 0 <= a <= 9 -> 0 <= b <= 9 -> digit_char a = digit_char b -> a = b.
Proof. intros Ha Hb E. destruct (digit_char_facts a) as [E1 _]; [lia|]. destruct (digit_char_facts b) as [E2 _]; [lia|]. rewrite E in E1. congruence. Qed.
Lemma str_digit d : 0 <= d <= 9 -> str d = String (digit_char d) EmptyString.
Proof. intros H. assert (d = 0 \/ d = 1 \/ d = 2 \/ d = 3 \/ d = 4 \/ d = 5 \/ d = 6 \/ d = 7 \/ d = 8 \/ d = 9) as Hd by lia. intuition subst; reflexivity. Qed.
Lemma label_eqb a b : 0 <= a <= 9 -> 0 <= b <= 9 -> String.eqb (String (digit_char a) EmptyString) (str b) = (b =? a).
Proof.
  intros Ha Hb. rewrite str_digit by auto. destruct (Z.eqb_spec b a) as [->|E]; [apply String.eqb_refl|].
  apply String.eqb_neq. intros E'. apply E. assert (digit_char a = digit_char b) by congruence. symmetry. apply digit_char_inj; auto.
Qed.
Lemma number_with_cons a l s : number_with (a :: l) s = (if s =? a then 1 else 0) + number_with l s.
Proof. unfold number_with. cbn [filter]. destruct (s =? a); cbn [length]; lia. Qed.
Lemma nth_upd {A} (l : list A) i j x d : (i < length l)%nat -> nth j (upd l i x) d = if (j =? i)%nat then x else nth j l d.
Proof.
  revert i j. induction l as [|a l IH]; intros i j Hi; [cbn in Hi; lia|]. destruct i, j; cbn [upd nth Nat.eqb]; auto. apply IH. cbn in Hi. lia.
Qed.
Lemma upd_length {A} (l : list A) i x : length (upd l i x) = length l.
Proof. revert i. induction l as [|a l IH]; intros [|i]; cbn; auto. Qed.
(** [x[i] += 1] along a list of labels below k. *)
Lemma counting (k : Z) labels : (forall l, In l labels -> 0 <= l < k) -> forall x : list Z, length x = Z.to_nat k ->
  exists y, rfold count_up labels x = Ok y /\ length y = Z.to_nat k /\ forall s, 0 <= s < k -> nth (Z.to_nat s) y 0 = nth (Z.to_nat s) x 0 + number_with labels s.
Proof.
  induction labels as [|a l IH]; intros Hl x Hx.
  - exists x. split; auto. split; auto. intros s Hs. unfold number_with. cbn. lia.
  - pose proof (Hl a (or_introl eq_refl)) as Ha. cbn [rfold]. unfold count_up at 1. unfold zget. destruct (Z.ltb_spec a 0); [lia|]. destruct (Z.ltb_spec a 0); [lia|].
    rewrite (get_nth x (Z.to_nat a) 0) by lia. cbn [rbind]. unfold set. destruct (Nat.ltb_spec (Z.to_nat a) (length x)); [|lia]. cbn [rbind].
    destruct (IH (fun z Hz => Hl z (or_intror Hz)) (upd x (Z.to_nat a) (nth (Z.to_nat a) x 0 + 1))) as [y [E [Ey Hy]]]; [rewrite upd_length; auto|].
    exists y. split; auto. split; auto. intros s Hs. rewrite Hy by auto. rewrite nth_upd by lia. rewrite number_with_cons.
    destruct (Z.eqb_spec s a) as [->|Hne]; [rewrite Nat.eqb_refl; lia|]. destruct (Nat.eqb_spec (Z.to_nat s) (Z.to_nat a)); lia.
Qed.
Lemma nth_range_list (k : Z) (f : Z -> Z) y : length y = Z.to_nat k -> (forall s, 0 <= s < k -> nth (Z.to_nat s) y 0 = f s) -> y = map f (range_up 0 k).
Proof.
  intros Hl Hy. apply (nth_ext _ _ 0 (f 0)); [rewrite map_length; unfold range_up; rewrite map_length, seq_length; lia|].
  intros i Hi. rewrite map_nth. unfold range_up. rewrite (nth_indep (map (fun j => 0 + Z.of_nat j) _) 0 (0 + Z.of_nat 0)) by (rewrite map_length, seq_length; lia). rewrite (map_nth (fun j => 0 + Z.of_nat j)). rewrite seq_nth by lia.
  replace i with (Z.to_nat (Z.of_nat i)) at 1 by lia. rewrite Hy by lia. f_equal.
Qed.
Lemma label_at_digit lab g l : 0 <= l <= 9 -> char_at lab g = Ok (digit_char l) -> label_at lab g = Ok l.
Proof. intros Hl E. unfold label_at. rewrite E. cbn [rbind]. rewrite <- str_digit by auto. apply int_str. Qed.

Section Write.
Variables (P : Type) (k : Z) (N : nat) (lab arr : string) (gs labels : list Z) (bas : list P) (x0 : P).
Hypothesis Hk : 0 <= k <= 10.
Hypothesis Hgs : length gs = N.
Hypothesis Hlb : length labels = N.
Hypothesis Hrange : forall l, In l labels -> 0 <= l < k.
Hypothesis Hread : forall i, (i < N)%nat -> char_at lab (nth i gs 0) = Ok (digit_char (nth i labels 0)).
Hypothesis Hbas : length bas = N.
Variable dirs : list vec.
Hypothesis Hdirs : length dirs = N.

Lemma label_range i : (i < N)%nat -> 0 <= nth i labels 0 < k.
Proof. intros Hi. apply Hrange. apply nth_In. lia. Qed.
Lemma gs_all : rmap (get gs) (seq 0 N) = Ok gs.
Proof.
  rewrite (rmap_ok _ (fun i => nth i gs 0)); [|intros i Hi; apply in_seq in Hi; apply get_nth; lia]. f_equal.
  apply (nth_ext _ _ 0 0); [rewrite map_length, seq_length; auto|]. intros i Hi. rewrite map_length, seq_length in Hi.
  rewrite (nth_indep _ 0 (nth 0%nat gs 0)) by (rewrite map_length, seq_length; auto). rewrite (map_nth (fun i => nth i gs 0)). rewrite seq_nth by auto. auto.
Qed.
Lemma labels_all : rmap (label_at lab) gs = Ok labels.
Proof.
  assert (forall i, (i < N)%nat -> label_at lab (nth i gs 0) = Ok (nth i labels 0)) as H.
  { intros i Hi. apply label_at_digit; [pose proof (label_range i Hi); lia|]. auto. }
  clear Hread Hbas Hdirs Hrange. revert labels N Hgs Hlb H. induction gs as [|g r IH]; intros labels' N' Hg Hl H.
  - destruct labels'; [auto|]. cbn in *. lia.
  - destruct labels' as [|l ls]; [cbn in *; lia|]. cbn [rmap]. pose proof (H 0%nat ltac:(cbn in *; lia)) as H0. cbn [nth] in H0. rewrite H0. cbn [rbind].
    rewrite (IH ls (pred N')); auto; try (cbn in *; lia). intros i Hi. apply (H (S i)). lia.
Qed.
Lemma counts_all : count_labels k lab gs = Ok (map (number_with labels) (range_up 0 k)).
Proof.
  destruct (counting k labels Hrange (repeat 0 (Z.to_nat k))) as [y [E [Ey Hy]]]; [apply repeat_length|].
  assert (y = map (number_with labels) (range_up 0 k)) as <-.
  { apply nth_range_list; auto. intros s Hs. rewrite Hy by auto. rewrite nth_repeat. auto. }
  rewrite <- E. unfold count_labels. generalize (repeat 0 (Z.to_nat k)). pose proof labels_all as Hl. clear - Hl. revert labels Hl.
  induction gs as [|g r IH]; intros labels Hl x; cbn [rmap] in Hl; [inversion Hl; auto|]. destruct (label_at lab g) as [l|] eqn:El; [|discriminate]. cbn [rbind] in Hl.
  destruct (rmap (label_at lab) r) as [ls|] eqn:Er; [|discriminate]. cbn [rbind] in Hl. inversion Hl; subst. cbn [rfold]. rewrite El. cbn [rbind]. destruct (count_up x l); cbn [rbind]; auto.
Qed.
(** Lines 389-396 for one label: the atoms with that label, in order. *)
Lemma atoms_of_ok s : 0 <= s < k -> atoms_of lab gs bas dirs N s =
  Ok (map (fun i => (nth i bas x0, nth i dirs (0, 0, 0))) (filter (fun i => nth i labels 0 =? s) (seq 0 N))).
Proof.
  intros Hs. unfold atoms_of.
  rewrite (rfold_ok _ (fun out i => out ++ (if nth i labels 0 =? s then [(nth i bas x0, nth i dirs (0, 0, 0))] else []))).
  - rewrite fold_append. cbn [app]. rewrite filter_flat_map. auto.
  - intros out i Hi. apply in_seq in Hi. rewrite (get_nth dirs i (0, 0, 0)) by (unfold vec in *; lia). cbn [rbind]. rewrite (get_nth gs i 0) by lia. cbn [rbind].
    rewrite Hread by lia. cbn [rbind]. pose proof (label_range i ltac:(lia)). rewrite label_eqb by lia. rewrite Z.eqb_sym. destruct (nth i labels 0 =? s).
    + rewrite (get_nth bas i x0) by lia. auto.
    + rewrite app_nil_r. auto.
Qed.
Definition written : list (P * vec) :=
  flat_map (fun s => map (fun i => (nth i bas x0, nth i dirs (0, 0, 0))) (filter (fun i => nth i labels 0 =? s) (seq 0 N))) (range_up 0 k).
Lemma atoms_all : rmap (atoms_of lab gs bas dirs N) (range_up 0 k) =
  Ok (map (fun s => map (fun i => (nth i bas x0, nth i dirs (0, 0, 0))) (filter (fun i => nth i labels 0 =? s) (seq 0 N))) (range_up 0 k)).
Proof. apply rmap_ok. intros s Hs. apply in_range_up in Hs. apply atoms_of_ok. auto. Qed.
End Write.
