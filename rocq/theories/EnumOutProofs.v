(** Proofs about enum.out: sorting, numbering, and reading rows back. *)
From Coq Require Import Permutation Sorted.
From Verif Require Import TextModel TextProofs PyBase Mat3 EnumOutModel.
Local Open Scope Z_scope.

(** ** The sort *)
Lemma insert_entry_perm x l : Permutation (insert_entry x l) (x :: l).
Proof.
  induction l as [|y l IH]; cbn; [auto|]. destruct (entry_ltb x y); auto. rewrite IH. apply perm_swap.
Qed.
Lemma sort_entries_perm l : Permutation (sort_entries l) l.
Proof.
  unfold sort_entries. assert (forall s, Permutation (fold_left (fun s x => insert_entry x s) l s) (s ++ l)) as H; [|apply (H [])].
  induction l as [|x l IH]; intros s; cbn [fold_left]; [rewrite app_nil_r; auto|]. rewrite IH. rewrite insert_entry_perm. cbn. apply Permutation_middle.
Qed.
(** The order of the keys. *)
Definition entry_le (a b : entry) : Prop := e_size a < e_size b \/ e_size a = e_size b /\ String.leb (e_lab a) (e_lab b) = true.
Lemma leb_refl s : String.leb s s = true.
Proof. unfold String.leb. pose proof (String.compare_antisym s s) as H. destruct (String.compare s s); cbn in H; congruence. Qed.
Lemma ltb_leb s t : String.ltb s t = false -> String.leb t s = true.
Proof. unfold String.ltb, String.leb. rewrite (String.compare_antisym s t). destruct (String.compare t s); cbn; congruence. Qed.
Lemma ltb_leb_true s t : String.ltb s t = true -> String.leb s t = true.
Proof. unfold String.ltb, String.leb. destruct (String.compare s t); congruence. Qed.
Lemma ascii_compare_lt_trans a b c : Ascii.compare a b = Lt -> Ascii.compare b c = Lt -> Ascii.compare a c = Lt.
Proof. unfold Ascii.compare. rewrite !N.compare_lt_iff. lia. Qed.
Lemma compare_lt_trans : forall s t u, String.compare s t = Lt -> String.compare t u = Lt -> String.compare s u = Lt.
Proof.
  induction s as [|a s IH]; intros [|b t] [|c u] H1 H2; cbn in *; try discriminate; auto.
  destruct (Ascii.compare a b) eqn:E1; try discriminate; destruct (Ascii.compare b c) eqn:E2; try discriminate.
  - apply Ascii.compare_eq_iff in E1. subst b. rewrite E2. eauto.
  - apply Ascii.compare_eq_iff in E1. subst b. rewrite E2. auto.
  - apply Ascii.compare_eq_iff in E2. subst c. rewrite E1. auto.
  - rewrite (ascii_compare_lt_trans _ _ _ E1 E2). auto.
Qed.
Lemma leb_trans s t u : String.leb s t = true -> String.leb t u = true -> String.leb s u = true.
Proof.
  unfold String.leb. destruct (String.compare s t) eqn:E1; try discriminate; intros _.
  - apply String.compare_eq_iff in E1. subst. auto.
  - destruct (String.compare t u) eqn:E2; try discriminate; intros _.
    + apply String.compare_eq_iff in E2. subst. rewrite E1. auto.
    + rewrite (compare_lt_trans _ _ _ E1 E2). auto.
Qed.
Lemma entry_le_trans a b c : entry_le a b -> entry_le b c -> entry_le a c.
Proof. unfold entry_le. intros [H|[H H']] [K|[K K']]; try (left; lia). right. split; [lia|]. eapply leb_trans; eauto. Qed.
Lemma entry_ltb_le a b : entry_ltb a b = true -> entry_le a b.
Proof.
  unfold entry_ltb, entry_le. intros H. apply orb_true_iff in H as [H|H]; [left; lia|]. apply andb_true_iff in H as [H1 H2]. right. split; [lia|]. apply ltb_leb_true. auto.
Qed.
Lemma entry_ltb_ge a b : entry_ltb a b = false -> entry_le b a.
Proof.
  unfold entry_ltb, entry_le. intros H. apply orb_false_iff in H as [H1 H2]. apply andb_false_iff in H2 as [H2|H2]; [left; lia|].
  destruct (Z.eq_dec (e_size b) (e_size a)); [right; split; auto; apply ltb_leb; auto|left; lia].
Qed.
Lemma insert_entry_sorted x l : StronglySorted entry_le l -> StronglySorted entry_le (insert_entry x l).
Proof.
  induction 1 as [|y l Hs IH Hf]; cbn; [repeat constructor|]. destruct (entry_ltb x y) eqn:E.
  - constructor; [constructor; auto|]. constructor; [apply entry_ltb_le; auto|]. eapply Forall_impl; [|exact Hf]. intros z. apply entry_le_trans. apply entry_ltb_le. auto.
  - constructor; auto. rewrite Forall_forall in *. intros z Hz. apply (Permutation_in _ (insert_entry_perm x l)) in Hz as [<-|Hz]; auto. apply entry_ltb_ge. auto.
Qed.
Lemma sort_entries_sorted l : StronglySorted entry_le (sort_entries l).
Proof.
  unfold sort_entries. assert (forall s, StronglySorted entry_le s -> StronglySorted entry_le (fold_left (fun s x => insert_entry x s) l s)) as H; [|apply H; constructor].
  induction l as [|x l IH]; intros s Hs; cbn; auto. apply IH. apply insert_entry_sorted. auto.
Qed.

(** ** Numbering *)
(** How many of the first [i] have the size of number [i], plus one. *)
Definition index_in_size (l : list entry) (i : nat) : Z :=
  1 + Z.of_nat (length (filter (fun e => e_size e =? e_size (nth i l {| e_size := 0; e_hnf := []; e_snf := []; e_lt := []; e_lab := ""; e_arr := "" |})) (firstn i l))).
Definition no_entry : entry := {| e_size := 0; e_hnf := []; e_snf := []; e_lt := []; e_lab := ""; e_arr := "" |}.
Lemma rows_length l : forall t s z, length (rows t s z l) = length l.
Proof. induction l as [|e l IH]; intros t s z; cbn; auto. Qed.
Definition numbered (l : list entry) : list string :=
  map (fun i => row (Z.of_nat i + 1) (index_in_size l i) (nth i l no_entry)) (seq 0 (length l)).
Lemma filter_none {A} (f : A -> bool) l : (forall x, In x l -> f x = false) -> filter f l = [].
Proof. induction l as [|x l IH]; intros H; cbn; auto. rewrite (H x) by (left; auto). apply IH. intros. apply H. right. auto. Qed.
Lemma rows_numbered : forall l pre s z,
  StronglySorted entry_le (pre ++ l) -> s = Z.of_nat (length (filter (fun e => e_size e =? z) pre)) ->
  (forall e, In e pre -> e_size e <= z) -> (pre <> [] -> exists x, In x pre /\ e_size x = z) ->
  rows (Z.of_nat (length pre) + 1) s z l = map (fun i => row (Z.of_nat i + 1) (index_in_size (pre ++ l) i) (nth i (pre ++ l) no_entry)) (seq (length pre) (length l)).
Proof.
  induction l as [|e l IH]; intros pre s z Hs Es Hle Hz; [auto|]. cbn [rows length seq map].
  set (s' := if negb (e_size e =? z) then 1 else s + 1).
  assert (forall x, In x pre -> e_size x <= e_size e) as Hpe.
  { intros x Hx. clear - Hs Hx. induction pre as [|y pre IHp]; [contradiction|]. cbn in Hs. inversion Hs as [|? ? Hs' Hf]; subst.
    destruct Hx as [->|Hx]; [|auto]. rewrite Forall_forall in Hf. assert (entry_le x e) as Hxe by (apply Hf, in_or_app; right; left; auto). destruct Hxe; lia. }
  assert (nth (length pre) (pre ++ e :: l) no_entry = e) as En by (rewrite app_nth2, Nat.sub_diag by lia; auto).
  assert (s' = index_in_size (pre ++ e :: l) (length pre)) as Ei.
  { unfold index_in_size. fold no_entry. rewrite En. rewrite firstn_app, Nat.sub_diag, firstn_all, firstn_O, app_nil_r. unfold s'.
    destruct (Z.eqb_spec (e_size e) z) as [E|E]; cbn [negb]; [rewrite E; lia|].
    rewrite filter_none; [auto|]. intros x Hx. apply Z.eqb_neq. specialize (Hle x Hx). pose proof (Hpe x Hx).
    destruct Hz as [y [Hy Ey]]; [destruct pre; [destruct Hx|discriminate]|]. pose proof (Hpe y Hy). lia. }
  f_equal; [rewrite En, Ei; auto|].
  replace (Z.of_nat (length pre) + 1 + 1) with (Z.of_nat (length (pre ++ [e])) + 1) by (rewrite app_length; cbn; lia).
  rewrite (IH (pre ++ [e]) s' (e_size e)).
  - rewrite <- app_assoc. cbn [app]. rewrite app_length. cbn [length]. rewrite Nat.add_1_r. auto.
  - rewrite <- app_assoc. auto.
  - rewrite filter_app. cbn [filter]. rewrite Z.eqb_refl. rewrite app_length. cbn [length]. rewrite Ei. unfold index_in_size. fold no_entry. rewrite En.
    rewrite firstn_app, Nat.sub_diag, firstn_all, firstn_O, app_nil_r. lia.
  - intros x Hx. apply in_app_iff in Hx as [Hx|[<-|[]]]; [auto|lia].
  - intros _. exists e. split; auto. apply in_or_app. right. left. auto.
Qed.
Lemma rows_all l : StronglySorted entry_le l -> match l with [] => [] | e :: _ => rows 1 0 (e_size e) l end = numbered l.
Proof.
  intros Hs. destruct l as [|e l]; [auto|]. unfold numbered. apply (rows_numbered (e :: l) [] 0 (e_size e)); auto; [intros x []|congruence].
Qed.

(** ** Reading a row back *)
Lemma words_fmtn n s : starts_blank s -> forall l, Forall (fun x => (String.length (str x) < n)%nat) (tl l) -> words (fmtn l n ++ s) = map str l ++ words s.
Proof.
  intros Hs. induction l as [|x l IH]; intros H; [auto|]. cbn [fmtn fold_right tl] in *. fold (fmtn l n). rewrite app_assoc_s.
  rewrite words_pad.
  - cbn. f_equal. apply IH. destruct l; [auto|]. cbn. inversion H; auto.
  - apply str_solid.
  - destruct l as [|y l]; [exact Hs|]. inversion H; subst. cbn [fmtn fold_right]. rewrite app_assoc_s. apply starts_blank_pad. auto.
Qed.
Lemma words_solid t s : solid t -> starts_blank s -> words (t ++ s) = t :: words s.
Proof. intros Ht Hs. apply (words_cons "" t s); auto. exact I. Qed.
Lemma words_spaces n s : words (spaces n ++ s) = words s.
Proof. unfold words. apply words_from_blank. apply spaces_blank. Qed.
Lemma starts_blank_spaces n s : starts_blank (spaces (S n) ++ s).
Proof. right. cbn. eauto. Qed.
Lemma fmtn_length l n : Forall (fun x => (String.length (str x) <= n)%nat) l -> String.length (fmtn l n) = (n * length l)%nat.
Proof.
  induction 1 as [|x l Hx Hl IH]; cbn [fmtn fold_right length]; [cbn; lia|]. fold (fmtn l n). rewrite app_length_s. unfold pad. rewrite app_length_s, spaces_length. lia.
Qed.

Definition fits (e : entry) : Prop :=
  0 <= e_size e < 1000 /\ (exists a b c, e_snf e = [a; b; c]) /\ Forall (fun x => 0 <= x < 100) (e_snf e) /\
  (exists a b c d f g, e_hnf e = [a; b; c; d; f; g]) /\ Forall (fun x => 0 <= x < 100) (e_hnf e) /\
  length (e_lt e) = 9%nat /\ Forall (fun x => -1000 < x < 10000) (e_lt e) /\ solid (e_lab e) /\ solid (e_arr e).
Definition structure_of (t s : Z) (e : entry) : structure :=
  let h i := nth i (e_hnf e) 0 in let l i := nth i (e_lt e) 0 in
  {| strN := t; hnfN := 1; hnf_degen := 1; lab_degen := 1; tot_degen := 1; sizeN := s; cells := e_size e; pgOps := 1;
     sdiag := (nth 0 (e_snf e) 0, nth 1 (e_snf e) 0, nth 2 (e_snf e) 0);
     sHNF := full_HNF (e_hnf e);
     sL := ((l 0, l 1, l 2), (l 3, l 4, l 5), (l 6, l 7, l 8))%nat; labeling := e_lab e; directions_of := e_arr e |}.

Lemma words_row t s e : 0 <= s < 10 ^ 11 -> fits e ->
  words (row t s e) = [str t; str 1; str 1; str 1; str 1; str s; str (e_size e); str 1] ++ map str (e_snf e) ++ map str (e_hnf e) ++ map str (e_lt e) ++ [e_lab e; e_arr e].
Proof.
  intros Hs [Hsz [_ [Hsnf [_ [Hhnf [_ [Hlt [Hlab Harr]]]]]]]]. unfold row.
  assert (String.length (str 1) = 1%nat) as L1 by reflexivity.
  assert (String.length (str s) <= 11)%nat as Ls by (apply (str_len_pos 10); auto).
  assert (String.length (str (e_size e)) <= 3)%nat as Lz by (apply (str_len_pos 2); auto).
  assert (forall x, 0 <= x < 100 -> (String.length (str x) <= 2)%nat) as L2 by (intros; apply (str_len_pos 1); auto).
  assert (forall x, -1000 < x < 10000 -> (String.length (str x) <= 4)%nat) as L4.
  { intros x Hx. destruct (Z.ltb_spec x 0); [apply (str_len_neg 2); cbn; lia|apply (str_len_pos 3); cbn; lia]. }
  assert (String.length (fmtn (e_snf e) 3) <= 9 \/ True)%nat as _ by auto.
  assert (Forall (fun x => (String.length (str x) < 3)%nat) (e_snf e)) as F1 by (eapply Forall_impl; [|exact Hsnf]; intros x Hx; cbv beta in *; specialize (L2 x Hx); lia).
  assert (Forall (fun x => (String.length (str x) < 3)%nat) (e_hnf e)) as F2 by (eapply Forall_impl; [|exact Hhnf]; intros x Hx; cbv beta in *; specialize (L2 x Hx); lia).
  assert (Forall (fun x => (String.length (str x) < 5)%nat) (e_lt e)) as F3 by (eapply Forall_impl; [|exact Hlt]; intros x Hx; cbv beta in *; specialize (L4 x Hx); lia).
  assert (forall {P : Z -> Prop} l, Forall P l -> Forall P (tl l)) as Ftl by (intros P l Hl; destruct l; auto; inversion Hl; auto).
  cbn [app]. do 7 (rewrite words_pad; [f_equal|apply str_solid|apply starts_blank_pad; lia]). rewrite words_pad; [f_equal|apply str_solid|].
  - unfold pad at 1. rewrite app_assoc_s, words_spaces.
    change "    "%string with (spaces 4). change "  "%string with (spaces 2).
    change (String " " (String " " (spaces 2))) with (spaces 4).
    rewrite words_fmtn; [|apply starts_blank_spaces|auto]. f_equal. rewrite words_spaces.
    unfold pad at 1. rewrite app_assoc_s, words_spaces. rewrite words_fmtn; [|apply starts_blank_spaces|auto]. f_equal. rewrite words_spaces.
    unfold pad at 1. rewrite app_assoc_s, words_spaces. rewrite words_fmtn; [|apply starts_blank_spaces|auto]. f_equal. rewrite words_spaces.
    rewrite words_solid; [|auto|right; cbn; eauto]. f_equal. rewrite words_spaces.
    rewrite <- (app_nil_s (pad 21 (e_arr e))). rewrite words_pad; auto. left. auto.
  - destruct Hsnf as [|x l Hx Hl]; [right; cbn; eauto|]. unfold pad. destruct (10 - String.length (fmtn (x :: l) 3))%nat; [|right; cbn; eauto].
    cbn [spaces append fmtn fold_right]. rewrite !app_assoc_s. inversion F1; subst. apply starts_blank_pad. auto.
Qed.
Lemma read_row_back t s e : 0 <= s < 10 ^ 11 -> fits e -> read_row (rstrip (row t s e)) = Ok (structure_of t s e).
Proof.
  intros Hs Hf. unfold read_row. rewrite words_rstrip, words_row by auto. destruct Hf as [_ [[a [b [c E1]]] [_ [[h0 [h1 [h2 [h3 [h4 [h5 E2]]]]]] [_ [E3 _]]]]]].
  unfold structure_of. rewrite E1, E2. destruct (e_lt e) as [|l0 [|l1 [|l2 [|l3 [|l4 [|l5 [|l6 [|l7 [|l8 [|]]]]]]]]]]; try discriminate.
  generalize (int_str 1) (int_str t) (int_str s) (int_str (e_size e)) (int_str a) (int_str b) (int_str c) (int_str h0) (int_str h1) (int_str h2) (int_str h3) (int_str h4) (int_str h5) (int_str l0) (int_str l1) (int_str l2) (int_str l3) (int_str l4) (int_str l5) (int_str l6) (int_str l7) (int_str l8).
  cbn [app map]. generalize str. intros f. intros. unfold get. cbn [nth_error rbind]. repeat (match goal with H : int_of _ = Ok _ |- _ => rewrite H end; cbn [rbind]). reflexivity.
Qed.
