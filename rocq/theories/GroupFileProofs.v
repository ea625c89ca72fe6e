(** Proofs for C70: reading group files. *)
From Coq Require Import Permutation QArith.
From Verif Require Import TextModel TextProofs PyBase Spec ListFacts NumericsModel PhononsModel TreeModel PolyaModel EnumSysModel FilesModel FilesProofs PropertiesFiles GroupFileModel.
Local Open Scope Z_scope.

(** ** What a group file says *)
(** A line of numbers, counted from 1, with blanks between them. *)
Inductive numbers : string -> list nat -> Prop :=
  | numbers_end b : blank b -> numbers b []
  | numbers_more b i s is : blank b -> starts_blank s -> numbers s is -> numbers (b ++ str (Z.of_nat (S i)) ++ s) (i :: is).
(** An entry: "Perm #:", the number of the entry, "Perm:", and the permutation, which may go on in further lines. *)
Definition entry (ls : list string) (p : list nat) : Prop :=
  exists b1 k b2 s rest is iss, ls = ("Perm #:" ++ b1 ++ k ++ b2 ++ "Perm:" ++ s)%string :: rest /\
    blank b1 /\ b1 <> EmptyString /\ solid k /\ blank b2 /\ b2 <> EmptyString /\ starts_blank s /\
    numbers s is /\ Forall2 numbers rest iss /\ p = is ++ concat iss.
(** Six lines of explanations, then the entries. *)
Definition group_file (text : string) (ps : list (list nat)) : Prop :=
  exists preamble blocks, length preamble = 6%nat /\ Forall no_newline (preamble ++ concat blocks) /\
    text = fold_right (fun s r => (s ++ String newline r)%string) EmptyString (preamble ++ concat blocks) /\ Forall2 entry blocks ps.

(** ** Lines *)
Definition number_char (c : ascii) : Prop := is_space c = true \/ digit_value_ok c.
Lemma numbers_chars s is : numbers s is -> all_chars number_char s.
Proof.
  induction 1 as [b Hb|b i s is Hb Hs H IH]; [eapply all_chars_impl; [|exact Hb]; intros c Hc; left; auto|].
  apply all_chars_app. split; [eapply all_chars_impl; [|exact Hb]; intros c Hc; left; auto|]. apply all_chars_app. split; auto.
  rewrite str_nonneg by lia. eapply all_chars_impl; [|apply digits_chars; lia]. intros c Hc. right. auto.
Qed.
Lemma numbers_words s is : numbers s is -> TextModel.words s = map (fun i => str (Z.of_nat (S i))) is.
Proof. induction 1 as [b Hb|b i s is Hb Hs H IH]; [apply words_blank; auto|]. rewrite words_cons; auto; [rewrite IH; auto|apply str_solid]. Qed.
Lemma read_numbers is : rmap int_of (map (fun i => str (Z.of_nat (S i))) is) = Ok (map (fun i => Z.of_nat (S i)) is).
Proof. induction is as [|i is IH]; [auto|]. cbn [map rmap]. rewrite int_str. cbn [rbind]. rewrite IH. auto. Qed.
Lemma index_char c p s : ~ digit_value_ok c -> is_space c = false -> all_chars number_char s -> contains (String c p) s = false.
Proof.
  intros Hd Hs H. unfold contains. replace (String.index 0 (String c p) s) with (@None nat); auto. symmetry. induction s as [|x s IH]; [auto|]. destruct H as [Hx H].
  cbn [String.index]. replace (String.prefix (String c p) (String x s)) with false; [rewrite IH; auto|]. cbn [String.prefix]. destruct (ascii_dec c x) as [<-|]; auto. destruct Hx as [Hx|Hx]; [congruence|tauto].
Qed.
Lemma not_digit_P : ~ digit_value_ok "P"%char.
Proof. intros [d [Hd E]]. assert (d = 0 \/ d = 1 \/ d = 2 \/ d = 3 \/ d = 4 \/ d = 5 \/ d = 6 \/ d = 7 \/ d = 8 \/ d = 9) as C by lia. repeat destruct C as [->|C]; try discriminate. subst d. discriminate. Qed.
Lemma nonempty_starts b s : blank b -> b <> EmptyString -> starts_blank (b ++ s).
Proof. intros Hb Hn. destruct b as [|c b]; [congruence|]. right. exists c, (b ++ s)%string. destruct Hb. auto. Qed.
Lemma read_more iss rest : Forall2 numbers rest iss -> forall i ls g a, (5 < i)%nat ->
  group_lines i (rest ++ ls) (g ++ [a]) = group_lines (length rest + i) ls (g ++ [a ++ map (fun i => Z.of_nat (S i)) (concat iss)]).
Proof.
  induction 1 as [|l is rest iss Hl _ IH]; intros i ls g a Hi; [cbn [app concat map length Nat.add]; rewrite app_nil_r; auto|].
  cbn [app group_lines length]. replace (5 <? i)%nat with true by (symmetry; apply Nat.ltb_lt; auto). change (contains "Perm #:" l) with (contains (String "P" "erm #:") l).
  rewrite index_char; [|exact not_digit_P|reflexivity|eapply numbers_chars; eauto]. destruct (g ++ [a]) as [|g0 gs] eqn:Eg; [destruct g; discriminate|]. rewrite <- Eg.
  rewrite (numbers_words _ _ Hl), read_numbers. cbn [rbind]. rewrite removelast_last, last_last, IH by lia. replace (length rest + S i)%nat with (S (length rest) + i)%nat by lia. cbn [concat]. rewrite map_app, app_assoc. auto.
Qed.
Lemma read_entry ls p : entry ls p -> forall i rest g, (5 < i)%nat -> group_lines i (ls ++ rest) g = group_lines (length ls + i) rest (g ++ [map (fun i => Z.of_nat (S i)) p]).
Proof.
  intros [b1 [k [b2 [s [more [is [iss [-> [H1 [N1 [Hk [H2 [N2 [Hs [Hn [Hm ->]]]]]]]]]]]]]]]] i rest g Hi. cbn [app group_lines length]. replace (5 <? i)%nat with true by (symmetry; apply Nat.ltb_lt; auto).
  rewrite contains_app.
  assert (TextModel.words ("Perm #:" ++ b1 ++ k ++ b2 ++ "Perm:" ++ s) = ["Perm"; "#:"; k; "Perm:"]%string ++ TextModel.words s) as ->.
  { change ("Perm #:" ++ b1 ++ k ++ b2 ++ "Perm:" ++ s)%string with ("" ++ "Perm" ++ " #:" ++ b1 ++ k ++ b2 ++ "Perm:" ++ s)%string.
    rewrite (words_cons "" "Perm"); [|exact Logic.I|split; [discriminate|repeat split]|right; eexists _, _; split; reflexivity].
    change (" #:" ++ b1 ++ k ++ b2 ++ "Perm:" ++ s)%string with (" " ++ "#:" ++ b1 ++ k ++ b2 ++ "Perm:" ++ s)%string.
    rewrite (words_cons " " "#:"); [|repeat split|split; [discriminate|repeat split]|apply nonempty_starts; auto].
    rewrite (words_cons b1 k); [|auto|auto|apply nonempty_starts; auto]. rewrite (words_cons b2 "Perm:"); [|auto|split; [discriminate|repeat split]|auto]. auto. }
  change (skipn 4 (["Perm"; "#:"; k; "Perm:"]%string ++ TextModel.words s)) with (TextModel.words s). rewrite (numbers_words _ _ Hn), read_numbers. cbn [rbind]. rewrite (read_more iss) by (auto; lia).
  replace (length more + S i)%nat with (S (length more) + i)%nat by lia. rewrite map_app. auto.
Qed.
Lemma read_entries blocks ps : Forall2 entry blocks ps -> forall i g, (5 < i)%nat -> group_lines i (concat blocks) g = Ok (g ++ map (map (fun i => Z.of_nat (S i))) ps).
Proof.
  induction 1 as [|ls p blocks ps Hl _ IH]; intros i g Hi; [cbn; rewrite app_nil_r; auto|]. cbn [concat map]. rewrite (read_entry _ _ Hl) by auto. rewrite IH by lia. rewrite <- app_assoc. auto.
Qed.
Lemma read_file text ps : group_file text ps -> (forall p q, In p ps -> In q ps -> length p = length q) -> read_group text = Ok (map (map Z.of_nat) ps).
Proof.
  intros [pre [blocks [H6 [Hn [-> Hb]]]]] Hl. unfold read_group. rewrite lines_text by auto.
  assert (forall l, group_lines 0 (pre ++ l) [] = group_lines 6 l []) as Hpre.
  { intros l. destruct pre as [|a [|b [|c [|d [|e [|f [|]]]]]]]; try discriminate. reflexivity. }
  rewrite Hpre, (read_entries _ _ Hb) by lia. cbn [rbind app].
  replace (forallb _ _) with true.
  - f_equal. rewrite map_map. apply map_ext. intros p. rewrite map_map. apply map_ext. intros i. lia.
  - symmetry. apply forallb_forall. intros r Hr. apply Nat.eqb_eq. apply in_map_iff in Hr. destruct Hr as [p [<- Hp]]. rewrite map_length. destruct ps as [|p0 ps]; [destruct Hp|]. cbn [map nth]. rewrite map_length. apply Hl; auto. left. auto.
Qed.
