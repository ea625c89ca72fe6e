(** Facts about the text primitives. *)
From Verif Require Import PyBase TextModel.
Local Open Scope Z_scope.

Lemma app_assoc_s (a b c : string) : ((a ++ b) ++ c = a ++ (b ++ c))%string.
Proof. induction a as [|x a IH]; cbn; [auto|rewrite IH; auto]. Qed.
Lemma app_nil_s (a : string) : (a ++ "" = a)%string.
Proof. induction a as [|x a IH]; cbn; [auto|rewrite IH; auto]. Qed.
Lemma app_length_s (a b : string) : String.length (a ++ b) = (String.length a + String.length b)%nat.
Proof. induction a as [|x a IH]; cbn; auto. Qed.
Lemma spaces_length n : String.length (spaces n) = n.
Proof. induction n; cbn; auto. Qed.

(** All characters satisfy [P]. *)
Fixpoint all_chars (P : ascii -> Prop) (s : string) : Prop :=
  match s with EmptyString => True | String c s' => P c /\ all_chars P s' end.
Lemma all_chars_app P a b : all_chars P (a ++ b) <-> all_chars P a /\ all_chars P b.
Proof. induction a as [|x a IH]; cbn; tauto. Qed.
Lemma all_chars_impl (P Q : ascii -> Prop) s : (forall c, P c -> Q c) -> all_chars P s -> all_chars Q s.
Proof. intros H. induction s; cbn; intuition auto. Qed.
Definition solid (s : string) : Prop := s <> EmptyString /\ all_chars (fun c => is_space c = false) s.
Definition blank (s : string) : Prop := all_chars (fun c => is_space c = true) s.
Lemma spaces_blank n : blank (spaces n).
Proof. induction n; cbn; auto. Qed.

(** ** Digits *)
Lemma digit_char_facts d : 0 <= d < 10 -> char_digit (digit_char d) = Some d /\ is_space (digit_char d) = false /\ digit_char d <> "-"%char /\ digit_char d <> "#"%char /\ digit_char d <> "+"%char.
Proof.
  intros H. assert (d = 0 \/ d = 1 \/ d = 2 \/ d = 3 \/ d = 4 \/ d = 5 \/ d = 6 \/ d = 7 \/ d = 8 \/ d = 9) as Hd by lia.
  intuition subst; try reflexivity; discriminate.
Qed.
Lemma digits_fuel : forall f n, 0 <= n < 10 ^ (Z.of_nat (S f)) -> forall f', (f <= f')%nat -> digits (S f') n = digits (S f) n.
Proof.
  induction f as [|f IH]; intros n Hn f' Hf.
  - cbn [digits]. destruct (Z.ltb_spec n 10) as [_|H]; auto. change (10 ^ Z.of_nat 1) with 10 in Hn. lia.
  - destruct f' as [|f']; [lia|]. cbn [digits]. destruct (Z.ltb_spec n 10) as [_|H]; auto. f_equal.
    apply IH; [|lia]. split; [apply Z.div_pos; lia|]. apply Z.div_lt_upper_bound; [lia|].
    rewrite Nat2Z.inj_succ in Hn. rewrite Z.pow_succ_r in Hn by lia. lia.
Qed.
Lemma log2_fuel n : 0 <= n -> n < 10 ^ Z.of_nat (S (Z.to_nat (Z.log2 n))).
Proof.
  intros H. destruct (Z.eq_dec n 0) as [->|Hn]; [reflexivity|].
  destruct (Z.log2_spec n) as [_ Hu]; [lia|]. eapply Z.lt_le_trans; [exact Hu|].
  pose proof (Z.log2_nonneg n). rewrite Nat2Z.inj_succ, Z2Nat.id by lia.
  apply Z.pow_le_mono_l. lia.
Qed.
Definition digit_value_ok c := exists d, 0 <= d < 10 /\ c = digit_char d.
Lemma digits_chars : forall f n, 0 <= n -> all_chars digit_value_ok (digits f n).
Proof.
  induction f as [|f IH]; intros n Hn; cbn [digits]; [exact I|]. apply all_chars_app. split.
  - destruct (n <? 10); [exact I|]. apply IH. apply Z.div_pos; lia.
  - cbn. split; auto. exists (n mod 10). split; auto. apply Z.mod_pos_bound. lia.
Qed.
Lemma digits_value_app a b acc : all_chars digit_value_ok a -> digits_value acc (a ++ b) = match digits_value acc a with Some v => digits_value v b | None => None end.
Proof. revert acc. induction a as [|x a IH]; intros acc; cbn; auto. intros [[d [Hd ->]] Ha]. destruct (digit_char_facts d Hd) as [-> _]. auto. Qed.
Lemma digits_read : forall f n, 0 <= n < 10 ^ Z.of_nat (S f) -> digits_value 0 (digits (S f) n) = Some n.
Proof.
  induction f as [|f IH]; intros n Hn.
  - change (10 ^ Z.of_nat 1) with 10 in Hn. cbn [digits]. destruct (Z.ltb_spec n 10) as [_|H]; [|lia]. cbn -[Z.modulo digit_char].
    destruct (digit_char_facts (n mod 10)) as [-> _]; [apply Z.mod_pos_bound; lia|]. rewrite Z.mod_small by lia. f_equal; lia.
  - assert (forall acc, digits_value acc (String (digit_char (n mod 10)) "") = Some (10 * acc + n mod 10)) as Hl.
    { intros acc. cbn -[Z.modulo digit_char Z.mul]. destruct (digit_char_facts (n mod 10)) as [-> _]; auto. apply Z.mod_pos_bound. lia. }
    remember (S f) as g. cbn [digits]. rewrite digits_value_app by (destruct (n <? 10); [exact I|apply digits_chars; apply Z.div_pos; lia]). destruct (Z.ltb_spec n 10) as [H|H].
    + change (digits_value 0 EmptyString) with (Some 0). cbv iota. rewrite Hl. rewrite Z.mod_small by lia. f_equal; lia.
    + subst g. rewrite IH.
      * rewrite Hl. f_equal. rewrite (Z.div_mod n 10) at 3 by lia. lia.
      * split; [apply Z.div_pos; lia|]. apply Z.div_lt_upper_bound; [lia|]. rewrite Nat2Z.inj_succ in Hn. rewrite Z.pow_succ_r in Hn by lia. lia.
Qed.
Lemma digits_ne f n : digits (S f) n <> EmptyString.
Proof. cbn [digits]. destruct (if n <? 10 then EmptyString else digits f (n / 10)); discriminate. Qed.
Lemma digits_len : forall f n, 0 <= n < 10 ^ Z.of_nat (S f) -> (String.length (digits (S f) n) <= S f)%nat.
Proof.
  induction f as [|f IH]; intros n Hn.
  - cbn [digits]. change (10 ^ Z.of_nat 1) with 10 in Hn. destruct (Z.ltb_spec n 10); [|lia]. cbn. lia.
  - remember (S f) as g. cbn [digits]. rewrite app_length_s. cbn [String.length]. destruct (Z.ltb_spec n 10); [cbn; lia|]. subst g.
    assert (0 <= n / 10 < 10 ^ Z.of_nat (S f)) as Hd.
    { split; [apply Z.div_pos; lia|]. apply Z.div_lt_upper_bound; [lia|]. rewrite Nat2Z.inj_succ in Hn. rewrite Z.pow_succ_r in Hn by lia. lia. }
    specialize (IH _ Hd). lia.
Qed.

(** ** [str] and [int] *)
Lemma str_nonneg n : 0 <= n -> str n = digits (S (Z.to_nat (Z.log2 n))) n.
Proof. intros H. unfold str. destruct (Z.ltb_spec n 0); [lia|auto]. Qed.
Lemma str_neg n : n < 0 -> str n = String "-" (str (- n)).
Proof. intros H. unfold str. destruct (Z.ltb_spec n 0); [|lia]. destruct (Z.ltb_spec (- n) 0); [lia|auto]. Qed.
Lemma rstrip_solid s : all_chars (fun c => is_space c = false) s -> rstrip s = s.
Proof. induction s as [|c s IH]; [auto|]. intros [Hc Hs]. cbn [rstrip]. rewrite IH by auto. destruct s; [rewrite Hc|]; auto. Qed.
Lemma strip_solid s : solid s -> lstrip (rstrip s) = s.
Proof. intros [Hne Hs]. rewrite rstrip_solid by auto. destruct s as [|c s]; [congruence|]. destruct Hs as [Hc _]. cbn. rewrite Hc. auto. Qed.
Lemma int_of_digits s : s <> EmptyString -> all_chars digit_value_ok s -> int_of s = match digits_value 0 s with Some v => Ok v | None => Err ValueError end.
Proof.
  destruct s as [|c s]; [congruence|]. intros _ Ha. unfold int_of. rewrite strip_solid by (split; [discriminate|eapply all_chars_impl; [|exact Ha]; intros x [d [Hd ->]]; apply (digit_char_facts d Hd)]).
  destruct Ha as [[d [Hd ->]] _]. destruct (digit_char_facts d Hd) as [Hc [_ [Hm [_ Hp]]]]. destruct (Ascii.eqb_spec (digit_char d) "-"); [contradiction|].
  destruct (Ascii.eqb_spec (digit_char d) "+"); [contradiction|]. unfold unsigned. rewrite Hc. auto.
Qed.
Lemma str_solid z : solid (str z).
Proof.
  assert (forall n, 0 <= n -> solid (str n)) as Hp.
  { intros n Hn. rewrite str_nonneg by auto. split; [apply digits_ne|]. eapply all_chars_impl; [|apply digits_chars; auto].
    intros c [d [Hd ->]]. apply (digit_char_facts d Hd). }
  destruct (Z.ltb_spec z 0) as [H|H]; [|auto]. rewrite str_neg by auto. destruct (Hp (- z)) as [_ Hs]; [lia|]. split; [discriminate|]. split; auto.
Qed.
Theorem int_str z : int_of (str z) = Ok z.
Proof.
  assert (forall n, 0 <= n -> int_of (str n) = Ok n /\ unsigned (str n) = Ok n) as Hp.
  { intros n Hn. rewrite str_nonneg by auto. set (f := Z.to_nat (Z.log2 n)).
    assert (digits_value 0 (digits (S f) n) = Some n) as E by (apply digits_read; split; [lia|apply log2_fuel; auto]).
    rewrite int_of_digits; [|apply digits_ne|apply digits_chars; auto]. rewrite E. split; auto.
    pose proof (digits_ne f n) as Hne. pose proof (digits_chars (S f) n Hn) as Hc. destruct (digits (S f) n) as [|c s]; [congruence|]. destruct Hc as [[d [Hd ->]] _].
    unfold unsigned. destruct (digit_char_facts d Hd) as [-> _]. rewrite E. auto. }
  destruct (Z.ltb_spec z 0) as [H|H]; [|apply Hp; auto].
  unfold int_of. rewrite strip_solid by apply str_solid. rewrite str_neg by auto. rewrite Ascii.eqb_refl. destruct (Hp (- z)) as [_ ->]; [lia|]. cbn [rbind]. f_equal. lia.
Qed.
Lemma str_len_pos k n : 0 <= n < 10 ^ Z.of_nat (S k) -> (String.length (str n) <= S k)%nat.
Proof.
  intros H. rewrite str_nonneg by lia. set (f := Z.to_nat (Z.log2 n)).
  destruct (le_lt_dec f k) as [Hf|Hf].
  - pose proof (digits_len f n). assert (String.length (digits (S f) n) <= S f)%nat by (apply H0; split; [lia|apply log2_fuel; lia]). lia.
  - rewrite (digits_fuel k n H) by lia. apply digits_len. auto.
Qed.
Lemma str_len_neg k n : - 10 ^ Z.of_nat (S k) < n < 0 -> (String.length (str n) <= S (S k))%nat.
Proof. intros H. rewrite str_neg by lia. cbn [String.length]. apply le_n_S. apply str_len_pos. lia. Qed.

(** ** Words *)
Lemma words_from_blank b s : blank b -> words_from EmptyString (b ++ s) = words_from EmptyString s.
Proof. induction b as [|c b IH]; cbn; auto. intros [-> Hb]. auto. Qed.
Lemma words_from_solid t cur s : all_chars (fun c => is_space c = false) t -> words_from cur (t ++ s) = words_from (cur ++ t) s.
Proof.
  revert cur. induction t as [|c t IH]; intros cur; cbn; [rewrite app_nil_s; auto|]. intros [-> Ht]. rewrite IH by auto. rewrite app_assoc_s. auto.
Qed.
(** One more word in front. *)
Lemma words_cons b t s : blank b -> solid t -> (s = EmptyString \/ exists c s', s = String c s' /\ is_space c = true) -> words (b ++ t ++ s) = t :: words s.
Proof.
  intros Hb [Hne Ht] Hs. unfold words. rewrite words_from_blank by auto. rewrite words_from_solid by auto. cbn [append].
  destruct Hs as [->|[c [s' [-> Hc]]]].
  - cbn. destruct t; [congruence|auto].
  - cbn [words_from]. rewrite Hc. destruct t; [congruence|auto].
Qed.
Lemma words_blank b : blank b -> words b = [].
Proof. intros Hb. unfold words. rewrite <- (app_nil_s b). rewrite words_from_blank by auto. auto. Qed.
(** Starts with a blank, or is empty. *)
Definition starts_blank (s : string) : Prop := s = EmptyString \/ exists c s', s = String c s' /\ is_space c = true.
Lemma starts_blank_pad w t s : (String.length t < w)%nat -> starts_blank (pad w t ++ s).
Proof. intros H. right. unfold pad. destruct (w - String.length t)%nat eqn:E; [lia|]. cbn. eauto. Qed.
Lemma words_pad w t s : solid t -> starts_blank s -> words (pad w t ++ s) = t :: words s.
Proof. intros Ht Hs. unfold pad. rewrite app_assoc_s. apply words_cons; auto. apply spaces_blank. Qed.
Lemma words_app_blank s b : blank b -> words (s ++ b) = words s.
Proof.
  intros Hb. unfold words. enough (forall cur, words_from cur (s ++ b) = words_from cur s) by auto. induction s as [|c s IH]; intros cur; cbn [append].
  - destruct b as [|c b]; auto. cbn in Hb. destruct Hb as [Hc Hb]. cbn [words_from]. rewrite Hc. pose proof (words_blank b Hb) as E. unfold words in E.
    destruct cur; rewrite E; auto.
  - cbn [words_from]. destruct (is_space c); [destruct cur|]; rewrite ?IH; auto.
Qed.
Lemma rstrip_split s : exists b, s = (rstrip s ++ b)%string /\ blank b.
Proof.
  induction s as [|c s [b [E Hb]]]; [exists EmptyString; split; [auto|exact I]|]. cbn [rstrip].
  destruct (rstrip s) as [|d r].
  - destruct (is_space c) eqn:Hc.
    + exists (String c b). cbn in E |- *. subst s. auto.
    + exists b. cbn in E |- *. subst s. auto.
  - exists b. split; auto. rewrite E at 1. auto.
Qed.
Lemma words_rstrip s : words (rstrip s) = words s.
Proof. destruct (rstrip_split s) as [b [E Hb]]. rewrite E at 2. symmetry. apply words_app_blank. auto. Qed.

(** ** Lines *)
Definition no_newline (s : string) : Prop := all_chars (fun c => Ascii.eqb c newline = false) s.
Lemma lines_from_app t cur s : no_newline t -> lines_from cur (t ++ String newline s) = (cur ++ t)%string :: lines s.
Proof.
  revert cur. induction t as [|c t IH]; intros cur.
  - intros _. cbn [append lines_from]. rewrite Ascii.eqb_refl, app_nil_s. auto.
  - intros [Hc Ht]. cbn [append lines_from]. rewrite Hc. rewrite IH by auto. rewrite app_assoc_s. auto.
Qed.
(** The text made of lines is read back as those lines. *)
Lemma lines_text l : Forall no_newline l -> lines (fold_right (fun s r => (s ++ String newline r)%string) EmptyString l) = l.
Proof.
  induction l as [|s l IH]; intros H; [auto|]. inversion H; subst. cbn [fold_right]. unfold lines. rewrite lines_from_app by auto. rewrite IH; auto.
Qed.
