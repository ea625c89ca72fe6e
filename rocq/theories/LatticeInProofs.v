(** Reading lattice.in (C59). *)
From Coq Require Import QArith Qpower.
From Verif Require Import TextModel TextProofs PyBase Mat3 FilesModel FilesProofs EnumOutModel RunModel LatticeInModel LatticeInSpec.
Local Open Scope Z_scope.

(** ** Numerals *)
Lemma digit_char_plain d : 0 <= d <= 9 -> char_digit (digit_char d) = Some d /\ is_space (digit_char d) = false /\ Ascii.eqb (digit_char d) "-" = false /\ Ascii.eqb (digit_char d) "+" = false /\
  Ascii.eqb (digit_char d) "." = false /\ (Ascii.eqb (digit_char d) "e" || Ascii.eqb (digit_char d) "E")%bool = false /\ Ascii.eqb (digit_char d) "#" = false.
Proof. intros H. assert (d = 0 \/ d = 1 \/ d = 2 \/ d = 3 \/ d = 4 \/ d = 5 \/ d = 6 \/ d = 7 \/ d = 8 \/ d = 9) as Hd by lia. intuition subst; reflexivity. Qed.
Lemma plain_written ds : Forall (fun d => 0 <= d <= 9) ds -> forall a n, plain_digits a n (written ds) = Some (fold_left (fun a d => 10 * a + d) ds a, (n + length ds)%nat).
Proof.
  induction 1 as [|d ds Hd _ IH]; intros a n; cbn [written fold_right plain_digits fold_left length]; [f_equal; f_equal; lia|]. destruct (digit_char_plain d Hd) as [-> _]. fold (written ds). rewrite IH. f_equal. f_equal. lia.
Qed.
Lemma written_solid ds : Forall (fun d => 0 <= d <= 9) ds -> all_chars (fun c => is_space c = false) (written ds).
Proof. induction 1 as [|d ds Hd _ IH]; cbn; auto. split; auto. apply (digit_char_plain d Hd). Qed.
Lemma cut_none sep s : all_chars (fun c => sep c = false) s -> cut sep s = (s, None).
Proof. induction s as [|c s IH]; intros H; cbn; auto. destruct H as [Hc Hs]. rewrite Hc, IH by auto. auto. Qed.
Lemma cut_some sep s c r : all_chars (fun c => sep c = false) s -> sep c = true -> cut sep (s ++ String c r) = (s, Some r).
Proof. intros H Hc. induction s as [|x s IH]; cbn [append cut]; [rewrite Hc; auto|]. destruct H as [Hx Hs]. rewrite Hx, IH by auto. auto. Qed.
Lemma written_all (P : ascii -> Prop) ds : (forall d, 0 <= d <= 9 -> P (digit_char d)) -> Forall (fun d => 0 <= d <= 9) ds -> all_chars P (written ds).
Proof. intros HP. induction 1 as [|d ds Hd _ IH]; [exact I|]. split; [apply HP; exact Hd|exact IH]. Qed.

Lemma mantissa_written ip fp tail : Forall (fun d => 0 <= d <= 9) (ip ++ fp) ->
  (tail = written fp /\ ip <> [] /\ fp = [] \/ tail = String "." (written fp) /\ ip ++ fp <> []) ->
  mantissa (written ip ++ tail) = Ok (positional (ip ++ fp), length fp).
Proof.
  intros Hd Ht. apply Forall_app in Hd. destruct Hd as [Hi Hf]. unfold mantissa, positional.
  assert (forall ds, Forall (fun d => 0 <= d <= 9) ds -> all_chars (fun c => Ascii.eqb c "." = false) (written ds)) as Hp by (intros ds; apply written_all; intros d Hd; apply (digit_char_plain d Hd)).
  destruct Ht as [[-> [Hne ->]]|[-> Hne]].
  - cbn [written fold_right]. rewrite app_nil_s, cut_none by auto. rewrite plain_written by auto. cbn [plain_digits length]. rewrite app_nil_r. destruct ip; [congruence|]. cbn [length Nat.add Nat.eqb]. auto.
  - rewrite cut_some by auto. rewrite plain_written by auto. rewrite plain_written by auto. cbn [Nat.add]. rewrite fold_left_app. destruct ip; [destruct fp; [exfalso; apply Hne; reflexivity|]|]; auto.
Qed.
Notation signed_mantissa := (with_sign Qopp (fun t => do (v, k) <- mantissa t; Ok (v # Z.to_pos (10 ^ Z.of_nat k))%Q)).
Lemma signed_decimal w q : plain_decimal w q -> solid w /\ all_chars (fun c => (Ascii.eqb c "e" || Ascii.eqb c "E")%bool = false) w /\ exists q', signed_mantissa w = Ok q' /\ (q' == q)%Q.
Proof.
  intros [sign [s [ip [fp [tail [Hs [Ht [Hd [-> Hq]]]]]]]]].
  assert (forall b, In b [sign] -> (b = EmptyString \/ b = "+" \/ b = "-")%string) as Hb by (intros b [<-|[]]; destruct Hs as [[-> _]|[[-> _]|[-> _]]]; auto).
  pose proof Hd as Hd'. apply Forall_app in Hd'. destruct Hd' as [Hi Hf].
  assert (forall P : ascii -> Prop, P "."%char -> P "+"%char -> P "-"%char -> (forall d, 0 <= d <= 9 -> P (digit_char d)) -> all_chars P (sign ++ written ip ++ tail)) as Hall.
  { intros P P1 P2 P3 P4. apply all_chars_app. split; [destruct (Hb sign ltac:(left; auto)) as [E|[E|E]]; rewrite E; cbn; auto|]. apply all_chars_app. split; [apply written_all; auto|].
    destruct Ht as [[-> _]|[-> _]]; [apply written_all; auto|]. split; auto. apply written_all; auto. }
  assert (solid (sign ++ written ip ++ tail)) as Hsol.
  { split; [|apply Hall; auto; intros d Hdd; apply (digit_char_plain d Hdd)]. intros E. apply (f_equal String.length) in E. rewrite !app_length_s in E. cbn in E.
    assert (forall ds, String.length (written ds) = length ds) as El by (induction ds as [|x ds IH]; cbn; auto). rewrite El in E.
    destruct Ht as [[-> [Hne _]]|[-> _]]; [destruct ip; [congruence|cbn in E; lia]|cbn in E; lia]. }
  split; [exact Hsol|]. split; [apply Hall; auto; intros d Hdd; apply (digit_char_plain d Hdd)|].
  set (body := (written ip ++ tail)%string) in *.
  assert ((do (v, k) <- mantissa body; Ok (v # Z.to_pos (10 ^ Z.of_nat k))%Q) = Ok (positional (ip ++ fp) # Z.to_pos (10 ^ Z.of_nat (length fp)))%Q) as Em by (unfold body; rewrite (mantissa_written ip fp tail) by auto; auto).
  set (q0 := (positional (ip ++ fp) # Z.to_pos (10 ^ Z.of_nat (length fp)))%Q) in *.
  assert (0 < 10 ^ Z.of_nat (length fp)) as H10 by (apply Z.pow_pos_nonneg; lia).
  assert (q0 * inject_Z (10 ^ Z.of_nat (length fp)) == inject_Z (positional (ip ++ fp)))%Q as E0 by (unfold q0, Qeq, Qmult, inject_Z; cbn [Qnum Qden]; rewrite Pos.mul_1_r, !Z.mul_1_r, Z2Pos.id by auto; ring).
  assert (~ inject_Z (10 ^ Z.of_nat (length fp)) == 0)%Q as Hn0 by (intros E; unfold Qeq, inject_Z in E; cbn [Qnum Qden] in E; lia).
  destruct Hs as [[-> ->]|[[-> ->]|[-> ->]]].
  - cbn [append]. assert (with_sign Qopp (fun t => do (v, k) <- mantissa t; Ok (v # Z.to_pos (10 ^ Z.of_nat k))%Q) body = Ok q0) as ->.
    { unfold with_sign. destruct body as [|c r] eqn:Eb; [discriminate|]. assert (Ascii.eqb c "-" = false /\ Ascii.eqb c "+" = false) as [-> ->]; auto.
      destruct ip as [|d ip]; unfold body in Eb; cbn [written fold_right append] in Eb.
      - destruct Ht as [[_ [Hc _]]|[-> _]]; [congruence|]. injection Eb as <- _. auto.
      - injection Eb as <- _. inversion Hi; subst. destruct (digit_char_plain d) as [_ [_ [A [B _]]]]; auto. }
    cbn [rbind]. exists q0. split; auto. apply (Qmult_inj_r _ _ _ Hn0). rewrite E0, Hq, Z.mul_1_l. reflexivity.
  - cbn [append with_sign]. change (Ascii.eqb "+" "-") with false. change (Ascii.eqb "+" "+") with true. cbn iota. rewrite Em. cbn [rbind]. exists q0. split; auto. apply (Qmult_inj_r _ _ _ Hn0). rewrite E0, Hq, Z.mul_1_l. reflexivity.
  - cbn [append with_sign]. change (Ascii.eqb "-" "-") with true. cbn iota. rewrite Em. cbn [rbind]. exists (Qopp q0). split; auto. apply (Qmult_inj_r _ _ _ Hn0). rewrite Hq, inject_Z_mult, <- E0. change (inject_Z (-1)) with (- 1)%Q. ring.
Qed.
Lemma positional_nonneg ds : Forall (fun d => 0 <= d <= 9) ds -> 0 <= positional ds.
Proof.
  unfold positional. assert (forall a, 0 <= a -> Forall (fun d => 0 <= d <= 9) ds -> 0 <= fold_left (fun a d => 10 * a + d) ds a) as H; [|apply H; lia].
  intros a Ha HF. revert a Ha. induction HF as [|d ds Hd _ IH]; intros a Ha; cbn [fold_left]; auto. apply IH. lia.
Qed.
Lemma solid_app a b : solid a -> all_chars (fun c => is_space c = false) b -> solid (a ++ b).
Proof. intros [H1 H2] H3. split; [destruct a; [congruence|discriminate]|apply all_chars_app; auto]. Qed.
Lemma float_decimal w q : decimal w q -> exists q', float_of w = Ok q' /\ (q' == q)%Q.
Proof.
  intros [H|[m [r [e [sign [s [ds [Hm [He [Hs [Hne [Hd [-> Hq]]]]]]]]]]]]].
  - destruct (signed_decimal w q H) as [Hsol [Hc [q' [E Hq]]]]. unfold float_of. rewrite strip_solid by auto. rewrite cut_none by auto. rewrite E. cbn [rbind]. eauto.
  - destruct (signed_decimal m r Hm) as [Hsol [Hc [q' [E Hr]]]]. unfold float_of.
    assert (Hw : all_chars (fun c => is_space c = false) (sign ++ written ds)).
    { apply all_chars_app. split; [destruct Hs as [[-> _]|[[-> _]|[-> _]]]; cbn; auto|apply written_solid; auto]. }
    rewrite strip_solid by (apply solid_app; auto; split; [destruct He as [-> | ->]; auto|exact Hw]).
    rewrite cut_some by (auto; destruct He as [-> | ->]; auto). rewrite E. cbn [rbind].
    pose proof (positional_nonneg ds Hd) as Hp. set (x := positional ds) in *.
    set (f := fun t : string => match plain_digits 0 0 t with Some (v, S _) => Ok v | _ => Err ValueError end).
    assert (Ef : f (written ds) = Ok x) by (unfold f; rewrite plain_written by auto; destruct ds; [congruence|]; reflexivity).
    assert (E' : with_sign Z.opp f (sign ++ written ds) = Ok (s * x)).
    { destruct Hs as [[-> ->]|[[-> ->]|[-> ->]]]; cbn [append].
      - rewrite Z.mul_1_l. destruct ds as [|d ds]; [congruence|]. cbn [written fold_right with_sign]. fold (written ds). inversion Hd; subst. destruct (digit_char_plain d) as [_ [_ [-> [-> _]]]]; auto.
      - rewrite Z.mul_1_l. cbn [with_sign]. change (Ascii.eqb "+" "-") with false. change (Ascii.eqb "+" "+") with true. cbn iota. auto.
      - cbn [with_sign]. change (Ascii.eqb "-" "-") with true. cbn iota. rewrite Ef. cbn [rbind]. f_equal. }
    rewrite E'. cbn [rbind]. eexists. split; [reflexivity|].
    assert (Hx : (inject_Z (10 ^ x) == Qpower 10 x)%Q) by (rewrite Zpower_Qpower by auto; reflexivity).
    assert (H10 : ~ (10 == 0)%Q) by discriminate.
    assert (s = 1 \/ s = -1) as [-> | ->] by intuition.
    + change (q == r * inject_Z (10 ^ x))%Q in Hq. rewrite Hq, Z.mul_1_l, <- Hx, Hr. reflexivity.
    + change (q * inject_Z (10 ^ x) == r)%Q in Hq. rewrite Hx in Hq. pose proof (Qpower_not_0 10 x H10) as Hn. apply (Qmult_inj_r _ _ _ Hn). rewrite Hq, Hr.
      replace (-1 * x) with (- x) by lia. rewrite Qpower_opp. field. exact Hn.
Qed.
Lemma floats_decimals l qs : Forall2 decimal (words l) qs -> exists qs', floats l = Ok qs' /\ Forall2 Qeq qs' qs.
Proof.
  unfold floats. induction 1 as [|w q ws qs Hw _ IH]; [exists []; split; [auto|constructor]|]. destruct (float_decimal w q Hw) as [q' [E Hq]]. destruct IH as [qs' [E' Hqs]].
  cbn [rmap]. rewrite E. cbn [rbind]. rewrite E'. cbn [rbind]. exists (q' :: qs'). split; auto.
Qed.
Lemma many_floats ls qss : Forall2 decimals ls qss -> exists qss', rmap floats ls = Ok qss' /\ same_numbers qss' qss.
Proof.
  induction 1 as [|l qs ls qss [_ Hl] _ IH]; [exists []; split; [auto|constructor]|]. destruct (floats_decimals l qs Hl) as [q' [E Hq]]. destruct IH as [qs' [E' Hqs]].
  cbn [rmap]. rewrite E. cbn [rbind]. rewrite E'. cbn [rbind]. exists (q' :: qs'). split; auto. constructor; auto.
Qed.

(** ** Lines *)
Lemma rstrip_blank b : blank b -> rstrip b = EmptyString.
Proof. induction b as [|c b IH]; intros H; cbn; auto. destruct H as [Hc Hb]. rewrite IH by auto. rewrite Hc. auto. Qed.
Lemma rstrip_word s c b : is_space c = false -> blank b -> rstrip (s ++ String c b) = (s ++ String c EmptyString)%string.
Proof. intros Hc Hb. induction s as [|x s IH]; cbn [append rstrip]; [rewrite rstrip_blank by auto; rewrite Hc; auto|]. rewrite IH. destruct s; auto. Qed.
Lemma lstrip_blank b s : blank b -> lstrip (b ++ s) = lstrip s.
Proof. induction b as [|c b IH]; intros H; cbn; auto. destruct H as [Hc Hb]. rewrite Hc. auto. Qed.
Lemma last_char w : w <> EmptyString -> exists s c, w = (s ++ String c EmptyString)%string.
Proof. induction w as [|x w IH]; intros H; [congruence|]. destruct w as [|y w]; [exists EmptyString, x; auto|]. destruct IH as [s [c E]]; [discriminate|]. exists (String x s), c. rewrite E. auto. Qed.
Lemma strip_word l w : word_line l w -> strip l = w.
Proof.
  intros [[Hne Hw] [b [b' [Hb [Hb' ->]]]]]. unfold strip. destruct (last_char w Hne) as [s [c ->]]. assert (is_space c = false) as Hc by (apply all_chars_app in Hw; apply Hw).
  replace (b ++ (s ++ String c "") ++ b')%string with ((b ++ s) ++ String c b')%string by (rewrite !app_assoc_s; auto). rewrite rstrip_word by auto. rewrite app_assoc_s. rewrite lstrip_blank by auto.
  destruct s as [|x s]; cbn [append lstrip]; [rewrite Hc; auto|]. destruct Hw as [Hx _]. rewrite Hx. auto.
Qed.
Lemma strip_comment l : comment l -> exists r, strip l = String "#" r.
Proof.
  intros [b [r [Hb ->]]]. unfold strip. destruct (rstrip_split (String "#" r)) as [b' [E Hb']].
  assert (exists r', rstrip (String "#" r) = String "#" r') as [r' Er].
  { cbn [rstrip]. destruct (rstrip r) as [|y t]; [exists EmptyString; auto|]. eauto. }
  exists r'. assert (rstrip (b ++ String "#" r) = (b ++ String "#" r')%string) as ->.
  { clear - Er. induction b as [|x b IH]; cbn [append rstrip]; [auto|]. rewrite IH. destruct b; auto. }
  rewrite lstrip_blank by auto. auto.
Qed.
Lemma strip_blank b : blank b -> strip b = EmptyString.
Proof. intros H. unfold strip. rewrite rstrip_blank by auto. auto. Qed.
(** The first character of a line is that of its first word. *)
Lemma words_from_head c cur s : exists t ws, words_from (String c cur) s = String c t :: ws.
Proof. revert cur. induction s as [|x s IH]; intros cur; cbn [words_from]; [eauto|]. destruct (is_space x); [eauto|]. cbn [append]. apply IH. Qed.
Lemma words_lstrip s : words (lstrip s) = words s.
Proof. induction s as [|c s IH]; [auto|]. cbn [lstrip]. destruct (is_space c) eqn:E; [|auto]. rewrite IH. unfold words. cbn [words_from]. rewrite E. auto. Qed.
Lemma lstrip_head s : lstrip s = EmptyString \/ exists c r, lstrip s = String c r /\ is_space c = false.
Proof. induction s as [|c s IH]; [auto|]. cbn [lstrip]. destruct (is_space c) eqn:E; [auto|]. right. eauto. Qed.
Lemma strip_head l c t ws : words l = String c t :: ws -> exists r, strip l = String c r.
Proof.
  intros E. unfold strip. rewrite <- words_rstrip, <- words_lstrip in E. destruct (lstrip_head (rstrip l)) as [E0|[c' [r [E0 Hc]]]]; rewrite E0 in E; [discriminate|]. exists r. rewrite E0. f_equal.
  unfold words in E. cbn [words_from] in E. rewrite Hc in E. cbn [append] in E. destruct (words_from_head c' EmptyString r) as [t' [ws' E']]. rewrite E' in E. congruence.
Qed.
Definition data (l : string) : Prop := exists c r, strip l = String c r /\ Ascii.eqb c "#" = false.
Lemma commented_kept file content : commented file content -> Forall data content -> without_comments file = Ok content.
Proof.
  induction 1 as [|l file content HC IH|l file content Hl HC IH]; intros Hd; cbn [without_comments]; auto.
  - inversion Hd as [|? ? [c [r [E Hc]]] Hd']; subst. rewrite E, IH by auto. cbn [rbind]. rewrite Hc. auto.
  - destruct (strip_comment l Hl) as [r ->]. rewrite IH by auto. cbn [rbind]. rewrite Ascii.eqb_refl. auto.
Qed.
Lemma commented_same file content : commented file content -> without_comments file = without_comments content.
Proof.
  induction 1 as [|l file content HC IH|l file content Hl HC IH]; cbn [without_comments]; auto.
  - rewrite IH. auto.
  - destruct (strip_comment l Hl) as [r ->]. rewrite IH. destruct (without_comments content); cbn [rbind]; auto. 
Qed.
Lemma blank_refused ls : (exists l, In l ls /\ blank l) -> without_comments ls = Err IndexError.
Proof.
  induction ls as [|l ls IH]; intros [x [Hx Hb]]; [destruct Hx|]. cbn [without_comments]. destruct Hx as [->|Hx]; [rewrite strip_blank by auto; auto|]. rewrite IH by eauto. destruct (strip l); auto.
Qed.
Lemma plain_decimal_head w q : plain_decimal w q -> exists c t, w = String c t /\ Ascii.eqb c "#" = false.
Proof.
  intros [sign [s [ip [fp [tail [Hs [Ht [Hd [-> _]]]]]]]]]. destruct Hs as [[-> _]|[[-> _]|[-> _]]]; cbn [append]; [|eauto|eauto].
  apply Forall_app in Hd. destruct Hd as [Hi Hf]. destruct ip as [|d ip]; cbn [written fold_right append].
  - destruct Ht as [[_ [Hc _]]|[-> _]]; [congruence|]. eauto.
  - inversion Hi; subst. destruct (digit_char_plain d) as [_ [_ [_ [_ [_ [_ E]]]]]]; eauto.
Qed.
Lemma decimal_head w q : decimal w q -> exists c t, w = String c t /\ Ascii.eqb c "#" = false.
Proof. intros [H|[m [r [e [sign [s [ds [Hm [_ [_ [_ [_ [-> _]]]]]]]]]]]]]; [eapply plain_decimal_head; eauto|]. destruct (plain_decimal_head m r Hm) as [c [t [-> Hc]]]. cbn [append]. eauto. Qed.
Lemma decimals_data l qs : decimals l qs -> data l.
Proof.
  intros [Hne HF]. destruct (words l) as [|w ws] eqn:E; [inversion HF; subst; congruence|]. inversion HF as [|? ? ? ? Hw _]; subst. destruct (decimal_head w _ Hw) as [c [t [-> Hc]]].
  destruct (strip_head l c t ws E) as [r Er]. exists c, r. auto.
Qed.
Lemma str_head z : exists c t, str z = String c t /\ Ascii.eqb c "#" = false.
Proof.
  pose proof (str_solid z) as [Hne _]. pose proof (str_chars z) as Hc. destruct (str z) as [|c t]; [congruence|]. destruct Hc as [Hc _]. exists c, t. split; auto. apply (number_char_other c Hc).
Qed.
Lemma sizes_read sizes : sizes <> [] -> rmap int_of (split_on " " (join " " (map str sizes))) = Ok sizes.
Proof.
  intros H. rewrite split_join; [apply rmap_str|destruct sizes; [congruence|discriminate]|].
  apply Forall_forall. intros x Hx. apply in_map_iff in Hx. destruct Hx as [z [<- _]]. destruct (str_solid z) as [_ Hs]. eapply all_chars_impl; [|exact Hs]. intros c Hc. apply Ascii.eqb_neq. intros ->. discriminate.
Qed.
Lemma head_strip c r : is_space c = false -> exists r', strip (String c r) = String c r'.
Proof.
  intros Hc. unfold strip. cbn [rstrip]. destruct (rstrip r) as [|y t]; [rewrite Hc|]; cbn [lstrip]; rewrite Hc; eauto.
Qed.
Lemma sizes_data sizes : sizes <> [] -> data (join " " (map str sizes)).
Proof.
  destruct sizes as [|z sizes]; [congruence|]. intros _. destruct (str_head z) as [c [t [E Hc]]]. destruct (str_solid z) as [_ Hs]. rewrite E in Hs. destruct Hs as [Hs _].
  assert (exists r, join " " (map str (z :: sizes)) = String c r) as [r ->] by (destruct sizes; cbn [map join]; rewrite E; cbn [append]; eauto).
  destruct (head_strip c r Hs) as [r' Er]. exists c, r'. auto.
Qed.
Lemma lstrip_split s : exists b, s = (b ++ lstrip s)%string /\ blank b.
Proof.
  induction s as [|c s [b [E Hb]]]; [exists EmptyString; split; [auto|exact I]|]. cbn [lstrip]. destruct (is_space c) eqn:Ec; [|exists EmptyString; split; [auto|exact I]].
  exists (String c b). split; [cbn [append]; f_equal; auto|]. split; auto.
Qed.
Lemma plain_data l : plain_line l -> data l.
Proof.
  intros [Hb Hc]. destruct (lstrip_split (rstrip l)) as [b [E Hbb]]. destruct (rstrip_split l) as [b' [E' Hb']]. unfold data, strip. destruct (lstrip (rstrip l)) as [|c r].
  - exfalso. apply Hb. rewrite E', E. apply all_chars_app. split; auto. rewrite app_nil_s. auto.
  - exists c, r. split; auto. apply Ascii.eqb_neq. intros ->. apply Hc. exists b, (r ++ b')%string. split; auto. rewrite E', E, app_assoc_s. auto.
Qed.
Lemma int_word l z : word_line l (str z) -> int_of l = Ok z.
Proof.
  intros H. apply strip_word in H. unfold strip in H. rewrite <- int_str. unfold int_of. rewrite H. rewrite strip_solid by apply str_solid. auto.
Qed.
Lemma bulk_letter c (bulk : bool) : (bulk = true <-> c = "b"%char \/ c = "B"%char) -> Ascii.eqb (lower c) "b" = bulk.
Proof.
  intros H. assert (Ascii.eqb (lower c) "b" = true <-> c = "b"%char \/ c = "B"%char) as H'.
  { rewrite Ascii.eqb_eq. split; [|intros [-> | ->]; auto]. destruct c as [[] [] [] [] [] [] [] []]; vm_compute; intros E; auto; discriminate. }
  destruct bulk, (Ascii.eqb (lower c) "b"); auto; exfalso.
  - assert (false = true) by (apply H', H; auto). discriminate.
  - assert (false = true) by (apply H, H'; auto). discriminate.
Qed.
Lemma slice_at {A} (l a b c : list A) i j : l = (a ++ b ++ c)%list -> i = Z.of_nat (length a) -> j = Z.of_nat (length (a ++ b)) -> slice l i j = b.
Proof.
  intros -> -> ->. unfold slice, bound. replace (Z.of_nat (length a) <? 0) with false by (symmetry; apply Z.ltb_ge; lia). replace (Z.of_nat (length (a ++ b)) <? 0) with false by (symmetry; apply Z.ltb_ge; lia).
  rewrite !Nat2Z.id, app_length. rewrite skipn_app, skipn_all, Nat.sub_diag. cbn [app skipn]. replace (length a + length b - length a)%nat with (length b) by lia. rewrite firstn_app, firstn_all, Nat.sub_diag. cbn [firstn]. apply app_nil_r.
Qed.
Lemma slice_from_at {A} (l a b : list A) i : l = (a ++ b)%list -> i = Z.of_nat (length a) -> slice_from l i = b.
Proof.
  intros -> ->. unfold slice_from, bound. replace (Z.of_nat (length a) <? 0) with false by (symmetry; apply Z.ltb_ge; lia). rewrite Nat2Z.id, skipn_app, skipn_all, Nat.sub_diag. auto.
Qed.
Lemma zget_at {A} (l a b : list A) x i : l = (a ++ x :: b)%list -> i = Z.of_nat (length a) -> zget l i = Ok x.
Proof.
  intros -> ->. unfold zget, get. replace (Z.of_nat (length a) <? 0) with false by (symmetry; apply Z.ltb_ge; lia). cbv zeta. replace (Z.of_nat (length a) <? 0) with false by (symmetry; apply Z.ltb_ge; lia).
  rewrite Nat2Z.id, nth_error_app2, Nat.sub_diag by lia. auto.
Qed.
