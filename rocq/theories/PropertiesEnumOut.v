(** Property theorems C31-C34 (see /verif/properties.jsonl). *)
From Coq Require Import Permutation Sorted.
From Verif Require Import TextModel TextProofs PyBase Mat3 LatSpec HNFModel HNFProofs SNFModel SuperModel StructThm.
From Verif Require Import EnumOutModel EnumOutSpec EnumOutProofs EnumOutRead EnumOutMain.
Local Open Scope Z_scope.

(** ** C31: labels *)
Lemma fold_labels {A} (f g : A -> string) l : forall a b,
  fold_left (fun '(label, arrow) i => (label ++ f i, arrow ++ g i)%string) l (a, b) =
  ((a ++ fold_right append EmptyString (map f l))%string, (b ++ fold_right append EmptyString (map g l))%string).
Proof.
  induction l as [|x l IH]; intros a b; cbn [fold_left map fold_right]; [rewrite !app_nil_s; auto|]. rewrite IH, !app_assoc_s. auto.
Qed.
Lemma digit_str d : 0 <= d <= 9 -> str d = String (digit_char d) EmptyString.
Proof. intros H. assert (d = 0 \/ d = 1 \/ d = 2 \/ d = 3 \/ d = 4 \/ d = 5 \/ d = 6 \/ d = 7 \/ d = 8 \/ d = 9) as Hd by lia. intuition subst; reflexivity. Qed.
Lemma nth_digits {A} (f : A -> Z) (l : list A) : (forall x, In x l -> 0 <= f x <= 9) -> forall i x, nth_error l i = Some x ->
  char_at (fold_right append EmptyString (map (fun x => str (f x)) l)) (Z.of_nat i) = Ok (digit_char (f x)).
Proof.
  intros H. induction l as [|y l IH]; intros i x Hx; [destruct i; discriminate|].
  assert (forall z, 0 <= f z <= 9 -> str (f z) = String (digit_char (f z)) EmptyString) as Hd by (intros; apply digit_str; auto).
  cbn [map fold_right]. rewrite Hd by (apply H; left; auto). cbn [append]. destruct i as [|i].
  - inversion Hx; subst. reflexivity.
  - specialize (IH (fun z Hz => H z (or_intror Hz)) i x Hx). unfold char_at in *. destruct (Z.ltb_spec (Z.of_nat i) 0); [lia|]. destruct (Z.ltb_spec (Z.of_nat (S i)) 0); [lia|].
    destruct (Z.ltb_spec (Z.of_nat i) 0); [lia|]. destruct (Z.ltb_spec (Z.of_nat (S i)) 0); [lia|]. rewrite Nat2Z.id in *. cbn [String.get]. auto.
Qed.
Lemma digits_length {A} (f : A -> Z) (l : list A) : (forall x, In x l -> 0 <= f x <= 9) -> String.length (fold_right append EmptyString (map (fun x => str (f x)) l)) = length l.
Proof.
  intros H. induction l as [|y l IH]; [auto|]. cbn [map fold_right length]. rewrite digit_str by (apply H; left; auto). cbn [append String.length]. rewrite IH; auto. intros; apply H; right; auto.
Qed.
(** At most ten species and nine directions: the labels have one character per site, from which species and direction
    of the site are read back ([int] of the character, as makeStr does). *)
Theorem C31_labels_read_back_partial : forall l, l <> [] -> (forall a c, In (a, c) l -> -1 <= a <= 8 /\ 1 <= c <= 10) ->
  exists lab arr, create_labeling (Arrowed l) = Ok (lab, arr) /\ String.length lab = length l /\ String.length arr = length l /\
    forall i a c, nth_error l i = Some (a, c) ->
      (do ch <- char_at lab (Z.of_nat i); int_of (String ch "")) = Ok (c - 1) /\ (do ch <- char_at arr (Z.of_nat i); int_of (String ch "")) = Ok (a + 1).
Proof.
  intros l Hne Hr. destruct l as [|x0 l0]; [congruence|]. set (l := x0 :: l0) in *.
  exists (fold_right append EmptyString (map (fun i : Z * Z => str (snd i - 1)) l)), (fold_right append EmptyString (map (fun i => str (fst i + 1)) l)).
  split; [unfold create_labeling, l; fold l; rewrite (fold_labels (fun i : Z * Z => str (snd i - 1)) (fun i => str (fst i + 1))); reflexivity|].
  assert (forall x, In x l -> 0 <= snd x - 1 <= 9) as Hs by (intros [a c] Hin; destruct (Hr a c Hin); cbn; lia).
  assert (forall x, In x l -> 0 <= fst x + 1 <= 9) as Hf by (intros [a c] Hin; destruct (Hr a c Hin); cbn; lia).
  split; [apply (digits_length (fun i => snd i - 1)); auto|]. split; [apply (digits_length (fun i => fst i + 1)); auto|].
  intros i a c Hi. pose proof (Hr a c (nth_error_In _ _ Hi)) as [Ha Hc].
  rewrite (nth_digits (fun i => snd i - 1) l Hs i (a, c) Hi). rewrite (nth_digits (fun i => fst i + 1) l Hf i (a, c) Hi). cbn [rbind fst snd].
  rewrite <- !digit_str by lia. rewrite !int_str. auto.
Qed.
(** With plain colours the directions are all 0. *)
Theorem C31_plain_labels_partial : forall l, l <> [] -> (forall c, In c l -> 1 <= c <= 10) ->
  exists lab arr, create_labeling (Plain l) = Ok (lab, arr) /\ String.length lab = length l /\ String.length arr = length l /\
    forall i c, nth_error l i = Some c ->
      (do ch <- char_at lab (Z.of_nat i); int_of (String ch "")) = Ok (c - 1) /\ (do ch <- char_at arr (Z.of_nat i); int_of (String ch "")) = Ok 0.
Proof.
  intros l Hne Hr. destruct l as [|x0 l0]; [congruence|]. set (l := x0 :: l0) in *.
  exists (fold_right append EmptyString (map (fun i : Z => str (i - 1)) l)), (fold_right append EmptyString (map (fun _ : Z => str 0) l)).
  split; [unfold create_labeling, l; fold l; rewrite (fold_labels (fun i => str (i - 1)) (fun _ => "0"%string)); reflexivity|].
  assert (forall x, In x l -> 0 <= x - 1 <= 9) as Hs by (intros c Hin; specialize (Hr c Hin); lia).
  assert (forall x : Z, In x l -> 0 <= 0 <= 9) as Hf by (intros; lia).
  split; [apply (digits_length (fun i => i - 1)); auto|]. split; [apply (digits_length (fun i => 0)); auto|].
  intros i c Hi. pose proof (Hr c (nth_error_In _ _ Hi)) as Hc.
  rewrite (nth_digits (fun i => i - 1) l Hs i c Hi). rewrite (nth_digits (fun i => 0) l Hf i c Hi). cbn [rbind].
  rewrite <- !digit_str by lia. rewrite !int_str. auto.
Qed.
Example C31_example : create_labeling (Arrowed [(1, 1); (-1, 2); (5, 3)]) = Ok ("012"%string, "206"%string) /\ create_labeling (Plain [2; 1; 1]) = Ok ("100"%string, "000"%string).
Proof. split; reflexivity. Qed.
(** With twelve species two structures get the same labels. *)
Theorem C31_twelve_species_refuted : create_labeling (Arrowed [(-1, 12); (-1, 1)]) = create_labeling (Arrowed [(-1, 2); (-1, 11)]).
Proof. reflexivity. Qed.

(** ** C32, C33: the file *)
Lemma entry_of_facts h c : 1 <= mdet (full_HNF h) <= 10 ^ 5 -> nonempty c -> exists M L R lab arr,
  SmithNormalForm (full_HNF h) = Ok (M, L, R) /\ create_labeling c = Ok (lab, arr) /\ positive (diag_of M) /\ volume (diag_of M) = mdet (full_HNF h) /\
  entry_of (h, c) = {| e_size := mdet (full_HNF h); e_hnf := h; e_snf := [mget M 0 0; mget M 1 1; mget M 2 2]; e_lt := flat L; e_lab := lab; e_arr := arr |}.
Proof.
  intros Hd Hc. destruct (snf_facts _ Hd) as [M [L [B [E [_ [_ [_ [Hp [_ Hv]]]]]]]]]. destruct (create_labeling_ok c Hc) as [lab [arr El]].
  exists M, L, B, lab, arr. split; auto. split; auto. split; auto. split; auto. cbn [entry_of]. rewrite E, El. f_equal. unfold full_HNF. cbn [mdet]. ring.
Qed.
Lemma listed_in systems h c : Forall good_system systems -> In (h, c) (listed systems) -> 1 <= mdet (full_HNF h) <= 10 ^ 5 /\ nonempty c /\ exists cs, In (h, cs) systems.
Proof.
  intros Hg Hin. apply in_flat_map in Hin as [[h' cs] [Hs Hin]]. apply in_map_iff in Hin as [c' [Ec Hc]]. inversion Ec; subst.
  rewrite Forall_forall in Hg. destruct (Hg _ Hs) as [Hd Hf]. cbn [fst snd] in *. rewrite Forall_forall in Hf. split; auto. split; eauto.
Qed.
Lemma sorted_pairs l : (forall h c, In (h, c) l -> 1 <= mdet (full_HNF h) <= 10 ^ 5 /\ nonempty c) -> StronglySorted entry_le (map entry_of l) -> StronglySorted not_after l.
Proof.
  intros Hl Hs. induction l as [|[h c] l IH]; [constructor|]. cbn [map] in Hs. apply StronglySorted_inv in Hs as [Hs' Hf]. constructor; [apply IH; auto; intros; apply Hl; right; auto|].
  rewrite Forall_forall in *. intros [h' c'] Hin. specialize (Hf _ (in_map entry_of _ _ Hin)).
  destruct (Hl h c (or_introl eq_refl)) as [D1 N1]. destruct (Hl h' c' (or_intror Hin)) as [D2 N2].
  destruct (entry_of_facts h c D1 N1) as [M [L [R [lab [arr [_ [E1 [_ [_ E2]]]]]]]]]. destruct (entry_of_facts h' c' D2 N2) as [M' [L' [R' [lab' [arr' [_ [E1' [_ [_ E2']]]]]]]]].
  unfold entry_le in Hf. rewrite E2, E2' in Hf. cbn [e_size e_lab] in Hf. unfold not_after, cells_of, labels_of. cbn [fst snd]. rewrite E1, E1'. auto.
Qed.
Lemma index_number l i : (forall h c, In (h, c) l -> 1 <= mdet (full_HNF h) <= 10 ^ 5 /\ nonempty c) -> (i < length l)%nat -> index_in_size (map entry_of l) i = number_in_size l i.
Proof.
  intros Hl Hi. unfold index_in_size, number_in_size. destruct (nth_error l i) as [x|] eqn:Ex; [|apply nth_error_None in Ex; lia].
  assert (forall y, In y l -> e_size (entry_of y) = cells_of y) as Hy.
  { intros [h c] Hin. destruct (Hl h c Hin) as [D1 N1]. destruct (entry_of_facts h c D1 N1) as [M [L [R [lab [arr [_ [_ [_ [_ ->]]]]]]]]]. auto. }
  fold no_entry. erewrite nth_error_nth; [|rewrite nth_error_map, Ex; reflexivity]. rewrite Hy by (eapply nth_error_In; eauto).
  rewrite firstn_map. do 2 f_equal. clear Hl Hi Ex. assert (forall y, In y (firstn i l) -> e_size (entry_of y) = cells_of y) as Hy'.
  { intros y Hin. apply Hy. rewrite <- (firstn_skipn i l). apply in_or_app. auto. }
  induction (firstn i l) as [|y r IH]; [auto|]. cbn [map filter]. rewrite Hy' by (left; auto). destruct (cells_of y =? cells_of x); cbn [length]; rewrite IH; auto; intros; apply Hy'; right; auto.
Qed.
Lemma words_app a s : starts_blank s -> words (a ++ s) = words a ++ words s.
Proof.
  intros Hs. unfold words. enough (forall cur, words_from cur (a ++ s) = words_from cur a ++ words_from EmptyString s) by auto.
  induction a as [|c a IH]; intros cur; cbn [append words_from].
  - destruct Hs as [->|[c [s' [-> Hc]]]]; cbn [words_from]; [rewrite app_nil_r; auto|]. rewrite Hc. destruct cur; auto.
  - destruct (is_space c); [destruct cur|]; rewrite ?IH; auto.
Qed.
Lemma words_row_any t s e x l : 0 <= s < 10 ^ 11 -> 0 <= e_size e < 1000 -> e_snf e = x :: l -> 0 <= x < 100 -> solid (e_lab e) -> solid (e_arr e) ->
  exists middle, words (row t s e) = map str [t; 1; 1; 1; 1; s; e_size e; 1] ++ middle ++ [e_lab e; e_arr e].
Proof.
  intros Hs Hsz Ex Hx Hlab Harr. unfold row.
  assert (String.length (str 1) = 1%nat) as L1 by reflexivity.
  assert (String.length (str s) <= 11)%nat as Ls by (apply (str_len_pos 10); auto).
  assert (String.length (str (e_size e)) <= 3)%nat as Lz by (apply (str_len_pos 2); auto).
  assert (String.length (str x) <= 2)%nat as Lx by (apply (str_len_pos 1); auto).
  exists (words (pad 10 (fmtn (e_snf e) 3) ++ "  " ++ pad 18 (fmtn (e_hnf e) 3) ++ "  " ++ pad 44 (fmtn (e_lt e) 5))).
  cbn [map app]. do 7 (rewrite words_pad; [f_equal|apply str_solid|apply starts_blank_pad; lia]). rewrite words_pad; [f_equal|apply str_solid|].
  - replace (pad 10 (fmtn (e_snf e) 3) ++ "  " ++ pad 18 (fmtn (e_hnf e) 3) ++ "  " ++ pad 44 (fmtn (e_lt e) 5) ++ "    " ++ e_lab e ++ "    " ++ pad 21 (e_arr e))%string
      with ((pad 10 (fmtn (e_snf e) 3) ++ "  " ++ pad 18 (fmtn (e_hnf e) 3) ++ "  " ++ pad 44 (fmtn (e_lt e) 5)) ++ (spaces 4 ++ e_lab e ++ spaces 4 ++ pad 21 (e_arr e)))%string by (rewrite !app_assoc_s; reflexivity).
    rewrite words_app by (right; cbn; eauto). f_equal. rewrite words_spaces. rewrite words_solid; [|auto|right; cbn; eauto]. f_equal. rewrite words_spaces.
    rewrite <- (app_nil_s (pad 21 (e_arr e))). rewrite words_pad; auto. left. auto.
  - rewrite Ex. cbn [fmtn fold_right]. fold (fmtn l 3). unfold pad at 1. destruct (10 - String.length (pad 3 (str x) ++ fmtn l 3))%nat; [|right; cbn; eauto].
    cbn [spaces append]. rewrite !app_assoc_s. apply starts_blank_pad. lia.
Qed.

(** Rows are numbered 1, 2, 3, ...; they are sorted by size and labeling; the sixth number counts the structures of a size;
    every structure enumerated is there exactly once.  Cells of fewer than 1000 parent cells (the seventh number has four
    columns). *)
Theorem C33_numbering : forall p systems file, good_params p -> Forall good_system systems ->
  (forall h cs, In (h, cs) systems -> mdet (full_HNF h) < 1000) -> Z.of_nat (length (listed systems)) < 10 ^ 10 ->
  enum_out_file p systems = Ok file ->
  exists l, Permutation l (listed systems) /\ StronglySorted not_after l /\
    length (lines file) = (14 + length (p_basis p) + length l)%nat /\
    forall i h c, nth_error l i = Some (h, c) -> exists middle lab arr, create_labeling c = Ok (lab, arr) /\
      words (nth (14 + length (p_basis p) + i) (lines file) EmptyString) =
        map str [Z.of_nat i + 1; 1; 1; 1; 1; number_in_size l i; mdet (full_HNF h); 1] ++ middle ++ [lab; arr].
Proof.
  intros p systems file Hp Hg Hsmall Hlen Hfile.
  assert (systems <> []) as Hne by (intros ->; unfold enum_out_file, enum_out_rows in Hfile; cbn in Hfile; discriminate).
  destruct (enum_out_written p systems Hne Hg) as [l [Hperm [Hsort Ef]]]. assert (file = text (header p ++ numbered (map entry_of l))) as -> by congruence.
  assert (forall h c, In (h, c) l -> 1 <= mdet (full_HNF h) <= 10 ^ 5 /\ nonempty c /\ exists cs, In (h, cs) systems) as Hl.
  { intros h c Hin. apply (Permutation_in _ Hperm) in Hin. eapply listed_in; eauto. }
  assert (forall h c, In (h, c) l -> 1 <= mdet (full_HNF h) <= 10 ^ 5 /\ nonempty c) as Hl' by (intros h c Hin; destruct (Hl h c Hin); tauto).
  assert (forall e, In e (map entry_of l) -> solid (e_lab e) /\ solid (e_arr e)) as Hsol.
  { intros e Hin. apply in_map_iff in Hin as [[h c] [<- Hin]]. destruct (Hl' h c Hin) as [D1 N1].
    destruct (entry_of_facts h c D1 N1) as [M [L [R [lab [arr [_ [E1 [_ [_ ->]]]]]]]]]. apply (labels_solid c). auto. }
  assert (lines (text (header p ++ numbered (map entry_of l))) = header p ++ numbered (map entry_of l)) as Elines.
  { apply lines_text. apply Forall_app. split; [apply header_no_newline; auto|]. unfold numbered. apply Forall_forall. intros r Hr. apply in_map_iff in Hr as [i [<- Hi]]. apply in_seq in Hi.
    destruct (Hsol (nth i (map entry_of l) no_entry)) as [H1 H2]; [apply nth_In; lia|]. apply no_newline_row; apply no_newline_solid; auto. }
  rewrite Elines. assert (length (header p) = (14 + length (p_basis p))%nat) as Eh by (apply header_length; destruct Hp as [_ [? _]]; auto).
  exists l. split; auto. split; [apply sorted_pairs; auto|]. split; [rewrite app_length, Eh; unfold numbered; rewrite map_length, seq_length, map_length; auto|].
  intros i h c Hi. assert (i < length l)%nat as Hil by (apply nth_error_Some; congruence). destruct (Hl h c (nth_error_In _ _ Hi)) as [D1 [N1 [cs Hcs]]].
  destruct (entry_of_facts h c D1 N1) as [M [L [R [lab [arr [E1 [E2 [E3 [E4 E5]]]]]]]]].
  rewrite app_nth2 by lia. rewrite Eh. replace (14 + length (p_basis p) + i - (14 + length (p_basis p)))%nat with i by lia.
  assert (nth i (map entry_of l) no_entry = entry_of (h, c)) as En by (apply nth_error_nth; rewrite nth_error_map, Hi; auto).
  assert (nth i (numbered (map entry_of l)) EmptyString = row (Z.of_nat i + 1) (number_in_size l i) (entry_of (h, c))) as Er.
  { unfold numbered. apply nth_error_nth. rewrite nth_error_map. rewrite map_length. 
    assert (nth_error (seq 0 (length l)) i = Some i) as Es by (rewrite (nth_error_nth' _ 0%nat) by (rewrite seq_length; auto); rewrite seq_nth by auto; auto).
    rewrite Es. cbn [option_map]. rewrite index_number by auto. rewrite En. auto. }
  rewrite Er. assert (1 <= number_in_size l i <= Z.of_nat i + 1) as Hnum by (rewrite <- index_number by auto; apply index_bound; rewrite map_length; auto).
  assert (0 <= number_in_size l i < 10 ^ 11) as Hnum'.
  { rewrite <- (Permutation_length Hperm) in Hlen. change (10 ^ 10) with 10000000000 in Hlen. change (10 ^ 11) with 100000000000. lia. }
  assert (0 <= mget M 0 0 < 100) as Hx.
  { specialize (Hsmall h cs Hcs). unfold diag_of, positive, volume in E3, E4. destruct E3 as [P1 [P2 P3]]. assert (Z.divide (mget M 0 0) (mget M 1 1) /\ Z.divide (mget M 1 1) (mget M 2 2)) as [Dv1 Dv2].
    { destruct (PropertiesSNF.C19_smith_normal_form (full_HNF h)) as [M' [A' [B' [a [b [cc [E' [_ [_ [_ [EM [_ [_ [_ [V1 V2]]]]]]]]]]]]]]]; [change (2 ^ 25) with 33554432; lia|].
      rewrite E1 in E'. assert (M = M') as -> by congruence. rewrite EM. cbn. auto. }
    apply Z.divide_pos_le in Dv1, Dv2; try lia. generalize dependent (mget M 0 0). intros a. intros. destruct (Z.lt_ge_cases a 100) as [?|Ha]; [lia|]. assert (100 * 100 <= a * mget M 1 1) by nia. assert (a * mget M 1 1 * 1 <= a * mget M 1 1 * mget M 2 2) by (apply Z.mul_le_mono_nonneg_l; lia). lia. }
  assert (e_snf (entry_of (h, c)) = mget M 0 0 :: [mget M 1 1; mget M 2 2]) as Esnf by (rewrite E5; reflexivity).
  destruct (Hsol (entry_of (h, c))) as [S1 S2]; [apply in_map; eapply nth_error_In; eauto|].
  destruct (words_row_any (Z.of_nat i + 1) (number_in_size l i) (entry_of (h, c)) _ _ Hnum' ltac:(rewrite E5; cbn [e_size]; specialize (Hsmall h cs Hcs); lia) Esnf Hx S1 S2) as [middle Em].
  exists middle, lab, arr. split; auto. rewrite Em. rewrite E5. reflexivity.
Qed.
Lemma fits_entry h c : is_hnf h -> mdet (full_HNF h) < 100 -> nonempty c -> short_transform h -> fits (entry_of (h, c)).
Proof.
  intros [a [b [cc [d [e [f [-> [Ha [Hb [Hd He]]]]]]]]]] Hdet Hc Hshort. set (h := [a; b; cc; d; e; f]) in *.
  assert (mdet (full_HNF h) = a * cc * f) as Edet by (unfold h, full_HNF; cbn [nth mdet]; ring).
  assert (0 < cc) as Hcc by lia. assert (0 < f) as Hff by lia.
  assert (1 <= a * cc) as P1 by nia. assert (1 <= a * f) as P2 by nia. assert (1 <= cc * f) as P3 by nia.
  assert (1 <= mdet (full_HNF h)) as Hpos by (rewrite Edet; nia).
  assert (a <= a * cc * f) as A1 by nia. assert (cc <= a * cc * f) as A2 by nia. assert (f <= a * cc * f) as A3 by nia.
  destruct (entry_of_facts h c) as [M [L [R [lab [arr [E1 [E2 [E3 [E4 E5]]]]]]]]]; [change (10 ^ 5) with 100000; lia|auto|].
  rewrite E5. unfold fits. cbn [e_size e_snf e_hnf e_lt e_lab e_arr]. split; [lia|]. split; [eauto|]. split.
  { unfold diag_of, positive, volume in E3, E4. destruct E3 as [Q1 [Q2 Q3]]. assert (1 <= mget M 0 0 * mget M 1 1) by nia. assert (1 <= mget M 0 0 * mget M 2 2) by nia. assert (1 <= mget M 1 1 * mget M 2 2) by nia.
    repeat constructor; try lia; nia. }
  split; [unfold h; eauto 8|]. split; [unfold h; repeat constructor; lia|]. split; [reflexivity|].
  split; [|apply (labels_solid c); auto].
  apply Forall_forall. intros x Hx. unfold flat in Hx. apply in_flat_map in Hx as [i [Hi Hx]]. apply in_map_iff in Hx as [j [<- Hj]]. eapply Hshort; eauto.
  - cbn in Hi. lia.
  - cbn in Hj. lia.
Qed.
Lemma structure_is_row l i : (forall h c, In (h, c) l -> 1 <= mdet (full_HNF h) <= 10 ^ 5 /\ nonempty c) -> (i < length l)%nat ->
  is_row l i (structure_of (Z.of_nat i + 1) (index_in_size (map entry_of l) i) (nth i (map entry_of l) no_entry)).
Proof.
  intros Hl Hi. destruct (nth_error l i) as [[h c]|] eqn:E; [|apply nth_error_None in E; lia]. exists h, c. split; [exact E|].
  assert (nth i (map entry_of l) no_entry = entry_of (h, c)) as -> by (apply nth_error_nth; rewrite nth_error_map, E; auto).
  destruct (Hl h c (nth_error_In _ _ E)) as [D1 N1]. destruct (entry_of_facts h c D1 N1) as [M [L [R [lab [arr [E1 [E2 [E3 [E4 E5]]]]]]]]].
  rewrite index_number by auto. rewrite E5. unfold structure_of. cbn [strN sizeN cells hnfN hnf_degen lab_degen tot_degen pgOps sHNF sL sdiag labeling directions_of e_size e_hnf e_snf e_lt e_lab e_arr].
  do 9 (split; [reflexivity|]). split; [|exact E2]. exists M, R. split; [|reflexivity]. rewrite E1. do 3 f_equal. destruct L as [[[[? ?] ?] [[? ?] ?]] [[? ?] ?]]. reflexivity.
Qed.
Lemma filter_seq_all n : filter (fun i => (1 <=? Z.of_nat i + 1)) (seq 0 n) = seq 0 n.
Proof. rewrite (filter_ext _ (fun _ => true)). { induction (seq 0 n); cbn; congruence. } intros i. apply Z.leb_le. lia. Qed.

(** Everything written is read back: the system, and for every row the numbers, HNF, Smith normal form, left transform and
    labels.  Cells of fewer than 100 parent cells; see C32_size_100_refuted. *)
Theorem C32_read_back_partial : forall p systems file, good_params p -> Forall good_system systems ->
  (forall h cs, In (h, cs) systems -> is_hnf h /\ mdet (full_HNF h) < 100 /\ short_transform h) -> Z.of_nat (length (listed systems)) < 10 ^ 10 ->
  enum_out_file p systems = Ok file ->
  exists l, Permutation l (listed systems) /\ StronglySorted not_after l /\
    exists structs, read_enum_out file None = Ok (system_of p, structs) /\ length structs = length l /\
      (forall i s, nth_error structs i = Some s -> is_row l i s) /\
      (* C34: with a list of numbers, exactly those structures *)
      forall wanted, (forall n, In n wanted -> 1 <= n) ->
        read_enum_out file (Some wanted) = Ok (system_of p, filter (fun s => existsb (Z.eqb (strN s)) wanted) structs).
Proof.
  intros p systems file Hp Hg Hsmall Hlen Hfile.
  assert (systems <> []) as Hne by (intros ->; unfold enum_out_file, enum_out_rows in Hfile; cbn in Hfile; discriminate).
  destruct (enum_out_written p systems Hne Hg) as [l [Hperm [Hsort Ef]]]. assert (file = text (header p ++ numbered (map entry_of l))) as Efile by congruence.
  assert (forall h c, In (h, c) l -> 1 <= mdet (full_HNF h) <= 10 ^ 5 /\ nonempty c /\ exists cs, In (h, cs) systems) as Hl.
  { intros h c Hin. apply (Permutation_in _ Hperm) in Hin. eapply listed_in; eauto. }
  assert (forall h c, In (h, c) l -> 1 <= mdet (full_HNF h) <= 10 ^ 5 /\ nonempty c) as Hl' by (intros h c Hin; destruct (Hl h c Hin); tauto).
  assert (Forall (fun e => solid (e_lab e) /\ solid (e_arr e)) (map entry_of l)) as Hsol.
  { apply Forall_forall. intros e Hin. apply in_map_iff in Hin as [[h c] [<- Hin]]. destruct (Hl' h c Hin) as [D1 N1].
    destruct (entry_of_facts h c D1 N1) as [M [L [R [lab [arr [_ [E1 [_ [_ ->]]]]]]]]]. apply (labels_solid c). auto. }
  assert (forall i, (i < length (map entry_of l))%nat -> fits (nth i (map entry_of l) no_entry)) as Hfits.
  { intros i Hi. rewrite map_length in Hi. destruct (nth_error l i) as [[h c]|] eqn:E; [|apply nth_error_None in E; lia].
    assert (nth i (map entry_of l) no_entry = entry_of (h, c)) as -> by (apply nth_error_nth; rewrite nth_error_map, E; auto).
    destruct (Hl h c (nth_error_In _ _ E)) as [D1 [N1 [cs Hcs]]]. destruct (Hsmall h cs Hcs) as [S1 [S2 S3]]. apply fits_entry; auto. }
  assert (Z.of_nat (length (map entry_of l)) < 10 ^ 10) as Hlen' by (rewrite map_length, (Permutation_length Hperm); auto).
  assert (lines file = header p ++ numbered (map entry_of l)) as Elines.
  { rewrite Efile. apply lines_text. apply Forall_app. split; [apply header_no_newline; auto|]. unfold numbered. apply Forall_forall. intros r Hr. apply in_map_iff in Hr as [i [<- Hi]]. apply in_seq in Hi.
    rewrite Forall_forall in Hsol. destruct (Hsol (nth i (map entry_of l) no_entry)) as [H1 H2]; [apply nth_In; lia|]. apply no_newline_row; apply no_newline_solid; auto. }
  exists l. split; auto. split; [apply sorted_pairs; auto|].
  set (g := fun i => structure_of (Z.of_nat i + 1) (index_in_size (map entry_of l) i) (nth i (map entry_of l) no_entry)).
  exists (map g (seq 0 (length l))). split; [|split; [rewrite map_length, seq_length; auto|split]].
  - unfold read_enum_out. assert (exists x r, lines file = x :: r) as [x [r Ex]] by (rewrite Elines; unfold header; cbn [app]; eauto).
    rewrite Ex. rewrite <- Ex. set (n := Z.of_nat (length (lines file))).
    assert (n = 14 + Z.of_nat (length (p_basis p)) + Z.of_nat (length l)) as En.
    { unfold n. rewrite Elines, app_length, header_length by (destruct Hp as [_ [? _]]; auto). unfold numbered. rewrite map_length, seq_length, map_length. lia. }
    rewrite Efile. rewrite read_file; auto.
    + unfold structures_of. rewrite map_length. fold g. do 3 f_equal. rewrite <- (filter_seq_all (length l)) at 2. apply filter_ext_in. intros i Hi. apply in_seq in Hi.
      assert (1 <= Z.of_nat (length (p_basis p))) by (destruct Hp as [_ [_ [Hb _]]]; destruct (p_basis p); [congruence|cbn; lia]).
      destruct (Z.ltb_spec (Z.of_nat i + 1) (n - 1 - 13)); [rewrite andb_true_r; auto|lia].
    + intros i Hi. destruct (Z.leb_spec 1 i); [lia|auto].
  - intros i s Hs. rewrite nth_error_map in Hs. assert (i < length l)%nat as Hi.
    { destruct (nth_error (seq 0 (length l)) i) eqn:E; [|discriminate]. assert (nth_error (seq 0 (length l)) i <> None) as Hn by congruence. apply nth_error_Some in Hn. rewrite seq_length in Hn. auto. }
    assert (nth_error (seq 0 (length l)) i = Some i) as Es by (rewrite (nth_error_nth' _ 0%nat) by (rewrite seq_length; auto); rewrite seq_nth by auto; auto).
    rewrite Es in Hs. cbn [option_map] in Hs. inversion Hs. apply structure_is_row; auto.
  - intros wanted Hw. unfold read_enum_out. rewrite Efile. rewrite read_file; auto.
    + unfold structures_of. rewrite map_length. fold g. do 2 f_equal.
      assert (forall i, strN (g i) = Z.of_nat i + 1) as Eg by reflexivity. clear - Eg. induction (seq 0 (length l)) as [|i r IH]; [auto|]. cbn [filter map]. rewrite Eg. destruct (existsb _ _); cbn [map]; rewrite IH; auto.
    + intros i Hi. destruct (existsb (Z.eqb i) wanted) eqn:E; auto. apply existsb_exists in E as [n [Hn En]]. specialize (Hw n Hn). lia.
Qed.
(** Up to 30 parent cells the left transforms are short enough. *)
Definition short_ok (n : Z) : bool :=
  forallb (fun H => match SmithNormalForm H with Ok (_, L, _) => forallb (fun x => (-1000 <? x) && (x <? 10000)) (flat L) | Err _ => true end) (find_all_HNFs n).
Lemma short_30 : forallb short_ok (range_up 1 31) = true.
Proof. vm_compute. reflexivity. Qed.
Lemma short_small h : is_hnf h -> mdet (full_HNF h) <= 30 -> short_transform h.
Proof.
  intros [a [b [cc [d [e [f [-> [Ha [Hb [Hd He]]]]]]]]]] Hdet M L R i j E Hi Hj. set (h := [a; b; cc; d; e; f]) in *.
  assert (mdet (full_HNF h) = a * cc * f) as Edet by (unfold h, full_HNF; cbn [nth mdet]; ring).
  assert (1 <= a * cc * f) by (assert (1 <= a * cc) by nia; nia).
  assert (short_ok (a * cc * f) = true) as Hs.
  { pose proof short_30 as H30. rewrite forallb_forall in H30. apply H30. unfold range_up. apply in_map_iff. exists (Z.to_nat (a * cc * f - 1)). split; [lia|]. apply in_seq. lia. }
  unfold short_ok in Hs. rewrite forallb_forall in Hs. specialize (Hs (full_HNF h)).
  assert (In (full_HNF h) (find_all_HNFs (a * cc * f))) as Hin by (apply in_find_all; exists a, b, cc, d, e, f; repeat split; lia).
  specialize (Hs Hin). rewrite E in Hs. rewrite forallb_forall in Hs.
  assert (In (mget L i j) (flat L)) as Hm.
  { unfold flat. apply in_flat_map. exists i. split; [cbn; lia|]. apply in_map_iff. exists j. split; [auto|cbn; lia]. }
  specialize (Hs _ Hm). lia.
Qed.
Theorem C32_up_to_30_cells : forall p systems file, good_params p ->
  (forall h cs, In (h, cs) systems -> is_hnf h /\ mdet (full_HNF h) <= 30 /\ Forall nonempty cs) -> Z.of_nat (length (listed systems)) < 10 ^ 10 ->
  enum_out_file p systems = Ok file ->
  exists l, Permutation l (listed systems) /\ StronglySorted not_after l /\
    exists structs, read_enum_out file None = Ok (system_of p, structs) /\ length structs = length l /\
      (forall i s, nth_error structs i = Some s -> is_row l i s) /\
      forall wanted, (forall n, In n wanted -> 1 <= n) ->
        read_enum_out file (Some wanted) = Ok (system_of p, filter (fun s => existsb (Z.eqb (strN s)) wanted) structs).
Proof.
  intros p systems file Hp Hs Hlen Hfile. apply C32_read_back_partial with (systems := systems); auto.
  - apply Forall_forall. intros [h cs] Hin. destruct (Hs h cs Hin) as [H1 [H2 H3]]. split; auto. cbn [fst]. destruct H1 as [a [b [cc [d [e [f [-> [Ha [Hb [Hd He]]]]]]]]]].
    assert (mdet (full_HNF [a; b; cc; d; e; f]) = a * cc * f) as Edet by (unfold full_HNF; cbn [nth mdet]; ring). rewrite Edet in *. change (10 ^ 5) with 100000.
    assert (1 <= a * cc) by nia. split; nia.
  - intros h cs Hin. destruct (Hs h cs Hin) as [H1 [H2 H3]]. split; auto. split; [lia|]. apply short_small; auto.
Qed.
(** The file is written whenever there is a line in enum.in; without one, [sortenum] is unbound. *)
Theorem C33_written : forall p systems, systems <> [] -> Forall good_system systems -> exists file, enum_out_file p systems = Ok file.
Proof. intros p systems Hne Hg. destruct (enum_out_written p systems Hne Hg) as [l [_ [_ E]]]. eauto. Qed.
Theorem C33_nothing_enumerated_refuted : forall p, enum_out_file p [] = Err NameError.
Proof. reflexivity. Qed.
Definition cubic_params : params :=
  {| p_date := "2026-01-01 00:00:00"; p_bulk := true;
     p_lat := [("1.0000000", "0.0000000", "0.0000000"); ("0.0000000", "1.0000000", "0.0000000"); ("0.0000000", "0.0000000", "1.0000000")]%string;
     p_basis := [("0.0000000", "0.0000000", "0.0000000")]%string; p_nspecies := 2; p_sizes := [1; 4]; p_restricted := false |}.
Definition some_systems : list (list Z * list config) :=
  [([1; 0; 1; 0; 0; 3], [Arrowed [(-1, 1); (-1, 2); (-1, 2)]]); ([1; 0; 1; 0; 0; 2], [Arrowed [(2, 2); (-1, 1)]; Arrowed [(-1, 1); (4, 2)]]);
   ([1; 0; 1; 0; 1; 2], [])].
Ltac solve_solid := split; [discriminate|cbn; repeat split; reflexivity].
Lemma cubic_good : good_params cubic_params.
Proof. split; [cbn; repeat split; reflexivity|]. split; [reflexivity|]. split; [discriminate|]. split; [cbn; lia|]. repeat (constructor; [repeat split; try discriminate; solve_solid|]). constructor. Qed.
Example C33_example : good_params cubic_params /\ Forall good_system some_systems /\
  (forall h cs, In (h, cs) some_systems -> is_hnf h /\ mdet (full_HNF h) <= 30 /\ Forall nonempty cs) /\
  exists file, enum_out_file cubic_params some_systems = Ok file /\
    skipn 15 (lines file) =
    ["         1         1       1        1        1           1   2     1   1  1  2    1  0  1  0  0  2      1    0    0    0    1    0    0    0    1    01                       05"%string;
     "         2         1       1        1        1           2   2     1   1  1  2    1  0  1  0  0  2      1    0    0    0    1    0    0    0    1    10                       30"%string;
     "         3         1       1        1        1           1   3     1   1  1  3    1  0  1  0  0  3      1    0    0    0    1    0    0    0    1    011                      000"%string].
Proof.
  split; [apply cubic_good|]. split; [repeat constructor; cbn; try lia; discriminate|]. split.
  - intros h cs [E|[E|[E|[]]]]; apply pair_equal_spec in E as [<- <-];
      (split; [do 6 eexists; split; [reflexivity|lia]|split; [vm_compute; discriminate|repeat constructor; discriminate]]).
  - destruct (enum_out_file cubic_params some_systems) as [file|] eqn:E; [|vm_compute in E; discriminate]. exists file. split; [reflexivity|].
    vm_compute in E. assert (file = match enum_out_file cubic_params some_systems with Ok f => f | Err _ => EmptyString end) as ->. { vm_compute. congruence. }
    vm_compute. reflexivity.
Qed.
(** From 100 parent cells on, the numbers of a row run together, and the file cannot be read. *)
Theorem C32_size_100_refuted : Forall good_system [([1; 0; 1; 0; 0; 100], [Plain (repeat 1 99 ++ [2])])] /\
  exists file, enum_out_file cubic_params [([1; 0; 1; 0; 0; 100], [Plain (repeat 1 99 ++ [2])])] = Ok file /\ read_enum_out file None = Err IndexError.
Proof.
  split; [repeat constructor; cbn; try lia; discriminate|].
  set (r := enum_out_file cubic_params [([1; 0; 1; 0; 0; 100], [Plain (repeat 1 99 ++ [2])])]).
  exists (match r with Ok f => f | Err _ => EmptyString end). split; vm_compute; reflexivity.
Qed.

(** ** C34: what makeStr makes *)
Theorem C34_number : forall n, select [str n] = Ok (Some [n]).
Proof. intros n. unfold select, represents_int. rewrite int_str. reflexivity. Qed.
Lemma in_py_range n a b : In n (py_range a b) <-> a <= n < b.
Proof. unfold py_range. rewrite in_map_iff. split; [intros [i [<- Hi]]; apply in_seq in Hi; lia|intros H; exists (Z.to_nat (n - a)); split; [lia|apply in_seq; lia]]. Qed.
Theorem C34_range : forall a b, exists l, select [str a; str b] = Ok (Some l) /\ forall n, In n l <-> a <= n <= b.
Proof. intros a b. exists (py_range a (b + 1)). unfold select, represents_int. rewrite !int_str. split; [reflexivity|]. intros n. rewrite in_py_range. lia. Qed.
Lemma all_not_int s : lower_all s = "all"%string -> represents_int s = false.
Proof.
  intros H. destruct s as [|c1 [|c2 [|c3 [|]]]]; cbn [lower_all] in H; try discriminate.
  assert (lower c1 = "a"%char /\ lower c2 = "l"%char /\ lower c3 = "l"%char) as [H1 [H2 H3]] by (repeat split; congruence). clear H.
  assert (forall c x, lower c = x -> is_space x = false -> char_digit x = None -> x <> "-"%char -> x <> "+"%char -> is_space c = false /\ char_digit c = None /\ c <> "-"%char /\ c <> "+"%char) as Hl.
  { intros [b0 b1 b2 b3 b4 b5 b6 b7] x <-. destruct b0, b1, b2, b3, b4, b5, b6, b7; cbn; intros; repeat split; auto; discriminate. }
  destruct (Hl c1 _ H1) as [S1 [D1 [M1 P1]]]; try reflexivity; try discriminate. destruct (Hl c2 _ H2) as [S2 _]; try reflexivity; try discriminate. destruct (Hl c3 _ H3) as [S3 _]; try reflexivity; try discriminate.
  unfold represents_int, int_of. rewrite strip_solid by (split; [discriminate|cbn; auto]).
  destruct (Ascii.eqb_spec c1 "-"); [contradiction|]. destruct (Ascii.eqb_spec c1 "+"); [contradiction|]. unfold unsigned. rewrite D1. reflexivity.
Qed.
Theorem C34_all : forall s, lower_all s = "all"%string -> select [s] = Ok None.
Proof. intros s H. unfold select. rewrite H, (all_not_int s H). reflexivity. Qed.
(** Anything that is neither one integer, nor two, nor "all" first raises ValueError. *)
Theorem C34_otherwise : forall args, args <> [] ->
  (forall s rest, args = s :: rest -> lower_all s <> "all"%string) -> (forall s n, args = [s] -> int_of s <> Ok n) ->
  (forall s t a b, args = [s; t] -> ~ (int_of s = Ok a /\ int_of t = Ok b)) -> select args = Err ValueError.
Proof.
  intros args Hne Hall H1 H2. destruct args as [|s rest]; [congruence|]. unfold select.
  destruct (String.eqb_spec (lower_all s) "all") as [E|E]; [exfalso; eapply Hall; eauto|]. rewrite andb_false_r.
  assert (forall w e, int_of w = Err e -> e = ValueError) as He.
  { intros w e. unfold int_of. assert (forall u e', unsigned u = Err e' -> e' = ValueError) as Hu.
    { intros u e'. unfold unsigned. destruct u; [congruence|]. destruct (char_digit _); [destruct (digits_value _ _); congruence|congruence]. }
    destruct (lstrip (rstrip w)); [congruence|]. destruct (Ascii.eqb _ _); [|destruct (Ascii.eqb _ _); apply Hu]. destruct (unsigned s0) eqn:Eu; cbn [rbind]; [congruence|]. intros Ee. rewrite <- (Hu _ _ Eu). congruence. }
  destruct rest as [|t [|]]; auto.
  - unfold represents_int. destruct (int_of s) as [v|e] eqn:Es; auto. exfalso. eapply H1; eauto.
  - destruct (int_of s) as [v|e] eqn:Es; cbn [rbind]; [|f_equal; eauto]. destruct (int_of t) as [u|e] eqn:Et; cbn [rbind]; [|f_equal; eauto]. exfalso. eapply H2; eauto.
Qed.
Lemma filter_range (f : Z -> bool) (L : list structure) : forall k a b, (forall i s, nth_error L i = Some s -> strN s = Z.of_nat i + 1 + k) ->
  (forall n, 1 + k <= n -> (f n = true <-> a <= n <= b)) -> 1 + k <= a ->
  filter (fun s => f (strN s)) L = firstn (Z.to_nat (b - a + 1)) (skipn (Z.to_nat (a - 1 - k)) L).
Proof.
  induction L as [|s L IH]; intros k a b HL Hf Ha; [rewrite skipn_nil, firstn_nil; auto|].
  assert (strN s = 1 + k) as E1 by (rewrite (HL 0%nat s eq_refl); cbn; lia).
  assert (forall i s0, nth_error L i = Some s0 -> strN s0 = Z.of_nat i + 1 + (k + 1)) as HL' by (intros i s0 E; rewrite (HL (S i) s0 E); lia).
  cbn [filter]. rewrite E1. destruct (Z.eq_dec a (1 + k)) as [Ea|Ea].
  - replace (a - 1 - k) with 0 by lia. change (Z.to_nat 0) with O. cbn [skipn].
    rewrite (IH (k + 1) (a + 1) b HL'); [|intros n Hn; rewrite Hf by lia; lia|lia]. replace (a + 1 - 1 - (k + 1)) with 0 by lia. change (Z.to_nat 0) with O. cbn [skipn].
    destruct (Z.le_gt_cases a b) as [Hb|Hb].
    + replace (f (1 + k)) with true by (symmetry; apply Hf; lia). replace (Z.to_nat (b - a + 1)) with (S (Z.to_nat (b - (a + 1) + 1))) by lia. reflexivity.
    + replace (f (1 + k)) with false by (symmetry; destruct (f (1 + k)) eqn:E; auto; apply Hf in E; lia). replace (Z.to_nat (b - a + 1)) with O by lia. replace (Z.to_nat (b - (a + 1) + 1)) with O by lia. reflexivity.
  - replace (f (1 + k)) with false by (symmetry; destruct (f (1 + k)) eqn:E; auto; apply Hf in E; lia).
    replace (Z.to_nat (a - 1 - k)) with (S (Z.to_nat (a - 1 - (k + 1)))) by lia. cbn [skipn]. apply IH; auto; [|lia]. intros n Hn. apply Hf. lia.
Qed.
(** From the command line to the structures made: for every file [enum.x] writes with cells of up to 30 parent cells. *)
Theorem C34_structures_made_partial : forall p systems file, good_params p ->
  (forall h cs, In (h, cs) systems -> is_hnf h /\ mdet (full_HNF h) <= 30 /\ Forall nonempty cs) -> Z.of_nat (length (listed systems)) < 10 ^ 10 ->
  enum_out_file p systems = Ok file ->
  exists l structs, Permutation l (listed systems) /\ length structs = length l /\ (forall i s, nth_error structs i = Some s -> is_row l i s) /\
    (forall w, lower_all w = "all"%string -> make_selected file [w] = Ok (system_of p, structs)) /\
    (forall n, 1 <= n -> make_selected file [str n] = Ok (system_of p, match nth_error structs (Z.to_nat (n - 1)) with Some s => [s] | None => [] end)) /\
    (forall a b, 1 <= a -> make_selected file [str a; str b] = Ok (system_of p, firstn (Z.to_nat (b - a + 1)) (skipn (Z.to_nat (a - 1)) structs))).
Proof.
  intros p systems file Hp Hs Hlen Hfile. destruct (C32_up_to_30_cells p systems file Hp Hs Hlen Hfile) as [l [Hperm [_ [structs [Hall [Hl [Hrow Hsel]]]]]]].
  exists l, structs. do 3 (split; [auto|]).
  assert (forall i s, nth_error structs i = Some s -> strN s = Z.of_nat i + 1) as Hn by (intros i s E; destruct (Hrow i s E) as [h [c [_ [? _]]]]; auto).
  split; [|split].
  - intros w Hw. unfold make_selected. rewrite C34_all by auto. cbn [rbind]. auto.
  - intros n Hn1. unfold make_selected. rewrite C34_number. cbn [rbind]. rewrite Hsel by (intros m [<-|[]]; auto). do 2 f_equal.
    rewrite (filter_range (fun m => existsb (Z.eqb m) [n]) structs 0 n n); [|intros i s E; rewrite (Hn i s E); lia|intros m _; cbn; rewrite orb_false_r, Z.eqb_eq; lia|lia].
    replace (n - n + 1) with 1 by lia. replace (n - 1 - 0) with (n - 1) by lia. change (Z.to_nat 1) with 1%nat. generalize (Z.to_nat (n - 1)). clear. induction structs as [|s r IH]; intros [|i]; auto. cbn [skipn nth_error]. apply IH.
  - intros a b Ha. unfold make_selected. unfold select, represents_int. rewrite !int_str. cbn [negb andb rbind]. rewrite Hsel by (intros m Hm; apply in_py_range in Hm; lia). do 2 f_equal.
    rewrite (filter_range (fun m => existsb (Z.eqb m) (py_range a (b + 1))) structs 0 a b); [|intros i s E; rewrite (Hn i s E); lia| |lia].
    + do 3 f_equal. lia.
    + intros m _. split.
      * intros E. apply existsb_exists in E as [x [Hx E]]. apply in_py_range in Hx. apply Z.eqb_eq in E. lia.
      * intros Hm. apply existsb_exists. exists m. split; [apply in_py_range; lia|apply Z.eqb_refl].
Qed.
(** "all 7" does not match the format described, but is taken as "all". *)
Theorem C34_all_extra_refuted : select ["all"; "7"]%string = Ok None.
Proof. reflexivity. Qed.
(** Number 0 is the line of column titles and -6 the line of sizes: ValueError and IndexError. *)
Theorem C34_no_structure_number_refuted : exists file, enum_out_file cubic_params some_systems = Ok file /\
  make_selected file ["0"%string] = Err ValueError /\ make_selected file ["-6"%string] = Err IndexError.
Proof. exists (match enum_out_file cubic_params some_systems with Ok f => f | Err _ => EmptyString end). repeat split; vm_compute; reflexivity. Qed.
Example C34_example : exists file, enum_out_file cubic_params some_systems = Ok file /\
  (exists sy a b c, make_selected file ["All"%string] = Ok (sy, [a; b; c]) /\ make_selected file ["2"; "3"]%string = Ok (sy, [b; c]) /\ make_selected file ["2"%string] = Ok (sy, [b]) /\
     labeling b = "10"%string /\ directions_of b = "30"%string /\ sHNF b = ((1, 0, 0), (0, 1, 0), (0, 0, 2))) /\
  select ["2"; "x"]%string = Err ValueError /\ select ["1"; "2"; "3"]%string = Err ValueError.
Proof.
  exists (match enum_out_file cubic_params some_systems with Ok f => f | Err _ => EmptyString end). split; [vm_compute; reflexivity|]. split; [|split; reflexivity].
  do 4 eexists. split; [vm_compute; reflexivity|]. split; [vm_compute; reflexivity|]. split; [vm_compute; reflexivity|]. repeat split.
Qed.

Print Assumptions C31_labels_read_back_partial.
Print Assumptions C31_plain_labels_partial.
Print Assumptions C31_twelve_species_refuted.
Print Assumptions C32_read_back_partial.
Print Assumptions C32_up_to_30_cells.
Print Assumptions C32_size_100_refuted.
Print Assumptions C33_numbering.
Print Assumptions C33_written.
Print Assumptions C33_nothing_enumerated_refuted.
Print Assumptions C34_number.
Print Assumptions C34_range.
Print Assumptions C34_all.
Print Assumptions C34_otherwise.
Print Assumptions C34_structures_made_partial.
Print Assumptions C34_all_extra_refuted.
Print Assumptions C34_no_structure_number_refuted.
