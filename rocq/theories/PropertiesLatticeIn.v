(** Reading lattice.in (C59): the properties. *)
From Coq Require Import QArith.
From Verif Require Import TextModel TextProofs PyBase TreeSearch Mat3 MapModel FilesModel FilesProofs EnumOutModel RunModel LatticeInModel LatticeInSpec LatticeInProofs.
Local Open Scope Z_scope.

(** Comment lines change nothing, wherever they stand. *)
Theorem C59_comments : forall file content, Forall no_newline file -> Forall no_newline content -> commented file content ->
  read_lattice (text_lines file) = read_lattice (text_lines content).
Proof. intros file content Hf Hc H. unfold read_lattice, text_lines. rewrite !lines_text by auto. rewrite (commented_same _ _ H). auto. Qed.

(** Whatever a file says is what the steps get. *)
Theorem C59_read : forall text sizes bulk vecs species bas restricted arrows concs,
  file_says text sizes bulk vecs species bas restricted arrows concs ->
  exists r, read_lattice text = Ok r /\ l_sizes r = sizes /\ l_bulk r = bulk /\ same_numbers (l_vecs r) vecs /\ l_nspecies r = species /\
    same_numbers (l_bas r) bas /\ l_restricted r = restricted /\ l_arrows r = arrows /\ same_numbers (l_concs r) concs.
Proof.
  intros text sizes bulk vecs species bas restricted arrows concs [file [content [first [rest [Hn [-> [Hc [-> [Hcr Hr]]]]]]]]].
  destruct Hcr as [l0 [l1 [c [t [lv [l5 [l6 [lb [-> [Hs [-> [Hw1 [Hch [Hb [Hlv [Hv [Hw5 [Hw6 Hlb]]]]]]]]]]]]]]]]]].
  destruct lv as [|v0 [|v1 [|v2 [|]]]]; try discriminate.
  assert (Forall data ((join " " (map str sizes) :: l1 :: [v0; v1; v2] ++ l5 :: l6 :: lb) ++ rest)) as Hd.
  { assert (forall l w c t, word_line l w -> w = String c t -> c <> "#"%char -> data l) as Hwd.
    { intros l w c0 t0 Hl -> Hne. exists c0, t0. split; [apply strip_word; auto|]. apply Ascii.eqb_neq. auto. }
    assert (forall l z, word_line l (str z) -> data l) as Hsd by (intros l z Hl; destruct (str_head z) as [c0 [t0 [E E']]]; eapply Hwd; eauto; apply Ascii.eqb_neq; auto).
    assert (forall ls qs, Forall2 decimals ls qs -> Forall data ls) as Hdd by (intros ls qs; induction 1; constructor; auto; eapply decimals_data; eauto).
    apply Forall_app. split.
    - constructor; [apply sizes_data; auto|]. constructor; [eapply Hwd; eauto|]. apply Forall_app. split; [eauto|]. constructor; [eauto|]. constructor; eauto.
    - destruct restricted.
      + destruct Hr as [l [l' [lc [flag [flag' [-> [P1 [P2 [_ [_ [_ [_ H]]]]]]]]]]]]. constructor; [apply plain_data; auto|]. constructor; [apply plain_data; auto|]. eauto.
      + destruct Hr as [_ [_ [l [more [-> [H1 H2]]]]]]. constructor; [eapply Hwd; eauto; discriminate|]. eapply Forall_impl; [|exact H2]. intros; apply plain_data; auto. }
  unfold read_lattice, text_lines. rewrite lines_text by auto. rewrite (commented_kept _ _ Hc Hd). cbn [rbind]. clear Hd Hc.
  set (l0 := join " " (map str sizes)) in *. set (ls := ((l0 :: l1 :: [v0; v1; v2] ++ l5 :: l6 :: lb) ++ rest)%list).
  assert (zget ls 0 = Ok l0) as -> by reflexivity. cbn [rbind]. unfold l0 at 1. rewrite sizes_read by auto. cbn [rbind].
  assert (zget ls 1 = Ok l1) as -> by reflexivity. cbn [rbind]. rewrite (strip_word _ _ Hw1). change (char_at (String c t) 0) with (Ok c). cbn [rbind].
  change (slice ls 2 5) with [v0; v1; v2]. destruct (many_floats _ _ Hv) as [vecs' [-> Hvecs]]. cbn [rbind].
  assert (zget ls 5 = Ok l5) as -> by reflexivity. cbn [rbind]. rewrite (int_word _ _ Hw5). cbn [rbind].
  assert (zget ls 6 = Ok l6) as -> by reflexivity. cbn [rbind]. rewrite (int_word _ _ Hw6). cbn [rbind].
  rewrite (slice_at ls [l0; l1; v0; v1; v2; l5; l6] lb rest) by (auto; cbn [length app]; lia). destruct (many_floats _ _ Hlb) as [bas' [-> Hbas]]. cbn [rbind].
  assert (ls = ([l0; l1; v0; v1; v2; l5; l6] ++ lb) ++ rest)%list as Els by (unfold ls; cbn [app]; auto).
  assert (Z.of_nat (length ([l0; l1; v0; v1; v2; l5; l6] ++ lb)) = 7 + Z.of_nat (length lb)) as El by (cbn [length app]; lia).
  rewrite (bulk_letter c bulk Hb). destruct restricted.
  - destruct Hr as [l [l' [lc [flag [flag' [-> [_ [_ [Hf [HfF [Hf' [Ha Hlc]]]]]]]]]]]].
    rewrite (zget_at ls _ _ l _ Els) by auto. cbn [rbind]. rewrite (strip_word _ _ Hf). destruct (String.eqb_spec flag "F"); [contradiction|].
    rewrite (zget_at ls (([l0; l1; v0; v1; v2; l5; l6] ++ lb) ++ [l]) lc l') by (first [rewrite Els, <- (app_assoc _ [l]); reflexivity|rewrite app_length, <- El, Nat2Z.inj_add; cbn [length]; lia]). cbn [rbind].
    rewrite (slice_from_at ls (([l0; l1; v0; v1; v2; l5; l6] ++ lb) ++ [l; l']) lc) by (first [rewrite Els, <- (app_assoc _ [l; l']); reflexivity|rewrite app_length, <- El, Nat2Z.inj_add; cbn [length]; lia]).
    destruct (many_floats _ _ Hlc) as [concs' [-> Hconcs]]. cbn [rbind]. eexists. split; [reflexivity|]. cbn [l_sizes l_bulk l_vecs l_nspecies l_bas l_restricted l_arrows l_concs].
    repeat (split; auto). rewrite (strip_word _ _ Hf'). destruct (String.eqb_spec flag' "F"), arrows; cbn; auto; exfalso; [assert (true = false) by (apply Ha; auto); discriminate|tauto].
  - destruct Hr as [-> [-> [l [more [-> [Hf _]]]]]]. rewrite (zget_at ls _ _ l _ Els) by auto. cbn [rbind]. rewrite (strip_word _ _ Hf). cbn [String.eqb Ascii.eqb Bool.eqb].
    eexists. split; [reflexivity|]. cbn [l_sizes l_bulk l_vecs l_nspecies l_bas l_restricted l_arrows l_concs]. repeat (split; auto). constructor.
Qed.

(** ** The file of /repo/tests/enumeration/fcc_1 *)
Definition fcc_lines : list string := [
  "# Which cell-sizes do you want to search?";
  "1 11";
  "#---------------------------------------";
  "# Bulk or surface?";
  "bulk";
  "# List the primitive cell's lattice vectors";
  "0.5 0.5 0";
  "0.5 0 0.5";
  "0 0.5 0.5";
  "# number of atomic species in the cell";
  "2";
  "# basis atoms";
  "1";
  "0 0 0";
  "#----------------------------------------";
  "# Concentrations";
  "#";
  "# - use specific concentration range (T/F)";
  "# - use arrows on some of the atoms (T/F)";
  "# The concentration ranges for each atom are specified by three";
  "# integers, which define 2 fractions. The third number is the";
  "# denominator for the fraction, the first two numbers are the";
  "# numerator. The first two numbers need not be listed in ascending";
  "# order.";
  "#";
  "# If displacement directions are to be used then a fourth number";
  "# follows the fractions the fourth number should be a decimal that";
  "# indicates the fractional amount of displaced atoms of that species.";
  "F";
  "F";
  "1 6 12 0.0";
  "1 9 12 0.5"]%string.
Ltac digit_word ip fp := left; exists EmptyString, 1, ip, fp; eexists; split; [auto|]; split; [first [left; split; [reflexivity|split; [discriminate|reflexivity]]|right; split; [reflexivity|discriminate]]|]; split; [repeat constructor; lia|]; split; reflexivity.
Lemma numeral_0 : decimal "0" 0. Proof. digit_word [0] (@nil Z). Qed.
Lemma numeral_half : decimal "0.5" (1 # 2). Proof. digit_word [0] [5]. Qed.
Example numeral_exponent : decimal "+12.5e-3" (1 # 80).
Proof.
  right. exists "+12.5"%string, (25 # 2)%Q, "e"%char, "-"%string, (-1), [3]. split; [exists "+"%string, 1, [1; 2], [5], ".5"%string; repeat split; auto; [right; split; [reflexivity|discriminate]|repeat constructor; lia]|].
  split; [auto|]. split; [auto|]. split; [discriminate|]. split; [repeat constructor; lia|]. split; reflexivity.
Qed.
Ltac plain_word := split; [split; [discriminate|repeat split]|exists EmptyString, EmptyString; repeat split].
Lemma fcc_says : file_says (text_lines fcc_lines) [1; 11] true [[1 # 2; 1 # 2; 0]; [1 # 2; 0; 1 # 2]; [0; 1 # 2; 1 # 2]]%Q 2 [[0; 0; 0]]%Q false false [].
Proof.
  exists fcc_lines. eexists. exists ["1 11"; "bulk"; "0.5 0.5 0"; "0.5 0 0.5"; "0 0.5 0.5"; "2"; "1"; "0 0 0"]%string, ["F"; "F"; "1 6 12 0.0"; "1 9 12 0.5"]%string.
  split; [repeat constructor|]. split; [reflexivity|]. split; [|split; [reflexivity|]].
  - unfold fcc_lines. repeat first [apply commented_end | apply commented_comment; [eexists EmptyString, _; split; [exact I|reflexivity]|] | apply commented_line].
  - split; [|split; [reflexivity|]; split; [reflexivity|]].
    + exists "1 11"%string, "bulk"%string, "b"%char, "ulk"%string, ["0.5 0.5 0"; "0.5 0 0.5"; "0 0.5 0.5"]%string, "2"%string, "1"%string, ["0 0 0"]%string.
      split; [reflexivity|]. split; [discriminate|]. split; [reflexivity|]. split; [plain_word|]. split; [discriminate|]. split; [tauto|]. split; [reflexivity|].
      split; [repeat (apply Forall2_cons; [split; [discriminate|repeat (apply Forall2_cons; [first [exact numeral_0|exact numeral_half]|]); apply Forall2_nil]|]); apply Forall2_nil|].
      split; [plain_word|]. split; [plain_word|].
      repeat (apply Forall2_cons; [split; [discriminate|repeat (apply Forall2_cons; [first [exact numeral_0|exact numeral_half]|]); apply Forall2_nil]|]); apply Forall2_nil.
    + exists "F"%string, ["F"; "1 6 12 0.0"; "1 9 12 0.5"]%string. split; [reflexivity|]. split; [plain_word|].
      repeat (apply Forall_cons; [split; [intros Hb; cbn in Hb; intuition discriminate|intros [b [r [Hb E]]]; destruct b as [|x b]; [discriminate|]; injection E as <- _; destruct Hb; discriminate]|]); apply Forall_nil.
Qed.
Example C59_example : exists r, read_lattice (text_lines fcc_lines) = Ok r /\ l_sizes r = [1; 11] /\ l_bulk r = true /\
  same_numbers (l_vecs r) [[1 # 2; 1 # 2; 0]; [1 # 2; 0; 1 # 2]; [0; 1 # 2; 1 # 2]]%Q /\ l_nspecies r = 2 /\ same_numbers (l_bas r) [[0; 0; 0]]%Q /\
  l_restricted r = false /\ l_arrows r = false /\ same_numbers (l_concs r) [].
Proof. exact (C59_read _ _ _ _ _ _ _ _ _ fcc_says). Qed.
(** With T for the restrictions (and arrows), in capitals and with blanks around. *)
Definition restricted_lines : list string := ["1 2"; "# a comment"; " Surface"; "-.5 0.5 +1."; "1E+0 0 0"; "0 10.0e-1 0"; "2 "; " 1"; "0 0 0"; "T "; "  # another"; " T"; "1 6 12 0.5"; "0 12 12 0"]%string.
Lemma numerals_more : decimal "-.5" (-1 # 2) /\ decimal "+1." 1 /\ decimal "1E+0" 1 /\ decimal "10.0e-1" 1 /\ decimal "1" 1 /\ decimal "6" 6 /\ decimal "12" 12.
Proof.
  split; [left; exists "-"%string, (-1), [], [5], ".5"%string; split; [auto|]; split; [right; split; [reflexivity|discriminate]|]; split; [repeat constructor; lia|split; reflexivity]|].
  split; [left; exists "+"%string, 1, [1], [], "."%string; split; [auto|]; split; [right; split; [reflexivity|discriminate]|]; split; [repeat constructor; lia|split; reflexivity]|].
  assert (plain_decimal "1" 1) as P1 by (exists EmptyString, 1, [1], [], EmptyString; split; [auto|]; split; [left; split; [reflexivity|split; [discriminate|reflexivity]]|]; split; [repeat constructor; lia|split; reflexivity]).
  split; [right; exists "1"%string, 1%Q, "E"%char, "+"%string, 1, [0]; split; [exact P1|]; split; [auto|]; split; [auto|]; split; [discriminate|]; split; [repeat constructor; lia|split; reflexivity]|].
  split; [right; exists "10.0"%string, 10%Q, "e"%char, "-"%string, (-1), [1]; split; [exists EmptyString, 1, [1; 0], [0], ".0"%string; split; [auto|]; split; [right; split; [reflexivity|discriminate]|]; split; [repeat constructor; lia|split; reflexivity]|]; split; [auto|]; split; [auto|]; split; [discriminate|]; split; [repeat constructor; lia|split; reflexivity]|].
  split; [left; exact P1|]. split; [digit_word [6] (@nil Z)|digit_word [1; 2] (@nil Z)].
Qed.
Lemma restricted_says : file_says (text_lines restricted_lines) [1; 2] false [[-1 # 2; 1 # 2; 1]; [1; 0; 0]; [0; 1; 0]]%Q 2 [[0; 0; 0]]%Q true true [[1; 6; 12; 1 # 2]; [0; 12; 12; 0]]%Q.
Proof.
  destruct numerals_more as [N1 [N2 [N3 [N4 [N5 [N6 N7]]]]]].
  exists restricted_lines. eexists. exists ["1 2"; " Surface"; "-.5 0.5 +1."; "1E+0 0 0"; "0 10.0e-1 0"; "2 "; " 1"; "0 0 0"]%string, ["T "; " T"; "1 6 12 0.5"; "0 12 12 0"]%string.
  split; [repeat constructor|]. split; [reflexivity|]. split; [|split; [reflexivity|]].
  - unfold restricted_lines. repeat first [apply commented_end | apply commented_comment; [first [eexists EmptyString, _; split; [exact I|reflexivity]|eexists "  "%string, _; split; [repeat split|reflexivity]]|] | apply commented_line].
  - split.
    + exists "1 2"%string, " Surface"%string, "S"%char, "urface"%string, ["-.5 0.5 +1."; "1E+0 0 0"; "0 10.0e-1 0"]%string, "2 "%string, " 1"%string, ["0 0 0"]%string.
      split; [reflexivity|]. split; [discriminate|]. split; [reflexivity|]. split; [split; [split; [discriminate|repeat split]|exists " "%string, EmptyString; repeat split]|]. split; [discriminate|]. split; [split; [discriminate|intros [E|E]; discriminate]|]. split; [reflexivity|].
      split; [repeat (apply Forall2_cons; [split; [discriminate|repeat (apply Forall2_cons; [first [exact numeral_0|exact numeral_half|eassumption]|]); apply Forall2_nil]|]); apply Forall2_nil|].
      split; [split; [split; [discriminate|repeat split]|exists EmptyString, " "%string; repeat split]|]. split; [split; [split; [discriminate|repeat split]|exists " "%string, EmptyString; repeat split]|].
      repeat (apply Forall2_cons; [split; [discriminate|repeat (apply Forall2_cons; [first [exact numeral_0|exact numeral_half|eassumption]|]); apply Forall2_nil]|]); apply Forall2_nil.
    + exists "T "%string, " T"%string, ["1 6 12 0.5"; "0 12 12 0"]%string, "T"%string, "T"%string. split; [reflexivity|].
      assert (plain_line "T " /\ plain_line " T") as [P P'].
      { split; (split; [intros Hb; cbn in Hb; intuition discriminate|intros [b [r [Hb E]]]; destruct b as [|x b]; [discriminate|]; injection E as <- E; destruct Hb as [Hb Hb']; try discriminate]). destruct b as [|x b]; [discriminate|]. injection E as <- _. destruct Hb'; discriminate. }
      split; [exact P|]. split; [exact P'|]. split; [split; [split; [discriminate|repeat split]|exists EmptyString, " "%string; repeat split]|]. split; [discriminate|].
      split; [split; [split; [discriminate|repeat split]|exists " "%string, EmptyString; repeat split]|]. split; [split; discriminate|].
      repeat (apply Forall2_cons; [split; [discriminate|repeat (apply Forall2_cons; [first [exact numeral_0|exact numeral_half|eassumption]|]); apply Forall2_nil]|]); apply Forall2_nil.
Qed.
Example C59_restricted_example : exists r, read_lattice (text_lines restricted_lines) = Ok r /\ l_bulk r = false /\ l_restricted r = true /\ l_arrows r = true /\
  same_numbers (l_vecs r) [[-1 # 2; 1 # 2; 1]; [1; 0; 0]; [0; 1; 0]]%Q /\ same_numbers (l_concs r) [[1; 6; 12; 1 # 2]; [0; 12; 12; 0]]%Q.
Proof. destruct (C59_read _ _ _ _ _ _ _ _ _ restricted_says) as [r H]. exists r. tauto. Qed.

(** ** What is refused, and what is not looked at *)
(** One blank line, anywhere in the file, and nothing is read. *)
Theorem C59_blank_line : forall file, Forall no_newline file -> (exists l, In l file /\ blank l) -> read_lattice (text_lines file) = Err IndexError.
Proof. intros file Hn Hb. unfold read_lattice, text_lines. rewrite lines_text by auto. rewrite blank_refused by auto. auto. Qed.
Example C59_blank_line_example : read_lattice (text_lines (fcc_lines ++ [" "%string])) = Err IndexError.
Proof. apply C59_blank_line; [apply Forall_app; split; repeat constructor|]. exists " "%string. split; [apply in_or_app; right; left; auto|]. split; [reflexivity|exact I]. Qed.
(** Blanks between numbers matter on the line of the sizes, and only there. *)
Definition with_sizes (l : string) : list string := [l; "bulk"; "1 0 0"; " 0 1  0"; "0 0 1 "; " 2 "; "1"; "0 0 0"; "F"]%string.
Theorem C59_sizes_refuted : ~ forall l sizes, sizes <> [] -> rmap int_of (words l) = Ok sizes -> exists r, read_lattice (text_lines (with_sizes l)) = Ok r /\ l_sizes r = sizes.
Proof. intros H. destruct (H "1  4"%string [1; 4] ltac:(discriminate) eq_refl) as [r [E _]]. vm_compute in E. discriminate. Qed.
Example C59_sizes_single : exists r, read_lattice (text_lines (with_sizes "1 4")) = Ok r /\ l_sizes r = [1; 4].
Proof. eexists. split; vm_compute; reflexivity. Qed.
(** The word for arrows counts only where concentrations are restricted: a file that asks for arrows without restrictions
    runs without them, no error. *)
Theorem C59_arrows_refuted : ~ forall first flag2 more r, crystal_lines first [1; 4] true [[1; 0; 0]; [0; 1; 0]; [0; 0; 1]]%Q 2 [[0; 0; 0]]%Q ->
  plain_line flag2 -> strip flag2 <> "F"%string -> Forall plain_line more ->
  read_lattice (text_lines (first ++ ["F"%string; flag2] ++ more)) = Ok r -> l_arrows r = true.
Proof.
  intros H. specialize (H (removelast (with_sizes "1 4")) "T"%string []). 
  assert (crystal_lines (removelast (with_sizes "1 4")) [1; 4] true [[1; 0; 0]; [0; 1; 0]; [0; 0; 1]]%Q 2 [[0; 0; 0]]%Q) as Hc.
  { exists "1 4"%string, "bulk"%string, "b"%char, "ulk"%string, ["1 0 0"; " 0 1  0"; "0 0 1 "]%string, " 2 "%string, "1"%string, ["0 0 0"]%string.
    assert (decimal "1" 1) as N1 by digit_word [1] (@nil Z).
    split; [reflexivity|]. split; [discriminate|]. split; [reflexivity|]. split; [plain_word|]. split; [discriminate|]. split; [tauto|]. split; [reflexivity|].
    split; [repeat (apply Forall2_cons; [split; [discriminate|repeat (apply Forall2_cons; [first [exact numeral_0|exact N1]|]); apply Forall2_nil]|]); apply Forall2_nil|].
    split; [split; [split; [discriminate|repeat split]|exists " "%string, " "%string; repeat split]|]. split; [plain_word|].
    repeat (apply Forall2_cons; [split; [discriminate|repeat (apply Forall2_cons; [first [exact numeral_0|exact N1]|]); apply Forall2_nil]|]); apply Forall2_nil. }
  assert (plain_line "T") as Hp by (split; [intros Hb; cbn in Hb; intuition discriminate|intros [b [r [Hb E]]]; destruct b as [|x b]; [discriminate|]; injection E as <- _; destruct Hb; discriminate]).
  set (t := text_lines _) in H. set (r := read_lattice t). assert (exists x, r = Ok x /\ l_arrows x = false) as [x [E Ef]] by (eexists; split; vm_compute; reflexivity).
  specialize (H x Hc Hp ltac:(discriminate) ltac:(constructor) E). congruence.
Qed.

(** ** Fractions of displaced atoms *)
(** The fractions are the fourth numbers of the lines of a file with restrictions that asks for arrows, and 0 otherwise. *)
Theorem C59_fractions : forall text sizes bulk vecs species bas restricted arrows concs,
  file_says text sizes bulk vecs species bas restricted arrows concs ->
  exists r, read_lattice text = Ok r /\
    match restricted with
    | false => get_arrow_concs r = repeat 0%Q (Z.to_nat species)
    | true => Forall2 (fun f line => match arrows, line with true, [_; _; _; a] => (f == a)%Q | _, _ => (f == 0)%Q end) (get_arrow_concs r) concs
    end.
Proof.
  intros text sizes bulk vecs species bas restricted arrows concs H. destruct (C59_read _ _ _ _ _ _ _ _ _ H) as [r [E [_ [_ [_ [Hn [_ [Hr [Ha Hc]]]]]]]]].
  exists r. split; auto. unfold get_arrow_concs. rewrite Hr, Hn, Ha. destruct restricted; [|reflexivity]. clear - Hc. induction Hc as [|l l' ls ls' Hl _ IH]; cbn [map]; constructor; auto.
  destruct Hl as [|? ? ? ? _ [|? ? ? ? _ [|? ? ? ? _ [|? ? ? ? E [|? ? ? ? _ _]]]]]; destruct arrows; cbn; try reflexivity. exact E.
Qed.
(** With exact numbers, [displaced] is the largest number of atoms within the fraction. *)
Theorem C59_displaced : forall a_concs c, length a_concs = length c -> Forall (fun n => 0 <= n) c -> Forall (fun a => 0 <= a)%Q a_concs ->
  length (displaced a_concs c) = length c /\
  forall i, (i < length c)%nat -> forall k, (inject_Z k <= inject_Z (nth i c 0%Z) * nth i a_concs 0)%Q <-> k <= nth i (displaced a_concs c) 0.
Proof.
  induction a_concs as [|a a_concs IH]; intros [|n c] Hl Hn Ha; try discriminate; [split; [reflexivity|intros i Hi; inversion Hi]|].
  inversion Hn; inversion Ha; subst. destruct (IH c) as [I1 I2]; auto. cbn [displaced combine map]. fold (displaced a_concs c). split; [cbn; auto|].
  intros [|i] Hi k; cbn [nth].
  - destruct a as [p q]. unfold Qle, Qmult, inject_Z in *. cbn [Qnum Qden] in *. rewrite Z.quot_div_nonneg by nia. rewrite Pos.mul_1_l, Z.mul_1_r. split; intros K.
    + apply Z.div_le_lower_bound; lia.
    + assert (k * Z.pos q <= n * p / Z.pos q * Z.pos q) by nia. pose proof (Z.mul_div_le (n * p) (Z.pos q) ltac:(lia)). lia.
  - apply I2. cbn in Hi. lia.
Qed.
Example C59_displaced_example : displaced [1 # 2; 1 # 3]%Q [7; 5] = [3; 1]. Proof. reflexivity. Qed.
(** The code multiplies doubles.  For fractions with two decimals and fewer than 50 atoms that gives the same number;
    0.58 of 50 atoms are 28 atoms. *)
Definition displaced_double (hundredths n : Z) : Z := MapModel.ftrunc (MapModel.fmul (MapModel.fint n) (MapModel.fdiv (MapModel.fint hundredths) (MapModel.fint 100))).
Lemma doubles_49 : forallb (fun n => forallb (fun k => displaced_double k n =? n * k / 100) (range_up 0 101)) (range_up 0 50) = true.
Proof. vm_compute. reflexivity. Qed.
Theorem C59_displaced_doubles : forall n k, 0 <= n < 50 -> 0 <= k <= 100 -> displaced_double k n = nth 0 (displaced [k # 100] [n]) 0.
Proof.
  intros n k Hn Hk. pose proof doubles_49 as H. rewrite forallb_forall in H. specialize (H n ltac:(apply in_range_up; lia)). rewrite forallb_forall in H. specialize (H k ltac:(apply in_range_up; lia)).
  apply Z.eqb_eq in H. cbn [displaced combine map nth Qnum Qden]. rewrite Z.quot_div_nonneg by nia. auto.
Qed.
Theorem C59_displaced_refuted : ~ forall n k, 0 <= n -> 0 <= k <= 100 -> displaced_double k n = nth 0 (displaced [k # 100] [n]) 0.
Proof. intros H. specialize (H 50 58 ltac:(lia) ltac:(lia)). vm_compute in H. discriminate. Qed.
Print Assumptions C59_read.
Print Assumptions C59_comments.
Print Assumptions C59_blank_line.
Print Assumptions C59_fractions.
Print Assumptions C59_displaced.
Print Assumptions C59_displaced_doubles.
