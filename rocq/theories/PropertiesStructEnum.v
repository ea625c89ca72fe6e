(** struct_enum.in (C71): the properties. *)
From Verif Require Import TextModel TextProofs PyBase ListFacts FilesModel StructEnumModel.
Local Open Scope Z_scope.

(** Vectors of words. *)
Definition solid_vectors (l : list (list string)) : Prop := forall v, In v l -> v <> [] /\ Forall solid v.
(** What a reader of words finds in a text: the words of the lines that are not blank. *)
Definition word_lines (text : string) : list (list string) := filter (fun l => negb (length l =? 0)%nat) (map TextModel.words (lines text)).

Lemma lines_cons t s : no_newline t -> lines (t ++ String newline s) = t :: lines s.
Proof. intros H. unfold lines at 1. rewrite lines_from_app; auto. Qed.
Lemma word_lines_cons t s : no_newline t -> TextModel.words t <> [] -> word_lines (t ++ String newline s) = TextModel.words t :: word_lines s.
Proof. intros H N. unfold word_lines. rewrite lines_cons by auto. cbn [map filter]. destruct (TextModel.words t); [congruence|]. reflexivity. Qed.
Lemma word_lines_skip t s : no_newline t -> TextModel.words t = [] -> word_lines (t ++ String newline s) = word_lines s.
Proof. intros H N. unfold word_lines. rewrite lines_cons by auto. cbn [map filter]. rewrite N. reflexivity. Qed.
Lemma solid_line t : all_chars (fun c => is_space c = false) t -> no_newline t.
Proof. intros H. eapply all_chars_impl; [|exact H]. intros c Hc. destruct (Ascii.eqb_spec c newline) as [->|]; [discriminate|auto]. Qed.
Lemma no_newline_app a b : no_newline a -> no_newline b -> no_newline (a ++ b).
Proof. intros H K. apply all_chars_app. auto. Qed.
Lemma spaced_words v s : Forall solid v -> starts_blank s -> TextModel.words (String.concat "" (map (fun p => (p ++ " ")%string) v) ++ s) = v ++ TextModel.words s /\ (no_newline s -> no_newline (String.concat "" (map (fun p => (p ++ " ")%string) v) ++ s)).
Proof.
  intros Hv. induction Hv as [|p v Hp Hv IH]; intros Hs; [split; auto|].
  assert (String.concat "" (map (fun p => (p ++ " ")%string) (p :: v)) = (p ++ String " " (String.concat "" (map (fun p => (p ++ " ")%string) v)))%string) as ->.
  { cbn [map]. destruct v as [|q v]; [reflexivity|]. cbn [map String.concat]. rewrite app_assoc_s. f_equal. }
  rewrite app_assoc_s. cbn [append].
  destruct (IH Hs) as [E N]. split.
  - change (p ++ String " " (String.concat "" (map (fun p => (p ++ " ")%string) v) ++ s))%string with ("" ++ p ++ String " " (String.concat "" (map (fun p => (p ++ " ")%string) v) ++ s))%string. rewrite words_cons; [|exact Logic.I|auto|right; eexists _, _; split; reflexivity].
    cbn [app]. f_equal. rewrite <- E. unfold TextModel.words. reflexivity.
  - intros Hn. apply no_newline_app; [apply solid_line, Hp|]. split; [reflexivity|exact (N Hn)].
Qed.
Lemma join_words v s : Forall solid v -> starts_blank s -> TextModel.words (join " " v ++ s) = v ++ TextModel.words s /\ (no_newline s -> no_newline (join " " v ++ s)).
Proof.
  intros Hv. induction Hv as [|p v Hp Hv IH]; intros Hs; [split; auto|]. destruct (IH Hs) as [E N]. destruct v as [|q v].
  - cbn [join app]. split; [change (p ++ s)%string with ("" ++ p ++ s)%string; rewrite words_cons; auto; exact Logic.I|]. intros Hn. apply no_newline_app; auto. apply solid_line, Hp.
  - change (join " " (p :: q :: v)) with (p ++ " " ++ join " " (q :: v))%string. rewrite !app_assoc_s. set (t := (join " " (q :: v) ++ s)%string) in *. split.
    + change (p ++ " " ++ t)%string with ("" ++ p ++ String " " t)%string. rewrite words_cons; [|exact Logic.I|auto|right; eexists _, _; split; reflexivity]. cbn [app]. f_equal. exact E.
    + intros Hn. apply no_newline_app; [apply solid_line, Hp|]. split; [reflexivity|exact (N Hn)].
Qed.
(** The occupancies: the numbers of the species with slashes between them. *)
Lemma occupancy_join k : occupancy k = join "/" (map str (range_up 0 k)).
Proof.
  unfold occupancy. assert (forall l, (forall i, In i l -> i < k) -> (forall a i b, l = a ++ i :: b -> b <> [] -> i < k - 1) -> (forall a i, l = a ++ [i] -> i = k - 1) ->
    String.concat "" (map (fun i => if (i <? k - 1)%Z then (str i ++ "/")%string else str i) l) = join "/" (map str l)) as H.
  { induction l as [|i l IH]; intros H1 H2 H3; [auto|]. destruct l as [|j l].
    - cbn [map String.concat join]. rewrite (H3 [] i eq_refl), Z.ltb_irrefl. auto.
    - cbn [map String.concat join]. rewrite (proj2 (Z.ltb_lt i (k - 1))) by (apply (H2 [] i (j :: l)); [auto|discriminate]). change ("" ++ String.concat "" ?x)%string with (String.concat "" x). cbn [map join] in IH. cbn [append].
      rewrite app_assoc_s. f_equal. cbn [append]. f_equal. apply IH; [intros; apply H1; right; auto| |]; [intros a x b E; apply (H2 (i :: a) x b); rewrite E; auto|intros a x E; apply (H3 (i :: a) x); rewrite E; auto]. }
  destruct (Z.le_gt_cases k 0) as [Hk|Hk]; [unfold range_up; replace (Z.to_nat (k - 0)) with 0%nat by lia; reflexivity|].
  assert (range_up 0 k = map Z.of_nat (seq 0 (Z.to_nat k))) as ->.
  { unfold range_up. rewrite Z.sub_0_r. apply map_ext. intros; lia. }
  apply H.
  - intros i Hi. apply in_map_iff in Hi. destruct Hi as [n [<- Hn]]. apply in_seq in Hn. lia.
  - intros a i b E Hb. assert (length (map Z.of_nat (seq 0 (Z.to_nat k))) = length (a ++ i :: b)) as L by (rewrite E; auto). rewrite map_length, seq_length, app_length in L. cbn in L.
    assert (nth (length a) (map Z.of_nat (seq 0 (Z.to_nat k))) 0 = i) as En by (rewrite E, nth_middle; auto). rewrite (nth_indep _ 0 (Z.of_nat 0)), map_nth, seq_nth in En by (rewrite ?map_length, ?seq_length; lia). destruct b; [congruence|]. cbn in L. lia.
  - intros a i E. assert (length (map Z.of_nat (seq 0 (Z.to_nat k))) = length (a ++ [i])) as L by (rewrite E; auto). rewrite map_length, seq_length, app_length in L. cbn in L.
    assert (nth (length a) (map Z.of_nat (seq 0 (Z.to_nat k))) 0 = i) as En by (rewrite E, nth_middle; auto). rewrite (nth_indep _ 0 (Z.of_nat 0)), map_nth, seq_nth in En by (rewrite ?map_length, ?seq_length; lia). lia.
Qed.
Lemma str_no_slash z : 0 <= z -> all_chars (fun c => Ascii.eqb c "/" = false) (str z).
Proof. intros Hz. rewrite str_nonneg by auto. eapply all_chars_impl; [|apply digits_chars; auto]. intros c [d [Hd ->]]. assert (d = 0 \/ d = 1 \/ d = 2 \/ d = 3 \/ d = 4 \/ d = 5 \/ d = 6 \/ d = 7 \/ d = 8 \/ d = 9) as C by lia. repeat destruct C as [->|C]; try reflexivity. subst d. reflexivity. Qed.
Lemma split_word sep t : all_chars (fun c => Ascii.eqb c sep = false) t -> forall cur s, split_from sep cur (t ++ s) = split_from sep (cur ++ t) s.
Proof. induction t as [|c t IH]; intros H cur s; [rewrite app_nil_s; auto|]. destruct H as [Hc H]. cbn [append split_from]. rewrite Hc, IH by auto. f_equal. rewrite app_assoc_s. auto. Qed.
Lemma split_join l : l <> [] -> Forall (all_chars (fun c => Ascii.eqb c "/" = false)) l -> split_on "/" (join "/" l) = l.
Proof.
  unfold split_on. induction l as [|t l IH]; intros Hn H; [congruence|]. inversion H as [|? ? Ht Hl]; subst. destruct l as [|u l].
  - cbn [join]. rewrite <- (app_nil_s t) at 1. rewrite split_word by auto. reflexivity.
  - change (join "/" (t :: u :: l)) with (t ++ String "/" (join "/" (u :: l)))%string. rewrite split_word by auto. cbn [split_from append Ascii.eqb Bool.eqb]. f_equal. apply IH; auto. discriminate.
Qed.
Lemma occupancy_solid k : 1 <= k -> solid (occupancy k).
Proof.
  intros Hk. rewrite occupancy_join. assert (range_up 0 k <> []) as Hr by (unfold range_up; destruct (Z.to_nat (k - 0)) eqn:E; [lia|discriminate]).
  assert (forall l, l <> [] -> solid (join "/" (map str l))) as H; [|auto].
  induction l as [|i l IH]; intros Hn; [congruence|]. destruct l as [|j l]; [apply str_solid|].
  change (join "/" (map str (i :: j :: l))) with (str i ++ String "/" (join "/" (map str (j :: l))))%string. destruct (str_solid i) as [H1 H2]. destruct (IH ltac:(discriminate)) as [H3 H4]. split.
  - destruct (str i); [congruence|discriminate].
  - apply all_chars_app. split; auto. split; auto.
Qed.

Lemma line_words t s : no_newline t -> TextModel.words t <> [] -> word_lines (t ++ String newline "" ++ s) = TextModel.words t :: word_lines s.
Proof. exact (word_lines_cons t s). Qed.

Lemma spaced_line v b R : v <> [] -> Forall solid v -> blank b -> no_newline b -> word_lines (String.concat "" (map (fun p => (p ++ " ")%string) v) ++ b ++ String newline R) = v :: word_lines R.
Proof.
  intros Hn Hv Hb Hnb. assert (starts_blank b) as Hs by (destruct b as [|x b]; [left; auto|right; exists x, b; destruct Hb; auto]).
  destruct (spaced_words v b Hv Hs) as [E N]. rewrite (words_blank b Hb), app_nil_r in E. rewrite <- app_assoc_s. rewrite word_lines_cons; [rewrite E; auto|auto|rewrite E; auto].
Qed.
Lemma spaced_line0 v R : v <> [] -> Forall solid v -> word_lines (String.concat "" (map (fun p => (p ++ " ")%string) v) ++ String newline R) = v :: word_lines R.
Proof. intros H K. exact (spaced_line v "" R H K Logic.I Logic.I). Qed.
Lemma spaced_line1 v R : v <> [] -> Forall solid v -> word_lines (String.concat "" (map (fun p => (p ++ " ")%string) v) ++ String " " (String newline R)) = v :: word_lines R.
Proof. intros H K. apply (spaced_line v " " R H K); repeat split. Qed.
Lemma number_line z R : word_lines (str z ++ String " " (String newline R)) = [str z] :: word_lines R.
Proof.
  pose proof (spaced_line [str z] "" R ltac:(discriminate) ltac:(constructor; [apply str_solid|constructor]) Logic.I Logic.I) as H. cbn [map String.concat append] in H. rewrite app_assoc_s in H. exact H.
Qed.
Lemma concat_cons x l : String.concat "" (x :: l) = (x ++ String.concat "" l)%string.
Proof. destruct l as [|y l]; [cbn; rewrite app_nil_s; auto|reflexivity]. Qed.
Lemma basis_lines k bas R : 1 <= k -> solid_vectors bas ->
  word_lines (String.concat "" (map (fun v => (join " " v ++ String " " (String " " (occupancy k ++ String " " (String newline ""))))%string) bas) ++ R) = map (fun v => v ++ [occupancy k]) bas ++ word_lines R.
Proof.
  intros Hk. induction bas as [|v bas IH]; intros Hv; [reflexivity|].
  assert (String.concat "" (map (fun v => (join " " v ++ String " " (String " " (occupancy k ++ String " " (String newline ""))))%string) (v :: bas)) =
    (join " " v ++ String " " (String " " (occupancy k ++ String " " (String newline (String.concat "" (map (fun v => (join " " v ++ String " " (String " " (occupancy k ++ String " " (String newline ""))))%string) bas))))))%string) as ->.
  { cbn [map]. rewrite concat_cons. rewrite !app_assoc_s. cbn [append]. rewrite !app_assoc_s. reflexivity. }
  destruct (Hv v ltac:(left; auto)) as [Hn Hsv]. set (t := String.concat "" _). pose proof (occupancy_solid k Hk) as Ho.
  assert (starts_blank (String " " (String " " (occupancy k ++ " ")))) as Hsb by (right; eexists _, _; split; reflexivity).
  destruct (join_words v _ Hsv Hsb) as [E N].
  assert (TextModel.words (String " " (String " " (occupancy k ++ " "))) = [occupancy k]) as Ew by (apply (words_cons "  " (occupancy k) " "); [repeat split|auto|right; eexists _, _; split; reflexivity]).
  rewrite Ew in E.
  replace ((join " " v ++ String " " (String " " (occupancy k ++ String " " (String newline t)))) ++ R)%string with ((join " " v ++ String " " (String " " (occupancy k ++ " "))) ++ String newline (t ++ R))%string
    by (rewrite !app_assoc_s; cbn [append]; rewrite !app_assoc_s; reflexivity).
  rewrite word_lines_cons; [|apply N; split; [reflexivity|]; split; [reflexivity|]; apply no_newline_app; [apply solid_line, Ho|repeat split]|rewrite E; destruct v; discriminate].
  rewrite E. cbn [map app]. f_equal. apply IH. intros w Hw. apply Hv. right. auto.
Qed.

(** The words of the file are those of the format of enum.x: a title, bulk or surface, the three lattice vectors, the number
    of species, the number of points, each point with the species that may stand there, the sizes, a tolerance, "full". *)
Theorem C71_struct_enum : forall bulk a b c k bas sizes, solid_vectors (a :: b :: c :: bas) -> 1 <= k -> sizes <> [] ->
  exists occ, split_on "/" occ = map str (range_up 0 k) /\
    word_lines (write_struct_enum bulk [a; b; c] k bas sizes) =
      [["System"]; [if bulk : bool then "bulk" else "surface"]; a; b; c; [str k]; [str (Z.of_nat (length bas))]]%string ++
      map (fun v => v ++ [occ]) bas ++ [map str sizes; ["0.00001"]; ["full"]]%string.
Proof.
  intros bulk a b c k bas sizes Hv Hk Hs. exists (occupancy k). split.
  { rewrite occupancy_join. apply split_join; [unfold range_up; destruct (Z.to_nat (k - 0)) eqn:E; [lia|discriminate]|]. apply Forall_forall. intros t Ht. apply in_map_iff in Ht. destruct Ht as [i [<- Hi]]. apply str_no_slash. unfold range_up in Hi. apply in_map_iff in Hi. destruct Hi as [n [<- _]]. lia. }
  unfold write_struct_enum. cbv zeta. rewrite (line_words "System ") by (repeat split; discriminate).
  assert (forall (x y : string) s, (if bulk then x else y) ++ s = if bulk then x ++ s else y ++ s)%string as Eif by (intros; destruct bulk; auto).
  replace (word_lines ((if bulk then "bulk " else "surface ") ++ _)) with ([if bulk then "bulk" else "surface"]%string :: word_lines (lattice_text 0 [a; b; c] ++ " " ++ String newline "" ++ str k ++ " " ++ String newline "" ++ str (Z.of_nat (length bas)) ++ " " ++ String newline "" ++
    String.concat "" (map (fun v => join " " v ++ "  " ++ occupancy k ++ " " ++ String newline "") bas) ++ " " ++ String newline "" ++ String.concat "" (map (fun s => str s ++ " ") sizes) ++ " " ++ String newline "" ++ "0.00001 " ++ String newline "" ++ "full " ++ String newline "")%string)
    by (destruct bulk; [rewrite (line_words "bulk ")|rewrite (line_words "surface ")]; repeat split; discriminate).
  cbn [app]. f_equal. f_equal. cbn [lattice_text Nat.ltb Nat.leb]. rewrite !app_assoc_s. cbn [append].
  destruct (Hv a ltac:(cbn; auto)) as [Na Sa]. destruct (Hv b ltac:(cbn; auto)) as [Nb Sb]. destruct (Hv c ltac:(cbn; auto)) as [Nc Sc].
  rewrite (spaced_line0 a) by auto. f_equal. rewrite (spaced_line0 b) by auto. f_equal.
  rewrite (spaced_line1 c) by auto. f_equal. rewrite number_line. f_equal. rewrite number_line. f_equal.
  rewrite basis_lines by (auto; intros v Hi; apply Hv; cbn; auto). f_equal.
  match goal with |- word_lines (String " " (String newline ?R)) = _ => change (word_lines (String " " (String newline R))) with (word_lines (" " ++ String newline R)) end. rewrite (word_lines_skip " ") by (repeat split).
  rewrite <- (map_map str (fun t => (t ++ " ")%string)). rewrite (spaced_line1 (map str sizes)); [|destruct sizes; [congruence|discriminate]|apply Forall_forall; intros t Ht; apply in_map_iff in Ht; destruct Ht as [z [<- _]]; apply str_solid].
  f_equal.
Qed.
(** The face-centred lattice, two species. *)
Example C71_example : solid_vectors [["0.5"; "0.5"; "0.0"]; ["0.5"; "0.0"; "0.5"]; ["0.0"; "0.5"; "0.5"]; ["0.0"; "0.0"; "0.0"]]%string /\
  write_struct_enum true [["0.5"; "0.5"; "0.0"]; ["0.5"; "0.0"; "0.5"]; ["0.0"; "0.5"; "0.5"]]%string 3 [["0.0"; "0.0"; "0.0"]]%string [1; 11] =
    String.concat (String newline "") ["System "; "bulk "; "0.5 0.5 0.0 "; "0.5 0.0 0.5 "; "0.0 0.5 0.5  "; "3 "; "1 "; "0.0 0.0 0.0  0/1/2 "; " "; "1 11  "; "0.00001 "; "full "; ""]%string.
Proof.
  split; [|reflexivity]. intros v Hv. cbn in Hv. repeat destruct Hv as [<-|Hv]; try solve [destruct Hv]; (split; [discriminate|]); repeat (constructor; [split; [discriminate|repeat split]|]); constructor.
Qed.
Print Assumptions C71_struct_enum.
