(** Facts about the files polya.out and enum.in. *)
From Verif Require Import TextModel PyBase ListFacts TextProofs DistModel DistSpec DistProofs DistSummary FilesModel.
Local Open Scope Z_scope.

(** ** Characters *)
(** Not a newline, not '#'. *)
Definition clean (s : string) : Prop := all_chars (fun c => Ascii.eqb c newline = false /\ Ascii.eqb c "#" = false) s.
Lemma clean_app a b : clean (a ++ b) <-> clean a /\ clean b.
Proof. apply all_chars_app. Qed.
Lemma clean_spaces n : clean (spaces n).
Proof. induction n; cbn; auto. Qed.
Definition number_char (c : ascii) : Prop := c = "-"%char \/ exists d, 0 <= d < 10 /\ c = digit_char d.
Lemma str_chars z : all_chars number_char (str z).
Proof.
  assert (forall n, 0 <= n -> all_chars number_char (str n)) as Hp.
  { intros n Hn. rewrite str_nonneg by auto. eapply all_chars_impl; [|apply digits_chars; auto]. intros c H. right. exact H. }
  destruct (Z.ltb_spec z 0) as [H|H]; [|auto]. rewrite str_neg by auto. split; [left; auto|]. apply Hp. lia.
Qed.
Lemma number_char_other c : number_char c -> Ascii.eqb c newline = false /\ Ascii.eqb c "#" = false /\ Ascii.eqb c ":" = false /\ Ascii.eqb c "." = false.
Proof.
  intros [->|[d [Hd ->]]]; [cbn; auto|].
  assert (d = 0 \/ d = 1 \/ d = 2 \/ d = 3 \/ d = 4 \/ d = 5 \/ d = 6 \/ d = 7 \/ d = 8 \/ d = 9) as H by lia.
  intuition subst; reflexivity.
Qed.
Lemma str_clean z : clean (str z).
Proof. eapply all_chars_impl; [|apply str_chars]. intros c H. apply number_char_other in H. tauto. Qed.
Lemma clean_padl w s : clean s -> clean (padl w s).
Proof. intros H. apply clean_app. split; auto. apply clean_spaces. Qed.
Lemma clean_strcat l : Forall clean l -> clean (strcat l).
Proof. induction 1; cbn [strcat fold_right]; [exact I|]. apply clean_app. auto. Qed.
Lemma clean_join sep l : clean sep -> Forall clean l -> clean (join sep l).
Proof.
  intros Hs. induction l as [|s l IH]; intros H; [exact I|]. inversion H; subst. destruct l as [|t l]; [auto|].
  change (join sep (s :: t :: l)) with (s ++ sep ++ join sep (t :: l))%string. apply clean_app. split; auto. apply clean_app. auto.
Qed.
Lemma clean_spaced l : clean (spaced l).
Proof. apply clean_join; [repeat split|]. apply Forall_forall. intros x Hx. apply in_map_iff in Hx. destruct Hx as [z [<- _]]. apply str_clean. Qed.
Lemma clean_no_newline s : clean s -> no_newline s.
Proof. apply all_chars_impl. tauto. Qed.
Lemma before_clean s : clean s -> before "#" s = s.
Proof. induction s as [|c s IH]; [auto|]. intros [[_ Hc] Hs]. cbn [before]. rewrite Hc. f_equal. auto. Qed.

(** ** Words of columns *)
Lemma words_app_spaces n s : words (spaces n ++ s) = words s.
Proof. apply (words_from_blank (spaces n) s). apply spaces_blank. Qed.
Lemma words_then n t s : solid t -> words (t ++ spaces (S n) ++ s) = t :: words s.
Proof.
  intros Ht. change (t ++ spaces (S n) ++ s)%string with (EmptyString ++ t ++ (spaces (S n) ++ s))%string.
  rewrite words_cons; auto; [|exact I|right; cbn; eauto]. f_equal. apply words_app_spaces.
Qed.
Lemma words_padl w t s : solid t -> (String.length t < w)%nat -> words (padl w t ++ s) = t :: words s.
Proof.
  intros Ht Hw. unfold padl. rewrite app_assoc_s. destruct (w - String.length t)%nat eqn:E; [lia|]. apply words_then. auto.
Qed.
Lemma words_padl_end w t : solid t -> words (padl w t) = [t].
Proof.
  intros Ht. unfold padl. rewrite words_app_blank by apply spaces_blank. pose proof (words_cons EmptyString t EmptyString I Ht (or_introl eq_refl)) as E.
  cbn [append] in E. rewrite app_nil_s in E. exact E.
Qed.
Lemma words_columns w (l : list string) s : Forall (fun t => solid t /\ (String.length t < w)%nat) l -> words (strcat (map (padl w) l) ++ s) = l ++ words s.
Proof.
  induction 1 as [|t l [Ht Hl] H IH]; [auto|]. cbn [map strcat fold_right]. rewrite app_assoc_s, words_padl by auto. cbn [app]. f_equal. exact IH.
Qed.
Lemma words_joined l s : Forall solid l -> starts_blank s -> words (join " " l ++ s) = l ++ words s.
Proof.
  intros H Hs. induction H as [|t l Ht H IH]; [auto|]. destruct l as [|u l].
  - cbn [join app]. change (t ++ s)%string with (EmptyString ++ t ++ s)%string. apply words_cons; auto. exact I.
  - change (join " " (t :: u :: l)) with (t ++ " " ++ join " " (u :: l))%string. rewrite !app_assoc_s.
    change (" " ++ join " " (u :: l) ++ s)%string with (spaces 1 ++ join " " (u :: l) ++ s)%string. rewrite words_then by auto. cbn [app]. f_equal. exact IH.
Qed.
Lemma solid_strs l : Forall solid (map str l).
Proof. apply Forall_forall. intros x Hx. apply in_map_iff in Hx. destruct Hx as [z [<- _]]. apply str_solid. Qed.
Lemma starts_padl_rest w t s : (String.length t < w)%nat -> starts_blank (spaces (w - String.length t) ++ s).
Proof. intros H. right. destruct (w - String.length t)%nat eqn:E; [lia|]. cbn. eauto. Qed.
Lemma words_spaced_padl w l s : (String.length (spaced l) < w)%nat -> words (padl w (spaced l) ++ s) = map str l ++ words s.
Proof.
  intros H. unfold padl. rewrite app_assoc_s. unfold spaced at 1. rewrite words_joined; [|apply solid_strs|apply starts_padl_rest; auto].
  rewrite words_app_spaces. auto.
Qed.

(** ** Splitting *)
Lemma split_from_plain sep cur t s : all_chars (fun c => Ascii.eqb c sep = false) t -> split_from sep cur (t ++ s) = split_from sep (cur ++ t) s.
Proof. revert cur. induction t as [|c t IH]; intros cur; cbn [append]; [rewrite app_nil_s; auto|]. intros [Hc Ht]. cbn [split_from]. rewrite Hc, IH by auto. rewrite app_assoc_s. auto. Qed.
Lemma split_join sep l : l <> [] -> Forall (all_chars (fun c => Ascii.eqb c sep = false)) l -> split_on sep (join (String sep EmptyString) l) = l.
Proof.
  intros Hne H. unfold split_on. induction H as [|t l Ht H IH]; [congruence|]. destruct l as [|u l].
  - cbn [join]. rewrite <- (app_nil_s t) at 1. rewrite split_from_plain by auto. cbn. auto.
  - change (join (String sep EmptyString) (t :: u :: l)) with (t ++ String sep (join (String sep EmptyString) (u :: l)))%string.
    rewrite split_from_plain by auto. cbn [append split_from]. rewrite Ascii.eqb_refl. f_equal. apply IH. discriminate.
Qed.
Lemma rmap_map_ok {A B C} (f : B -> res C) (g : A -> B) (h : A -> C) l : (forall x, In x l -> f (g x) = Ok (h x)) -> rmap f (map g l) = Ok (map h l).
Proof. induction l as [|x l IH]; intros H; [auto|]. cbn [map rmap]. rewrite H by (left; auto). cbn [rbind]. rewrite IH by (intros; apply H; right; auto). auto. Qed.
Lemma rmap_str l : rmap int_of (map str l) = Ok l.
Proof. rewrite (rmap_map_ok _ _ (fun z => z)); [rewrite map_id; auto|]. intros; apply int_str. Qed.
Lemma read_conc c : c <> [] -> rmap int_of (split_on ":" (join ":" (map str c))) = Ok c.
Proof.
  intros H. rewrite split_join; [apply rmap_str|destruct c; [congruence|discriminate]|].
  apply Forall_forall. intros x Hx. apply in_map_iff in Hx. destruct Hx as [z [<- _]]. eapply all_chars_impl; [|apply str_chars]. intros c' Hc'. apply number_char_other in Hc'. tauto.
Qed.
Lemma solid_conc c : c <> [] -> solid (join ":" (map str c)).
Proof.
  intros H. destruct c as [|z c]; [congruence|]. clear H. revert z. induction c as [|y c IH]; intros z; [apply str_solid|].
  change (join ":" (map str (z :: y :: c))) with (str z ++ ":" ++ join ":" (map str (y :: c)))%string. destruct (str_solid z) as [Hz Hs]. destruct (IH y) as [_ Hy].
  split; [destruct (str z); [congruence|discriminate]|]. apply all_chars_app. split; auto. apply all_chars_app. split; [cbn; auto|auto].
Qed.
Lemma int64_str l : Forall (fun z => int64 z = true) l -> rmap int64_of (map str l) = Ok l.
Proof.
  intros H. rewrite (rmap_map_ok _ _ (fun z => z)); [rewrite map_id; auto|]. intros z Hz. unfold int64_of. rewrite int_str. cbn [rbind]. rewrite Forall_forall in H. rewrite H; auto.
Qed.

(** ** [loadtxt] of lines of numbers, comments in between *)
(** A line holding the numbers [l], or a comment. *)
Definition holds (line : string) (l : list Z) : Prop := no_newline line /\ words (before "#" line) = map str l.
Definition wanted_conc (c : list Z) : bool := match c with [] => false | _ => true end.
Lemma loadtxt_text (ls : list string) (nums : list (list Z)) w : Forall2 holds ls nums -> (forall l, In l nums -> l <> [] -> length l = w /\ Forall (fun z => int64 z = true) l) ->
  loadtxt (text_of ls) = Ok (filter wanted_conc nums).
Proof.
  intros H Hn. unfold loadtxt. rewrite lines_text by (apply Forall_forall; intros x Hx; clear Hn; induction H; destruct Hx; subst; auto; apply H).
  assert (filter (fun ws => match ws with [] => false | _ => true end) (map (fun l => words (before "#" l)) ls) = map (map str) (filter wanted_conc nums)) as E.
  { clear Hn. induction H as [|x l ls nums [_ Hx] H IH]; [auto|]. cbn [map filter]. rewrite Hx, IH. destruct l; auto. }
  rewrite E. assert (forall l, In l (filter wanted_conc nums) -> length l = w /\ Forall (fun z => int64 z = true) l) as Hf.
  { intros l Hl. apply filter_In in Hl. destruct Hl as [Hl Hw]. apply Hn; auto. destruct l; [discriminate|congruence]. }
  clear E H Hn. generalize dependent (filter wanted_conc nums). intros [|r rows] Hf; [auto|].
  assert (length r = w) as Hr by (apply Hf; left; auto).
  change (map (map str) (r :: rows)) with (map str r :: map (map str) rows). cbv iota.
  replace (forallb _ _) with true.
  - change (map str r :: map (map str) rows) with (map (map str) (r :: rows)).
    rewrite (rmap_map_ok (rmap int64_of) (map str) (fun l => l)); [rewrite map_id; auto|]. intros l Hl. apply int64_str. apply Hf. auto.
  - symmetry. apply forallb_forall. intros x Hx. change (In x (map (map str) (r :: rows))) in Hx. apply in_map_iff in Hx. destruct Hx as [l [<- Hl]].
    rewrite !map_length. apply Nat.eqb_eq. rewrite Hr. apply Hf. auto.
Qed.

(** ** The lines of polya.out *)
Lemma conc_totals_ok concs count hnfs : conc_totals concs (map (fun h => (h, map (count h) concs)) hnfs) = map (fun c => total (fun h => count h c) hnfs) concs.
Proof.
  unfold conc_totals. enough (forall f, fold_left (fun totals (row : list Z * list Z) => map (fun '(t, n) => t + n) (combine totals (snd row))) (map (fun h => (h, map (count h) concs)) hnfs) (map f concs) =
    map (fun c => f c + total (fun h => count h c) hnfs) concs) as H by (rewrite H; apply map_ext; intros; lia).
  induction hnfs as [|h hnfs IH]; intros f; cbn [map fold_left snd].
  - apply map_ext. intros c. cbn. lia.
  - replace (map (fun '(t, n) => t + n) (combine (map f concs) (map (count h) concs))) with (map (fun c => f c + count h c) concs).
    + rewrite IH. apply map_ext. intros c. unfold total. cbn [map fold_right]. lia.
    + clear IH hnfs. induction concs as [|c concs IH]; [auto|]. cbn [map combine]. f_equal. auto.
Qed.
Lemma wanted_all concs : (forall c, In c concs -> c <> []) -> filter wanted_conc concs = concs.
Proof. intros H. induction concs as [|c concs IH]; [auto|]. cbn [filter]. rewrite IH by (intros; apply H; right; auto). destruct c; [destruct (H []); auto; left; auto|auto]. Qed.
Lemma map_padl l : map (fun n => padl 50 (str n)) l = map (padl 50) (map str l).
Proof. rewrite map_map. auto. Qed.
Lemma clean_columns l : clean (strcat (map (fun n => padl 50 (str n)) l)).
Proof. apply clean_strcat. apply Forall_forall. intros x Hx. apply in_map_iff in Hx. destruct Hx as [z [<- _]]. apply clean_padl, str_clean. Qed.
Definition narrow (w : nat) (z : Z) : Prop := (String.length (str z) < w)%nat.
Lemma row_holds (concs : list (list Z)) (count : list Z -> Z) (h : list Z) : (String.length (spaced h) < 26)%nat -> (forall c, In c concs -> narrow 50 (count c)) ->
  holds (polya_row h (map count concs)) (h ++ map count concs ++ [total count concs]).
Proof.
  intros Hh Hn. unfold polya_row. replace (sum_Z (map count concs)) with (total count concs) by (rewrite sum_Z_total, total_map; auto).
  assert (clean ("  " ++ padl 26 (spaced h) ++ strcat (map (fun n => padl 50 (str n)) (map count concs)) ++ padl 10 (str (total count concs)))) as Hcl.
  { apply clean_app. split; [cbn; auto|]. apply clean_app. split; [apply clean_padl, clean_spaced|]. apply clean_app. split; [apply clean_columns|apply clean_padl, str_clean]. }
  split; [apply clean_no_newline; auto|]. change (join " " (map str h)) with (spaced h). rewrite before_clean by auto.
  change ("  " ++ padl 26 (spaced h) ++ strcat (map (fun n => padl 50 (str n)) (map count concs)) ++ padl 10 (str (total count concs)))%string
    with (spaces 2 ++ padl 26 (spaced h) ++ strcat (map (fun n => padl 50 (str n)) (map count concs)) ++ padl 10 (str (total count concs)))%string.
  rewrite words_app_spaces, words_spaced_padl by auto. rewrite map_padl, words_columns.
  - rewrite words_padl_end by apply str_solid. rewrite !map_app. auto.
  - apply Forall_forall. intros x Hx. apply in_map_iff in Hx. destruct Hx as [z [<- Hz]]. apply in_map_iff in Hz. destruct Hz as [c [<- Hi]]. split; [apply str_solid|apply Hn; auto].
Qed.
Lemma last_holds totals : (forall n, In n totals -> narrow 50 n) -> holds (polya_last totals) ([0; 0; 0; 0; 0; 0] ++ totals ++ [total (fun x => x) totals]).
Proof.
  intros Hn. unfold polya_last. rewrite sum_Z_total. set (t := total _ totals).
  assert (clean (padl 28 "  0 0 0 0 0 0" ++ strcat (map (fun n => padl 50 (str n)) totals) ++ padl 50 (str t))) as Hcl.
  { apply clean_app. split; [cbn; auto 80|]. apply clean_app. split; [apply clean_columns|apply clean_padl, str_clean]. }
  split; [apply clean_no_newline; auto|]. rewrite before_clean by auto.
  change (padl 28 "  0 0 0 0 0 0") with (spaces 2 ++ padl 26 (spaced [0; 0; 0; 0; 0; 0]))%string.
  rewrite app_assoc_s, words_app_spaces, words_spaced_padl by (cbn; lia). rewrite map_padl, words_columns.
  - rewrite words_padl_end by apply str_solid. rewrite !map_app. auto.
  - apply Forall_forall. intros x Hx. apply in_map_iff in Hx. destruct Hx as [z [<- Hz]]. split; [apply str_solid|apply Hn; auto].
Qed.
Lemma clean_heading_rest concs : no_newline (polya_heading concs).
Proof.
  unfold polya_heading. apply all_chars_app. split; [cbn; auto 60|]. apply all_chars_app. split; [|cbn; auto 100].
  apply clean_no_newline, clean_strcat. apply Forall_forall. intros x Hx. apply in_map_iff in Hx. destruct Hx as [c [<- _]]. apply clean_padl, clean_join; [repeat split|].
  apply Forall_forall. intros y Hy. apply in_map_iff in Hy. destruct Hy as [z [<- _]]. apply str_clean.
Qed.
Lemma heading_holds concs : holds (polya_heading concs) [].
Proof. split; [apply clean_heading_rest|]. reflexivity. Qed.
Lemma rule_holds concs : holds (rule concs) [].
Proof.
  split; [|reflexivity]. unfold rule. apply all_chars_app. split; [cbn; auto|]. generalize (length concs * 10 + 10 + 30)%nat. intros n. generalize 0%nat.
  induction n as [|n IH]; intros k; [exact I|]. cbn [seq map strcat fold_right]. apply all_chars_app. split; [cbn; auto|apply IH].
Qed.
Lemma heading_words concs : (forall c, In c concs -> c <> [] /\ (String.length (join ":" (map str c)) < 50)%nat) ->
  words (polya_heading concs) = "#"%string :: "HNF"%string :: map (fun c => join ":" (map str c)) concs ++ ["Total"%string].
Proof.
  intros H. unfold polya_heading.
  change (padl 28 "# HNF" ++ strcat (map (fun c => padl 50 (join ":" (map str c))) concs) ++ padl 50 "Total")%string
    with ("#" ++ spaces 1 ++ "HNF" ++ spaces 23 ++ strcat (map (fun c => padl 50 (join ":" (map str c))) concs) ++ padl 50 "Total")%string.
  rewrite words_then by (split; [discriminate|cbn; auto]). rewrite words_then by (split; [discriminate|cbn; auto]). f_equal. f_equal.
  replace (map (fun c => padl 50 (join ":" (map str c))) concs) with (map (padl 50) (map (fun c => join ":" (map str c)) concs)) by (rewrite map_map; auto).
  rewrite words_columns; [rewrite words_padl_end by (split; [discriminate|cbn; auto 10]); auto|].
  apply Forall_forall. intros x Hx. apply in_map_iff in Hx. destruct Hx as [c [<- Hc]]. split; [apply solid_conc|]; apply H; auto.
Qed.
Lemma removelast_snoc {A} (l : list A) x : removelast (l ++ [x]) = l.
Proof. apply removelast_last. Qed.

(** ** Reading polya.out *)
Theorem read_polya_ok concs hnfs count : hnfs <> [] ->
  (forall c, In c concs -> c <> [] /\ (String.length (join ":" (map str c)) < 50)%nat) ->
  (forall h, In h hnfs -> length h = 6%nat /\ (String.length (spaced h) < 26)%nat /\ Forall (fun z => int64 z = true) h) ->
  (forall h c, In h hnfs -> In c concs -> narrow 50 (count h c) /\ int64 (count h c) = true) ->
  (forall h, In h hnfs -> int64 (total (count h) concs) = true) ->
  (forall c, In c concs -> narrow 50 (total (fun h => count h c) hnfs) /\ int64 (total (fun h => count h c) hnfs) = true) ->
  int64 (total (fun c => total (fun h => count h c) hnfs) concs) = true ->
  read_polya (polya_file concs hnfs count) =
    Ok {| t_concs := concs; t_rows := map (fun h => (h, map (count h) concs, total (count h) concs)) hnfs; t_last := map (fun c => total (fun h => count h c) hnfs) concs |}.
Proof.
  intros Hne Hc Hh Hn Hr Ht Hg. unfold read_polya, polya_file, polya_text.
  set (rows := map (fun h => (h, map (count h) concs)) hnfs).
  set (ls := [polya_heading concs] ++ map (fun '(h, counts) => polya_row h counts) rows ++ [rule concs; polya_last (conc_totals concs rows)]).
  assert (forall c, In c concs -> c <> []) as Hc0 by (intros; apply Hc; auto).
  set (last_ := [0; 0; 0; 0; 0; 0] ++ map (fun c => total (fun h => count h c) hnfs) concs ++ [total (fun c => total (fun h => count h c) hnfs) concs]).
  set (body := map (fun h => h ++ map (count h) concs ++ [total (count h) concs]) hnfs).
  set (nums := [[]] ++ body ++ [[]; last_]).
  assert (Forall2 holds ls nums) as H2.
  { apply Forall2_app; [constructor; [apply heading_holds|constructor]|]. apply Forall2_app.
    - unfold body, rows. clear - Hc0 Hh Hn. rewrite map_map. induction hnfs as [|h l IH]; cbn [map]; constructor.
      + apply row_holds; auto; [apply Hh; left; auto|]. intros c Hi. apply Hn; [left|]; auto.
      + apply IH; intros; [apply Hh|apply Hn]; try right; auto.
    - constructor; [apply rule_holds|]. constructor; [|constructor]. unfold rows. rewrite conc_totals_ok. unfold last_.
      replace (total (fun c => total (fun h => count h c) hnfs) concs) with (total (fun x => x) (map (fun c => total (fun h => count h c) hnfs) concs)) by (rewrite total_map; auto).
      apply last_holds. intros n Hi. apply in_map_iff in Hi. destruct Hi as [c [<- Hi]]. apply Ht. auto. }
  assert (lines (text_of ls) = ls) as Hl by (apply lines_text; apply Forall_forall; intros x Hx; clear - H2 Hx; induction H2; destruct Hx; subst; auto; apply H).
  rewrite Hl. change (hd EmptyString ls) with (polya_heading concs). rewrite heading_words by auto. cbn [skipn]. rewrite removelast_snoc.
  rewrite (rmap_map_ok _ _ (fun c => c)) by (intros c Hi; apply read_conc; auto). rewrite map_id. cbn [rbind].
  rewrite (loadtxt_text ls nums (6 + (length concs + 1))); [|exact H2|].
  - assert (filter wanted_conc nums = body ++ [last_]) as Ef.
    { unfold nums. rewrite !filter_app. change (filter wanted_conc [[]]) with (@nil (list Z)). change (filter wanted_conc [[]; last_]) with [last_]. cbn [app]. f_equal.
      apply wanted_all. intros l Hi. apply in_map_iff in Hi. destruct Hi as [h [<- Hi]]. destruct (Hh h Hi) as [Hlen _]. destruct h; discriminate. }
    rewrite Ef. cbn [rbind]. assert (exists a b r, body ++ [last_] = a :: b :: r) as [a [b [r Eb]]].
    { unfold body. destruct hnfs as [|h [|h' l]]; [congruence|cbn [map app]; eauto|cbn [map app]; eauto]. }
    rewrite Eb at 1. f_equal. rewrite removelast_snoc, last_last. f_equal.
    + unfold body. rewrite map_map. apply map_ext_in. intros h Hi. destruct (Hh h Hi) as [Hlen _].
      do 6 (destruct h as [|? h]; [discriminate|]). destruct h; [|discriminate]. cbn [app firstn skipn]. rewrite removelast_snoc.
      f_equal. rewrite !app_comm_cons, last_last. auto.
    + unfold last_. cbn [app skipn]. apply removelast_snoc.
  - intros l Hi Hl0. unfold nums in Hi. apply in_app_or in Hi. destruct Hi as [[<-|[]]|Hi]; [congruence|]. apply in_app_or in Hi. destruct Hi as [Hi|[<-|[<-|[]]]]; [| congruence|].
    + unfold body in Hi. apply in_map_iff in Hi. destruct Hi as [h [<- Hi]]. destruct (Hh h Hi) as [Hlen [_ H64]]. rewrite !app_length, map_length, Hlen. split; [auto|].
      apply Forall_app. split; auto. apply Forall_app. split; [|constructor; auto]. apply Forall_forall. intros x Hx. apply in_map_iff in Hx. destruct Hx as [c [<- Hx]]. apply Hn; auto.
    + unfold last_. rewrite !app_length, map_length. split; [auto|]. apply Forall_app. split; [repeat constructor|]. apply Forall_app. split; [|constructor; auto].
      apply Forall_forall. intros x Hx. apply in_map_iff in Hx. destruct Hx as [c [<- Hx]]. apply Ht; auto.
Qed.
