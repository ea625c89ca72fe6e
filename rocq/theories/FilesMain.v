(** enum.in, and the chain polya.out -> enum.in. *)
From Verif Require Import TextModel PyBase ListFacts TextProofs DistModel DistSpec DistProofs DistSummary DistMain FilesModel FilesProofs.
Local Open Scope Z_scope.

Lemma words_spaced_gap w l s : words (padl w (spaced l) ++ "  " ++ s) = map str l ++ words s.
Proof.
  unfold padl. rewrite app_assoc_s. unfold spaced at 1. rewrite words_joined; [|apply solid_strs|].
  - rewrite words_app_spaces. reflexivity.
  - right. destruct (w - String.length (spaced l))%nat; cbn; eauto.
Qed.
Lemma words_str z : words (str z) = [str z].
Proof. rewrite <- (words_padl_end 0 (str z)) by apply str_solid. unfold padl. cbn [Nat.sub spaces]. rewrite app_nil_s. auto. Qed.
Lemma rmap_cons {A B} (f : A -> res B) x l : rmap f (x :: l) = (do b <- f x; do r <- rmap f l; Ok (b :: r)).
Proof. reflexivity. Qed.
Definition entry_row (kv : key * Z) : list Z := let '((_, h, c), v) := kv in of_conc h ++ of_conc c ++ [v].
Lemma all_line s h c v : exists line, distr_line FAll ((s, Some h, c), v) = Ok line /\ holds line (h ++ of_conc c ++ [v]).
Proof.
  eexists. split; [reflexivity|].
  assert (clean ("  " ++ padl 28 (spaced h) ++ "  " ++ padl 10 (spaced (of_conc c)) ++ "  " ++ str v)) as Hcl.
  { apply clean_app. split; [cbn; auto|]. apply clean_app. split; [apply clean_padl, clean_spaced|]. apply clean_app. split; [cbn; auto|]. apply clean_app. split; [apply clean_padl, clean_spaced|].
    apply clean_app. split; [cbn; auto|apply str_clean]. }
  split; [apply clean_no_newline; auto|]. rewrite before_clean by auto.
  match goal with |- words ("  " ++ ?s) = _ => change ("  " ++ s)%string with (spaces 2 ++ s)%string end.
  rewrite words_app_spaces, words_spaced_gap. rewrite words_spaced_gap, words_str, !map_app. auto.
Qed.
Lemma distr_heading_holds ft : holds (distr_heading ft) [].
Proof. destruct ft; split; try reflexivity; cbn; auto 80. Qed.
Lemma wanted_rows (l : list (key * Z)) : filter wanted_conc (map entry_row l) = map entry_row l.
Proof. apply wanted_all. intros r Hr. apply in_map_iff in Hr. destruct Hr as [[[[s h] c] v] [<- _]]. cbn. intros E. apply (f_equal (@length Z)) in E. rewrite !app_length in E. cbn in E. lia. Qed.
Theorem read_enum_ok (l : list (key * Z)) k :
  (forall s h c v, In ((s, h, c), v) l -> (exists h', h = Some h' /\ length h' = 6%nat) /\ length (of_conc c) = k /\
     Forall (fun z => int64 z = true) (of_conc h ++ of_conc c ++ [v])) ->
  exists t, distr_file FAll l = Ok t /\ read_enum t = Ok (map (fun '((_, h, c), v) => (of_conc h, of_conc c, v)) l).
Proof.
  intros H. assert (exists ls, rmap (distr_line FAll) l = Ok ls /\ Forall2 holds ls (map entry_row l)) as [ls [E H2]].
  { assert (forall s h c v, In ((s, h, c), v) l -> exists h', h = Some h') as H' by (intros s h c v Hi; destruct (H s h c v Hi) as [[h' [E _]] _]; eauto). clear H.
    induction l as [|[[[s h] c] v] l IH]; [exists []; split; [auto|constructor]|]. destruct IH as [ls [E H2]]; [intros; eapply H'; right; eauto|].
    destruct (H' s h c v) as [h' ->]; [left; auto|]. destruct (all_line s h' c v) as [x [Ex Hx]].
    exists (x :: ls). unfold key in *. rewrite rmap_cons, Ex. cbn [rbind]. rewrite E. cbn [rbind]. split; [auto|]. cbn [map]. constructor; auto. }
  unfold distr_file. rewrite E. cbn [rbind]. eexists. split; [reflexivity|]. unfold read_enum.
  rewrite (loadtxt_text _ ([] :: map entry_row l) (6 + (k + 1))).
  - cbn [filter wanted_conc]. rewrite wanted_rows. cbn [rbind]. f_equal. rewrite map_map. apply map_ext_in. intros [[[s h] c] v] Hi.
    destruct (H _ _ _ _ Hi) as [[h' [-> Hlen]] _]. cbn [entry_row of_conc]. do 6 (destruct h' as [|? h']; [discriminate|]). destruct h'; [|discriminate].
    cbn [app firstn skipn]. rewrite removelast_snoc. f_equal. rewrite !app_comm_cons, last_last. auto.
  - constructor; [apply distr_heading_holds|exact H2].
  - intros r [<-|Hr] Hne; [congruence|]. apply in_map_iff in Hr. destruct Hr as [[[[s h] c] v] [<- Hi]]. destruct (H _ _ _ _ Hi) as [[h' [-> Hlen]] [Hk H64]].
    cbn [entry_row of_conc] in *. split; [rewrite !app_length, Hlen, Hk; auto|auto].
Qed.

(** ** From the polya files to enum.in *)
Lemma read_tables_ok (file : Z -> option string) (tab : Z -> table) sizes : (forall s, In s sizes -> exists t, file s = Some t /\ read_polya t = Ok (tab s)) ->
  read_tables file sizes = Ok (map (fun s => (s, tab s)) sizes).
Proof.
  intros H. unfold read_tables. assert (rmap (fun s => match file s with None => Ok [] | Some t => do x <- read_polya t; Ok [(s, x)] end) sizes = Ok (map (fun s => [(s, tab s)]) sizes)) as ->.
  { rewrite <- (map_id sizes) at 1. apply rmap_map_ok. intros s Hs. destruct (H s Hs) as [t [-> ->]]. auto. }
  cbn [rbind]. f_equal. clear H. induction sizes; cbn; f_equal; auto.
Qed.
Lemma dget_tables (tab : Z -> table) sizes s : In s sizes -> dget Z.eqb (map (fun s => (s, tab s)) sizes) s = Some (tab s).
Proof. induction sizes as [|x l IH]; [intros []|]. intros Hi. cbn [map dget]. destruct (Z.eqb_spec s x) as [->|Hx]; [auto|]. apply IH. destruct Hi; [congruence|auto]. Qed.
Lemma narrow_int64 z : 0 <= z -> int64 z = true -> narrow 50 z.
Proof.
  intros Hz H. unfold int64 in H. apply andb_true_iff in H. destruct H as [_ H]. apply Z.ltb_lt in H. unfold narrow.
  assert (String.length (str z) <= 19)%nat; [|lia]. apply str_len_pos. split; auto. eapply Z.lt_trans; [exact H|]. reflexivity.
Qed.
Lemma str_short k z : 0 <= z < 10 ^ Z.of_nat (S k) -> (String.length (str z) <= S k)%nat.
Proof. apply str_len_pos. Qed.
Lemma join_length sep l w : (forall t, In t l -> (String.length t <= w)%nat) -> (String.length (join sep l) <= length l * (w + String.length sep))%nat.
Proof.
  intros H. induction l as [|t l IH]; [cbn; lia|]. destruct l as [|u l]; [cbn [join length]; specialize (H t (or_introl eq_refl)); lia|].
  change (join sep (t :: u :: l)) with (t ++ sep ++ join sep (u :: l))%string. rewrite !app_length_s. assert (String.length t <= w)%nat by (apply H; left; auto).
  assert (String.length (join sep (u :: l)) <= length (u :: l) * (w + String.length sep))%nat by (apply IH; intros; apply H; right; auto). cbn [length] in *. lia.
Qed.
Lemma join_length1 sep l w : l <> [] -> (forall t, In t l -> (String.length t <= w)%nat) -> (String.length (join sep l) + String.length sep <= length l * (w + String.length sep))%nat.
Proof.
  intros Hne H. induction l as [|t l IH]; [congruence|]. destruct l as [|u l]; [cbn [join length]; specialize (H t (or_introl eq_refl)); lia|].
  change (join sep (t :: u :: l)) with (t ++ sep ++ join sep (u :: l))%string. rewrite !app_length_s. assert (String.length t <= w)%nat by (apply H; left; auto).
  assert (String.length (join sep (u :: l)) + String.length sep <= length (u :: l) * (w + String.length sep))%nat by (apply IH; [discriminate|intros; apply H; right; auto]). cbn [length] in *. lia.
Qed.
Lemma int64_small z : 0 <= z < 1000000 -> int64 z = true.
Proof. intros H. unfold int64. apply andb_true_iff. split; [apply Z.leb_le|apply Z.ltb_lt]; lia. Qed.
