(** enum.out as a whole: what is written and what is read back. *)
From Coq Require Import Permutation Sorted.
From Verif Require Import TextModel TextProofs PyBase Mat3 LatSpec SNFModel SuperModel StructThm EnumOutModel EnumOutSpec EnumOutProofs EnumOutRead.
Local Open Scope Z_scope.

(** The entry of a structure (HNF, configuration). *)
Definition entry_of (hc : list Z * config) : entry :=
  let '(h, c) := hc in
  match SmithNormalForm (full_HNF h), create_labeling c with
  | Ok (M, L, _), Ok (lab, arr) =>
      {| e_size := nth 0 h 0 * nth 2 h 0 * nth 5 h 0; e_hnf := h; e_snf := [mget M 0 0; mget M 1 1; mget M 2 2]; e_lt := flat L; e_lab := lab; e_arr := arr |}
  | _, _ => no_entry
  end.
Lemma create_labeling_ok c : nonempty c -> exists lab arr, create_labeling c = Ok (lab, arr).
Proof. unfold create_labeling, nonempty. destruct c as [[|x l]|[|x l]]; try congruence; intros _; destruct (fold_left _ _ _) as [lab arr]; eauto. Qed.
Lemma system_entries_ok h cs : good_system (h, cs) -> system_entries h cs = Ok (map (fun c => entry_of (h, c)) cs).
Proof.
  intros [Hd Hc]. cbn [fst snd] in *. destruct (snf_facts _ Hd) as [M [L [B [E _]]]]. unfold system_entries. rewrite E. cbn [rbind].
  induction Hc as [|c cs Hcc Hcs IH]; [auto|]. cbn [rmap map]. destruct (create_labeling_ok c Hcc) as [lab [arr El]].
  cbn [entry_of]. rewrite E, El. cbn [rbind]. cbn [entry_of] in IH. rewrite E in IH. rewrite IH. auto.
Qed.
Lemma all_entries_ok systems : Forall good_system systems -> exists parts, rmap (fun '(hnf, configs) => system_entries hnf configs) systems = Ok parts /\ concat parts = map entry_of (listed systems).
Proof.
  induction 1 as [|[h cs] systems Hs Hss IH]; [exists []; auto|]. destruct IH as [parts [E1 E2]]. cbn [rmap]. rewrite system_entries_ok by auto. rewrite E1. cbn [rbind].
  eexists. split; [reflexivity|]. cbn [concat listed flat_map]. rewrite E2, map_app, map_map. auto.
Qed.
(** What is written. *)
Theorem enum_out_written p systems : systems <> [] -> Forall good_system systems ->
  exists l, Permutation l (listed systems) /\ StronglySorted entry_le (map entry_of l) /\
    enum_out_file p systems = Ok (text (header p ++ numbered (map entry_of l))).
Proof.
  intros Hne Hg. destruct (all_entries_ok systems Hg) as [parts [E1 E2]].
  destruct (Permutation_map_inv _ _ (Permutation_trans (sort_entries_perm (concat parts)) (eq_ind_r (fun x => Permutation x _) (Permutation_refl _) E2))) as [l [El Hp]].
  exists l. split; [symmetry; auto|]. rewrite <- El. split; [apply sort_entries_sorted|].
  unfold enum_out_file, enum_out_rows. rewrite E1. cbn [rbind]. destruct systems; [congruence|]. cbn [rbind]. do 2 f_equal. f_equal.
  apply rows_all. apply sort_entries_sorted.
Qed.

(** ** Labels *)
Lemma labels_solid c lab arr : create_labeling c = Ok (lab, arr) -> solid lab /\ solid arr.
Proof.
  assert (forall {A} (f g : A -> string) l a b, all_chars (fun c => is_space c = false) a -> all_chars (fun c => is_space c = false) b -> (forall x, solid (f x) /\ solid (g x)) -> l <> [] \/ (solid a /\ solid b) ->
    let r := fold_left (fun '(label, arrow) i => (label ++ f i, arrow ++ g i)%string) l (a, b) in solid (fst r) /\ solid (snd r)) as H.
  { intros A f g l. induction l as [|x l IH]; intros a b Ha Hb Hfg Hl; cbn [fold_left].
    - destruct Hl as [Hl|Hl]; [congruence|auto].
    - destruct (Hfg x) as [[F1 F2] [G1 G2]]. apply IH; auto; [apply all_chars_app; auto|apply all_chars_app; auto|]. right.
      split; (split; [|apply all_chars_app; auto]); intros E; apply (f_equal String.length) in E; rewrite app_length_s in E; cbn in E.
      + destruct (f x); [congruence|cbn in E; lia].
      + destruct (g x); [congruence|cbn in E; lia]. }
  unfold create_labeling. destruct c as [[|x l]|[|x l]]; try discriminate; intros E.
  - pose proof (H _ (fun i : Z * Z => str (snd i - 1)) (fun i => str (fst i + 1)) (x :: l) EmptyString EmptyString I I) as K.
    cbv zeta in K. set (r := fold_left _ _ _) in K. change (Ok r = Ok (lab, arr)) in E. inversion E as [E']. rewrite E' in K. apply K; [intros i; split; apply str_solid|left; discriminate].
  - assert (solid "0") as Hz by (split; [discriminate|cbn; auto]).
    pose proof (H _ (fun i => str (i - 1)) (fun i => "0"%string) (x :: l) EmptyString EmptyString I I) as K.
    cbv zeta in K. set (r := fold_left _ _ _) in K. change (Ok r = Ok (lab, arr)) in E. inversion E as [E']. rewrite E' in K. apply K; [intros i; split; auto; apply str_solid|left; discriminate].
Qed.

(** ** Reading *)
Lemma no_newline_blank_digits s : all_chars (fun c => is_space c = false) s -> no_newline s.
Proof. apply all_chars_impl. intros c H. apply Ascii.eqb_neq. intros ->. discriminate. Qed.
Fixpoint no_nl (s : string) : bool := match s with EmptyString => true | String c s' => negb (Ascii.eqb c newline) && no_nl s' end.
Lemma no_nl_ok s : no_nl s = true -> no_newline s.
Proof. induction s as [|c s IH]; [intros; exact I|]. intros H. apply andb_true_iff in H as [H1 H2]. split; [apply negb_true_iff; auto|apply IH; auto]. Qed.
Lemma no_newline_app a b : no_newline a -> no_newline b -> no_newline (a ++ b).
Proof. intros. apply all_chars_app. auto. Qed.
Lemma no_newline_spaces n : no_newline (spaces n).
Proof. induction n; cbn; auto. Qed.
Lemma no_newline_solid s : solid s -> no_newline s.
Proof. intros [_ H]. apply no_newline_blank_digits. auto. Qed.
Lemma no_newline_pad w s : no_newline s -> no_newline (pad w s).
Proof. intros. apply no_newline_app; auto. apply no_newline_spaces. Qed.
Lemma no_newline_str z : no_newline (str z).
Proof. apply no_newline_solid, str_solid. Qed.
Lemma no_newline_fmtn l n : no_newline (fmtn l n).
Proof. induction l as [|x l IH]; [exact I|]. cbn [fmtn fold_right]. apply no_newline_app; auto. apply no_newline_pad, no_newline_str. Qed.
Lemma no_newline_join l : no_newline (join "   " (map str l)).
Proof.
  induction l as [|x l IH]; [exact I|]. cbn [map join]. destruct l as [|y l]; [apply no_newline_str|]. cbn [map] in *. apply no_newline_app; [apply no_newline_str|]. apply no_newline_app; [apply no_nl_ok; reflexivity|]. exact IH.
Qed.
Ltac nn := match goal with
  | |- no_newline (append _ _) => apply no_newline_app
  | |- no_newline (pad _ _) => apply no_newline_pad
  | |- no_newline (str _) => apply no_newline_str
  | |- no_newline (spaces _) => apply no_newline_spaces
  | |- no_newline (fmtn _ _) => apply no_newline_fmtn
  | |- no_newline (join _ _) => apply no_newline_join
  | H : solid ?s |- no_newline ?s => apply no_newline_solid; exact H
  | _ => assumption
  | _ => apply no_nl_ok; reflexivity
  end.
Lemma no_newline_row t s e : no_newline (e_lab e) -> no_newline (e_arr e) -> no_newline (row t s e).
Proof.
  intros. unfold row. repeat nn.
Qed.
Lemma header_no_newline p : good_params p -> Forall no_newline (header p).
Proof.
  intros [Hd [_ [_ [_ Hs]]]]. unfold header.
  assert (forall n t, In t (p_lat p ++ p_basis p) -> no_newline (triple (spaces n) t)) as Ht.
  { intros n [[x y] z] Hin. rewrite Forall_forall in Hs. destruct (Hs _ Hin) as [Hx [Hy Hz]]. cbn [fst snd] in *. unfold triple.
    repeat nn. }
  apply Forall_app. split; [apply Forall_cons; [repeat nn|apply Forall_cons; [destruct (p_bulk p); nn|apply Forall_nil]]|].
  apply Forall_app. split; [apply Forall_forall; intros l Hl; apply in_map_iff in Hl as [t [<- Hin]]; apply (Ht 1%nat); apply in_or_app; auto|].
  apply Forall_app. split; [apply Forall_cons; [repeat nn|apply Forall_nil]|].
  apply Forall_app. split; [apply Forall_forall; intros l Hl; apply in_map_iff in Hl as [t [<- Hin]]; apply (Ht 2%nat); apply in_or_app; auto|].
  repeat apply Forall_cons; try apply Forall_nil; [| | | |destruct (p_restricted p)| | |]; repeat nn.
Qed.
Lemma filter_length_le {A} (f : A -> bool) l : (length (filter f l) <= length l)%nat.
Proof. induction l as [|x l IH]; cbn; [lia|]. destruct (f x); cbn; lia. Qed.
Lemma index_bound l i : (i < length l)%nat -> 1 <= index_in_size l i <= Z.of_nat i + 1.
Proof.
  intros H. unfold index_in_size. pose proof (filter_length_le (fun e : entry => e_size e =? e_size (nth i l {| e_size := 0; e_hnf := []; e_snf := []; e_lt := []; e_lab := ""; e_arr := "" |})) (firstn i l)).
  rewrite firstn_length in H0. lia.
Qed.
Lemma comment_row t s e : 0 <= t -> comment (row t s e) = false.
Proof.
  intros Ht. unfold row, pad at 1. destruct (10 - String.length (str t))%nat; [|cbn [spaces append]; apply no_comment; discriminate]. cbn [spaces append].
  pose proof (str_solid t) as [Hne _]. pose proof (digits_chars (S (Z.to_nat (Z.log2 t))) t Ht) as Hc. rewrite <- str_nonneg in Hc by auto.
  destruct (str t) as [|c r]; [congruence|]. destruct Hc as [[d [Hd ->]] _]. cbn [append]. apply no_comment. apply (digit_char_facts d Hd).
Qed.

(** The structures read from the file made of [header p] and the numbered rows of [es]; [w] tells which are wanted. *)
Definition structures_of (es : list entry) (w : Z -> bool) : list structure :=
  map (fun i => structure_of (Z.of_nat i + 1) (index_in_size es i) (nth i es no_entry)) (filter (fun i => w (Z.of_nat i + 1)) (seq 0 (length es))).
Lemma read_file p es w : good_params p -> (forall i, i < 1 -> w i = false) -> Forall (fun e => solid (e_lab e) /\ solid (e_arr e)) es ->
  (forall i, (i < length es)%nat -> w (Z.of_nat i + 1) = true -> fits (nth i es no_entry)) -> Z.of_nat (length es) < 10 ^ 10 ->
  read_lines w 1 (lines (text (header p ++ numbered es))) (no_system, []) = Ok (system_of p, structures_of es w).
Proof.
  intros Hp Hw Hsol Hf Hlen. unfold text. rewrite (lines_text (header p ++ numbered es)).
  - rewrite read_lines_app, read_header by auto. cbn [rbind].
    assert (0 < Z.of_nat (length (p_basis p))) as HN by (destruct Hp as [_ [_ [Hb _]]]; destruct (p_basis p); [congruence|cbn; lia]).
    assert (length (numbered es) = length es) as El by (unfold numbered; rewrite map_length, seq_length; auto).
    assert (forall i, (i < length es)%nat -> nth i (numbered es) EmptyString = row (Z.of_nat i + 1) (index_in_size es i) (nth i es no_entry)) as En.
    { intros i Hi. unfold numbered. rewrite nth_indep with (d' := row (Z.of_nat 0 + 1) (index_in_size es 0) (nth 0 es no_entry)) by (rewrite map_length, seq_length; auto).
      rewrite (map_nth (fun i => row (Z.of_nat i + 1) (index_in_size es i) (nth i es no_entry))). rewrite seq_nth by auto. auto. }
    rewrite (read_rows w (Z.of_nat (length (p_basis p))) HN) with (f := fun i => structure_of (Z.of_nat i + 1) (index_in_size es i) (nth i es no_entry)).
    + rewrite El. unfold structures_of. cbn [app]. do 2 f_equal. f_equal. apply filter_ext. intros i. f_equal.
      rewrite header_length by (destruct Hp as [_ [? _]]; auto). lia.
    + reflexivity.
    + rewrite header_length by (destruct Hp as [_ [? _]]; auto). lia.
    + intros i Hi. rewrite El in Hi. rewrite En by auto. apply comment_row. lia.
    + intros i Hi Hwi. rewrite El in Hi. rewrite En by auto. apply read_row_back.
      * pose proof (index_bound es i Hi). change (10 ^ 10) with 10000000000 in Hlen. change (10 ^ 11) with 100000000000. lia.
      * apply Hf; auto. rewrite header_length in Hwi by (destruct Hp as [_ [? _]]; auto). rewrite <- Hwi. f_equal. lia.
  - apply Forall_app. split; [apply header_no_newline; auto|]. unfold numbered. apply Forall_forall. intros l Hl. apply in_map_iff in Hl as [i [<- Hi]]. apply in_seq in Hi.
    rewrite Forall_forall in Hsol. destruct (Hsol (nth i es no_entry)) as [H1 H2]; [apply nth_In; lia|]. apply no_newline_row; apply no_newline_solid; auto.
Qed.
