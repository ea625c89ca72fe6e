(** Reading enum.out back: the heading, then the rows. *)
From Coq Require Import Permutation Sorted.
From Verif Require Import TextModel TextProofs PyBase Mat3 EnumOutModel EnumOutSpec EnumOutProofs.
Local Open Scope Z_scope.

Lemma rstrip_solid_char c s : is_space c = false -> exists r, rstrip (String c s) = String c r.
Proof. intros H. cbn [rstrip]. rewrite H. destruct (rstrip s); eauto. Qed.
Lemma rstrip_head c s : rstrip (String c s) = EmptyString \/ exists r, rstrip (String c s) = String c r.
Proof. cbn [rstrip]. destruct (rstrip s); [destruct (is_space c)|]; eauto. Qed.
Definition comment (s : string) : bool := String.prefix "#" (rstrip s).
Lemma no_comment c s : c <> "#"%char -> comment (String c s) = false.
Proof.
  intros H. unfold comment. destruct (rstrip_head c s) as [->|[r ->]]; [reflexivity|]. cbn [String.prefix]. destruct (Ascii.ascii_dec "#" c); [congruence|reflexivity].
Qed.
Lemma rstrip_ne a t : solid t -> rstrip (a ++ t) = (a ++ t)%string.
Proof.
  intros [Hne Ht]. induction a as [|c a IH].
  - cbn [append]. clear Hne. destruct t as [|c t]; [auto|]. revert c Ht. induction t as [|d t IHt]; intros c [Hc Ht]; [cbn; rewrite Hc; auto|].
    cbn [rstrip] in *. rewrite IHt by auto. auto.
  - cbn [append rstrip]. rewrite IH. destruct (a ++ t)%string eqn:E; [|auto]. destruct a; [cbn in E; congruence|discriminate].
Qed.
Lemma lstrip_blank b t : blank b -> solid t -> lstrip (b ++ t) = t.
Proof.
  intros Hb [Hne Ht]. induction b as [|c b IH].
  - destruct t as [|c t]; [congruence|]. cbn. destruct Ht as [-> _]. auto.
  - destruct Hb as [Hc Hb]. cbn [append lstrip]. rewrite Hc. auto.
Qed.
Lemma str_no_dash k : 0 <= k -> all_chars (fun c => Ascii.eqb c "-" = false) (str k).
Proof.
  intros H. rewrite str_nonneg by auto. eapply all_chars_impl; [|apply digits_chars; auto]. intros c [d [Hd ->]].
  apply Ascii.eqb_neq. apply (digit_char_facts d Hd).
Qed.
Lemma before_app a s : all_chars (fun c => Ascii.eqb c "-" = false) a -> before "-" (a ++ String "-" s) = a.
Proof. induction a as [|c a IH]; [reflexivity|]. intros [Hc Ha]. cbn [append before]. rewrite Hc. rewrite IH; auto. Qed.

(** ** The loop *)
Lemma read_lines_app w a : forall n b st, read_lines w n (a ++ b) st = (do st' <- read_lines w n a st; read_lines w (n + Z.of_nat (length a)) b st').
Proof.
  induction a as [|l a IH]; intros n b st; cbn [app read_lines length].
  - cbn [rbind]. rewrite Z.add_0_r. auto.
  - destruct (read_line w n l st) as [st'|e]; cbn [rbind]; [|auto]. rewrite IH. replace (n + 1 + Z.of_nat (length a)) with (n + Z.of_nat (S (length a))) by lia. auto.
Qed.

(** Lines after the sixth. *)
Lemma read_line_late w n line s data N : comment line = false -> 6 < n -> s_nD s = N -> 0 < N ->
  read_line w n line (s, data) =
    (do k <- (if n =? 7 + N then int_of (lstrip (rstrip (before "-" (rstrip line)))) else Ok (s_k s));
     let s' := {| s_title := s_title s; s_bulksurf := s_bulksurf s; s_plattice := s_plattice s; s_nD := N;
                  s_dvecs := if n <? 7 + N then s_dvecs s ++ [words line] else s_dvecs s; s_k := k;
                  s_eps := if n =? 9 + N then lstrip (rstrip line) else s_eps s |} in
     if w (n - (14 + N)) then do r <- read_row (rstrip line); Ok (s', data ++ [r]) else Ok (s', data)).
Proof.
  intros Hc Hn HN Hpos. unfold read_line. unfold comment in Hc. rewrite Hc. cbv zeta. rewrite HN.
  destruct (Z.eqb_spec n 1); [lia|]. destruct (Z.eqb_spec n 2); [lia|]. destruct (Z.eqb_spec n 3); [lia|]. destruct (Z.eqb_spec n 4); [lia|]. destruct (Z.eqb_spec n 5); [lia|]. destruct (Z.eqb_spec n 6); [lia|].
  cbn [orb rbind]. destruct (Z.eqb_spec N 0); [lia|]. cbn [negb andb]. destruct (Z.leb_spec 7 n); [|lia]. cbn [andb]. rewrite words_rstrip.
  destruct (if n =? 7 + N then _ else _); cbn [rbind]; [|auto]. destruct (w (n - (14 + N))); auto.
Qed.
Definition with_dvecs (s : system) (d : list (list string)) : system :=
  {| s_title := s_title s; s_bulksurf := s_bulksurf s; s_plattice := s_plattice s; s_nD := s_nD s; s_dvecs := d; s_k := s_k s; s_eps := s_eps s |}.
Lemma read_dvecs w N : 0 < N -> forall ls n s data,
  Forall (fun l => comment l = false) ls -> 6 < n -> n + Z.of_nat (length ls) <= 7 + N -> s_nD s = N -> (forall i, i < 1 -> w i = false) ->
  read_lines w n ls (s, data) = Ok (with_dvecs s (s_dvecs s ++ map words ls), data).
Proof.
  intros HN. induction ls as [|l ls IH]; intros n s data Hc Hn Hl Hs Hw.
  - cbn. rewrite app_nil_r. destruct s; auto.
  - inversion Hc; subst. cbn [read_lines length] in *. rewrite (read_line_late w n l s data (s_nD s)) by auto.
    destruct (Z.eqb_spec n (7 + s_nD s)); [lia|]. destruct (Z.eqb_spec n (9 + s_nD s)); [lia|]. destruct (Z.ltb_spec n (7 + s_nD s)); [|lia].
    cbn [rbind]. rewrite Hw by lia. cbn [rbind]. rewrite IH; cbn [s_nD]; auto; try lia. unfold with_dvecs. cbn. rewrite <- app_assoc. auto.
Qed.
Lemma read_rows w N : 0 < N -> forall l n s data,
  s_nD s = N -> 14 + N < n -> (forall i, (i < length l)%nat -> comment (nth i l EmptyString) = false) ->
  forall f, (forall i, (i < length l)%nat -> w (n + Z.of_nat i - (14 + N)) = true -> read_row (rstrip (nth i l EmptyString)) = Ok (f i)) ->
  read_lines w n l (s, data) = Ok (s, data ++ map f (filter (fun i => w (n + Z.of_nat i - (14 + N))) (seq 0 (length l)))).
Proof.
  intros HN. induction l as [|x l IH]; intros n s data Hs Hn Hc f Hf; cbn [read_lines length seq].
  - rewrite app_nil_r. auto.
  - rewrite (read_line_late w n x s data N); auto; try lia; [|apply (Hc 0%nat); cbn; lia].
    destruct (Z.eqb_spec n (7 + N)); [lia|]. destruct (Z.eqb_spec n (9 + N)); [lia|]. destruct (Z.ltb_spec n (7 + N)); [lia|]. cbn [rbind].
    replace {| s_title := s_title s; s_bulksurf := s_bulksurf s; s_plattice := s_plattice s; s_nD := N; s_dvecs := s_dvecs s; s_k := s_k s; s_eps := s_eps s |} with s by (destruct s; cbn in *; subst; auto).
    cbn [filter]. cbn [Z.of_nat]. rewrite Z.add_0_r.
    assert (forall data', read_lines w (n + 1) l (s, data') = Ok (s, data' ++ map f (filter (fun i => w (n + Z.of_nat i - (14 + N))) (seq 1 (length l))))) as Hrest.
    { intros data'. rewrite (IH (n + 1) s data') with (f := fun i => f (S i)); auto; try lia.
      - rewrite <- (seq_shift (length l) 0). do 3 f_equal. clear. induction (seq 0 (length l)) as [|a r IHr]; [auto|]. cbn [filter map].
        replace (n + Z.of_nat (S a) - (14 + N)) with (n + 1 + Z.of_nat a - (14 + N)) by lia. destruct (w _); cbn [map]; rewrite ?IHr; auto.
      - intros i Hi. apply (Hc (S i)). cbn. lia.
      - intros i Hi Hwi. apply (Hf (S i)); [cbn; lia|]. replace (n + Z.of_nat (S i)) with (n + 1 + Z.of_nat i) by lia. auto. }
    destruct (w (n - (14 + N))) eqn:E.
    + pose proof (Hf 0%nat) as H0. cbn [nth Z.of_nat] in H0. rewrite Z.add_0_r in H0. rewrite H0; [|cbn; lia|auto]. cbn [rbind]. rewrite Hrest. cbn [map]. rewrite <- app_assoc. auto.
    + cbn [rbind]. apply Hrest.
Qed.

(** ** The heading *)
Lemma words_triple n t : solid (fst (fst t)) -> solid (snd (fst t)) -> solid (snd t) -> words (triple (spaces n) t) = three t.
Proof.
  destruct t as [[x y] z]. cbn [fst snd]. intros Hx Hy Hz. unfold triple, three. cbn [fst snd]. rewrite words_spaces.
  change "       "%string with (spaces 7). rewrite words_solid; auto; [|apply starts_blank_spaces]. rewrite words_spaces. rewrite words_solid; auto; [|apply starts_blank_spaces]. rewrite words_spaces.
  pose proof (words_solid z "" Hz (or_introl eq_refl)) as Ez. rewrite app_nil_s in Ez. rewrite Ez. reflexivity.
Qed.
Lemma comment_triple n t : comment (triple (spaces (S n)) t) = false.
Proof. destruct t as [[x y] z]. unfold triple. cbn [spaces append]. apply no_comment. discriminate. Qed.
Definition tail_lines (p : params) : list string :=
  [(" " ++ str (p_nspecies p) ++ "-nary case")%string; ("   " ++ join "   " (map str (p_sizes p)))%string; " 1e-7"%string;
   "Concentration check:"%string; if p_restricted p then "    T"%string else "    F"%string;
   "full list of labelings (including incomplete labelings) is used "%string;
   "Equivalency list: 1 #Not used in the random enumeration algorithm "%string;
   "start   #tot      HNF     Hdegn   labdegn   Totdegn   #size idx    pg    SNF             HNF                 Left transform                          labeling                 directions"%string].
Definition first_lines (p : params) : list string :=
  [("Random structure enumeration: " ++ p_date p)%string; if p_bulk p then "bulk"%string else "surface"%string] ++
  map (triple " ") (p_lat p) ++ [("    " ++ str (Z.of_nat (length (p_basis p))))%string].
Lemma header_split p : header p = first_lines p ++ map (triple "  ") (p_basis p) ++ tail_lines p.
Proof. unfold header, first_lines. rewrite <- !app_assoc. reflexivity. Qed.

Ltac close_tests := repeat match goal with |- context [?a =? ?b] => let v := eval compute in (a =? b) in match v with true => change (a =? b) with true | false => change (a =? b) with false end end.
Lemma read_first w p : good_params p -> (forall i, i < 1 -> w i = false) ->
  read_lines w 1 (first_lines p) (no_system, []) =
    Ok ({| s_title := rstrip ("Random structure enumeration: " ++ p_date p); s_bulksurf := if p_bulk p then "bulk" else "surface";
           s_plattice := map three (p_lat p); s_nD := Z.of_nat (length (p_basis p)); s_dvecs := []; s_k := 0; s_eps := "" |}, []).
Proof.
  intros [_ [Hl [Hb [_ Hs]]]] Hw. unfold first_lines. destruct (p_lat p) as [|a [|b [|c [|]]]]; try discriminate. cbn [map app].
  cbn [app] in Hs. inversion Hs as [|? ? Ha Hs1]; subst. inversion Hs1 as [|? ? Hbb Hs2]; subst. inversion Hs2 as [|? ? Hc _]; subst.
  set (t0 := ("Random structure enumeration: " ++ p_date p)%string).
  assert (comment t0 = false) as C0 by (apply no_comment; discriminate). unfold comment in C0.
  pose proof (comment_triple 0 a) as Ca. pose proof (comment_triple 0 b) as Cb. pose proof (comment_triple 0 c) as Cc. unfold comment in Ca, Cb, Cc. cbn [spaces] in Ca, Cb, Cc.
  pose proof (words_triple 1 a (proj1 Ha) (proj1 (proj2 Ha)) (proj2 (proj2 Ha))) as Wa. pose proof (words_triple 1 b (proj1 Hbb) (proj1 (proj2 Hbb)) (proj2 (proj2 Hbb))) as Wb.
  pose proof (words_triple 1 c (proj1 Hc) (proj1 (proj2 Hc)) (proj2 (proj2 Hc))) as Wc. cbn [spaces] in Wa, Wb, Wc.
  set (N := Z.of_nat (length (p_basis p))). assert (0 < N) as HN by (unfold N; destruct (p_basis p); [congruence|cbn; lia]).
  assert (rstrip ("    " ++ str N) = ("    " ++ str N)%string) as R6 by (apply rstrip_ne, str_solid).
  assert (String.prefix "#" (rstrip ("    " ++ str N)) = false) as C6 by (apply (no_comment " "); discriminate).
  cbn [read_lines]. unfold read_line at 1. rewrite C0. cbn [no_system s_title s_bulksurf s_plattice s_nD s_dvecs s_k s_eps].
  close_tests. cbn [rbind]. close_tests. cbn [rbind]. close_tests. cbn [rbind].
  rewrite (Hw (_ - (14 + 0))) by lia. cbn [rbind orb negb andb]. cbn [rbind].
  change (1 + 1) with 2. unfold read_line at 1.
  replace (rstrip (if p_bulk p then "bulk"%string else "surface"%string)) with (if p_bulk p then "bulk"%string else "surface"%string) by (destruct (p_bulk p); reflexivity).
  replace (String.prefix "#" (if p_bulk p then "bulk"%string else "surface"%string)) with false by (destruct (p_bulk p); reflexivity).
  cbn [s_title s_bulksurf s_plattice s_nD s_dvecs s_k s_eps].
  close_tests. cbn [rbind]. close_tests. cbn [rbind]. close_tests. cbn [rbind].
  rewrite (Hw (_ - (14 + 0))) by lia. cbn [rbind orb negb andb]. cbn [rbind].
  change (2 + 1) with 3. unfold read_line at 1. rewrite Ca. cbn [s_title s_bulksurf s_plattice s_nD s_dvecs s_k s_eps].
  close_tests. cbn [rbind]. close_tests. cbn [rbind]. close_tests. cbn [rbind].
  rewrite (Hw (_ - (14 + 0))) by lia. cbn [rbind orb negb andb]. rewrite words_rstrip, Wa. cbn [rbind].
  change (3 + 1) with 4. unfold read_line at 1. rewrite Cb. cbn [s_title s_bulksurf s_plattice s_nD s_dvecs s_k s_eps].
  close_tests. cbn [rbind]. close_tests. cbn [rbind]. close_tests. cbn [rbind].
  rewrite (Hw (_ - (14 + 0))) by lia. cbn [rbind orb negb andb]. rewrite words_rstrip, Wb. cbn [rbind].
  change (4 + 1) with 5. unfold read_line at 1. rewrite Cc. cbn [s_title s_bulksurf s_plattice s_nD s_dvecs s_k s_eps].
  close_tests. cbn [rbind]. close_tests. cbn [rbind]. close_tests. cbn [rbind].
  rewrite (Hw (_ - (14 + 0))) by lia. cbn [rbind orb negb andb]. rewrite words_rstrip, Wc. cbn [rbind].
  change (5 + 1) with 6. unfold read_line at 1. rewrite C6, R6. cbn [s_title s_bulksurf s_plattice s_nD s_dvecs s_k s_eps].
  change (6 =? 1) with false. change (6 =? 2) with false. change (6 =? 3) with false. change (6 =? 4) with false. change (6 =? 5) with false. change (6 =? 6) with true.
  rewrite (lstrip_blank "    " (str N)); [|cbn; auto|apply str_solid]. rewrite int_str. cbn [rbind orb].
  destruct (Z.eqb_spec 6 (7 + N)); [lia|]. destruct (Z.eqb_spec 6 (9 + N)); [lia|]. destruct (Z.eqb_spec N 0); [lia|]. change (7 <=? 6) with false. cbn [rbind andb negb].
  rewrite Hw by lia. cbn [rbind andb app map]. reflexivity.
Qed.

Lemma read_tail w p s : 0 <= p_nspecies p -> (forall i, i < 1 -> w i = false) -> 0 < s_nD s ->
  read_lines w (7 + s_nD s) (tail_lines p) (s, []) =
    Ok ({| s_title := s_title s; s_bulksurf := s_bulksurf s; s_plattice := s_plattice s; s_nD := s_nD s; s_dvecs := s_dvecs s; s_k := p_nspecies p; s_eps := "1e-7" |}, []).
Proof.
  intros Hk Hw HN. unfold tail_lines. set (N := s_nD s) in *. cbn [read_lines].
  assert (forall n line s' data, comment line = false -> 7 + N < n -> n < 15 + N -> n <> 9 + N -> s_nD s' = N -> read_line w n line (s', data) = Ok (s', data)) as Hskip.
  { intros n line s' data Hc H1 H2 H3 H4. rewrite (read_line_late w n line s' data N) by (auto; lia).
    destruct (Z.eqb_spec n (7 + N)); [lia|]. destruct (Z.eqb_spec n (9 + N)); [lia|]. destruct (Z.ltb_spec n (7 + N)); [lia|]. cbn [rbind]. rewrite Hw by lia. destruct s'; cbn in *; subst; auto. }
  rewrite (read_line_late w (7 + N) _ s [] N); [|apply (no_comment " "); discriminate|lia|auto|auto].
  rewrite Z.eqb_refl. destruct (Z.eqb_spec (7 + N) (9 + N)); [lia|]. destruct (Z.ltb_spec (7 + N) (7 + N)); [lia|].
  replace (" " ++ str (p_nspecies p) ++ "-nary case")%string with ((" " ++ str (p_nspecies p) ++ "-nary ") ++ "case")%string by (rewrite !app_assoc_s; auto).
  rewrite rstrip_ne by (split; [discriminate|cbn; auto]).
  replace ((" " ++ str (p_nspecies p) ++ "-nary ") ++ "case")%string with ((" " ++ str (p_nspecies p)) ++ String "-" "nary case")%string by (rewrite !app_assoc_s; auto).
  rewrite before_app by (cbn; split; [reflexivity|apply str_no_dash; auto]). rewrite (rstrip_ne " " (str (p_nspecies p)) (str_solid _)). rewrite lstrip_blank; [|cbn; auto|apply str_solid].
  rewrite int_str. cbn [rbind]. rewrite Hw by lia. cbn [rbind].
  rewrite Hskip; [|apply (no_comment " "); discriminate|lia|lia|lia|reflexivity]. cbn [rbind].
  rewrite (read_line_late w _ " 1e-7" _ [] N); [|reflexivity|lia|reflexivity|auto]. cbn [s_title s_bulksurf s_plattice s_nD s_dvecs s_k s_eps].
  destruct (Z.eqb_spec (7 + N + 1 + 1) (7 + N)); [lia|]. destruct (Z.eqb_spec (7 + N + 1 + 1) (9 + N)); [|lia]. destruct (Z.ltb_spec (7 + N + 1 + 1) (7 + N)); [lia|]. cbn [rbind]. rewrite Hw by lia. cbn [rbind].
  rewrite Hskip; [|reflexivity|lia|lia|lia|reflexivity]. cbn [rbind].
  rewrite Hskip; [|destruct (p_restricted p); reflexivity|lia|lia|lia|reflexivity]. cbn [rbind].
  rewrite Hskip; [|reflexivity|lia|lia|lia|reflexivity]. cbn [rbind].
  rewrite Hskip; [|reflexivity|lia|lia|lia|reflexivity]. cbn [rbind].
  rewrite Hskip; [|reflexivity|lia|lia|lia|reflexivity]. reflexivity.
Qed.
Lemma read_header w p : good_params p -> (forall i, i < 1 -> w i = false) -> read_lines w 1 (header p) (no_system, []) = Ok (system_of p, []).
Proof.
  intros Hp Hw. rewrite header_split, read_lines_app, read_first by auto. cbn [rbind]. rewrite read_lines_app.
  destruct Hp as [_ [Hl [Hb [Hk Hs]]]]. set (N := Z.of_nat (length (p_basis p))). assert (0 < N) as HN by (unfold N; destruct (p_basis p); [congruence|cbn; lia]).
  assert (length (first_lines p) = 6%nat) as E6 by (unfold first_lines; rewrite !app_length, map_length, Hl; reflexivity). rewrite E6.
  rewrite (read_dvecs w N HN); [|apply Forall_forall; intros l Hin; apply in_map_iff in Hin as [t [<- _]]; apply (comment_triple 1)|lia|rewrite map_length; unfold N; lia|reflexivity|auto].
  cbn [rbind]. rewrite map_length. unfold with_dvecs. cbn [s_title s_bulksurf s_plattice s_nD s_dvecs s_k s_eps].
  pose proof (read_tail w p {| s_title := rstrip ("Random structure enumeration: " ++ p_date p); s_bulksurf := if p_bulk p then "bulk" else "surface";
    s_plattice := map three (p_lat p); s_nD := N; s_dvecs := map words (map (triple "  ") (p_basis p)); s_k := 0; s_eps := "" |} Hk Hw) as Ht. cbn [s_title s_bulksurf s_plattice s_nD s_dvecs s_k s_eps] in Ht.
  specialize (Ht HN). replace (1 + Z.of_nat 6 + Z.of_nat (length (p_basis p))) with (7 + N) by (unfold N; lia). cbn [app]. rewrite Ht. unfold system_of. do 2 f_equal. f_equal.
  rewrite map_map. apply map_ext_in. intros t Ht'. rewrite Forall_forall in Hs. destruct (Hs t) as [H1 [H2 H3]]; [apply in_or_app; auto|]. apply (words_triple 2); auto.
Qed.
Lemma header_length p : length (p_lat p) = 3%nat -> length (header p) = (14 + length (p_basis p))%nat.
Proof. intros H. unfold header. repeat rewrite ?app_length, ?map_length, ?H; cbn [length]. lia. Qed.
