(** The decorations of a composition in which some species are displaced (C60). *)
From Coq Require Import Permutation.
From Verif Require Import TextModel PyBase Spec ListFacts PermFacts TransFacts NumericsModel PhononsModel TreeModel ColorProofs DecoFacts DecoBij BranchRun BranchProofs BranchTheorems SuperProofs MultiProofs Mat3.
From Verif Require Import PolyaModel PolyaSpec PolyaUse EnumSysModel DecoProofs EnumSysProofs RunModel RunProofs RunSystem RunSpec RunMain.
Local Open Scope Z_scope.

(** The lemmas of RunMain.v about compositions are not about a setup. *)
Definition any_setup : setup := {| s_pg := []; s_D := 1; s_bas := []; s_species := 2; s_lo := 1; s_hi := 1; s_restricted := false; s_concs := []; s_arrows := false; s_na := fun c => c |}.
Lemma any_species : (2 <= s_species any_setup <= 3)%nat.
Proof. cbn. lia. Qed.
(** All atoms of the species marked in [fl] are displaced. *)
Definition moved_counts (fl : list bool) (c : list nat) : list Z := map (fun p : bool * nat => if fst p then Z.of_nat (snd p) else 0) (combine fl c).
Definition kind (fl : list bool) (l : nat) : site := (if nth (l - 1) fl false then 1 else -1, Z.of_nat l).
Definition kinds_of (fl : list bool) (c : list nat) : list site := map (kind fl) (runs_of 1 c).
Definition decosF (fl : list bool) (c : list nat) : list site := col_sort (runs (deco_runs c (moved_counts fl c))).

Lemma moved_length fl c : length fl = length c -> length (moved_counts fl c) = length c.
Proof. intros H. unfold moved_counts. rewrite map_length, combine_length. lia. Qed.
Lemma moved_nth fl c i : length fl = length c -> (i < length c)%nat -> nth i (moved_counts fl c) 0 = if nth i fl false then Z.of_nat (nth i c 0%nat) else 0.
Proof.
  unfold moved_counts. revert c i. induction fl as [|b fl IH]; intros [|x c] [|i] Hl Hi; cbn [length] in *; try lia; cbn [combine map nth fst snd]; auto. apply IH; lia.
Qed.
Lemma moved_ok fl c : length fl = length c -> nonneg_at_most c (moved_counts fl c).
Proof. intros H. split; [apply moved_length; auto|]. intros i Hi. rewrite moved_nth by auto. destruct (nth i fl false); lia. Qed.
Lemma moved_sum fl c : 0 <= fold_right Z.add 0 (moved_counts fl c).
Proof. unfold moved_counts. induction (combine fl c) as [|[b x] l IH]; cbn [map fold_right fst snd]; [lia|]. destruct b; lia. Qed.
Lemma moved_zero fl c : length fl = length c -> fold_right Z.add 0 (moved_counts fl c) = 0 -> moved_counts fl c = zeros c.
Proof.
  revert c. induction fl as [|b fl IH]; intros [|x c] Hl H; try discriminate; auto. unfold moved_counts in *. cbn [combine map fold_right fst snd length] in *.
  pose proof (moved_sum fl c) as Hp. unfold moved_counts in Hp. assert (0 <= (if b then Z.of_nat x else 0)) by (destruct b; lia).
  unfold zeros. cbn [map]. f_equal; [lia|]. apply IH; lia.
Qed.
Lemma decosF_ok fl c : length fl = length c -> arrow_concs c (moved_counts fl c) = Ok (decosF fl c).
Proof. intros H. apply arrow_concs_runs, moved_ok; auto. Qed.
Lemma decosF_zero fl c : length fl = length c -> fold_right Z.add 0 (moved_counts fl c) = 0 -> decosF fl c = decos c.
Proof. intros H E. unfold decosF, decos. rewrite moved_zero; auto. Qed.

Lemma repeat_map {A B} (f : A -> B) x k : map f (repeat x k) = repeat (f x) k.
Proof. induction k; cbn; congruence. Qed.
Lemma deco_runs_kinds fl c : length fl = length c -> runs (deco_runs c (moved_counts fl c)) = kinds_of fl c.
Proof.
  intros Hl. unfold deco_runs, kinds_of.
  transitivity (runs (flat_map (fun i => [((1, Z.of_nat (S i)), if nth i fl false then nth i c 0%nat else 0%nat); ((-1, Z.of_nat (S i)), if nth i fl false then 0%nat else nth i c 0%nat)]) (seq 0 (length c)))).
  { f_equal. apply flat_map_ext_in'. intros i Hi. apply in_seq in Hi. rewrite moved_nth by (auto; lia). destruct (nth i fl false).
    - rewrite Nat2Z.id, Nat.sub_diag. auto.
    - rewrite Nat.sub_0_r. auto. }
  assert (forall m (f : nat -> bool), runs (flat_map (fun i => [((1, Z.of_nat (S (i + m))), if f i then nth i c 0%nat else 0%nat); ((-1, Z.of_nat (S (i + m))), if f i then 0%nat else nth i c 0%nat)]) (seq 0 (length c))) =
    map (fun l => (if f (l - S m)%nat then 1 else -1, Z.of_nat l)) (runs_of (S m) c)) as H.
  { clear. induction c as [|x c IH]; intros m f; auto. change (runs_of (S m) (x :: c)) with (repeat (S m) x ++ runs_of (S (S m)) c). rewrite map_app, repeat_map. cbn [length seq flat_map]. rewrite runs_app. f_equal.
    - rewrite Nat.sub_diag. cbn [nth Nat.add]. destruct (f 0%nat); unfold runs; cbn [flat_map fst snd repeat app]; rewrite app_nil_r; auto.
    - specialize (IH (S m) (fun i => f (S i))). transitivity (map (fun l => (if f (S (l - S (S m)))%nat then 1 else -1, Z.of_nat l)) (runs_of (S (S m)) c)).
      + rewrite <- IH. rewrite <- seq_shift, !flat_map_concat_map, map_map. f_equal. f_equal. apply map_ext. intros i. cbn [nth]. rewrite !Nat.add_succ_r. auto.
      + apply map_ext_in. intros l Hi. f_equal. assert (S (S m) <= l)%nat; [|replace (S (l - S (S m))) with (l - S m)%nat by lia; auto].
        apply occ_pos in Hi. rewrite runs_occ in Hi. destruct (Nat.leb_spec (S (S m)) l); cbn [andb] in Hi; lia. }
  specialize (H 0%nat (fun i => nth i fl false)). cbv beta in H. etransitivity; [|exact H]. f_equal. apply flat_map_ext. intros i. rewrite Nat.add_0_r. auto.
Qed.
Lemma col_sort_perm l : Permutation (col_sort l) l.
Proof.
  unfold col_sort. rewrite !sorted_by_perm. induction l as [|[a x] l IH]; cbn; auto. destruct (Z.ltb_spec a 0), (Z.leb_spec 0 a); cbn; try lia.
  - constructor. auto.
  - rewrite <- Permutation_middle. constructor. auto.
Qed.
Lemma decosF_perm fl c : length fl = length c -> Permutation (decosF fl c) (kinds_of fl c).
Proof. intros H. unfold decosF. rewrite col_sort_perm, deco_runs_kinds; auto. Qed.
Lemma decosF_length fl c : length fl = length c -> length (decosF fl c) = sum_nat c.
Proof. intros H. apply (D_length c (moved_counts fl c)); [apply moved_ok; auto|apply decosF_ok; auto]. Qed.
Lemma runs_of_range c l : In l (runs_of 1 c) -> (1 <= l <= length c)%nat.
Proof. intros Hl. apply occ_pos in Hl. rewrite runs_occ in Hl. destruct (Nat.leb_spec 1 l), (Nat.ltb_spec l (1 + length c)); cbn [andb] in Hl; lia. Qed.
Lemma decosF_in fl c s : length fl = length c -> In s (decosF fl c) -> exists l, In l (runs_of 1 c) /\ s = kind fl l.
Proof. intros H Hs. apply (Permutation_in _ (decosF_perm fl c H)) in Hs. apply in_map_iff in Hs. destruct Hs as [l [<- Hl]]. eauto. Qed.
Lemma decosF_uniform fl c s t : length fl = length c -> In s (decosF fl c) -> In t (decosF fl c) -> snd s = snd t -> s = t.
Proof.
  intros H Hs Ht E. destruct (decosF_in fl c s H Hs) as [l [_ ->]]. destruct (decosF_in fl c t H Ht) as [l' [_ ->]]. cbn in E. apply Nat2Z.inj in E. congruence.
Qed.
Lemma decosF_cons fl c s t : length fl = length c -> In s (decosF fl c) -> In t (decosF fl c) -> skeleton s = skeleton t -> s = t.
Proof. intros H Hs Ht E. apply (decosF_uniform fl c); auto. apply (f_equal snd) in E. exact E. Qed.
Lemma decosF_kinds fl c : length fl = length c -> (length (first_occurrences site_eqb (decosF fl c)) <= length c)%nat.
Proof.
  intros H. assert (incl (first_occurrences site_eqb (decosF fl c)) (map (kind fl) (seq 1 (length c)))) as Hi.
  { intros s Hs. apply (proj1 (first_occ_In site_eqb site_eqb_spec _ _)) in Hs. destruct (decosF_in fl c s H Hs) as [l [Hl ->]]. apply in_map, in_seq. apply runs_of_range in Hl. lia. }
  apply NoDup_incl_length in Hi; [rewrite map_length, seq_length in Hi; auto|]. apply (first_occ_NoDup site_eqb site_eqb_spec).
Qed.
Lemma decosF_counts fl c : length fl = length c -> how_many_arrows (decosF fl c) =
  (Z.to_nat (fold_right Z.add 0 (moved_counts fl c)), length (filter (fun a => 0 <? a) (moved_counts fl c)), map (multiplicity site_eqb (decosF fl c)) (first_occurrences site_eqb (decosF fl c))).
Proof. intros H. apply (D_counts c (moved_counts fl c)); [apply moved_ok; auto|apply decosF_ok; auto]. Qed.

(** Up to the directions. *)
Definition bare (fl : list bool) (l : nat) : site := (if nth (l - 1) fl false then 0 else -1, Z.of_nat l).
Lemma skeleton_kind fl l : skeleton (kind fl l) = bare fl l.
Proof. unfold skeleton, kind, bare, has_arrow. cbn [fst snd]. destruct (nth (l - 1) fl false); auto. Qed.
Lemma decosF_skeleton fl c : length fl = length c -> Permutation (map skeleton (decosF fl c)) (map (bare fl) (runs_of 1 c)).
Proof. intros H. rewrite (Permutation_map skeleton (decosF_perm fl c H)). unfold kinds_of. rewrite map_map. erewrite map_ext; [reflexivity|]. intros; apply skeleton_kind. Qed.
Lemma decosF_inj fl c c' : length fl = length c -> length fl = length c' -> Permutation (map skeleton (decosF fl c)) (map skeleton (decosF fl c')) -> c = c'.
Proof.
  intros H H' Hp. apply (plain_sites_inj any_setup any_species); [congruence|]. rewrite (decosF_skeleton fl c H), (decosF_skeleton fl c' H') in Hp.
  apply (Permutation_map (fun s : Z * Z => (-1, snd s))) in Hp. rewrite !map_map in Hp. cbn [bare snd] in Hp. rewrite !plain_runs. exact Hp.
Qed.
(** A displacement in [0, 6) where the species is marked, none elsewhere. *)
Definition fits (fl : list bool) (a : Z * Z) : Prop := if nth (Z.to_nat (snd a) - 1) fl false then 0 <= fst a < 6 else fst a = -1.
Lemma fits_skeleton fl a : 1 <= snd a -> fits fl a -> skeleton a = bare fl (Z.to_nat (snd a)).
Proof.
  intros Hs Hf. unfold fits in Hf. unfold skeleton, bare, has_arrow. destruct a as [d x]. cbn [fst snd] in *. rewrite Z2Nat.id by lia. destruct (nth (Z.to_nat x - 1) fl false).
  - destruct (Z.leb_spec 0 d); [auto|lia].
  - subst. auto.
Qed.
Lemma bare_fits fl l a : (1 <= l)%nat -> fst a < 6 -> skeleton a = bare fl l -> snd a = Z.of_nat l /\ fits fl a.
Proof.
  intros Hl Ha E. unfold skeleton, bare, has_arrow in E. destruct a as [d x]. cbn [fst snd] in *. injection E as E1 E2. split; auto. unfold fits. cbn [fst snd]. rewrite E2, Nat2Z.id.
  destruct (nth (l - 1) fl false), (Z.leb_spec 0 d); lia.
Qed.
Lemma compositionF fl w : (forall a : Z * Z, In a w -> 1 <= snd a <= Z.of_nat (length fl) /\ fits fl a) ->
  exists c, length fl = length c /\ sum_nat c = length w /\ Permutation (map skeleton w) (map skeleton (decosF fl c)) /\ forall s, amount w s = amount (plain_sites c) s.
Proof.
  intros Hw. destruct (composition any_setup any_species (map (fun a : Z * Z => (-1, snd a)) w) (length fl)) as [c [Lc [Sc Pc]]].
  { intros a Ha. apply in_map_iff in Ha. destruct Ha as [b [<- Hb]]. cbn [fst snd]. destruct (Hw b Hb). auto. }
  exists c. split; auto. rewrite map_length in Sc. split; auto. split.
  - rewrite decosF_skeleton by auto. rewrite plain_runs in Pc. apply (Permutation_map (fun a : Z * Z => Z.to_nat (snd a))) in Pc. unfold as_sites in Pc. rewrite !map_map in Pc. cbn [snd] in Pc.
    rewrite (map_ext (fun x => Z.to_nat (Z.of_nat x)) (fun x => x)), map_id in Pc by (intros; apply Nat2Z.id).
    rewrite <- (Permutation_map (bare fl) Pc), map_map. erewrite map_ext_in; [reflexivity|]. intros a Ha. destruct (Hw a Ha) as [H1 H2]. cbn beta. apply fits_skeleton; auto; lia.
  - intros s. rewrite <- (amount_perm _ _ s Pc). unfold amount. f_equal. clear. induction w as [|a w IH]; auto. cbn [map filter snd]. destruct (snd a =? s); cbn [length]; auto.
Qed.
Lemma amount_skeleton w s : amount (map skeleton w) s = amount w s.
Proof. unfold amount. f_equal. induction w as [|a w IH]; auto. cbn [map filter]. change (snd (skeleton a)) with (snd a). destruct (snd a =? s); cbn [length]; auto. Qed.
Lemma decosF_amount fl c s : length fl = length c -> amount (decosF fl c) s = amount (plain_sites c) s.
Proof.
  intros H. rewrite (amount_perm _ _ s (decosF_perm fl c H)). rewrite plain_runs. unfold kinds_of, as_sites, amount. f_equal. induction (runs_of 1 c) as [|a w IH]; auto. cbn [map filter snd kind]. destruct (Z.of_nat a =? s); cbn [length]; auto.
Qed.
