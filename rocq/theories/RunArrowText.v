(** From the text of lattice.in with displaced species to the setup of a run (C68). *)
From Coq Require Import Permutation QArith.
From Verif Require Import TextModel TextProofs PyBase Spec PhononsModel TreeModel EnumSysModel Mat3 PolyaModel LatSpec LatGroupModel LatGroupThm SuperModel StructSpec StructAll ConcsModel.
From Verif Require Import FilesModel EnumOutModel EnumOutSpec PropertiesEnumOut PointGroupModel PointGroupSpec PointGroupProofs PointGroupMain PropertiesPoint RunModel RunSpec RunMain RunTop.
From Verif Require Import LatticeInModel LatticeInSpec LatticeInProofs PropertiesLatticeIn RunText RunArrowDeco.
Local Open Scope Z_scope.

(** The restrictions of a file with displacements: three integers, and the fraction of the atoms of the species that are
    displaced, which is 1 or 0; a line of three numbers stands for 0. *)
Definition displaced_lines (lines : list (Z * Z * Z * bool)) (concs : list (list Q)) : Prop :=
  Forall2 (fun '(x, y, z, d) c => Forall2 Qeq c [inject_Z x; inject_Z y; inject_Z z; if d : bool then 1%Q else 0%Q] \/
                                  d = false /\ Forall2 Qeq c [inject_Z x; inject_Z y; inject_Z z]) lines concs.

Lemma lines_restrict lines concs : displaced_lines lines concs -> restrictions (Some (map fst lines)) concs.
Proof.
  intros H. unfold restrictions. induction H as [|[[[x y] z] d] c lines concs Hc _ IH]; constructor; auto. cbn [fst].
  destruct Hc as [Hc|[_ Hc]]; apply (Forall2_firstn _ 3) in Hc; exact Hc.
Qed.
Lemma lines_transport lines concs concs' : displaced_lines lines concs -> same_numbers concs' concs -> displaced_lines lines concs'.
Proof.
  intros H. revert concs'. induction H as [|[[[x y] z] d] c lines concs Hc _ IH]; intros concs' K; inversion K as [|c' ? concs'' ? Hc' K']; subst; constructor; [|apply IH; auto].
  destruct Hc as [Hc|[E Hc]]; [left|right; split; auto]; eapply Forall2_Qeq_trans; eauto.
Qed.
(** The fractions of the code. *)
Definition marks (displaced : list bool) (a : list Q) : Prop := Forall2 (fun (d : bool) q => (q == if d then 1 else 0)%Q) displaced a.
Lemma lines_fractions par lines : l_restricted par = true -> l_arrows par = true -> displaced_lines lines (l_concs par) -> marks (map snd lines) (get_arrow_concs par).
Proof.
  intros Hr Ha H. unfold get_arrow_concs. rewrite Hr, Ha. induction H as [|[[[x y] z] d] c lines concs Hc _ IH]; constructor; auto. cbn [snd].
  destruct Hc as [Hc|[E Hc]].
  - pose proof (ListFacts.Forall2_length _ _ _ Hc) as Hl. cbn in Hl. rewrite Hl. cbn [Nat.eqb andb]. destruct c as [|q1 [|q2 [|q3 [|q4 [|]]]]]; try discriminate.
    inversion Hc as [|? ? ? ? _ H1]; subst. inversion H1 as [|? ? ? ? _ H2]; subst. inversion H2 as [|? ? ? ? _ H3]; subst. inversion H3; subst. cbn [nth]. auto.
  - pose proof (ListFacts.Forall2_length _ _ _ Hc) as Hl. cbn in Hl. rewrite Hl. subst d. reflexivity.
Qed.
Lemma marks_sum displaced a : marks displaced a -> (inject_Z (Z.of_nat (length (filter (fun d : bool => d) displaced))) == fold_right Qplus 0 a)%Q.
Proof.
  intros H. induction H as [|d q displaced a E _ IH]; [reflexivity|]. cbn [filter fold_right]. destruct d; cbn [length]; rewrite E, <- IH.
  - rewrite Nat2Z.inj_succ. unfold Z.succ. rewrite inject_Z_plus. ring.
  - ring.
Qed.
Lemma marks_arrows displaced a : marks displaced a -> In true displaced -> negb (Qeq_bool (fold_right Qplus 0%Q a) 0) = true.
Proof.
  intros H Hin. apply negb_true_iff. destruct (Qeq_bool (fold_right Qplus 0%Q a) 0) eqn:E; auto. exfalso. apply Qeq_bool_iff in E. rewrite <- (marks_sum _ _ H) in E.
  change 0%Q with (inject_Z 0) in E. unfold Qeq in E. cbn in E. rewrite !Z.mul_1_r in E.
  assert (In true (filter (fun d : bool => d) displaced)) as Hf by (apply filter_In; auto). destruct (filter (fun d : bool => d) displaced); [destruct Hf|cbn in E; lia].
Qed.
Lemma marks_displaced displaced a c : marks displaced a -> LatticeInModel.displaced a (map Z.of_nat c) = moved_counts displaced c.
Proof.
  intros H. revert c. unfold LatticeInModel.displaced, moved_counts. induction H as [|d q displaced a E _ IH]; intros [|n c]; cbn [combine map fst snd]; auto. rewrite IH. f_equal.
  unfold Qeq in E. destruct d; cbn in E; rewrite Z.mul_1_r in E.
  - rewrite E. destruct (Qden q); cbn -[Z.mul Z.quot]; rewrite Z.quot_mul; auto; discriminate.
  - rewrite E, Z.mul_0_r. apply Z.quot_0_l. discriminate.
Qed.

Lemma setup_readA par DL A m lo hi lines concs : 0 < DL -> mdet A <> 0 -> tolerable (1 # 10000000000) DL A m -> fine (1 # 10000000000) A -> integer_rotations A ->
  same_numbers (l_vecs par) (rows_over DL A) -> same_numbers (l_bas par) [[0; 0; 0]]%Q -> l_sizes par = [lo; hi] -> l_restricted par = true -> l_arrows par = true -> same_numbers (l_concs par) concs ->
  displaced_lines lines concs -> In true (map snd lines) -> l_nspecies par = Z.of_nat (length lines) ->
  exists pg c A0 m0 na, 0 < c /\ A = mscale c A0 /\ mdet A0 <> 0 /\ (exists DL0, 0 < DL0 /\ tolerable (1 # 10000000000) DL0 A0 m0 /\ fine (1 # 10000000000) A0 /\ integer_rotations A0 /\ point_group (1 # 10000000000) DL0 A0 = Ok pg) /\
    (forall c, na (map Z.of_nat c) = moved_counts (map snd lines) c) /\
    setup_of par = Ok {| s_pg := pg; s_D := 1; s_bas := [(0, 0, 0)]; s_species := length lines; s_lo := lo; s_hi := hi; s_restricted := true; s_concs := map fst lines; s_arrows := true; s_na := na |}.
Proof.
  intros HD Hd Ht Hf Hi Hv Hb Hs Hr Har Hcs Hli Hin Hk.
  destruct (concs_read _ _ _ (lines_restrict _ _ Hli) Hcs) as [Ecs Elen]. destruct (least_terms DL A HD) as [c [A0 [Hcp [EDL [EA Em]]]]]. rewrite <- (lowest_same _ _ Hv) in *. set (vecs := lowest (l_vecs par)) in *.
  assert (mdet A0 <> 0) as Hd0 by (intros E; apply Hd; rewrite EA, det_scale, E; ring). pose proof (common_pos vecs) as Hp.
  assert (0 <= 1 # 10000000000)%Q as He by discriminate.
  rewrite EA in Ht. rewrite EDL in Ht at 1. destruct (tolerable_scale _ _ _ _ _ Hcp Ht) as [m0 Ht0]. rewrite EA in Hf, Hi. apply fine_scale in Hf; auto. apply rotations_scale in Hi; [|lia].
  destruct (C56_usable (1 # 10000000000) (common vecs) A0 m0) as [pg [Epg _]]; auto.
  pose proof (lines_fractions par lines Hr Har (lines_transport _ _ _ Hli Hcs)) as Hm.
  exists pg, c, A0, m0, (LatticeInModel.displaced (get_arrow_concs par)). split; auto. split; auto. split; auto. split; [exists (common vecs); auto|]. split; [intros; apply marks_displaced; auto|].
  unfold setup_of. fold vecs. rewrite Em. cbn [rbind]. rewrite Epg. cbn [rbind]. rewrite (lowest_same _ _ Hb). change (lowest [[0; 0; 0]]%Q) with [[0; 0; 0]]%Q. change (common [[0; 0; 0]]%Q) with 1.
  change (rmap (vec_over 1) [[0; 0; 0]]%Q) with (Ok [(0, 0, 0)]). cbn [rbind map]. rewrite origin_coords, Hs. change (zget [lo; hi] 0) with (Ok lo). change (zget [lo; hi] 1) with (Ok hi). cbn [rbind]. rewrite Ecs. cbn [rbind].
  rewrite gcd_origin by lia. rewrite Z.mul_1_r, Z.div_same, Z.div_0_l by lia.
  rewrite (marks_arrows (map snd lines)), Hr, Hk, Nat2Z.id by auto. reflexivity.
Qed.
