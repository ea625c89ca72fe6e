(** A run from scratch, up to the file and back (C60). *)
From Coq Require Import Permutation.
From Verif Require Import TextModel TextProofs PyBase Spec ListFacts PermFacts TransFacts PhononsModel TreeModel HashProofs TreeSearch ArrowProofs DecoFacts EnumSysModel EnumSysProofs Mat3 HNFModel HNFProofs PolyaModel PolyaSpec ConcsModel ConcsProofs.
From Verif Require Import LatSpec LatGroupModel LatFacts LatSites LatProofs LatMain LatTop LatGroupThm LatNoDup LatFirst SNFModel SuperModel StructSpec StructProofs StructThm StructMain StructAll PropertiesGroup PropertiesConcs.
From Verif Require Import DistModel DistSpec FilesModel FilesMain PropertiesFiles EnumOutModel EnumOutSpec EnumOutMain PropertiesEnumOut RunModel RunProofs RunSystem RunSpec RunMain.
From Verif Require MakeStrSpec MapSpec.
Local Open Scope Z_scope.

(** ** Point groups have inverses *)
Lemma ops_dec : forall a b : mat * mat, {a = b} + {a <> b}.
Proof. repeat decide equality. Qed.
Lemma mat_cancel C A B : unimodular C -> mmul C A = mmul C B -> A = B.
Proof. intros HC E. rewrite <- (mmul_id_l A), <- (mmul_id_l B), <- (minv_l C HC), !mmul_assoc, E. auto. Qed.
Lemma group_inverse pg C R : (forall C R, In (C, R) pg -> unimodular C /\ orthogonal R) -> rotation_group pg -> In (C, R) pg -> exists C' R', In (C', R') pg /\ mmul C C' = mid.
Proof.
  intros Hpg [Hid Hcl] Hin. set (l := nodup ops_dec pg).
  assert (forall g, In g l <-> In g pg) as Hl by (intros g; apply nodup_In).
  assert (NoDup (map (fun g : mat * mat => (mmul C (fst g), mmul R (snd g))) l)) as Hnd.
  { apply NoDup_map_inj; [|apply NoDup_nodup]. intros [A S] [A' S'] _ _ E. cbn [fst snd] in E. assert (mmul C A = mmul C A') as E1 by congruence. assert (mmul R S = mmul R S') as E2 by congruence.
    destruct (Hpg C R Hin) as [HC HR]. f_equal; [apply (mat_cancel C); auto|].
    rewrite <- (mmul_id_l S), <- (mmul_id_l S'), <- (proj2 HR), !mmul_assoc, E2. auto. }
  assert (incl l (map (fun g : mat * mat => (mmul C (fst g), mmul R (snd g))) l)) as Hincl.
  { apply NoDup_length_incl; auto; [rewrite map_length; lia|]. intros g Hg. apply in_map_iff in Hg. destruct Hg as [[A S] [<- HA]]. apply Hl. apply Hl in HA. apply Hcl; auto. }
  specialize (Hincl (mid, mid) (proj2 (Hl _) Hid)). apply in_map_iff in Hincl. destruct Hincl as [[C' R'] [E HC']]. cbn [fst snd] in E. exists C', R'. split; [apply Hl; auto|congruence].
Qed.
Lemma same_structure_sym pg D bas f g : (forall C R, In (C, R) pg -> unimodular C /\ orthogonal R) -> rotation_group pg ->
  no_directions D bas f -> no_directions D bas g -> same_structure pg D bas f g -> same_structure pg D bas g f.
Proof.
  intros Hpg Hgr Nf Ng [C [R [s [HC [Hs Hc]]]]]. destruct (group_inverse pg C R Hpg Hgr HC) as [C' [R' [HC' E]]].
  set (t := mvec C' (vscale (-1) s)).
  assert (forall x, affine C s (affine C' t x) = x) as Ei.
  { intros x. unfold affine, t. rewrite !mvec_vadd, <- !mvec_mmul, E, !mvec_id. vec_ring. }
  exists C', R', t. split; auto. split; [intros x; rewrite (Hs (affine C' t x)), Ei; tauto|]. apply plain_carries; auto. intros x Hx.
  pose proof (proj1 (plain_carries D bas C R s f g Nf) Hc) as Hc2. rewrite <- (Hc2 (affine C' t x)); [rewrite Ei; auto|]. apply Hs. rewrite Ei. auto.
Qed.
Lemma same_structure_refl pg D bas f : rotation_group pg -> no_directions D bas f -> same_structure pg D bas f f.
Proof. intros [Hid _] Nf. exists mid, mid, (0, 0, 0). split; auto. split; [apply symmetry_id|]. apply plain_carries; auto. intros x _. rewrite affine_id. auto. Qed.

(** ** Catalogues in another order, and written in another way *)
Lemma FOP_perm {A} (R : A -> A -> Prop) l l' : Permutation l l' -> (forall a b, In a l -> In b l -> R a b -> R b a) -> ForallOrdPairs R l -> ForallOrdPairs R l'.
Proof.
  induction 1 as [|x l l' HP IH|x y l|l m n HP IH HP' IH']; intros Hsym HF; auto.
  - inversion HF as [|? ? Hx HF']; subst. constructor; [|apply IH; auto; intros; apply Hsym; cbn; auto]. rewrite Forall_forall in *. intros y Hy. apply Hx. apply Permutation_sym in HP. eapply Permutation_in; eauto.
  - inversion HF as [|? ? Hy HF']; subst. inversion HF' as [|? ? Hx HF'']; subst. rewrite Forall_forall in *. constructor; [|constructor; auto].
    + apply Forall_forall. intros z [<-|Hz]; [|apply Hx; auto]. apply Hsym; [cbn; auto|cbn; auto|apply Hy; cbn; auto].
    + apply Forall_forall. intros z Hz. apply Hy. cbn; auto.
  - apply IH'; [|apply IH; auto]. apply Permutation_sym in HP. intros a b Ha Hb. apply Hsym; eapply Permutation_in; eauto.
Qed.
Lemma catalogue_perm {W} (all : decoration -> Prop) (same : decoration -> decoration -> Prop) (means : W -> decoration -> Prop) l l' : Permutation l l' -> (forall f g, all f -> all g -> same f g -> same g f) ->
  catalogue all same means l -> catalogue all same means l'.
Proof.
  intros HP Hsym [H1 [H2 [H3 H4]]]. assert (forall w, In w l' -> In w l) as Hin by (intros w; apply Permutation_in, Permutation_sym; auto). split; [|split; [|split]].
  - auto.
  - eauto.
  - intros f Hf. destruct (H3 f Hf) as [w [f' [Hw Hx]]]. exists w, f'. split; auto. eapply Permutation_in; eauto.
  - apply (FOP_perm _ l); auto. intros a b Ha Hb Hab f g Hf Hg Hs. apply (Hab g f); auto. apply Hsym; eauto.
Qed.
Lemma catalogue_map {W V} (all : decoration -> Prop) (same : decoration -> decoration -> Prop) (means : W -> decoration -> Prop) (means' : V -> decoration -> Prop) l l' :
  Forall2 (fun w v => forall f, means w f <-> means' v f) l l' -> catalogue all same means l -> catalogue all same means' l'.
Proof.
  intros HF [H1 [H2 [H3 H4]]].
  assert (forall v, In v l' -> exists w, In w l /\ forall f, means w f <-> means' v f) as Hb.
  { clear - HF. induction HF as [|w v l l' Hw HF IH]; intros x Hx; [destruct Hx|]. destruct Hx as [<-|Hx]; [exists w; cbn; auto|]. destruct (IH x Hx) as [y [A B]]. exists y. cbn; auto. }
  assert (forall w, In w l -> exists v, In v l' /\ forall f, means w f <-> means' v f) as Hf.
  { clear - HF. induction HF as [|w v l l' Hw HF IH]; intros x Hx; [destruct Hx|]. destruct Hx as [<-|Hx]; [exists v; cbn; auto|]. destruct (IH x Hx) as [y [A B]]. exists y. cbn; auto. }
  split; [|split; [|split]].
  - intros v Hv. destruct (Hb v Hv) as [w [Hw E]]. destruct (H1 w Hw) as [f Hm]. exists f. apply E; auto.
  - intros v f Hv Hm. destruct (Hb v Hv) as [w [Hw E]]. apply (H2 w); auto. apply E; auto.
  - intros f Ha. destruct (H3 f Ha) as [w [f' [Hw [Hm Hs]]]]. destruct (Hf w Hw) as [v [Hv E]]. exists v, f'. split; auto. split; auto. apply E; auto.
  - clear - HF H4. induction HF as [|w v l l' Hw HF IH]; [constructor|]. inversion H4 as [|? ? Hx H5]; subst. constructor; auto. rewrite Forall_forall in *. intros v' Hv'.
    assert (exists w', In w' l /\ forall f, means w' f <-> means' v' f) as [w' [Hw' E]].
    { clear - HF Hv'. induction HF as [|w v l l' Hw HF IH]; [destruct Hv'|]. destruct Hv' as [<-|Hx]; [exists w; cbn; auto|]. destruct (IH Hx) as [y [A B]]. exists y. cbn; auto. }
    intros f g Hm Hm'. apply (Hx w' Hw'); [apply Hw; auto|apply E; auto].
Qed.

(** ** Labels *)
Lemma digit_char_digit d : 0 <= d <= 9 -> digit (digit_char d) = d.
Proof. intros H. assert (d = 0 \/ d = 1 \/ d = 2 \/ d = 3 \/ d = 4 \/ d = 5 \/ d = 6 \/ d = 7 \/ d = 8 \/ d = 9) as Hd by lia. intuition subst; reflexivity. Qed.
Lemma digits_of_labels {A} (f : A -> Z) l : (forall x, In x l -> 0 <= f x <= 9) -> digits_of (fold_right append EmptyString (map (fun x => str (f x)) l)) = map f l.
Proof.
  intros H. induction l as [|y l IH]; [auto|]. cbn [map fold_right]. rewrite digit_str by (apply H; left; auto). cbn [append]. unfold digits_of in *. cbn [String.list_ascii_of_string map].
  rewrite digit_char_digit by (apply H; left; auto). rewrite IH by (intros; apply H; right; auto). auto.
Qed.
Lemma labels_say w lab dirs : (forall a x, In (a, x) w -> -1 <= a <= 8 /\ 1 <= x <= 10) -> create_labeling (Arrowed w) = Ok (lab, dirs) -> row_sites lab dirs = w.
Proof.
  intros Hw E. destruct w as [|y l]; [discriminate|]. set (w := y :: l) in *. change (Ok (fold_left (fun '(label, arrow) i => (label ++ str (snd i - 1), arrow ++ str (fst i + 1))%string) w (EmptyString, EmptyString)) = Ok (lab, dirs)) in E.
  rewrite (fold_labels (fun i : Z * Z => str (snd i - 1)) (fun i => str (fst i + 1))) in E. cbn [append] in E.
  assert (lab = fold_right append EmptyString (map (fun i : Z * Z => str (snd i - 1)) w)) as -> by congruence. assert (dirs = fold_right append EmptyString (map (fun i : Z * Z => str (fst i + 1)) w)) as -> by congruence. unfold row_sites.
  rewrite (digits_of_labels (fun i : Z * Z => fst i + 1)), (digits_of_labels (fun i : Z * Z => snd i - 1)); [|intros [a x] Hi; destruct (Hw a x Hi); cbn; lia|intros [a x] Hi; destruct (Hw a x Hi); cbn; lia].
  rewrite !map_map. clear. induction w as [|[a x] w IH]; [auto|]. cbn [map combine fst snd]. rewrite IH. f_equal. f_equal; ring.
Qed.

(** ** How many rows *)
Lemma fewer_HNFs n : 1 <= n <= 15 -> (length (find_all_HNFs n) <= 455)%nat.
Proof.
  intros Hn. assert (forallb (fun i => (length (find_all_HNFs (Z.of_nat i)) <=? 455)%nat) (seq 1 15) = true) as H by (vm_compute; reflexivity).
  rewrite forallb_forall in H. specialize (H (Z.to_nat n)). rewrite Z2Nat.id in H by lia. apply Nat.leb_le, H. apply in_seq. lia.
Qed.
Fixpoint powers (k : Z) (m : nat) : Z := match m with O => 0 | S m => powers k m + k ^ Z.of_nat (S m) end.
Lemma total_powers {A} (f : Z -> list A) k B m : 0 <= B -> (forall s, 1 <= s <= Z.of_nat m -> Z.of_nat (length (f s)) <= B * k ^ s) ->
  Z.of_nat (length (flat_map f (map Z.of_nat (seq 1 m)))) <= B * powers k m.
Proof.
  intros HB. induction m as [|m IH]; intros H; [cbn; lia|].
  rewrite seq_S, map_app, flat_map_app, app_length, Nat2Z.inj_add. cbn [map flat_map]. rewrite app_nil_r. change (powers k (S m)) with (powers k m + k ^ Z.of_nat (S m)).
  specialize (IH ltac:(intros s Hs; apply H; lia)). specialize (H (Z.of_nat (1 + m)) ltac:(lia)). replace (1 + m)%nat with (S m) in * by lia. lia.
Qed.

Lemma powers_le k m m' : 0 <= k -> (m <= m')%nat -> powers k m <= powers k m'.
Proof. intros Hk. induction 1 as [|m' _ IH]; [lia|]. change (powers k (S m')) with (powers k m' + k ^ Z.of_nat (S m')). assert (0 <= k ^ Z.of_nat (S m')) by (apply Z.pow_nonneg; lia). lia. Qed.
Lemma powers_pow k nb m : 0 <= k -> (1 <= nb)%nat -> powers (k ^ Z.of_nat nb) m <= powers k (nb * m).
Proof.
  intros Hk Hn. induction m as [|m IH]; [rewrite Nat.mul_0_r; cbn; lia|]. change (powers (k ^ Z.of_nat nb) (S m)) with (powers (k ^ Z.of_nat nb) m + (k ^ Z.of_nat nb) ^ Z.of_nat (S m)).
  rewrite <- Z.pow_mul_r by lia. replace (Z.of_nat nb * Z.of_nat (S m)) with (Z.of_nat (nb * S m)) by lia.
  destruct (nb * S m)%nat as [|j] eqn:Ej; [lia|]. change (powers k (S j)) with (powers k j + k ^ Z.of_nat (S j)). pose proof (powers_le k (nb * m) j Hk ltac:(lia)). lia.
Qed.

(** Some size has a composition. *)
Lemma within_nonneg d s rs c : 0 < d -> 0 <= s -> (forall r, In r rs -> let '(x, y, z) := r in z = d /\ 0 <= x /\ 0 <= y) -> Forall2 (fraction_within s) rs c -> forall a, In a c -> 0 <= a.
Proof.
  intros Hd Hs Hc H. revert Hc. induction H as [|r a rs c Ha _ IH]; intros Hc x Hx; [destruct Hx|]. destruct Hx as [<-|Hx]; [|apply IH; auto; intros; apply Hc; cbn; auto].
  apply (nonneg_bound d s r); auto. apply Hc. cbn; auto.
Qed.
Lemma possible_some su : (2 <= s_species su <= 3)%nat -> 1 <= s_lo su <= s_hi su /\ s_hi su * Z.of_nat (length (s_bas su)) <= 20 ->
  good_basis (s_pg su) (s_D su) (s_bas su) (s_lo su) (s_hi su) ->
  usable_ranges (s_species su) (ranges_of su) /\ s_arrows su = false /\ (forall c, length c = s_species su -> s_na su c = map (fun _ => 0) c) ->
  possible_sites (Z.of_nat (length (s_bas su))) (s_lo su) (s_hi su) (ranges_of su) -> exists s c, In s (run_sizes su) /\ In c (run_concs su s).
Proof.
  intros Hk Hsizes Hgb Hplain Hposs. destruct (s_restricted su) eqn:Er.
  - pose proof Hplain as [Hu _]. unfold ranges_of in Hu, Hposs. rewrite Er in Hu, Hposs. destruct Hposs as [n [c [Hn [Hsum HF]]]]. destruct Hu as [Hl [d [Hd Hu]]].
    assert (In n (run_sizes su)) as Hin by (apply (in_sizes su Hk); auto). exists n, c. split; auto. apply (concs_iff su Hgb Hk Hsizes Hplain n c Hin).
    split; [rewrite <- Hl; symmetry; eapply Forall2_length; eauto|]. split; [|split; [exact Hsum|auto]].
    apply (within_nonneg d (n * Z.of_nat (length (s_bas su))) (s_concs su)); auto; [nia|]. intros [[x y] z] Hi. apply Hu; auto.
  - assert (In (s_lo su) (run_sizes su)) as Hin by (apply (in_sizes su Hk); lia).
    exists (s_lo su), (map Z.of_nat ((Z.to_nat (s_lo su) * length (s_bas su))%nat :: repeat 0%nat (s_species su - 1))). split; auto. apply (concs_in su Hgb Hk Hsizes Hplain); auto.
    + cbn [length]. rewrite repeat_length. lia.
    + change (sum_nat ((Z.to_nat (s_lo su) * length (s_bas su))%nat :: repeat 0%nat (s_species su - 1))) with (Z.to_nat (s_lo su) * length (s_bas su) + sum_nat (repeat 0%nat (s_species su - 1)))%nat.
      assert (forall m, sum_nat (repeat 0%nat m) = 0%nat) as -> by (induction m as [|m IH]; auto). lia.
    + rewrite Er. discriminate.
Qed.

Lemma possible_one lo hi ranges : possible lo hi ranges -> possible_sites 1 lo hi ranges.
Proof. destruct ranges as [l|]; auto. intros [n [c [H1 [H2 H3]]]]. exists n, c. rewrite Z.mul_1_r. auto. Qed.

(** What [makeStr] uses of a row, for [k] species and sizes from lo to hi. *)
Definition makeable_for (nD k : nat) (lo hi : Z) (s : structure) : Prop := exists w, MakeStrSpec.row_for nD (Z.of_nat k) (sHNF s) (Arrowed w) s /\ w = row_sites (labeling s) (directions_of s) /\
  MapSpec.hnf_form (sHNF s) /\ lo <= mdet (sHNF s) <= hi.
Definition makeable : nat -> Z -> Z -> structure -> Prop := makeable_for 1.
Section Top.
Variables (su : setup) (v : pyversion).
Hypothesis HD : 0 < s_D su.
Hypothesis Hgb : good_basis (s_pg su) (s_D su) (s_bas su) (s_lo su) (s_hi su).
Hypothesis Hpg : forall C R, In (C, R) (s_pg su) -> unimodular C /\ orthogonal R.
Hypothesis Hgr : rotation_group (s_pg su).
Hypothesis Hdiff : NoDup (map snd (s_pg su)).
Hypothesis Hsizes : 1 <= s_lo su <= s_hi su /\ (s_species su = 2%nat /\ s_hi su * Z.of_nat (length (s_bas su)) <= 20 \/ s_species su = 3%nat /\ s_hi su * Z.of_nat (length (s_bas su)) <= 15).
Hypothesis Hplain : usable_ranges (s_species su) (ranges_of su) /\ s_arrows su = false /\ forall c, length c = s_species su -> s_na su c = map (fun _ => 0) c.
Hypothesis Hsome : exists s c, In s (run_sizes su) /\ In c (run_concs su s).
Notation pg := (s_pg su).
Notation D := (s_D su).
Notation bas := (s_bas su).
Notation k := (s_species su).
Lemma Hk : (2 <= s_species su <= 3)%nat.
Proof. lia. Qed.
Lemma Hsizes' : 1 <= s_lo su <= s_hi su /\ s_hi su * Z.of_nat (length (s_bas su)) <= 20.
Proof. lia. Qed.
Lemma nb1 : (1 <= length bas)%nat.
Proof. pose proof (gb_pos _ _ _ _ _ Hgb). lia. Qed.
Lemma hi20 : s_hi su <= 20.
Proof. pose proof nb1. pose proof Hsizes'. nia. Qed.

Section Lines.
Variables (systems : list (list Z * list Z * Z)) (found : list (list Z * list config)).
Hypothesis Hsys : are_systems su v systems.
Hypothesis Hnd : NoDup (map fst systems).
Hypothesis HF : Forall2 (good_line su) systems found.
Lemma Hcat : catalogue (run_structures D bas k (s_lo su) (s_hi su) (ranges_of su)) (same_structure pg D bas) (row_means su) (listed found).
Proof. pose proof Hk. pose proof Hsizes'. eapply catalogue_found; eauto. Qed.

Lemma row_facts h c : In (h, c) (listed found) -> exists s H w, In s (run_sizes su) /\ In H (run_hnfs su s) /\ h = six H /\ c = Arrowed w /\ length w = (length bas * Z.to_nat s)%nat /\
  forall a x, In (a, x) w -> a = -1 /\ 1 <= x <= Z.of_nat k.
Proof.
  intros Hin. destruct (listed_line su systems found (h, c) HF Hin) as [y [e [l [Hy [He [[E1 [l' [E2 [_ [_ Hp]]]]] [E3 [w [Hw E4]]]]]]]]].
  destruct (line_system su v HD Hgb Hpg Hgr Hk Hsizes' Hplain systems y Hsys Hy) as [s [H [Hs [HH [E5 [E6 Hc]]]]]].
  exists s, H, w. do 2 (split; auto). assert (h = fst e /\ c = Arrowed w) as [-> ->] by (split; congruence). split; [congruence|]. split; auto.
  assert (In w l') as Hw' by (rewrite E3 in E2; apply (in_map Arrowed) in Hw; rewrite E2 in Hw; apply in_map_iff in Hw; destruct Hw as [w' [E Hw]]; congruence).
  specialize (Hp w Hw'). destruct (concs_facts su Hgb Hk Hsizes' Hplain s _ Hs Hc) as [c' [Ec [Lc Sc]]]. rewrite Ec in Hp.
  assert (map Z.to_nat (map Z.of_nat c') = c') as Eb by (rewrite map_map; transitivity (map (fun x : nat => x) c'); [apply map_ext; intros; lia|apply map_id]). rewrite Eb in Hp.
  split; [rewrite (Permutation_length Hp), decos_length; lia|]. intros a x Hi. apply (Permutation_in _ Hp) in Hi. apply (decos_species su Hk) in Hi. cbn [fst snd] in Hi. rewrite Lc in Hi. auto.
Qed.
Lemma rows_NoDup : NoDup (listed found).
Proof.
  apply FOP_NoDup. destruct Hcat as [H1 [H2 [H3 H4]]]. eapply FOP_impl; [|exact H4]. cbv beta. intros a b Ha Hb Hab <-. destruct (H1 a Ha) as [f Hf]. apply (Hab f f Hf Hf). apply same_structure_refl; auto.
  destruct (H2 a f Ha Hf) as [Hp _]. intros x Hx. apply Hp; auto.
Qed.
Lemma rows_few : Z.of_nat (length (listed found)) < 10 ^ 10.
Proof.
  set (all := fun s => flat_map (fun H => map (fun w => (six H, Arrowed (map (fun x => (-1, x)) w))) (Spec.words (map Z.of_nat (seq 1 k)) (length bas * Z.to_nat s))) (find_all_HNFs s)).
  assert (forall s, 1 <= s -> Z.of_nat (length (all s)) = Z.of_nat (length (find_all_HNFs s)) * (Z.of_nat k ^ Z.of_nat (length bas)) ^ s) as Hlen.
  { intros s Hs. unfold all. induction (find_all_HNFs s) as [|H l IH]; [cbn; lia|]. cbn [flat_map length]. rewrite app_length, map_length, length_words, map_length, seq_length, !Nat2Z.inj_add, Nat2Z.inj_pow, Nat2Z.inj_mul, Z2Nat.id, Z.pow_mul_r by lia. rewrite IH. lia. }
  assert (incl (listed found) (flat_map all (map Z.of_nat (seq 1 (Z.to_nat (s_hi su)))))) as Hincl.
  { intros [h c] Hin. destruct (row_facts h c Hin) as [s [H [w [Hs [HH [-> [-> [Lw Hw]]]]]]]]. destruct (hnfs_facts su HD Hgb Hpg Hgr Hk Hsizes' Hplain s Hs) as [_ [Hf _]]. specialize (Hf H HH). apply (in_sizes su Hk) in Hs.
    apply in_flat_map. exists s. split; [apply in_map_iff; exists (Z.to_nat s); split; [lia|apply in_seq; lia]|]. unfold all. apply in_flat_map. exists H. split; auto. apply in_map_iff. exists (map snd w). split.
    - do 2 f_equal. rewrite map_map. transitivity (map (fun a : Z * Z => a) w); [|apply map_id]. apply map_ext_in. intros [a x] Hi. destruct (Hw a x Hi) as [-> _]. auto.
    - apply in_words. rewrite map_length. split; auto. intros x Hx. apply in_map_iff in Hx. destruct Hx as [[a x'] [<- Hi]]. cbn [snd]. destruct (Hw a x' Hi) as [_ Hr]. rewrite <- (Z2Nat.id x') by lia. apply in_map, in_seq. lia. }
  pose proof (NoDup_incl_length rows_NoDup Hincl) as Hle.
  assert (10 ^ 10 = 10000000000) as E10 by reflexivity. rewrite E10. destruct Hsizes as [Hlo [[E2 Hhi]|[E3 Hhi]]].
  - assert (Z.of_nat (length (flat_map all (map Z.of_nat (seq 1 (Z.to_nat (s_hi su)))))) <= 1100 * powers (2 ^ Z.of_nat (length bas)) (Z.to_nat (s_hi su))) as Hb.
    { apply total_powers; try lia. intros s Hs. rewrite Hlen, E2 by lia. pose proof hi20. pose proof (few_HNFs s ltac:(lia)). change (Z.of_nat 2) with 2. assert (0 <= (2 ^ Z.of_nat (length bas)) ^ s) by (apply Z.pow_nonneg, Z.pow_nonneg; lia). nia. }
    pose proof (powers_pow 2 (length bas) (Z.to_nat (s_hi su)) ltac:(lia) nb1) as H1. pose proof (powers_le 2 (length bas * Z.to_nat (s_hi su)) 20 ltac:(lia) ltac:(nia)) as H2.
    assert (powers 2 20%nat = 2097150) as Ep by (vm_compute; reflexivity). rewrite Ep in H2. unfold vec in *. lia.
  - assert (s_hi su <= 15) as H15 by (pose proof nb1; nia).
    assert (Z.of_nat (length (flat_map all (map Z.of_nat (seq 1 (Z.to_nat (s_hi su)))))) <= 455 * powers (3 ^ Z.of_nat (length bas)) (Z.to_nat (s_hi su))) as Hb.
    { apply total_powers; try lia. intros s Hs. rewrite Hlen, E3 by lia. pose proof (fewer_HNFs s ltac:(lia)). change (Z.of_nat 3) with 3. assert (0 <= (3 ^ Z.of_nat (length bas)) ^ s) by (apply Z.pow_nonneg, Z.pow_nonneg; lia). nia. }
    pose proof (powers_pow 3 (length bas) (Z.to_nat (s_hi su)) ltac:(lia) nb1) as H1. pose proof (powers_le 3 (length bas * Z.to_nat (s_hi su)) 15 ltac:(lia) ltac:(nia)) as H2.
    assert (powers 3 15%nat = 21523359) as Ep by (vm_compute; reflexivity). rewrite Ep in H2. unfold vec in *. lia.
Qed.

(** *** The rows read back *)
Lemma good_systems h cs : In (h, cs) found -> is_hnf h /\ mdet (full_HNF h) <= 20 /\ 1 <= mdet (full_HNF h) /\ Forall nonempty cs.
Proof.
  intros Hin.
  assert (exists y, In y systems /\ good_line su y (h, cs)) as [y [Hy [E1 [l [E2 [_ [_ Hp]]]]]]].
  { clear - HF Hin. induction HF as [|y e ys es H HF' IH]; [destruct Hin|]. destruct Hin as [->|He]; [exists y; cbn; auto|]. destruct (IH HF' He) as [y' [A B]]. exists y'. cbn; auto. }
  cbn [fst snd] in *. pose proof Hk. pose proof Hsizes'. destruct (line_system su v HD Hgb Hpg Hgr Hk Hsizes' Hplain systems y Hsys Hy) as [s [H' [Hs [HH [E5 [E6 Hc]]]]]].
  destruct (hnfs_facts su HD Hgb Hpg Hgr Hk Hsizes' Hplain s Hs) as [_ [Hf _]]. specialize (Hf H' HH). rewrite E1, E6, E5. pose proof Hs as Hs'. apply (in_sizes su Hk) in Hs'. pose proof hi20 as H20. pose proof nb1 as Hnb1. rewrite (find_det s H') by (auto; lia). split; [apply (six_hnf s); auto; lia|]. split; [lia|]. split; [lia|].
  rewrite E2. apply Forall_forall. intros c Hic. apply in_map_iff in Hic. destruct Hic as [w [<- Hw]]. specialize (Hp w Hw). destruct (concs_facts su Hgb Hk Hsizes' Hplain s _ Hs Hc) as [c' [Ec [Lc Sc]]].
  apply Permutation_length in Hp. rewrite decos_length in Hp. rewrite Ec, map_map, (map_ext (fun x => Z.to_nat (Z.of_nat x)) (fun x => x)), map_id in Hp by (intros; apply Nat2Z.id). intros ->. cbn in Hp. nia.
Qed.
Lemma lines_read_rows p : good_params p -> exists file structs, enum_out_file p found = Ok file /\ read_enum_out file None = Ok (system_of p, structs) /\
  catalogue (run_structures D bas k (s_lo su) (s_hi su) (ranges_of su)) (same_structure pg D bas) (row_says D bas) structs /\
  (forall s f, In s structs -> row_says D bas s f -> primitive D bas (sHNF s) f) /\ (forall s, In s structs -> makeable_for (length bas) k (s_lo su) (s_hi su) s) /\ forall i s, nth_error structs i = Some s -> strN s = Z.of_nat i + 1.
Proof.
  intros Hp. assert (found <> []) as Hne.
  { destruct Hsome as [s [c [Hs Hc]]]. destruct (hnfs_facts su HD Hgb Hpg Hgr Hk Hsizes' Hplain s Hs) as [_ [_ [_ [_ [_ Hn]]]]].
    destruct (run_hnfs su s) as [|H l] eqn:EH; [congruence|].
    intros ->. inversion HF as [E|]. assert (In (six H, c, run_count su v (six H) c) systems) as Hin; [|rewrite <- E in Hin; destruct Hin].
    apply Hsys. exists s, H. split; auto. split; [rewrite EH; cbn; auto|auto]. }
  destruct (C33_written p found Hne) as [file Efile].
  { apply Forall_forall. intros [h cs] Hin. destruct (good_systems h cs Hin) as [_ [A [B C]]]. split; auto. cbn [fst]. lia. }
  destruct (C32_up_to_30_cells p found file Hp) as [l [HP [_ [structs [Er [Hlen [Hrow _]]]]]]]; auto.
  { intros h cs Hin. destruct (good_systems h cs Hin) as [A [B [_ C]]]. split; auto. split; [lia|auto]. }
  { apply rows_few. }
  exists file, structs. split; auto. split; auto.
  assert (forall i r s, nth_error l i = Some r -> nth_error structs i = Some s -> In r (listed found) /\ sHNF s = full_HNF (fst r) /\ (forall f, row_means su r f <-> row_says D bas s f) /\ makeable_for (length bas) k (s_lo su) (s_hi su) s) as Hsame.
  { intros i [h c] s Er' Es'. destruct (Hrow i s Es') as [h' [c' [E [_ [_ [_ [_ [_ [_ [_ [_ [EH [[M [R [ES Ed]]] Elab]]]]]]]]]]]]]. rewrite Er' in E. assert (h' = h /\ c' = c) as [-> ->] by (split; congruence).
    assert (In (h, c) (listed found)) as Hin by (apply (Permutation_in _ HP), (nth_error_In _ _ Er')). split; auto. split; auto.
    destruct (row_facts h c Hin) as [sz [H [w [Hs [HH [-> [-> [Lw Hw]]]]]]]].
    assert (row_sites (labeling s) (directions_of s) = w) as Ew by (apply labels_say; auto; intros a x Hi; destruct (Hw a x Hi) as [-> Hx]; pose proof Hk; lia).
    split; cycle 1.
    { assert (full_HNF (six H) = H) as EH2 by (apply (six_full sz); destruct (hnfs_facts su HD Hgb Hpg Hgr Hk Hsizes' Hplain sz Hs) as [_ [Hf _]]; auto).
      destruct (hnfs_facts su HD Hgb Hpg Hgr Hk Hsizes' Hplain sz Hs) as [_ [Hf _]]. specialize (Hf H HH). pose proof Hs as Hs'. apply (in_sizes su Hk) in Hs'. pose proof (find_det sz H ltac:(lia) Hf) as Edet.
      exists w. rewrite Ew. rewrite EH, EH2. split; [|split; [auto|split]].
      - rewrite EH2 in *. unfold MakeStrSpec.row_for. split; [destruct (Hrow i s Es') as [h1 [c1 [E1 [_ [_ [Ec _]]]]]]; rewrite Er' in E1; congruence|]. split; auto. split; [eauto|]. split; auto. cbn [MakeStrSpec.decorated]. rewrite Edet, Lw. split; [lia|].
        intros a x Hi. destruct (Hw a x Hi) as [-> Hx]. lia.
      - destruct (proj1 (six_hnf sz H ltac:(lia) Hf)) as [a [b [c0 [d [e [f0 [E6 Hr]]]]]]]. exists a, b, c0, d, e, f0. split; auto. rewrite <- EH2, E6. reflexivity.
      - lia. }
    intros f. unfold row_means, row_says, means. cbn [fst snd]. rewrite Ew, Ed. split.
    - intros [w' [E' [M' [L' [B' [ES' Hd]]]]]]. rewrite ES in ES'. assert (w' = w /\ M' = M /\ L' = sL s) as [-> [-> ->]] by (split; [|split]; congruence). auto.
    - intros Hd. exists w. split; auto. exists M, (sL s), R. auto. }
  split.
  - apply (catalogue_map _ _ (row_means su) (row_says D bas) l).
    + assert (forall i, i < length l -> exists a b, nth_error l i = Some a /\ nth_error structs i = Some b)%nat as Hboth.
      { intros i Hi. destruct (nth_error l i) as [a|] eqn:Ea; [|apply nth_error_None in Ea; lia]. destruct (nth_error structs i) as [b|] eqn:Eb; [|apply nth_error_None in Eb; lia]. eauto. }
      clear - Hsame Hlen. revert structs Hlen Hsame. induction l as [|r l IH]; intros [|s structs] Hlen Hsame; cbn in Hlen; try discriminate; constructor.
      * apply (Hsame 0%nat r s); auto.
      * apply IH; [lia|]. intros i r' s' Hr Hs. destruct (Hsame (S i) r' s' Hr Hs) as [A [B C]]. split; auto.
    + apply (catalogue_perm _ _ _ (listed found)); [apply Permutation_sym; auto| |apply Hcat].
      intros f g [Nf _] [Ng _]. apply same_structure_sym; auto; intros x Hx; [apply Nf|apply Ng]; auto.
  - split; cycle 1.
    { split; [|intros i s Hi; destruct (Hrow i s Hi) as [? [? [_ [? _]]]]; auto]. intros s Hs. apply In_nth_error in Hs. destruct Hs as [i Hi]. destruct (nth_error l i) as [r|] eqn:Er'; [|apply nth_error_None in Er'; assert (nth_error structs i <> None) as Hn by congruence; apply nth_error_Some in Hn; lia].
      apply (Hsame i r s Er' Hi). }
    intros s f Hs Hm. apply In_nth_error in Hs. destruct Hs as [i Hi]. destruct (nth_error l i) as [r|] eqn:Er'; [|apply nth_error_None in Er'; assert (nth_error structs i <> None) as Hn by congruence; apply nth_error_Some in Hn; lia].
    destruct (Hsame i r s Er' Hi) as [Hin [EH [Hiff _]]]. apply Hiff in Hm. destruct (listed_line su systems found r HF Hin) as [y [e [lw [Hy [He [Hg [E3 [w [Hw ->]]]]]]]]]. rewrite EH. cbn [fst].
    destruct (line_wanted su v HD Hgb Hpg Hgr Hk Hsizes' Hplain systems y e (fst e, Arrowed w) f Hsys Hy Hg) as [s' [H [Hs' [HH [E1 [Hc [Pf _]]]]]]]; auto.
    + destruct e as [h cs]. cbn [fst snd] in *. rewrite E3. apply in_map, in_map. auto.
    + assert (full_HNF (fst e) = H) as ->; auto. destruct Hg as [E _]. rewrite E, E1. apply (six_full s'). destruct (hnfs_facts su HD Hgb Hpg Hgr Hk Hsizes' Hplain s' Hs') as [_ [Hf _]]. auto.
Qed.
Lemma lines_read p : good_params p -> exists file structs, enum_out_file p found = Ok file /\ read_enum_out file None = Ok (system_of p, structs) /\
  catalogue (run_structures D bas k (s_lo su) (s_hi su) (ranges_of su)) (same_structure pg D bas) (row_says D bas) structs /\
  forall s f, In s structs -> row_says D bas s f -> primitive D bas (sHNF s) f.
Proof. intros Hp. destruct (lines_read_rows p Hp) as [file [structs [E [Er [Hc [Hpr _]]]]]]. exists file, structs. auto. Qed.
End Lines.

Theorem from_scratch_rows others listdir rnd0 draw rnd shuffled p : (forall l : list string, Permutation (listdir l) l) -> NoDup others ->
  (forall f, In f others -> contains "polya.out" f = false \/ first_char f <> first_char "polya.out") -> good_params p ->
  exists file fuel0 structs, (forall fuel, (fuel0 <= fuel)%nat -> run_from_scratch v others listdir rnd0 draw rnd shuffled fuel p su false false = Ok file) /\
    read_enum_out file None = Ok (system_of p, structs) /\
    catalogue (run_structures D bas k (s_lo su) (s_hi su) (ranges_of su)) (same_structure pg D bas) (row_says D bas) structs /\
    (forall s f, In s structs -> row_says D bas s f -> primitive D bas (sHNF s) f) /\ (forall s, In s structs -> makeable_for (length bas) k (s_lo su) (s_hi su) s) /\ forall i s, nth_error structs i = Some s -> strN s = Z.of_nat i + 1.
Proof.
  intros Hls Hno Hoth Hp. destruct (enum_in_ok su v HD Hgb Hpg Hgr Hdiff Hk Hsizes' Hplain others listdir rnd0 Hls Hno Hoth) as [text [systems [E1 [E2 [Hnd Hsys]]]]].
  destruct (enum_lines_ok su v HD Hgb Hpg Hgr Hdiff Hk Hsizes' Hplain draw rnd shuffled systems Hsys) as [found [f0 [Hrun HF]]].
  destruct (lines_read_rows systems found Hsys Hnd HF p Hp) as [file [structs [Ef [Er Hx]]]].
  destruct (polya_out_ok su v HD Hgb Hpg Hgr Hdiff Hk Hsizes' Hplain) as [f1 Hpo].
  exists file, (f0 + f1)%nat, structs. split; [|split; auto]. intros fuel Hfu. unfold run_from_scratch. rewrite (Hpo fuel) by lia. cbn [rbind]. fold (run_files su v). rewrite E1. cbn [rbind]. rewrite E2. cbn [rbind]. rewrite Hrun by lia. cbn [rbind]. auto.
Qed.
Theorem from_scratch others listdir rnd0 draw rnd shuffled p : (forall l : list string, Permutation (listdir l) l) -> NoDup others ->
  (forall f, In f others -> contains "polya.out" f = false \/ first_char f <> first_char "polya.out") -> good_params p ->
  exists file fuel0 structs, (forall fuel, (fuel0 <= fuel)%nat -> run_from_scratch v others listdir rnd0 draw rnd shuffled fuel p su false false = Ok file) /\
    read_enum_out file None = Ok (system_of p, structs) /\
    catalogue (run_structures D bas k (s_lo su) (s_hi su) (ranges_of su)) (same_structure pg D bas) (row_says D bas) structs /\
    forall s f, In s structs -> row_says D bas s f -> primitive D bas (sHNF s) f.
Proof. intros Hls Hno Hoth Hp. destruct (from_scratch_rows others listdir rnd0 draw rnd shuffled p Hls Hno Hoth Hp) as [file [f0 [structs [E [Er [Hc [Hpr _]]]]]]]. exists file, f0, structs. auto. Qed.
End Top.
