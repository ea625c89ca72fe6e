(** From a row of enum.out to the POSCAR (C36, C37, C53, C54). *)
From Coq Require Import Permutation Sorted QArith.
From Verif Require Import TextModel TextProofs PyBase Spec ListFacts Mat3 HNFModel SNFModel SuperModel LatSpec StructSpec StructThm EnumOutModel PropertiesEnumOut.
From Verif Require Import MapModel MapSpec MapProofs MapSites PoscarModel PoscarSpec PoscarProofs ElementProofs PoscarMain MakeStrModel MakeStrSpec.
Local Open Scope Z_scope.

Definition digits (l : list Z) : string := fold_right (fun d s => String (digit_char d) s) EmptyString l.
Lemma digits_append {A} (f : A -> Z) l : (forall x, In x l -> 0 <= f x <= 9) -> fold_right append EmptyString (map (fun x => str (f x)) l) = digits (map f l).
Proof.
  intros H. induction l as [|a l IH]; [auto|]. cbn [map fold_right]. unfold digits in *. cbn [fold_right]. rewrite IH by (intros; apply H; right; auto). rewrite str_digit by (apply H; left; auto). auto.
Qed.
Lemma labeling_plain l : create_labeling (Plain l) = create_labeling (Arrowed (map (pair (-1)) l)).
Proof.
  destruct l as [|a l]; [auto|]. unfold create_labeling. cbn [map]. f_equal. change ((-1, a) :: map (pair (-1)) l) with (map (pair (-1)) (a :: l)).
  assert (forall m u v, fold_left (fun '(label, arrow) i => ((label ++ str (i - 1))%string, (arrow ++ "0")%string)) m (u, v) =
    fold_left (fun '(label, arrow) (i : Z * Z) => ((label ++ str (snd i - 1))%string, (arrow ++ str (fst i + 1))%string)) (map (pair (-1)) m) (u, v)) as Hg; [|apply Hg].
  intros m. induction m as [|x m IH]; intros u v; [auto|]. cbn [fold_left map]. rewrite IH. auto.
Qed.
Lemma labeling_digits c : decorated c <> [] -> (forall a l, In (a, l) (decorated c) -> -1 <= a <= 5 /\ 1 <= l <= 10) ->
  create_labeling c = Ok (digits (map (fun x => snd x - 1) (decorated c)), digits (map (fun x => fst x + 1) (decorated c))).
Proof.
  assert (forall w, w <> [] -> (forall a l, In (a, l) w -> -1 <= a <= 5 /\ 1 <= l <= 10) ->
    create_labeling (Arrowed w) = Ok (digits (map (fun x => snd x - 1) w), digits (map (fun x => fst x + 1) w))) as HA.
  { intros [|x0 w0] Hne H; [congruence|]. set (w := x0 :: w0) in *. unfold create_labeling, w. fold w.
    rewrite (fold_labels (fun i : Z * Z => str (snd i - 1)) (fun i => str (fst i + 1))). cbn [append].
    rewrite (digits_append (fun i => snd i - 1)) by (intros [a l] Hx; destruct (H a l Hx); cbn; lia).
    rewrite (digits_append (fun i => fst i + 1)) by (intros [a l] Hx; destruct (H a l Hx); cbn; lia). auto. }
  destruct c as [l|l]; cbn [decorated]; [apply HA|]. intros Hne H. rewrite labeling_plain. apply HA; auto.
Qed.
Lemma char_at_digits l i : (i < length l)%nat -> char_at (digits l) (Z.of_nat i) = Ok (digit_char (nth i l 0)).
Proof.
  unfold char_at. destruct (Z.ltb_spec (Z.of_nat i) 0); [lia|]. destruct (Z.ltb_spec (Z.of_nat i) 0); [lia|]. rewrite Nat2Z.id. clear. revert i. induction l as [|a l IH]; intros i Hi; [cbn in Hi; lia|].
  cbn [digits fold_right]. destruct i as [|i]; [auto|]. cbn [String.get nth]. apply IH; cbn in Hi; lia.
Qed.

(** [occupants]: the numbers of atoms and the spins. *)
Lemma occupants_ok k lab gs labels : (forall l, In l labels -> 0 <= l < k) -> rmap (label_at lab) gs = Ok labels ->
  occupants k lab gs = Ok (map (spin_of k) labels, map (number_with labels) (range_up 0 k)).
Proof.
  intros Hr Hl. unfold occupants.
  destruct (counting k labels Hr (repeat 0 (Z.to_nat k))) as [y [E [Ey Hy]]]; [apply repeat_length|].
  assert (y = map (number_with labels) (range_up 0 k)) as <-.
  { apply nth_range_list; auto. intros s Hs. rewrite Hy by auto. rewrite nth_repeat. auto. }
  assert (forall sp x, rfold count_up labels x = Ok y -> rfold (fun '(spin, x) g => do i <- label_at lab g; do x' <- count_up x i; Ok (spin ++ [spin_of k i], x')) gs (sp, x) = Ok (sp ++ map (spin_of k) labels, y)) as Hg; [|apply (Hg [] _ E)].
  clear Hy Ey E Hr. revert labels Hl.
  induction gs as [|g r IH]; intros labels Hl sp x E; cbn [rmap] in Hl.
  - inversion Hl; subst. cbn in *. inversion E; subst. rewrite app_nil_r. auto.
  - destruct (label_at lab g) as [l|] eqn:El; [|discriminate]. cbn [rbind] in Hl. destruct (rmap (label_at lab) r) as [ls|] eqn:Er; [|discriminate]. cbn [rbind] in Hl. inversion Hl; subst.
    cbn [rfold] in *. rewrite El. cbn [rbind]. destruct (count_up x l) as [x'|] eqn:Ex; cbn [rbind] in *; [|discriminate]. rewrite (IH ls eq_refl _ _ E). cbn [map]. rewrite <- app_assoc. auto.
Qed.

Lemma transversal_perm {X} (all : X -> Prop) (eqv : X -> X -> Prop) l l' : Permutation l l' -> (forall x y, eqv x y -> eqv y x) -> transversal all eqv l -> transversal all eqv l'.
Proof.
  intros Hp Hs [H1 [H2 H3]]. split; [|split].
  - intros x Hx. apply H1. eapply Permutation_in; [apply Permutation_sym; eauto|auto].
  - intros x Hx. destruct (H2 x Hx) as [r [Hr E]]. exists r. split; auto. eapply Permutation_in; eauto.
  - clear H1 H2. induction Hp; auto.
    + inversion H3; subst. constructor; auto. eapply Permutation_Forall; eauto.
    + inversion H3; subst. inversion H2; subst. inversion H1; subst. constructor; [constructor; auto|constructor; auto].
Qed.
Lemma in_lattice_neg H v : in_lattice H v -> in_lattice H (vscale (-1) v).
Proof. intros [u ->]. exists (vscale (-1) u). rewrite mvec_vscale. auto. Qed.
Lemma map_nth_all {A} (l : list A) d : map (fun i => nth i l d) (seq 0 (length l)) = l.
Proof.
  induction l as [|a l IH]; [auto|]. cbn [length seq map nth]. f_equal. rewrite <- seq_shift, map_map. exact IH.
Qed.
Section Make.
Variables (D : Z) (bas : list vec) (k : Z) (H : mat) (c : config) (s : structure) (lim : mat -> limits).
Hypothesis HD : 0 < D.
Hypothesis Hne : bas <> [].
Hypothesis Hnd : NoDup bas.
Hypothesis Hred : forall d, In d bas -> reduced (D, D, D) d.
Hypothesis Hk : 1 <= k <= 10.
Hypothesis Hh : hnf_form H.
Hypothesis Hdet : mdet H <= 10 ^ 5.
Hypothesis Hfull : full (lim H) H.
Hypothesis Hrow : row_for (length bas) k H c s.
Notation N := (length bas * Z.to_nat (mdet H))%nat.
Notation w := (decorated c).
Notation pts := (points (lim H) (mget H 0 0) (length bas)).
Notation gs := (map (g_index (sL s) (sdiag s)) pts).
Notation labels := (map (fun g => nth (Z.to_nat g) (species_of c) 0) gs).

Lemma det_pos : 1 <= mdet H.
Proof. destruct Hh as [a [b [c0 [d [e [f [-> [Ha [Hb [Hd He]]]]]]]]]]. clear - Ha Hb Hd. assert (0 < a * c0) by nia. assert (0 < a * c0 * f) by nia. mat_unfold. nia. Qed.
Lemma N_pos : (0 < N)%nat.
Proof. pose proof det_pos. apply Nat.mul_pos_pos; [|lia]. destruct bas; [congruence|cbn; lia]. Qed.
Lemma facts : exists B, unimodular (sL s) /\ unimodular B /\ mmul (mmul (sL s) H) B = diagonal (sdiag s) /\ positive (sdiag s) /\ volume (sdiag s) = mdet H.
Proof.
  pose proof det_pos. destruct (snf_facts H ltac:(lia)) as [M [L [B [E [HL [HB [HS [HP [_ HV]]]]]]]]].
  destruct Hrow as [_ [_ [[M' [R [E' Ed]]] _]]]. rewrite E in E'. injection E' as EM EL ER. subst M' R. rewrite Ed, <- EL. exists B. auto.
Qed.
Lemma w_len : length w = N. Proof. apply Hrow. Qed.
Lemma w_range a l : In (a, l) w -> -1 <= a <= 5 /\ 1 <= l <= k. Proof. apply Hrow. Qed.
Lemma labs : labeling s = digits (species_of c) /\ directions_of s = digits (map (fun x => fst x + 1) w).
Proof.
  destruct Hrow as [_ [_ [_ [E _]]]]. rewrite labeling_digits in E; [inversion E; auto| |].
  - intros E'. pose proof w_len as Hl. rewrite E' in Hl. pose proof N_pos. cbn in Hl. lia.
  - intros a l Hin. destruct (w_range a l Hin). lia.
Qed.
Lemma pts_length : length pts = N.
Proof.
  destruct facts as [B [HL [HB [HS [HP HV]]]]]. pose proof (map_length_ok bas H (sdiag s) HV Hh (lim H) Hfull) as Hl. rewrite HV in Hl. exact Hl.
Qed.
Lemma gs_range g : In g gs -> 0 <= g < Z.of_nat N.
Proof.
  destruct facts as [B [HL [HB [HS [HP HV]]]]]. intros Hg. apply in_map_iff in Hg as [p [<- Hp]].
  destruct (point_site D bas H (sL s) B (sdiag s) HS HP HV (lim H) p Hp) as [_ Hr]. rewrite HV in Hr. exact Hr.
Qed.
Lemma species_length : length (species_of c) = N.
Proof. unfold species_of. rewrite map_length. apply w_len. Qed.
Lemma species_range x : In x (species_of c) -> 0 <= x < k.
Proof. intros Hx. apply in_map_iff in Hx as [[a l] [<- Hin]]. destruct (w_range a l Hin). cbn. lia. Qed.
Lemma labels_range l : In l labels -> 0 <= l < k.
Proof. intros Hl. apply in_map_iff in Hl as [g [<- Hg]]. apply gs_range in Hg. apply species_range. apply nth_In. rewrite species_length. lia. Qed.
Lemma labels_read i : (i < N)%nat -> char_at (labeling s) (nth i gs 0) = Ok (digit_char (nth i labels 0)).
Proof.
  intros Hi. destruct labs as [-> _]. assert (length gs = N) as Hgl by (rewrite map_length; apply pts_length).
  assert (In (nth i gs 0) gs) as Hg by (apply nth_In; lia). pose proof (gs_range _ Hg) as Hr.
  rewrite <- (Z2Nat.id (nth i gs 0)) by lia. rewrite char_at_digits by (rewrite species_length; lia). f_equal. f_equal.
  rewrite (nth_indep labels 0 (nth (Z.to_nat 0) (species_of c) 0)) by (rewrite map_length; lia). rewrite (map_nth (fun g => nth (Z.to_nat g) (species_of c) 0)). auto.
Qed.
Lemma space_ok : exists sp, map_enumStr (lim H) D bas k (mdet H) H (sL s) (sdiag s) (labeling s) = Ok sp /\ aBas sp = map (position D bas) pts /\ gIndx sp = gs /\
  spin sp = map (spin_of k) labels /\ counts sp = map (number_with labels) (range_up 0 k).
Proof.
  assert (rmap (label_at (labeling s)) gs = Ok labels) as El.
  { apply (labels_all vec k N (labeling s) gs labels (map (position D bas) pts)) with (dirs := repeat (0, 0, 0) N).
    - lia.
    - rewrite map_length. apply pts_length.
    - rewrite !map_length. apply pts_length.
    - apply labels_range.
    - apply labels_read.
    - rewrite map_length. apply pts_length.
    - apply repeat_length. }
  eexists. split; [|split; [|split; [|split]]].
  - unfold map_enumStr, real_space. assert (Z.of_nat (length pts) =? mdet H * Z.of_nat (length bas) = true) as ->.
    { apply Z.eqb_eq. rewrite pts_length. pose proof det_pos. nia. }
    cbn [rbind]. rewrite (occupants_ok k (labeling s) gs labels labels_range El). cbn [rbind]. reflexivity.
  - reflexivity.
  - reflexivity.
  - reflexivity.
  - reflexivity.
Qed.
(** The species counted over the sites and over the labels are the same. *)
Lemma labels_perm : Permutation labels (species_of c).
Proof.
  destruct facts as [B [HL [HB [HS [HP HV]]]]].
  pose proof (g_permutation D bas H (sL s) B (sdiag s) HL HB HS HP HV Hh (lim H) Hfull) as Hp. rewrite HV in Hp.
  eapply Permutation_trans; [apply (Permutation_map (fun g => nth (Z.to_nat g) (species_of c) 0) Hp)|]. rewrite map_map. apply Permutation_refl'.
  rewrite <- species_length. etransitivity; [|apply (map_nth_all (species_of c) 0)]. apply map_ext. intros i. rewrite Nat2Z.id. auto.
Qed.
Lemma number_perm (l l' : list Z) x : Permutation l l' -> number_with l x = number_with l' x.
Proof. intros Hp. unfold number_with. f_equal. induction Hp; cbn; auto; repeat (destruct (x =? _)); cbn; auto; congruence. Qed.

Notation dirs := (map (fun d => nth d poscar_directions (0, 0, 0)) (map (fun x : Z * Z => Z.to_nat (fst x + 1)) w)).
Lemma make_ok param sys_title species rz :
  (forall es, species = Some es -> length es = Z.to_nat k /\ forall e, In e es -> known e) ->
  exists p, make_poscar lim param D bas k sys_title s species rz = Ok p /\
    let removed := match species with Some _ => truthy rz | None => false end in
    let shown := shown_species k (number_with (species_of c)) removed in
    let order := species_order shown (numbers p) in
    zsum (numbers p) = Z.of_nat N /\ length (atoms p) = N /\ length order = N /\ StronglySorted Z.le order /\
    numbers p = map (number_with (species_of c)) shown /\
    Permutation (combine order (atoms p)) (map (fun i => (nth i labels 0, (nth i (map (position D bas) pts) (0, 0, 0), nth i dirs (0, 0, 0)))) (seq 0 N)) /\
    match species with
    | None => title p = (sys_title ++ " str #: " ++ str (strN s) ++ String newline "")%string /\ (parameter p == 1)%Q
    | Some es => titled (map (fun s => nth (Z.to_nat s) es EmptyString) shown) (lstrip (rstrip (sys_title ++ " str #: " ++ str (strN s) ++ String newline ""))) (title p) /\
        forall lo hi : Q, (forall s v, 0 <= s < k -> In s (species_of c) -> element_volume (nth (Z.to_nat s) es EmptyString) = Ok v -> (lo <= param v /\ param v <= hi)%Q) -> (lo <= parameter p /\ parameter p <= hi)%Q
    end.
Proof.
  intros Hsp. destruct space_ok as [sp [Esp [Eb [Eg _]]]].
  destruct (poscar_ok vec k N (labeling s) (directions_of s) gs labels (map (fun x => Z.to_nat (fst x + 1)) w) (map (position D bas) pts) (0, 0, 0)) with (param := param) (sys_title := sys_title)
    (n := mdet H) (nD := length bas) (strN := strN s) (species := species) (rz := rz) as [p [Ep Hp]]; auto.
  - lia.
  - rewrite map_length. apply pts_length.
  - rewrite !map_length. apply pts_length.
  - apply labels_range.
  - apply labels_read.
  - rewrite map_length. apply pts_length.
  - destruct labs as [_ ->]. unfold digits. pose proof w_range as Hw. clear - Hw. induction w as [|[a l] r IH]; [auto|]. cbn [map fold_right]. rewrite IH by (intros; apply Hw; right; auto).
    destruct (Hw a l (or_introl eq_refl)). cbn [fst]. rewrite Z2Nat.id by lia. auto.
  - rewrite map_length. apply w_len.
  - intros d Hd. apply in_map_iff in Hd as [[a l] [<- Hin]]. destruct (w_range a l Hin). cbn. lia.
  - apply N_pos.
  - pose proof det_pos. nia.
  - exists p. split.
    + unfold make_poscar. destruct Hrow as [-> [-> _]]. rewrite Esp. cbn [rbind]. rewrite Eb, Eg. exact Ep.
    + assert (forall x, number_with labels x = number_with (species_of c) x) as En by (intros; apply number_perm; apply labels_perm).
      assert (forall b, shown_species k (number_with labels) b = shown_species k (number_with (species_of c)) b) as Es.
      { intros [|]; unfold shown_species; auto. apply filter_ext. intros x. rewrite En. auto. }
      cbv zeta in *. rewrite Es in Hp. destruct Hp as [P1 [P2 [P3 [P4 [P5 P6]]]]].
      split; auto. split; auto. split; auto. split; auto. split; [|split; auto].
      * revert Ep. unfold write_POSCAR. replace (Z.to_nat (mdet H * Z.of_nat (length bas))) with N by (pose proof det_pos; nia).
        rewrite (gs_all vec N gs labels (map (position D bas) pts)) with (dirs := repeat (0,0,0) N); try (rewrite ?map_length; apply pts_length); [|apply repeat_length]. cbn [rbind].
        rewrite (counts_all vec k N (labeling s) gs labels (map (position D bas) pts)) with (dirs := repeat (0,0,0) N); try (rewrite ?map_length; apply pts_length); try apply labels_range; try apply labels_read; try apply repeat_length; try lia.
        cbn [rbind]. destruct (get_lattice_parameter _ _ _ _ _) as [[lp t]|]; [|discriminate]. cbn [rbind]. destruct (arrow_vectors _ _); [|discriminate]. cbn [rbind].
        destruct (rmap _ _); [|discriminate]. cbn [rbind]. intros E. inversion E; subst p. cbn [numbers]. unfold shown_species.
        assert (map (number_with labels) (range_up 0 k) = map (number_with (species_of c)) (range_up 0 k)) as -> by (apply map_ext; auto).
        destruct species; auto. destruct (truthy rz); auto. rewrite ListFacts.filter_map. auto.
      * destruct species; auto. destruct P6 as [T1 T2]. split; auto. intros lo hi Hb. apply T2. intros x v H1 H2. apply Hb; auto. eapply Permutation_in; [apply labels_perm|]. auto.
Qed.
(** The atoms, as a list of points of the crystal. *)
Lemma atoms_sites i : (i < N)%nat -> is_site D bas (sL s) (sdiag s) (nth i (map (position D bas) pts) (0, 0, 0)) (Z.to_nat (nth i gs 0)) /\ nth i labels 0 = nth (Z.to_nat (nth i gs 0)) (species_of c) 0.
Proof.
  intros Hi. destruct facts as [B [HL [HB [HS [HP HV]]]]]. pose proof pts_length as Hl.
  set (p0 := nth i pts (0%nat, (0, 0, 0))). assert (In p0 pts) as Hp by (apply nth_In; lia).
  assert (nth i gs 0 = g_index (sL s) (sdiag s) p0) as Eg.
  { unfold p0. rewrite (nth_indep gs 0 (g_index (sL s) (sdiag s) (0%nat, (0, 0, 0)))) by (rewrite map_length; lia). apply map_nth. }
  assert (nth i (map (position D bas) pts) (0, 0, 0) = position D bas p0) as Ep.
  { unfold p0. rewrite (nth_indep _ (0, 0, 0) (position D bas (0%nat, (0, 0, 0)))) by (rewrite map_length; lia). apply map_nth. }
  rewrite Ep. split.
  - rewrite Eg. apply (point_site D bas H (sL s) B (sdiag s) HS HP HV (lim H) p0 Hp).
  - rewrite (nth_indep labels 0 (nth (Z.to_nat 0) (species_of c) 0)) by (rewrite !map_length; lia). rewrite (map_nth (fun g => nth (Z.to_nat g) (species_of c) 0)). auto.
Qed.
Lemma make_shows param sys_title species rz f :
  (forall es, species = Some es -> length es = Z.to_nat k /\ forall e, In e es -> known e) ->
  describes D bas (sL s) (sdiag s) w f ->
  exists p, make_poscar lim param D bas k sys_title s species rz = Ok p /\
    shows_crystal D bas H f (listed_atoms k (species_of c) (match species with Some _ => truthy rz | None => false end) p).
Proof.
  intros Hsp Hf. destruct (make_ok param sys_title species rz Hsp) as [p [E [_ [_ [_ [_ [_ [Hperm _]]]]]]]]. exists p. split; auto.
  unfold listed_atoms. cbv zeta in Hperm. set (l := combine _ _) in *. destruct facts as [B [HL [HB [HS [HP HV]]]]]. split.
  - pose proof (Permutation_map (fun a : Z * (vec * vec) => fst (snd a)) Hperm) as Hm. rewrite map_map in Hm. cbn [fst snd] in Hm.
    assert (map (fun i => nth i (map (position D bas) pts) (0, 0, 0)) (seq 0 N) = map (position D bas) pts) as Em.
    { assert (length (map (position D bas) pts) = N) as <- by (rewrite map_length; apply pts_length). apply map_nth_all. }
    rewrite Em in Hm. eapply transversal_perm; [apply Permutation_sym; exact Hm| |].
    + intros x y [z [Hz ->]]. exists (vscale (-1) z). split; [apply in_lattice_neg; auto|]. destruct x as [[? ?] ?], z as [[? ?] ?]. mat_unfold. f_equal; [f_equal|]; ring.
    + apply (points_transversal D bas H (sL s) B (sdiag s)); auto.
  - intros x0 x v Hin. pose proof (Permutation_in _ Hperm Hin) as Hin'. apply in_map_iff in Hin' as [i [Ei Hi]]. apply in_seq in Hi. apply pair_equal_spec in Ei as [E1 E2]. apply pair_equal_spec in E2 as [E2 _].
    destruct (atoms_sites i ltac:(lia)) as [Hsite Hlab]. rewrite E2 in Hsite. rewrite E1 in Hlab. rewrite (Hf x _ Hsite). rewrite Hlab. unfold species_of.
    assert (Z.to_nat (nth i gs 0%Z) < N)%nat as Hlt by (pose proof (gs_range (nth i gs 0) ltac:(apply nth_In; rewrite map_length, pts_length; lia)); lia).
    rewrite (nth_indep (map (fun x : Z * Z => snd x - 1) w) 0%Z ((fun x : Z * Z => snd x - 1) (-1, 0))) by (rewrite map_length, w_len; auto). rewrite (map_nth (fun x : Z * Z => snd x - 1)). lia.
Qed.
End Make.
