(** What an operation that turns an axis away from all axes does to a run (C66), and catalogues of the same crystals. *)
From Coq Require Import QArith.
From Verif Require DistSummary.
From Verif Require Import TextModel PyBase Spec ListFacts PermFacts TransFacts Mat3 HNFModel HNFProofs ConcsModel LatSpec LatGroupModel LatFacts LatSites LatProofs LatMain LatTop LatGroupThm LatNoDup SNFModel SuperModel StructSpec StructThm.
From Verif Require Import ReduceSpec ReduceModel ReduceGauss OrientSpec PointGroupModel PointGroupSpec PointGroupProofs PointGroupMain RunModel RunProofs RunSpec.
Local Open Scope Z_scope.

(** ** Errors in loops *)
Lemma rmap_err {A B} (f : A -> res B) e l x : In x l -> f x = Err e -> (forall y, In y l -> f y = Err e \/ exists b, f y = Ok b) -> rmap f l = Err e.
Proof.
  intros Hx Ex H. induction l as [|y l IH]; [destruct Hx|]. cbn [rmap]. destruct (H y (or_introl eq_refl)) as [->|[b Eb]]; [reflexivity|]. rewrite Eb. cbn [rbind].
  destruct Hx as [->|Hx]; [rewrite Ex in Eb; discriminate|]. rewrite IH; auto. intros z Hz. apply H. right; auto.
Qed.

(** ** The table of the directions *)
Section Table.
Variable ag : list vec.
Definition table_step (st : list nat * list nat) (x : vec) : list nat * list nat :=
  let '(out, used) := st in
  match find (fun '(jm, y) => negb (existsb (Nat.eqb jm) used) && vec_eqb y x) (combine (seq 0 (length arrowg)) ag) with
  | Some (jm, _) => (out ++ [(jm + 0)%nat], jm :: used)
  | None => (out ++ [0%nat], used)
  end.
Definition table_inv (st : list nat * list nat) : Prop :=
  (length (fst st) <= length (filter (Nat.eqb 0) (fst st)) + length (snd st))%nat /\ NoDup (snd st) /\
  (forall j, In j (snd st) -> exists y, In (j, y) (combine (seq 0 6) ag) /\ In y arrowg).
Lemma table_keeps l st : (forall x, In x l -> In x arrowg) -> table_inv st -> table_inv (fold_left table_step l st) /\ length (fst (fold_left table_step l st)) = (length (fst st) + length l)%nat.
Proof.
  revert st. induction l as [|x l IH]; intros st Hl Hi; [cbn; split; auto|]. cbn [fold_left]. destruct (IH (table_step st x)) as [H1 H2].
  - intros y Hy. apply Hl. right; auto.
  - destruct st as [out used]. destruct Hi as [I1 [I2 I3]]. unfold table_step. cbn [fst snd] in *. destruct (find _ _) as [[j y]|] eqn:E.
    + apply find_some in E. destruct E as [E1 E2]. apply andb_true_iff in E2. destruct E2 as [E2 E3]. apply vec_eqb_spec in E3. subst y. unfold table_inv. cbn [fst snd]. split; [|split].
      * rewrite app_length, filter_app, app_length. cbn [length]. lia.
      * constructor; auto. intros Hj. apply negb_true_iff in E2. assert (existsb (Nat.eqb j) used = true) by (apply existsb_exists; exists j; split; auto; apply Nat.eqb_refl). congruence.
      * intros j' [<-|Hj']; [|auto]. exists x. split; [exact E1|]. apply Hl. left; auto.
    + unfold table_inv. cbn [fst snd]. split; [|split]; auto. rewrite app_length, filter_app, app_length. cbn [length filter Nat.eqb fst snd] in *. lia.
  - split; auto. rewrite H2. assert (length (fst (table_step st x)) = S (length (fst st))) as ->; [|cbn [length]; lia].
    destruct st as [out used]. unfold table_step. destruct (find _ _) as [[j y]|]; cbn [fst]; rewrite app_length; cbn [length]; lia.
Qed.
End Table.
Lemma in_combine_seq {A} (l : list A) j y d : In (j, y) (combine (seq 0 (length l)) l) -> nth j l d = y /\ (j < length l)%nat.
Proof.
  intros H. destruct (In_nth_error _ _ H) as [i Hi]. assert (i < length l)%nat as Hl.
  { assert (i < length (combine (seq 0 (length l)) l))%nat by (apply nth_error_Some; congruence). rewrite combine_length, seq_length in *. lia. }
  pose proof (nth_error_nth _ _ (0%nat, d) Hi) as E. rewrite combine_nth, seq_nth in E by (rewrite ?seq_length; auto). injection E as <- <-. auto.
Qed.
(** A direction whose image is none of the six: its opposite's is none either, so two entries of the table stay 0. *)
Lemma arrow_exit o e : In e arrowg -> ~ In (mvec (transpose (cart o)) e) arrowg -> rotation_arrow_perm o = Err SystemExit.
Proof.
  intros He Hn. unfold rotation_arrow_perm. set (ag := map (mvec (transpose (cart o))) arrowg).
  assert (match_table vec_eqb arrowg ag 0 = fst (fold_left (table_step ag) arrowg ([], []))) as ->.
  { unfold match_table. f_equal. apply DistSummary.fold_left_ext. intros [out used] x. reflexivity. }
  destruct (table_keeps ag arrowg ([], [])) as [[I1 [I2 I3]] HL]; auto.
  { split; [cbn; lia|]. split; [constructor|intros j []]. }
  set (st := fold_left (table_step ag) arrowg ([], [])) in *. clearbody st. cbn [fst length arrowg] in HL.
  assert (exists j j', (j < 6 /\ j' < 6 /\ j <> j')%nat /\ ~ In (nth j ag (0, 0, 0)) arrowg /\ ~ In (nth j' ag (0, 0, 0)) arrowg) as [j [j' [Hjj [N1 N2]]]].
  { set (T := transpose (cart o)) in *. assert (forall u, mvec T (vscale (-1) u) = vscale (-1) (mvec T u)) as Hop by (intros; apply mvec_vscale).
    assert (forall w, In (vscale (-1) w) arrowg -> In w arrowg) as Hneg.
    { intros [[x y] z] H. cbn in H. cbn. repeat (destruct H as [H|H]; [injection H as E1 E2 E3; assert (x = - (- x)) as -> by lia; assert (y = - (- y)) as -> by lia; assert (z = - (- z)) as -> by lia;
        (try replace (- x) with 0 by lia); (try replace (- x) with 1 by lia); (try replace (- x) with (-1) by lia); (try replace (- y) with 0 by lia); (try replace (- y) with 1 by lia); (try replace (- y) with (-1) by lia); (try replace (- z) with 0 by lia); (try replace (- z) with 1 by lia); (try replace (- z) with (-1) by lia); cbn; tauto|]); destruct H. }
    assert (forall i, (i < 6)%nat -> nth i ag (0, 0, 0) = mvec T (nth i arrowg (0, 0, 0))) as Hnth by (intros i Hi; unfold ag; rewrite nth_map_lt with (d := (0, 0, 0)); auto).
    destruct (In_nth _ _ (0, 0, 0) He) as [i [Hi Ei]]. change (length arrowg) with 6%nat in Hi.
    assert (exists i', (i' < 6)%nat /\ i <> i' /\ vscale (-1) (nth i' arrowg (0, 0, 0)) = nth i arrowg (0, 0, 0)) as [i' [Hi' [Hne Eo]]].
    { destruct i as [|[|[|[|[|[|]]]]]]; try lia; [exists 1%nat|exists 0%nat|exists 3%nat|exists 2%nat|exists 5%nat|exists 4%nat]; (split; [lia|]); (split; [lia|reflexivity]). }
    exists i, i'. split; [lia|]. rewrite !Hnth by auto. rewrite <- Ei in Hn. split; [exact Hn|]. intros H. apply Hn.
    assert (mvec T (nth i arrowg (0, 0, 0)) = vscale (-1) (mvec T (nth i' arrowg (0, 0, 0)))) as Em by (etransitivity; [apply f_equal; symmetry; exact Eo|apply Hop]).
    apply Hneg. refine (eq_ind _ (fun w => In (vscale (-1) w) arrowg) _ _ (eq_sym Em)).
    replace (vscale (-1) (vscale (-1) (mvec T (nth i' arrowg (0, 0, 0))))) with (mvec T (nth i' arrowg (0, 0, 0))); auto. generalize (mvec T (nth i' arrowg (0, 0, 0))). vec_ring. }
  assert (length (snd st) <= 4)%nat as Hle.
  { assert (incl (snd st ++ [j; j']) (seq 0 6)) as Hincl.
    { intros x Hx. apply in_app_or in Hx. apply in_seq. destruct Hx as [Hx|[<-|[<-|[]]]]; [|lia|lia]. destruct (I3 x Hx) as [y [Hy _]]. change 6%nat with (length ag) in Hy. apply (in_combine_seq ag x y (0, 0, 0)) in Hy. change (length ag) with 6%nat in Hy. lia. }
    assert (forall x, In x (snd st) -> In (nth x ag (0, 0, 0)) arrowg) as Hin.
    { intros x Hx. destruct (I3 x Hx) as [y [Hy Hy']]. change 6%nat with (length ag) in Hy. apply (in_combine_seq ag x y (0, 0, 0)) in Hy. destruct Hy as [-> _]. auto. }
    assert (NoDup (snd st ++ [j; j'])) as Hnd.
    { apply NoDup_app_intro; auto; [repeat constructor; cbn; lia|]. intros x Hx [<-|[<-|[]]]; auto. }
    pose proof (NoDup_incl_length Hnd Hincl) as Hlen. rewrite app_length, seq_length in Hlen. cbn [length] in Hlen. lia. }
  destruct (Nat.ltb_spec 1 (length (filter (Nat.eqb 0) (fst st)))); auto. lia.
Qed.
Lemma arrow_perm_or o : rotation_arrow_perm o = Err SystemExit \/ exists a, rotation_arrow_perm o = Ok a.
Proof. unfold rotation_arrow_perm. destruct (Nat.ltb _ _); eauto. Qed.

(** ** One size *)
Lemma origin_dvector D o : 0 < D -> shift o = (0, 0, 0) -> get_dvector_permutation D [(0, 0, 0)] o = Ok ([(0, 0, 0)], [0%nat]).
Proof.
  intros HD E. unfold get_dvector_permutation. cbn [map]. rewrite E, mvec_0. change (vadd (0, 0, 0) (0, 0, 0)) with ((0, 0, 0) : vec).
  assert (into_cell D (0, 0, 0) = (0, 0, 0)) as -> by (unfold into_cell, vmod; rewrite Z.mod_0_l by lia; auto). reflexivity.
Qed.
Section Exit.
Variables (pg : list (mat * mat)) (D : Z).
Hypothesis HD : 0 < D.
Hypothesis Huni : forall C R, In (C, R) pg -> unimodular C.
Notation bas := [(0, 0, 0)].
Notation ops := (map (fun '(C, R) => {| rot := C; cart := R; shift := (0, 0, 0) |}) pg).
Lemma into_origin : map (into_cell D) bas = bas.
Proof. cbn [map]. unfold into_cell, vmod. rewrite Z.mod_0_l by lia. auto. Qed.
Lemma space_origin : get_spaceGroup pg D bas = ops.
Proof. apply (origin_ops pg D HD). Qed.
Lemma dvectors : get_dvector_permutations D bas ops = Ok (map (fun _ => ([(0, 0, 0)], [0%nat])) ops).
Proof.
  unfold get_dvector_permutations. assert (forall o, In o ops -> shift o = (0, 0, 0)) as Hs.
  { intros o Ho. apply in_map_iff in Ho. destruct Ho as [[C R] [<- _]]. auto. }
  induction (map _ pg) as [|o l IH] in Hs |- *; [reflexivity|]. cbn [rmap map]. rewrite origin_dvector by (auto; apply Hs; cbn; auto). cbn [rbind]. rewrite IH by (intros; apply Hs; cbn; auto). reflexivity.
Qed.
(** An operation of the point group that keeps the supercell and turns a direction away from all six ends the program. *)
Lemma sym_group_exit H arrows C R e : 1 <= mdet H <= 10 ^ 5 -> In (C, R) pg -> same_lattice (mmul C H) H -> In e arrowg -> ~ In (mvec (transpose R) e) arrowg ->
  sym_group pg D bas H arrows = Err SystemExit.
Proof.
  intros Hd Hin Hfix He Hn. destruct (snf_facts H Hd) as [M [L [B [E _]]]]. unfold sym_group. rewrite E. cbn [rbind].
  unfold get_sym_group. rewrite into_origin, space_origin, dvectors. cbn [rbind]. unfold get_rotation_perms_list. destruct (diag_of M) as [[a b] c].
  assert (forall r, In r (map rot ops) -> unimodular r) as Hu by (intros r Hr; rewrite map_map in Hr; apply in_map_iff in Hr; destruct Hr as [[C' R'] [<- Hr]]; eapply Huni; eauto).
  destruct (In_nth_error _ _ Hin) as [i Ei].
  assert (nth_error ops i = Some {| rot := C; cart := R; shift := (0, 0, 0) |}) as Eo by (rewrite nth_error_map, Ei; reflexivity).
  assert (i < length ops)%nat as Hi by (apply nth_error_Some; congruence).
  rewrite (rmap_err _ SystemExit _ i); [reflexivity| | |].
  - apply (fixing_indices (map rot ops) Hu H ltac:(lia)). rewrite map_length. split; [lia|]. erewrite nth_error_nth; [exact Hfix|]. apply map_nth_error with (f := rot) in Eo. exact Eo.
  - unfold get. rewrite Eo, nth_error_map, Eo. cbn [rbind option_map]. rewrite (arrow_exit _ e); auto.
  - intros k Hk. apply (fixing_indices (map rot ops) Hu H ltac:(lia)) in Hk. rewrite map_length in Hk. destruct Hk as [Hk _].
    destruct (nth_error ops k) as [o|] eqn:Ek; [|apply nth_error_None in Ek; lia]. unfold get. rewrite Ek, nth_error_map, Ek. cbn [rbind option_map].
    destruct (arrow_perm_or o) as [->|[ap ->]]; cbn [rbind]; eauto.
Qed.
Lemma HNFs_1 : get_HNFs pg D bas 1 = Ok [mid].
Proof. unfold get_HNFs. rewrite into_origin, space_origin, dvectors. reflexivity. Qed.
Lemma polya_exit v fuel su cs C R e : s_pg su = pg -> s_D su = D -> s_bas su = bas -> s_lo su = 1 -> 1 <= s_hi su ->
  get_concs_for_size fuel 1 (s_species su) (s_restricted su) 1 (s_concs su) = Ok cs ->
  In (C, R) pg -> In e arrowg -> ~ In (mvec (transpose R) e) arrowg -> polya_out v fuel su = Err SystemExit.
Proof.
  intros E1 E2 E3 E4 E5 Ec Hin He Hn. unfold polya_out. rewrite E4. unfold range_up. replace (Z.to_nat (s_hi su + 1 - 1)) with (S (Z.to_nat (s_hi su - 1))) by lia. cbn [seq map rmap].
  change (1 + Z.of_nat 0) with 1. unfold polya_of_size. rewrite E1, E2, E3, HNFs_1. cbn [rbind length]. change (Z.of_nat 1) with 1. rewrite Ec. cbn [rbind rmap].
  rewrite (sym_group_exit mid true C R e); auto; [change (mdet mid) with 1; lia|]. rewrite mmul_id_r. intros w. split; intros [k Hk].
  - exists (mvec C k). rewrite Hk, mvec_id. auto.
  - exists (mvec (minv C) k). rewrite <- mvec_mmul, minv_r by eauto. auto.
Qed.
End Exit.

(** ** Rounding *)
Lemma mround_close M k i j : k <> 0 -> (i < 3)%nat -> (j < 3)%nat -> 2 * Z.abs (mget M i j - k * mget (mround M k) i j) <= Z.abs k.
Proof.
  intros Hk Hi Hj. assert (forall x, 2 * Z.abs (x - k * round_even (Z.sgn k * x) (Z.abs k)) <= Z.abs k) as E.
  { intros x. pose proof (round_even_bound (Z.sgn k * x) (Z.abs k) ltac:(lia)) as B. set (r := round_even _ _) in *. clearbody r.
    destruct (Z.lt_trichotomy k 0) as [L|[L|L]]; [|lia|].
    - rewrite Z.sgn_neg, (Z.abs_neq k) in * by lia. lia.
    - rewrite Z.sgn_pos, (Z.abs_eq k) in * by lia. lia. }
  destruct M as [[[[a b] c] [[d e] f]] [[g h] t]]. unfold mround. destruct i as [|[|[|]]], j as [|[|[|]]]; try lia; apply E.
Qed.
Lemma far_rounded M k e : k <> 0 -> In e directions -> far_from_axes k (row_times e M) -> ~ In (mvec (transpose (mround M k)) e) directions.
Proof.
  intros Hk He Hf Hin. destruct (Hf _ Hin) as [j [Hj Hl]].
  assert (exists i s, (i < 3)%nat /\ (s = 1 \/ s = -1) /\ forall N, vget (mvec (transpose N) e) j = s * mget N i j) as [i [s [Hi [Hs E]]]].
  { assert (forall N : mat, N = (mrow N 0, mrow N 1, mrow N 2)) as EN by (intros [[? ?] ?]; reflexivity).
    destruct He as [<-|[<-|[<-|[<-|[<-|[<-|[]]]]]]]; [exists 0%nat, 1|exists 0%nat, (-1)|exists 1%nat, 1|exists 1%nat, (-1)|exists 2%nat, 1|exists 2%nat, (-1)]; (split; [lia|]); (split; [lia|]);
      intros [[[[a b] c] [[d e] f]] [[g h] t]]; destruct j as [|[|[|]]]; try lia; cbv [transpose mvec vdot vget mget mrow]; ring. }
  unfold row_times in Hl. rewrite !E in Hl. pose proof (mround_close M k i j Hk Hi Hj) as B. destruct Hs as [-> | ->]; lia.
Qed.

(** ** Catalogues of the same crystals are equally long *)
Lemma pigeon {V W} (Rel : V -> W -> Prop) l1 l2 : (forall v, In v l1 -> exists w, In w l2 /\ Rel v w) ->
  ForallOrdPairs (fun v v' => forall w, Rel v w -> Rel v' w -> False) l1 -> (length l1 <= length l2)%nat.
Proof.
  revert l2. induction l1 as [|v l1 IH]; intros l2 H HF; [cbn; lia|]. inversion HF as [|? ? Hv HF']; subst.
  destruct (H v (or_introl eq_refl)) as [w [Hw Hr]]. destruct (in_split _ _ Hw) as [a [b ->]].
  assert (length l1 <= length (a ++ b))%nat.
  { apply IH; auto. intros v' Hv'. destruct (H v' (or_intror Hv')) as [w' [Hw' Hr']]. exists w'. split; auto. rewrite in_app_iff in *. cbn in Hw'. destruct Hw' as [Hw'|[<-|Hw']]; auto.
    exfalso. rewrite Forall_forall in Hv. exact (Hv v' Hv' w Hr Hr'). }
  rewrite app_length in *. cbn [length]. lia.
Qed.
Section Catalogues.
Variables (all : decoration -> Prop) (same : decoration -> decoration -> Prop).
Hypothesis Hsym : forall f g, all f -> all g -> same f g -> same g f.
Hypothesis Htr : forall f g h, all f -> all g -> all h -> same f g -> same g h -> same f h.
Lemma catalogue_shorter {V W} (m1 : V -> decoration -> Prop) (m2 : W -> decoration -> Prop) l1 l2 :
  (forall w f g, In w l2 -> m2 w f -> m2 w g -> same f g) ->
  catalogue all same m1 l1 -> catalogue all same m2 l2 -> (length l1 <= length l2)%nat.
Proof.
  intros Hfun [A1 [A2 [A3 A4]]] [B1 [B2 [B3 B4]]].
  apply (pigeon (fun v w => In v l1 /\ In w l2 /\ exists f g, m1 v f /\ m2 w g /\ same f g)).
  - intros v Hv. destruct (A1 v Hv) as [f Hf]. destruct (B3 f (A2 v f Hv Hf)) as [w [g [Hw [Hg Hs]]]]. exists w. split; auto. split; auto. split; auto. exists f, g. auto.
  - eapply FOP_impl; [|exact A4]. cbv beta. intros v v' _ _ Hvv w [Hv [Hw [f [g [Hf [Hg Hs]]]]]] [Hv' [_ [f' [g' [Hf' [Hg' Hs']]]]]].
    apply (Hvv f f' Hf Hf'). apply (Htr f g f'); eauto. apply (Htr g g' f'); eauto.
Qed.
End Catalogues.
(** What a row means is determined by it, up to points outside the crystal. *)
Lemma describes_fun D bas L diag w (all : decoration -> Prop) f g :
  (forall h, describes D bas L diag w h -> all h) -> (forall h x, all h -> crystal_point D bas x -> fst (h x) = -1) ->
  describes D bas L diag w f -> describes D bas L diag w g -> forall x, crystal_point D bas x -> f x = g x.
Proof.
  intros Ha Hn Hf Hg x Hx. destruct (f x) as [a b] eqn:Ef, (g x) as [c d] eqn:Eg. destruct (Z.eq_dec a c) as [<-|N]; [destruct (Z.eq_dec b d) as [<-|N]; auto|].
  all: exfalso; set (h := fun y => if vec_eqb y x then (7, 7) else f y); assert (describes D bas L diag w h) as Hh.
  1, 3: intros y i Hi; unfold h; destruct (vec_eqb y x) eqn:E; [|apply Hf; auto]; apply vec_eqb_spec in E; subst y; exfalso; pose proof (Hf x i Hi) as E1; pose proof (Hg x i Hi) as E2; rewrite Ef in E1; rewrite Eg in E2; congruence.
  all: pose proof (Hn h x (Ha h Hh) Hx) as E; unfold h in E; replace (vec_eqb x x) with true in E by (symmetry; apply vec_eqb_spec; auto); discriminate.
Qed.
(** Congruence is an equivalence. *)
Lemma keeps_comp A C C' : keeps_lengths A C -> keeps_lengths A C' -> keeps_lengths A (mmul C C').
Proof. intros H H' x. rewrite mvec_mmul, H, H'. auto. Qed.
Lemma keeps_inverse A C : unimodular C -> keeps_lengths A C -> keeps_lengths A (minv C).
Proof. intros U H x. rewrite <- (H (mvec (minv C) x)), <- (mvec_mmul C (minv C)), minv_r, mvec_id by auto. auto. Qed.
Lemma congruent_crystals_agree A D bas f g : (forall x, crystal_point D bas x -> f x = g x) -> congruent_crystals A D bas f g.
Proof. intros H. exists mid, (0, 0, 0). split; [intros x; rewrite mvec_id; auto|]. split; [apply symmetry_id|]. intros x Hx. rewrite affine_id. symmetry. auto. Qed.
Lemma congruent_crystals_sym A D bas f g : mdet A <> 0 -> congruent_crystals A D bas f g -> congruent_crystals A D bas g f.
Proof.
  intros Hd [C [s [HC [Hs Hf]]]]. pose proof (keeps_unimodular A C Hd HC) as U. set (t := mvec (minv C) (vscale (-1) s)).
  assert (forall x, affine C s (affine (minv C) t x) = x) as Ei.
  { intros x. unfold affine, t. rewrite !mvec_vadd, <- !mvec_mmul, minv_r, !mvec_id by auto. vec_ring. }
  exists (minv C), t. split; [apply keeps_inverse; auto|]. split; [intros x; rewrite (Hs (affine (minv C) t x)), Ei; tauto|].
  intros x Hx. rewrite <- (Hf (affine (minv C) t x)); [rewrite Ei; auto|]. apply Hs. rewrite Ei. auto.
Qed.
Lemma congruent_crystals_trans A D bas f g h : congruent_crystals A D bas f g -> congruent_crystals A D bas g h -> congruent_crystals A D bas f h.
Proof.
  intros [C [s [HC [Hs Hf]]]] [C' [s' [HC' [Hs' Hg]]]]. exists (mmul C' C), (affine C' s' s). split; [apply keeps_comp; auto|]. split; [apply symmetry_comp; auto|].
  intros x Hx. replace (affine (mmul C' C) (affine C' s' s) x) with (affine C' s' (affine C s x)).
  - rewrite Hg; [apply Hf; exact Hx|]. apply (proj1 (Hs x)). exact Hx.
  - unfold affine. rewrite mvec_mmul, mvec_vadd. generalize (mvec C' (mvec C x)) (mvec C' s). vec_ring.
Qed.
(** Turned lattices have the same isometries. *)
Lemma turned_keeps A A' C : turned A A' -> keeps_lengths A C <-> keeps_lengths A' C.
Proof.
  intros T. assert (forall x, len2 (mvec (transpose A') x) = len2 (mvec (transpose A) x)) as E.
  { intros [[x y] z]. pose proof (T x y z) as H. rewrite <- !row_times_comb3 in H. exact H. }
  split; intros H x; [rewrite !E|rewrite <- !E]; auto.
Qed.
