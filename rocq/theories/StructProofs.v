(** Decorations of the crystal and the lists that describe them. *)
From Coq Require Import Permutation.
From Verif Require Import PyBase Spec ListFacts PermFacts TransFacts Mat3 HNFModel LatSpec LatGroupModel LatFacts LatSites LatProofs LatMain LatTop LatGroupThm StructSpec.
Local Open Scope Z_scope.

(** ** Two transversals have the same image under a function that is constant on the classes *)
Lemma transversal_image {X Y} (all : X -> Prop) (eqv : X -> X -> Prop) (f : X -> Y) :
  (forall x y, all x -> all y -> eqv x y -> eqv y x) ->
  (forall x y z, all x -> all y -> all z -> eqv x y -> eqv y z -> eqv x z) ->
  (forall x y, all x -> all y -> eqv x y -> f x = f y) ->
  forall l1 l2, transversal all eqv l1 -> transversal all eqv l2 -> Permutation (map f l1) (map f l2).
Proof.
  intros Hs Ht Hf.
  assert (forall l1 l2, (forall x, In x l1 -> all x) -> (forall x, In x l2 -> all x) ->
    (forall x, In x l1 -> exists y, In y l2 /\ eqv x y) -> (forall x, In x l2 -> exists y, In y l1 /\ eqv x y) ->
    ForallOrdPairs (fun r s => ~ eqv r s) l1 -> ForallOrdPairs (fun r s => ~ eqv r s) l2 -> Permutation (map f l1) (map f l2)) as Main.
  { induction l1 as [|x l1 IH]; intros l2 A1 A2 B1 B2 N1 N2.
    - destruct l2 as [|y l2]; auto. destruct (B2 y) as [z [[] _]]; cbn; auto.
    - destruct (B1 x) as [y [Hy Exy]]; [cbn; auto|]. assert (all x) as Hx by (apply A1; cbn; auto).
      assert (all y) as Hay by (apply A2; auto). inversion N1 as [|? ? N1a N1b]; subst. rewrite Forall_forall in N1a.
      destruct (in_split _ _ Hy) as [m1 [m2 ->]]. rewrite map_app. cbn [map].
      rewrite <- Permutation_middle. rewrite (Hf x y) by auto. constructor. rewrite <- map_app.
      apply FOP_app in N2. destruct N2 as [P1 [P2 P3]]. inversion P2 as [|? ? P2a P2b]; subst. rewrite Forall_forall in P2a.
      assert (forall z, In z (m1 ++ m2) -> all z) as A2' by (intros z Hz; apply A2; apply in_app_or in Hz; apply in_or_app; cbn; tauto).
      assert (forall z, In z (m1 ++ m2) -> ~ eqv z y) as Hny.
      { intros z Hz E. apply in_app_or in Hz. destruct Hz as [Hz|Hz].
        - apply (P3 z y Hz); cbn; auto.
        - apply (P2a z Hz). apply Hs; auto. apply A2'. apply in_or_app; auto. }
      apply IH.
      + intros; apply A1; cbn; auto.
      + auto.
      + intros z Hz. assert (all z) as Haz by (apply A1; cbn; auto). destruct (B1 z) as [u [Hu Ezu]]; [cbn; auto|]. exists u. split; auto.
        apply in_app_or in Hu. apply in_or_app. destruct Hu as [Hu|[<-|Hu]]; auto. exfalso. apply (N1a z Hz). apply (Ht x y z); auto.
      + intros z Hz. destruct (B2 z) as [u [[<-|Hu] Ezu]]; [apply in_app_or in Hz; apply in_or_app; cbn; tauto| |eauto].
        exfalso. apply (Hny z Hz). apply (Ht z x y); auto.
      + auto.
      + apply FOP_app. split; auto. split; auto. intros a b Ha Hb. apply P3; cbn; auto. }
  intros l1 l2 [A1 [B1 N1]] [A2 [B2 N2]]. apply Main; auto.
Qed.

(** ** Lists by pointwise existence *)
Lemma list_choice {A} (P : nat -> A -> Prop) (d : A) N : (forall j, (j < N)%nat -> exists a, P j a) ->
  exists l, length l = N /\ forall j, (j < N)%nat -> P j (nth j l d).
Proof.
  induction N as [|N IH]; intros HP.
  - exists []. split; auto. intros; lia.
  - destruct IH as [l [Hl Hn]]; [intros; apply HP; lia|]. destruct (HP N) as [a Ha]; [lia|]. exists (l ++ [a]). rewrite app_length. cbn. split; [lia|].
    intros j Hj. destruct (Nat.eq_dec j N) as [->|Hne].
    + rewrite app_nth2, Hl, Nat.sub_diag by lia. auto.
    + rewrite app_nth1 by lia. apply Hn. lia.
Qed.

Lemma directions_nth_inj i j : (i < 6)%nat -> (j < 6)%nat -> nth i directions (0, 0, 0) = nth j directions (0, 0, 0) -> i = j.
Proof. intros Hi Hj. apply (proj1 (NoDup_nth arrowg (0, 0, 0)) arrowg_nodup); auto. Qed.
Lemma turns_exists R : orthogonal R -> exists a, turns R a.
Proof.
  intros HR. destruct (arrow_perm_ok {| rot := mid; cart := R; shift := (0, 0, 0) |}) as [a [_ Ha]]; [exact HR|]. exists a. exact Ha.
Qed.
(** Being rotated is being turned by the permutation of the directions. *)
Lemma rotated_turn R a s t : turns R a -> fst s < 6 -> fst t < 6 -> rotated R s t <-> t = turn a s.
Proof.
  intros [[A1 [_ A2]] A3] Hs Ht. unfold rotated, turn. destruct s as [k c], t as [l e]. cbn [fst snd] in *. unfold has_arrow. cbn [fst].
  destruct (Z.leb_spec 0 k).
  - assert (nth (Z.to_nat k) a 0 < 6)%nat as Hb by (apply A2, nth_In; lia). rewrite <- A3 by lia. split.
    + intros [-> [Hl E]]. apply Z.leb_le in Hl. apply directions_nth_inj in E; [|lia|auto]. rewrite <- E. f_equal. lia.
    + intros E. inversion E. subst. split; auto. rewrite Nat2Z.id. split; auto. apply Z.leb_le. lia.
  - split; [intros [-> ->]; auto|]. intros E. inversion E; auto.
Qed.
Lemma rotated_plain R s t : fst s = -1 -> rotated R s t <-> t = s.
Proof.
  intros Hs. unfold rotated, has_arrow. destruct s as [k c], t as [l e]. cbn [fst snd] in *. subst k. cbn. split; [intros [-> ->]; auto|]. intros E. inversion E; auto.
Qed.

Section Struct.
Variables (D : Z) (bas : list vec) (H L B : mat) (diag : vec).
Hypothesis HD : 0 < D.
Hypothesis Hred : forall d, In d bas -> reduced (D, D, D) d.
Hypothesis Hnd : NoDup bas.
Hypothesis HL : unimodular L.
Hypothesis HB : unimodular B.
Hypothesis Hsnf : mmul (mmul L H) B = diagonal diag.
Hypothesis Hpos : positive diag.
Notation n := (Z.to_nat (volume diag)).
Notation N := (length bas * n)%nat.
Notation site := (is_site D bas L diag).
Notation point := (crystal_point D bas).
Notation same_site := (fun x y => exists k, in_lattice H k /\ y = vadd x (vscale D k)).
Notation describes := (describes D bas L diag).

(** One point for every site. *)
Lemma site_points : exists pts : list vec, length pts = N /\ (forall i, (i < N)%nat -> site (nth i pts (0, 0, 0)) i) /\ transversal point same_site pts.
Proof.
  destruct (list_choice (A := vec) (fun i x => site x i) (0, 0, 0) N) as [pts [Hl Hp]].
  { intros i Hi. apply (site_onto D bas L diag HL Hpos i Hi). }
  exists pts. split; auto. split; auto. split; [|split].
  - intros x Hx. apply In_nth with (d := (0, 0, 0)) in Hx. destruct Hx as [i [Hi <-]]. apply (site_point D bas L diag Hpos) with (i := i). apply Hp. lia.
  - intros x Hx. destruct (site_exists D bas L diag Hpos x Hx) as [i [Hi Hs]]. exists (nth i pts (0, 0, 0)). split; [apply nth_In; lia|].
    apply (site_same D bas H L B diag HL HB Hsnf Hpos x _ i Hs). apply Hp; auto.
  - assert (forall a (l : list vec), (forall i, (i < length l)%nat -> site (nth i l (0, 0, 0)) (a + i)) -> ForallOrdPairs (fun r s => ~ same_site r s) l) as Hord.
    { intros a l. revert a. induction l as [|x l IH]; intros a Hx; constructor.
      - apply Forall_forall. intros y Hy E. apply In_nth with (d := (0, 0, 0)) in Hy. destruct Hy as [j [Hj <-]].
        pose proof (Hx 0%nat ltac:(cbn; lia)) as H0. pose proof (Hx (S j) ltac:(cbn; lia)) as H1. cbn [nth] in H0, H1.
        apply (site_same D bas H L B diag HL HB Hsnf Hpos x _ _ H0) in E.
        pose proof (site_fun D bas L diag HD Hred Hnd Hpos _ _ _ E H1). lia.
      - apply (IH (S a)). intros i Hi. replace (S a + i)%nat with (a + S i)%nat by lia. apply (Hx (S i)). cbn. lia. }
    apply (Hord 0%nat). intros i Hi. cbn. apply Hp. lia.
Qed.

Lemma same_site_point x k : point x -> point (vadd x (vscale D k)).
Proof. intros [d [z [Hd ->]]]. exists d, (vadd z k). split; auto. rewrite vscale_vadd. vec_ring. Qed.
Lemma contents_unique f c c' : periodic D bas H f -> contents D bas H f c -> contents D bas H f c' -> Permutation c c'.
Proof.
  intros Hf [p [Tp Pp]] [q [Tq Pq]]. rewrite <- Pp, <- Pq. eapply transversal_image; [| | |exact Tp|exact Tq].
  - intros x y _ _ [k [Hk ->]]. exists (vsub (0, 0, 0) k). split; [apply lattice_sub; auto; apply lattice_0|]. rewrite vscale_vsub. vec_ring.
  - intros x y z _ _ _ [k [Hk ->]] [m [Hm ->]]. exists (vadd k m). split; [apply lattice_add; auto|]. rewrite vscale_vadd. vec_ring.
  - intros x y Hx _ [k [Hk ->]]. symmetry. apply Hf; auto.
Qed.

(** A list describes a decoration that repeats with the superlattice and contains what the list says. *)
Lemma describes_periodic w f : describes w f -> periodic D bas H f.
Proof.
  intros Hw k Hk x Hx. destruct (site_exists D bas L diag Hpos x Hx) as [i [_ Hs]].
  rewrite (Hw x i Hs). apply Hw. apply (site_same D bas H L B diag HL HB Hsnf Hpos x _ i Hs). eauto.
Qed.
Lemma describes_contents w f : length w = N -> describes w f -> contents D bas H f w.
Proof.
  intros Hl Hw. destruct site_points as [pts [Hp1 [Hp2 Hp3]]]. exists pts. split; auto.
  replace (map f pts) with w; auto. apply nth_ext_len with (d := (-1, 0)); [rewrite map_length; lia|].
  intros i Hi. rewrite nth_map_lt with (d := ((0, 0, 0) : vec)) by (unfold vec in *; lia). symmetry. apply Hw, Hp2. unfold vec in *; lia.
Qed.
(** Conversely every such decoration is described by a list ... *)
Lemma described f : periodic D bas H f -> exists w, length w = N /\ describes w f.
Proof.
  intros Hf. destruct site_points as [pts [Hp1 [Hp2 Hp3]]]. exists (map f pts). split; [rewrite map_length; auto|].
  intros x i Hs. assert (i < N)%nat as Hi by (eapply site_lt; eauto). rewrite nth_map_lt with (d := ((0, 0, 0) : vec)) by (unfold vec in *; lia).
  pose proof (proj1 (site_same D bas H L B diag HL HB Hsnf Hpos _ x i (Hp2 i Hi)) Hs) as [k [Hk ->]].
  apply (Hf k Hk). eapply site_point; eauto.
Qed.
(** ... and every list describes one. *)
Definition index_in (x : vec) (l : list vec) : nat :=
  match find (fun i => vec_eqb (nth i l (0, 0, 0)) x) (seq 0 (length l)) with Some i => i | None => 0%nat end.
Definition decode (w : list (Z * Z)) (x : vec) : Z * Z :=
  let iD := index_in (into_cell D x) bas in
  nth (si L diag iD (vdiv (vsub x (nth iD bas (0, 0, 0))) D)) w (-1, 0).
Lemma index_in_nth i l : NoDup l -> (i < length l)%nat -> index_in (nth i l (0, 0, 0)) l = i.
Proof.
  intros Hn Hi. unfold index_in. destruct (find _ _) as [j|] eqn:E.
  - apply find_some in E. destruct E as [Hj E]. apply vec_eqb_spec in E. apply in_seq in Hj.
    apply (proj1 (NoDup_nth l (0, 0, 0)) Hn); auto; unfold vec in *; lia.
  - exfalso. apply find_none with (x := i) in E; [|apply in_seq; unfold vec in *; lia]. rewrite (proj2 (vec_eqb_spec _ _) eq_refl) in E. discriminate.
Qed.
Lemma describes_decode w : describes w (decode w).
Proof.
  intros x i Hs. apply (site_iff D bas L diag Hpos) in Hs. destruct Hs as [iD [z [Hi [-> ->]]]]. unfold decode, pt.
  set (d := nth iD bas (0, 0, 0)). assert (In d bas) as Hd by (apply nth_In; auto).
  assert (into_cell D (vadd d (vscale D z)) = d) as ->.
  { rewrite <- (into_cell_id D d HD) at 2 by auto. apply into_cell_eq; auto. eauto. }
  unfold d. rewrite index_in_nth by auto. fold d. replace (vsub (vadd d (vscale D z)) d) with (vscale D z) by vec_ring.
  rewrite vdiv_vscale by lia. auto.
Qed.

(** ** Symmetry operations *)
Lemma induces_exists C s : unimodular C -> fixes H C -> crystal_symmetry D bas C s -> exists p, induces D bas L diag (affine C s) p.
Proof.
  intros HC HF Hs.
  destruct (list_choice (fun j i => exists x, site x i /\ site (affine C s x) j) 0%nat N) as [p [Hl Hp]].
  { intros j Hj. destruct (site_onto D bas L diag HL Hpos j Hj) as [y Hy].
    destruct (symmetry_onto D bas C s y HC Hs) as [x [Hx <-]]; [eapply site_point; eauto|].
    destruct (site_exists D bas L diag Hpos x Hx) as [i [_ Hi]]. eauto. }
  exists p. split; auto. intros x i j Hx Hj. assert (j < N)%nat as Hjl by (eapply site_lt; eauto).
  destruct (Hp j Hjl) as [x0 [Hx0 Hj0]]. destruct (proj1 (site_same D bas H L B diag HL HB Hsnf Hpos _ _ _ Hj0) Hj) as [k [Hk E]].
  set (m := mvec (minv C) k). assert (x = vadd x0 (vscale D m)) as Ex.
  { apply (f_equal (fun y => mvec (minv C) (vsub y s))) in E. unfold affine in E.
    replace (vsub (vadd (mvec C x) s) s) with (mvec C x) in E by (generalize (mvec C x); vec_ring).
    replace (vsub (vadd (vadd (mvec C x0) s) (vscale D k)) s) with (vadd (mvec C x0) (vscale D k)) in E by (generalize (mvec C x0); vec_ring).
    rewrite minv_vec_l, mvec_vadd, minv_vec_l, mvec_vscale in E by auto. exact E. }
  assert (in_lattice H m) as Hm. { apply (fixes_lattice_inv H C); auto. unfold m. rewrite minv_vec_r; auto. }
  assert (site x (nth j p 0%nat)) as Hx' by (apply (site_same D bas H L B diag HL HB Hsnf Hpos _ _ _ Hx0); eauto).
  eapply site_fun; eauto.
Qed.
(** A symmetry operation makes f' of f exactly when its permutations make the one list of the other. *)
Lemma carries_act C R s p a w w' f f' : unimodular C -> crystal_symmetry D bas C s ->
  induces D bas L diag (affine C s) p -> turns R a -> length w = N -> length w' = N -> describes w f -> describes w' f' ->
  directions_below 6 w -> directions_below 6 w' ->
  carries D bas C R s f f' <-> w' = act_op (p, a) w.
Proof.
  intros HC Hs [Hpl Hp] Ha Hl Hl' Hf Hf' Hb Hb'.
  assert (forall x i j, site x i -> site (affine C s x) j -> rotated R (f x) (f' (affine C s x)) <-> nth j w' (-1, 0) = nth j (act_op (p, a) w) (-1, 0)) as Key.
  { intros x i j Hi Hj. rewrite (Hf x i Hi), (Hf' _ j Hj). assert (i < N)%nat by (eapply site_lt; eauto). assert (j < N)%nat by (eapply site_lt; eauto).
    rewrite (rotated_turn R a) by first [assumption|apply Hb, nth_In; lia|apply Hb', nth_In; lia].
    unfold act_op, act. cbn [fst snd]. rewrite map_map. rewrite nth_map_lt with (d := 0%nat) by lia. rewrite (Hp x i j) by auto. tauto. }
  split.
  - intros Hc. apply nth_ext_len with (d := (-1, 0)); [unfold act_op, act; cbn [fst]; rewrite !map_length; lia|]. rewrite Hl'. intros j Hj.
    destruct (site_onto D bas L diag HL Hpos j Hj) as [y Hy]. destruct (symmetry_onto D bas C s y HC Hs) as [x [Hx <-]]; [eapply site_point; eauto|].
    destruct (site_exists D bas L diag Hpos x Hx) as [i [_ Hi]]. apply (Key x i j); auto.
  - intros E x Hx. destruct (site_exists D bas L diag Hpos x Hx) as [i [_ Hi]]. destruct (site_exists D bas L diag Hpos (affine C s x)) as [j [_ Hj]]; [apply (proj1 (Hs x)); exact Hx|].
    apply (Key x i j); auto. congruence.
Qed.
Lemma carries_act_plain C R s p w w' f f' : unimodular C -> crystal_symmetry D bas C s ->
  induces D bas L diag (affine C s) p -> length w = N -> length w' = N -> describes w f -> describes w' f' ->
  (forall c, In c w -> fst c = -1) ->
  carries D bas C R s f f' <-> w' = act (-1, 0) p w.
Proof.
  intros HC Hs [Hpl Hp] Hl Hl' Hf Hf' Hb.
  assert (forall x i j, site x i -> site (affine C s x) j -> rotated R (f x) (f' (affine C s x)) <-> nth j w' (-1, 0) = nth j (act (-1, 0) p w) (-1, 0)) as Key.
  { intros x i j Hi Hj. rewrite (Hf x i Hi), (Hf' _ j Hj). assert (i < N)%nat by (eapply site_lt; eauto). assert (j < N)%nat by (eapply site_lt; eauto).
    rewrite (rotated_plain R) by (apply Hb, nth_In; lia).
    unfold act. rewrite nth_map_lt with (d := 0%nat) by lia. rewrite (Hp x i j) by auto. tauto. }
  split.
  - intros Hc. apply nth_ext_len with (d := (-1, 0)); [unfold act; rewrite !map_length; lia|]. rewrite Hl'. intros j Hj.
    destruct (site_onto D bas L diag HL Hpos j Hj) as [y Hy]. destruct (symmetry_onto D bas C s y HC Hs) as [x [Hx <-]]; [eapply site_point; eauto|].
    destruct (site_exists D bas L diag Hpos x Hx) as [i [_ Hi]]. apply (Key x i j); auto.
  - intros E x Hx. destruct (site_exists D bas L diag Hpos x Hx) as [i [_ Hi]]. destruct (site_exists D bas L diag Hpos (affine C s x)) as [j [_ Hj]]; [apply (proj1 (Hs x)); exact Hx|].
    apply (Key x i j); auto. congruence.
Qed.
(** The permutation of a translation. *)
Lemma period_act k p w f : induces D bas L diag (affine mid (vscale D k)) p -> length w = N -> describes w f ->
  period D bas f k <-> act (-1, 0) p w = w.
Proof.
  intros [Hpl Hp] Hl Hf. assert (forall x, affine mid (vscale D k) x = vadd x (vscale D k)) as Ea by (intros x; unfold affine; rewrite mvec_id; auto).
  assert (forall x i j, site x i -> site (vadd x (vscale D k)) j -> f (vadd x (vscale D k)) = f x <-> nth j w (-1, 0) = nth j (act (-1, 0) p w) (-1, 0)) as Key.
  { intros x i j Hi Hj. rewrite (Hf x i Hi), (Hf _ j Hj). assert (i < N)%nat by (eapply site_lt; eauto). assert (j < N)%nat by (eapply site_lt; eauto).
    unfold act. rewrite nth_map_lt with (d := 0%nat) by lia. rewrite (Hp x i j) by (auto; rewrite Ea; auto). tauto. }
  split.
  - intros Hc. apply nth_ext_len with (d := (-1, 0)); [unfold act; rewrite !map_length; lia|]. unfold act at 1. rewrite map_length, Hpl. intros j Hj.
    destruct (site_onto D bas L diag HL Hpos j Hj) as [y Hy]. assert (point y) as Hpy by (eapply site_point; eauto).
    set (x := vadd y (vscale D (vsub (0, 0, 0) k))). assert (vadd x (vscale D k) = y) as Exy. { unfold x. rewrite vscale_vsub. vec_ring. }
    assert (point x) as Hx by (apply same_site_point; auto). destruct (site_exists D bas L diag Hpos x Hx) as [i [_ Hi]].
    symmetry. apply (Key x i j); [auto|rewrite Exy; auto|apply Hc; auto].
  - intros E x Hx. destruct (site_exists D bas L diag Hpos x Hx) as [i [_ Hi]].
    destruct (site_exists D bas L diag Hpos (vadd x (vscale D k))) as [j [_ Hj]]; [apply same_site_point; auto|].
    apply (Key x i j); auto. congruence.
Qed.
End Struct.
