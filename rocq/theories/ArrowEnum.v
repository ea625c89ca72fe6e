(** [add_arrows]: one arrangement per class. *)
From Coq Require Import Permutation.
From Verif Require Import PyBase Spec ListFacts PermFacts PhononsModel ColorProofs TreeSearch BranchRun ArrowProofs DecoFacts.
Local Open Scope Z_scope.

Definition arrs (w : list site) : list Z := map fst (filter arrowed w).

Lemma how_many_arrows_count w : fst (fst (how_many_arrows w)) = length (filter arrowed w).
Proof.
  unfold how_many_arrows. cbn [fst].
  assert (forall l st, fst (fold_left (fun (st : nat * list Z) (i : site) =>
              if arrowed i then
                (S (fst st), if existsb (Z.eqb (snd i)) (snd st) then snd st else snd st ++ [snd i])
              else st) l st) = (fst st + length (filter arrowed l))%nat) as F.
  { induction l as [|s l IH]; intros st; cbn [fold_left filter]; [cbn; lia|].
    rewrite IH. destruct (arrowed s); cbn [fst length]; lia. }
  rewrite F. reflexivity.
Qed.

Lemma place_spec col : forall ac, (forall a, In a ac -> 0 <= a) -> length ac = length (filter arrowed col) ->
  exists w, place_arrows col ac = Ok w /\ map skeleton w = map skeleton col /\ arrs w = ac /\
    forall s, In s w -> In (fst s) ac \/ fst s < 0.
Proof.
  induction col as [|s col IH]; intros ac Hac Hl.
  - destruct ac; [|discriminate]. exists []. cbn. repeat split; auto.
  - cbn [place_arrows filter] in *. unfold arrs. destruct (arrowed s) eqn:Es.
    + destruct ac as [|a ac]; [discriminate|]. cbn [length] in Hl.
      destruct (IH ac) as [w [E [H1 [H2 H3]]]].
      * intros; apply Hac; cbn; auto.
      * lia.
      * rewrite E. cbn [rbind]. exists ((a, snd s) :: w). split; auto. cbn [map filter].
        assert (0 <= a) as Ha by (apply Hac; cbn; auto).
        assert (arrowed (a, snd s) = true) as Ea by (unfold arrowed; cbn; apply Z.leb_le; auto).
        rewrite Ea. cbn [map fst]. split; [|split].
        -- rewrite H1. f_equal. unfold skeleton, has_arrow. cbn [fst snd]. unfold arrowed in *. cbn [fst] in Ea.
           rewrite Ea, Es. auto.
        -- f_equal. exact H2.
        -- intros t [<-|Ht]; [left; cbn; auto|]. destruct (H3 t Ht); [left; cbn; auto|auto].
    + destruct (IH ac Hac Hl) as [w [E [H1 [H2 H3]]]].
      rewrite E. cbn [rbind]. exists (s :: w). split; auto. cbn [map filter]. rewrite Es, H1.
      split; auto. split; auto. intros t [<-|Ht]; auto. right. unfold arrowed in Es. apply Z.leb_gt in Es. auto.
Qed.

Lemma skeleton_arrowed s t : skeleton s = skeleton t -> arrowed s = arrowed t.
Proof.
  unfold skeleton, has_arrow, arrowed. destruct (0 <=? fst s) eqn:E1, (0 <=? fst t) eqn:E2; auto;
    intros E; inversion E.
  - rewrite <- H0 in E2. discriminate.
  - rewrite H0 in E1. discriminate.
Qed.

Lemma place_arrs col : forall w, map skeleton w = map skeleton col -> place_arrows col (arrs w) = Ok w.
Proof.
  induction col as [|s col IH]; intros [|t w] H; try discriminate; auto.
  cbn [map] in H. injection H as H1 H2 H3. 
  assert (skeleton t = skeleton s) as Hts by (unfold skeleton; congruence).
  pose proof (skeleton_arrowed t s Hts) as Ea.
  unfold arrs. cbn [place_arrows filter]. rewrite Ea. destruct (arrowed s) eqn:Es.
  - cbn [map]. fold (arrs w). rewrite IH by auto. cbn [rbind]. do 2 f_equal.
    destruct t, s; cbn in *. congruence.
  - fold (arrs w). rewrite IH by auto. cbn [rbind]. do 2 f_equal.
    unfold skeleton, has_arrow in H1. unfold arrowed in *.
    rewrite Ea, Es in H1. destruct t, s; cbn in *; congruence.
Qed.

Lemma arrs_length_skel w col : map skeleton w = map skeleton col ->
  length (arrs w) = length (filter arrowed col).
Proof.
  unfold arrs. rewrite map_length. revert col; induction w as [|t w IH]; intros [|s col] H; try discriminate; auto.
  cbn [map] in H. injection H as H1 H2 H3.
  assert (skeleton t = skeleton s) as Hts by (unfold skeleton; congruence).
  cbn [filter]. rewrite (skeleton_arrowed t s Hts). specialize (IH col H3).
  destruct (arrowed s); cbn [length]; lia.
Qed.

Lemma arrs_digits dim w : directions_below dim w -> digits_ok dim (arrs w).
Proof.
  intros H a Ha. unfold arrs in Ha. apply in_map_iff in Ha as [s [<- Hs]].
  apply filter_In in Hs as [Hs Ea]. unfold arrowed in Ea. apply Z.leb_le in Ea. specialize (H s Hs). lia.
Qed.

Lemma zget_nat (l : list nat) z : 0 <= z < Z.of_nat (length l) -> zget l z = Ok (nth (Z.to_nat z) l 0%nat).
Proof.
  intros H. unfold zget. destruct (Z.ltb_spec z 0); [lia|]. destruct (Z.ltb_spec z 0); [lia|].
  rewrite (get_nth 0%nat) by lia. auto.
Qed.

Lemma permuted_arrows_spec n m dim g w : Z.of_nat m = dim -> is_perm n (fst g) -> is_perm m (snd g) ->
  length w = n -> directions_below dim w -> permuted_arrows g w = Ok (arrs (act_op g w)).
Proof.
  intros Hm [Hl1 [_ Hp1]] [Hl2 [_ Hp2]] Hl Hw. unfold permuted_arrows.
  assert (forall js, (forall j, In j js -> (j < n)%nat) ->
    rmap (fun j => do c <- get (fst g) j; get w c) js = Ok (act (-1,0) (map (fun j => nth j (fst g) 0%nat) js) w)) as F.
  { induction js as [|j js IH]; intros Hjs; auto. cbn [rmap map].
    rewrite (get_nth 0%nat) by (rewrite Hl1; apply Hjs; cbn; auto). cbn [rbind].
    rewrite (get_nth (-1, 0)).
    2:{ rewrite Hl. apply Hp1, nth_In. rewrite Hl1. apply Hjs; cbn; auto. }
    cbn [rbind]. rewrite IH by (intros; apply Hjs; cbn; auto). auto. }
  rewrite F by (intros j Hj; apply in_seq in Hj; rewrite <- Hl; apply Hj). cbn [rbind].
  replace (map (fun j => nth j (fst g) 0%nat) (seq 0 (@length site w))) with (fst g).
  2:{ change (@length site w) with (@length (Z*Z) w). rewrite Hl, <- Hl1. symmetry. apply (act_id 0%nat (fst g)). }
  unfold act_op, arrs.
  assert (forall s, In s (act (-1, 0) (fst g) w) -> fst s < dim) as Hin.
  { intros s Hs. unfold act in Hs. apply in_map_iff in Hs as [j [<- Hj]]. apply Hw, nth_In.
    rewrite Hl. auto. }
  revert Hin. generalize (act (-1, 0) (fst g) w) as l.
  induction l as [|s l IH]; intros Hin; auto. cbn [filter map].
  change (arrowed (turn (snd g) s)) with (has_arrow (turn (snd g) s)). rewrite turn_arrow.
  change (has_arrow s) with (arrowed s). destruct (arrowed s) eqn:Es.
  - cbn [rmap map]. assert (fst s < dim) by (apply Hin; cbn; auto).
    unfold arrowed in Es. pose proof Es as Es'. apply Z.leb_le in Es.
    rewrite zget_nat by lia. cbn [rbind]. rewrite IH by (intros; apply Hin; cbn; auto).
    cbn [rbind]. do 2 f_equal. unfold turn, has_arrow. rewrite Es'. auto.
  - apply IH. intros; apply Hin; cbn; auto.
Qed.

Section Enum.
  Variables (n m : nat) (dim : Z) (col : list site) (A : list op).
  Hypothesis Hm : Z.of_nat m = dim.
  Hypothesis Hdim : 0 < dim.
  Hypothesis Hn : length col = n.
  Hypothesis HAp : forall g, In g A -> is_perm n (fst g) /\ is_perm m (snd g).
  Notation mm := (length (filter arrowed col)).

  Definition wof (h : Z) : list site :=
    match place_arrows col (ainvhash h mm dim) with Ok w => w | Err _ => [] end.
  Definition arr (w : list site) : Prop := map skeleton w = map skeleton col /\ directions_below dim w.

  Lemma wof_spec h : 0 <= h < dim ^ Z.of_nat mm ->
    place_arrows col (ainvhash h mm dim) = Ok (wof h) /\ arr (wof h) /\
    arrs (wof h) = ainvhash h mm dim /\ ahash (arrs (wof h)) dim = h.
  Proof.
    intros Hh. destruct (ainvhash_spec h mm dim Hdim Hh) as [H1 [H2 H3]].
    destruct (place_spec col (ainvhash h mm dim)) as [w [E [Hw1 [Hw2 Hw3]]]]; auto.
    { intros a Ha. apply H2 in Ha. lia. }
    unfold wof. rewrite E. split; auto. split; [split; auto|].
    - intros s Hs. destruct (Hw3 s Hs) as [Hi|Hi]; [apply H2 in Hi; lia|lia].
    - rewrite Hw2. auto.
  Qed.
  Lemma arr_hash w : arr w -> 0 <= ahash (arrs w) dim < dim ^ Z.of_nat mm /\ wof (ahash (arrs w) dim) = w.
  Proof.
    intros [H1 H2]. pose proof (arrs_digits dim w H2) as Hd. pose proof (arrs_length_skel w col H1) as Hl.
    split.
    - rewrite ahash_horner, <- Hl. apply horner_range; auto.
    - unfold wof. rewrite <- Hl, ainvhash_ahash by auto. rewrite place_arrs by auto. auto.
  Qed.
  Lemma arr_length w : arr w -> length w = n.
  Proof. intros [H _]. apply (f_equal (@length site)) in H. rewrite !map_length in H. congruence. Qed.

  Definition uniqA (w : list site) : bool :=
    forallb (fun g => ahash (arrs w) dim <=? ahash (arrs (act_op g w)) dim) A.

  Lemma arrow_unique_spec w : arr w -> forall A', incl A' A ->
    arrow_unique A' w (ahash (arrs w) dim) dim =
    Ok (forallb (fun g => ahash (arrs w) dim <=? ahash (arrs (act_op g w)) dim) A').
  Proof.
    intros Hw. induction A' as [|g A' IH]; intros Hi; auto. cbn [arrow_unique forallb].
    destruct (HAp g) as [Hp1 Hp2]; [apply Hi; cbn; auto|].
    rewrite (permuted_arrows_spec n m dim) by (auto using arr_length; apply Hw). cbn [rbind].
    rewrite Z.leb_antisym. destruct (ahash (arrs (act_op g w)) dim <? ahash (arrs w) dim); auto.
    cbn [negb andb]. apply IH. intros x Hx. apply Hi; cbn; auto.
  Qed.

  Variable supers : bool.
  Variable tr : list op.
  Hypothesis Htr : supers = false -> forall g, In g tr -> is_perm n (fst g) /\ is_perm m (snd g).

  Definition spd (w : list site) : bool :=
    negb supers && match arrow_superperiodic tr w (arrs w) with Ok b => b | Err _ => false end.

  Lemma rmap_zget_ok (sg : list nat) l : is_perm m sg -> (forall s, In s l -> 0 <= s < dim) ->
    rmap (fun s => do a <- zget sg s; Ok (Z.of_nat a)) l = Ok (map (fun s => Z.of_nat (nth (Z.to_nat s) sg 0%nat)) l).
  Proof.
    intros [Hl _]. induction l as [|s l IH]; intros H; auto. cbn [rmap map].
    assert (0 <= s < dim) by (apply H; cbn; auto).
    rewrite zget_nat by lia. cbn [rbind]. rewrite IH by (intros; apply H; cbn; auto). auto.
  Qed.

  Lemma superperiodic_ok w : arr w -> forall tr', (forall g, In g tr' -> is_perm n (fst g) /\ is_perm m (snd g)) ->
    exists b, arrow_superperiodic tr' w (arrs w) = Ok b.
  Proof.
    intros Hw. pose proof (arr_length w Hw) as Hl. induction tr' as [|[ac pe] tr' IH]; intros Ht; cbn [arrow_superperiodic]; eauto.
    destruct IH as [b Eb]; [intros; apply Ht; cbn; auto|].
    destruct (Ht (ac, pe)) as [Hp1 Hp2]; [cbn; auto|]. cbn [fst snd] in *.
    destruct (negb (nlist_eqb ac (seq 0 (length ac))) || negb (nlist_eqb pe (seq 0 (length pe)))); eauto.
    rewrite !(rmap_get 0) by (intros j Hj; rewrite map_length, Hl; apply Hp1; auto). cbn [rbind].
    rewrite rmap_zget_ok; auto.
    - cbn [rbind]. destruct (zlist_eqb (map snd w) (act 0 ac (map snd w)) && _); eauto.
    - intros s Hs. apply filter_In in Hs as [Hs E]. apply Z.leb_le in E. split; auto.
      rewrite (act_In 0 n ac) in Hs by (auto; rewrite map_length; auto).
      apply in_map_iff in Hs as [t [<- Ht2]]. destruct Hw as [_ Hw]. apply Hw; auto.
  Qed.

  Lemma loop_spec rnd k : forall hs acc, (forall h, In h hs -> 0 <= h < dim ^ Z.of_nat mm) ->
    add_arrows_loop rnd hs col A dim tr false None supers acc k =
    Ok (acc ++ filter (fun w => uniqA w && negb (spd w)) (map wof hs), k).
  Proof.
    induction hs as [|h hs IH]; intros acc Hh; [cbn; rewrite app_nil_r; auto|].
    cbn [add_arrows_loop map filter].
    destruct (wof_spec h) as [E1 [E2 [E3 E4]]]; [apply Hh; cbn; auto|].
    rewrite E1. cbn [rbind].
    pose proof (arrow_unique_spec (wof h) E2 A (incl_refl _)) as Eu. rewrite E4 in Eu at 1. rewrite Eu. cbn [rbind].
    fold (uniqA (wof h)).
    assert (forall x, In x hs -> 0 <= x < dim ^ Z.of_nat mm) as Hh' by (intros; apply Hh; cbn; auto).
    destruct (uniqA (wof h)); cbn [andb]; [|apply IH; auto].
    assert ((if supers then Ok false else arrow_superperiodic tr (wof h) (ainvhash h mm dim)) = Ok (spd (wof h))) as Es.
    { unfold spd. rewrite <- E3. destruct supers eqn:Esp; auto. cbn [negb andb].
      destruct (superperiodic_ok (wof h) E2 tr) as [b Eb]; [apply Htr; auto|]. rewrite Eb. auto. }
    rewrite Es. cbn [rbind]. destruct (spd (wof h)); cbn [negb andb].
    - apply IH; auto.
    - rewrite IH by auto. rewrite <- app_assoc. auto.
  Qed.

  Definition arrangements : list (list site) :=
    filter (fun w => uniqA w && negb (spd w)) (map wof (range_up 0 (dim ^ Z.of_nat mm))).

  Lemma add_arrows_eq rnd k :
    add_arrows rnd col A dim tr false None supers k = Ok (arrangements, k).
  Proof.
    unfold add_arrows. rewrite how_many_arrows_count, ahash_max by auto.
    replace (dim ^ Z.of_nat mm - 1 + 1) with (dim ^ Z.of_nat mm) by lia.
    rewrite loop_spec; auto. intros h Hh. apply in_range_up in Hh. auto.
  Qed.

  (** ** one per class *)
  Hypothesis HA : op_group n m A.
  Hypothesis Hfix : forall g, In g A -> act (-1, 0) (fst g) (map skeleton col) = map skeleton col.

  Lemma arr_okw w : arr w -> okw n dim w.
  Proof. intros H. split; [apply arr_length; auto|apply H]. Qed.
  Lemma arr_act g w : In g A -> arr w -> arr (act_op g w).
  Proof.
    intros Hg Hw. split.
    - rewrite act_op_skeleton.
      + destruct Hw as [Hs _]. rewrite Hs. auto.
      + intros j Hj. rewrite (arr_length w Hw). apply HAp in Hg. apply Hg; auto.
    - apply (okw_act n m dim A); auto using arr_okw.
  Qed.
  Lemma arr_eq v w : arr v -> arr w -> ahash (arrs v) dim = ahash (arrs w) dim -> v = w.
  Proof. intros Hv Hw E. rewrite <- (proj2 (arr_hash v Hv)), <- (proj2 (arr_hash w Hw)), E. auto. Qed.

  Lemma uniqA_spec w : uniqA w = true <-> forall g, In g A -> ahash (arrs w) dim <= ahash (arrs (act_op g w)) dim.
  Proof.
    unfold uniqA. rewrite forallb_forall. split; intros H g Hg; [apply Z.leb_le|apply Z.leb_le]; auto.
  Qed.

  Lemma min_elt (f : op -> Z) l : l <> [] -> exists g, In g l /\ forall h, In h l -> f g <= f h.
  Proof.
    induction l as [|a l IH]; intros Hne; [congruence|]. destruct l as [|a' l].
    - exists a. split; cbn; auto. intros h [<-|[]]. lia.
    - destruct IH as [g [Hg Hmin]]; [congruence|].
      destruct (Z_le_gt_dec (f a) (f g)).
      + exists a. split; [cbn; auto|]. intros h [<-|Hh]; [lia|]. specialize (Hmin h Hh). lia.
      + exists g. split; [cbn in *; tauto|]. intros h [<-|Hh]; [lia|]. auto.
  Qed.

  Definition all_min : list (list site) := filter uniqA (map wof (range_up 0 (dim ^ Z.of_nat mm))).

  Lemma all_min_In w : In w all_min <-> arr w /\ uniqA w = true.
  Proof.
    unfold all_min. rewrite filter_In, in_map_iff. split.
    - intros [[h [<- Hh]] Hu]. apply in_range_up in Hh. split; auto. apply wof_spec; auto.
    - intros [Hw Hu]. split; auto. exists (ahash (arrs w) dim). destruct (arr_hash w Hw). split; auto.
      apply in_range_up. auto.
  Qed.
  Lemma all_min_NoDup : NoDup all_min.
  Proof.
    apply NoDup_filter, NoDup_map_inj; [|apply NoDup_range_up].
    intros x y Hx Hy E. apply in_range_up in Hx, Hy.
    destruct (wof_spec x Hx) as [_ [_ [_ <-]]]. destruct (wof_spec y Hy) as [_ [_ [_ <-]]]. rewrite E. auto.
  Qed.
  Lemma all_min_exists w : arr w -> exists r, In r all_min /\ op_equiv A w r.
  Proof.
    intros Hw. destruct (min_elt (fun g => ahash (arrs (act_op g w)) dim) A) as [g [Hg Hmin]].
    { destruct HA as [_ [Hid _]]. intros E. rewrite E in Hid. destruct Hid. }
    exists (act_op g w). split; [|exists g; auto]. apply all_min_In. split; [apply arr_act; auto|].
    apply uniqA_spec. intros h Hh.
    destruct (op_equiv_trans n m dim A Hm HA w (act_op g w) (act_op h (act_op g w))) as [f [Hf Ef]];
      auto using arr_okw; try (eexists; eauto; fail).
    rewrite Ef. auto.
  Qed.
  Lemma all_min_unique v w : In v all_min -> In w all_min -> op_equiv A v w -> v = w.
  Proof.
    rewrite !all_min_In. intros [Hv Uv] [Hw Uw] E.
    destruct (op_equiv_sym n m dim A Hm HA v w (arr_okw v Hv) E) as [h [Hh Eh]]. destruct E as [g [Hg Eg]].
    rewrite uniqA_spec in Uv, Uw. apply arr_eq; auto.
    specialize (Uv g Hg). specialize (Uw h Hh). rewrite <- Eg in Uv. rewrite <- Eh in Uw. lia.
  Qed.
  Theorem all_min_transversal : transversal arr (op_equiv A) all_min.
  Proof.
    split; [|split].
    - intros r Hr. apply all_min_In in Hr. tauto.
    - apply all_min_exists.
    - apply pairwise_of_NoDup; [apply all_min_NoDup|]. apply all_min_unique.
  Qed.
End Enum.
