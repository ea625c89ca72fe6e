(** The first level of the tree and the whole run of [brancher]. *)
From Coq Require Import Permutation.
From Verif Require Import PyBase Spec ListFacts PermFacts NumericsModel NumericsProofs PhononsModel
  TreeModel HashProofs CanonProofs TreeSearch PermSpec BranchMachine BranchRun.
Local Open Scope Z_scope.

Lemma skip_seen_ok m0 ms : (forall m, In m ms -> 0 <= m < m0) ->
  forall f b, 0 <= b <= m0 -> (length (filter (fun m => (b <=? m)%Z) ms) <= f)%nat ->
  exists b', skip_seen f b (m0, ms) = Ok b' /\ b <= b' <= m0 /\ ~ In b' ms /\
             forall z, b <= z < b' -> In z ms.
Proof.
  intros Hms. 
  assert (forall b, existsb (Z.eqb b) ms = true <-> In b ms) as Hex.
  { intros b. rewrite existsb_exists. split.
    - intros [x [Hx E]]. apply Z.eqb_eq in E. subst; auto.
    - intros H. exists b. split; auto. apply Z.eqb_refl. }
  assert (forall b, In b ms -> (length (filter (fun m => (b + 1 <=? m)%Z) ms) < length (filter (fun m => (b <=? m)%Z) ms))%nat) as Hlt.
  { clear. intros b. induction ms as [|a ms IH]; intros H; [destruct H|]. cbn [filter].
    assert (length (filter (fun m => (b + 1 <=? m)%Z) ms) <= length (filter (fun m => (b <=? m)%Z) ms))%nat as Hle.
    { clear. induction ms as [|a ms IH]; cbn [filter]; auto.
      destruct (Z.leb_spec (b + 1) a), (Z.leb_spec b a); cbn [length]; lia. }
    destruct H as [->|H].
    - destruct (Z.leb_spec (b + 1) b), (Z.leb_spec b b); cbn [length]; lia.
    - specialize (IH H). destruct (Z.leb_spec (b + 1) a), (Z.leb_spec b a); cbn [length]; lia. }
  induction f as [|f IH]; intros b Hb Hf; cbn [skip_seen]; unfold order_is_minus1; cbn [fst snd].
  - destruct (existsb (Z.eqb b) ms) eqn:E.
    + apply Hex in E. specialize (Hlt b E). lia.
    + destruct (Z.leb_spec 0 b), (Z.leb_spec b m0); try lia. cbn [andb rbind].
      exists b. split; auto. split; [lia|]. split; [intros H1; apply Hex in H1; congruence|lia].
  - destruct (existsb (Z.eqb b) ms) eqn:E; cbn [rbind].
    + apply Hex in E. specialize (Hlt b E). pose proof (Hms b E).
      destruct (IH (b + 1) ltac:(lia) ltac:(lia)) as [b' [H1 [H2 [H3 H4]]]].
      exists b'. split; auto. split; [lia|]. split; auto. intros z Hz.
      destruct (Z.eq_dec z b) as [->|]; auto. apply H4; lia.
    + destruct (Z.leb_spec 0 b), (Z.leb_spec b m0); try lia. cbn [andb rbind].
      exists b. split; auto. split; [lia|]. split; [intros H1; apply Hex in H1; congruence|lia].
Qed.

Section Top.
  Variable c : list nat.
  Variable G : list op.
  Variable cwa : list site.
  Variable supers : bool.
  Variable cellsize : nat.
  Notation n := (sum_nat c).
  Notation k := (length c).
  Notation C := (radices c).
  Notation dec := (dec c).
  Notation padz := (padz c).
  Notation validp := (validp c).
  Notation Backtrack := (backtrack c).
  Notation Advance := (advance c).
  Notation NavStep := (nav_step c G cwa supers cellsize).
  Notation sup := (sup c G cwa supers cellsize).
  Notation run := (run c G cwa supers cellsize).
  Notation ev_top := (ev_top c G cwa supers cellsize).
  Notation ev_all := (ev_all c G cwa supers cellsize).
  Hypothesis HG : perm_group n (map fst G).
  Hypothesis Hpos : Forall (fun a => (0 < a)%nat) c.
  Hypothesis Hc : c <> [].
  Hypothesis Hlen : length cwa = n.
  Hypothesis Hcell : supers = false -> (cellsize <= length G)%nat.
  Notation C0 := (nth 0 C 0).

  Lemma Hk : (0 < k)%nat.
  Proof. destruct c; [congruence|cbn; lia]. Qed.

  Lemma validp1 b : 0 <= b < C0 -> validp [b].
  Proof. intros H. apply (validp_snoc c []); cbn; auto using Hk. constructor. Qed.

  Definition rootx (b : Z) : list nat := dec (padz [b]).
  Definition marks_ (b : Z) : list Z := marks G (rootx b).

  Lemma rootx_spec b : 0 <= b < C0 -> has_concs c (rootx b) /\ lvl_rank 0 (rootx b) = b.
  Proof.
    intros Hb. pose proof (padz_valid c [b] (validp1 b Hb)) as Hv. split.
    - apply dec_spec; auto.
    - unfold rootx. rewrite lvl_rank_dec by (auto using Hk). reflexivity.
  Qed.

  Definition topstate (b : Z) (flag : bool) stb ord : nav := Nav (padz [b]) 0 flag stb ord.

  Lemma padz1_upd b b' : upd (padz [b]) 0 b' = padz [b'].
  Proof. apply (padz_upd c [] b b'). apply Hk. Qed.

  Lemma up1 b stb ord b' : skip_seen (S (length (snd ord))) (b + 1) ord = Ok b' ->
    up c 1 (padz [b]) stb ord = Ok (topstate b' false (repeat [] k) ord).
  Proof.
    intros H. unfold up, topstate. cbn [Nat.sub Nat.eqb]. unfold advance. cbn [backtrack rbind Nat.eqb].
    change (nth 0 (padz [b]) 0) with b. rewrite padz1_upd.
    change (nth 0 (padz [b + 1]) 0) with (b + 1). rewrite H. cbn [rbind]. rewrite padz1_upd. auto.
  Qed.

  Lemma top_run b stb m0 ms : 0 <= b < C0 -> uniqp c G [b] = true -> (k <= length stb)%nat ->
    (2 <= length stb)%nat -> let ord := (m0, ms ++ marks_ b) in
    exists m fl stb', (fl = true -> k = 1%nat) /\ (k <= length stb')%nat /\
      forall b', skip_seen (S (length (snd ord))) (b + 1) ord = Ok b' ->
        run m (topstate b false stb (m0, ms)) (ev_top b) (topstate b' fl stb' ord).
  Proof.
    intros Hb Hu Hs1 Hs2 ord. pose proof Hk as Hk0. pose proof (validp1 b Hb) as Hv1.
    pose proof (padz_valid c [b] Hv1) as Hd.
    assert (length (padz [b]) = k) as Hdl by (apply (padz_len c); cbn; lia).
    assert (forall stb', stb' = upd stb 1 (stab_lvl G 1 (rootx b)) ->
      NavStep (topstate b false stb (m0, ms)) =
      do v <- Advance (if Z.of_nat 0 <? Z.of_nat k - 1 then 1%nat else 0%nat) (padz [b])
             (Z.of_nat k - 2 <=? Z.of_nat (if Z.of_nat 0 <? Z.of_nat k - 1 then 1%nat else 0%nat)) stb' ord;
      Ok (v, node c G cwa supers cellsize (padz [b]))) as Hstep.
    { intros stb' ->. unfold nav_step, topstate. cbn [nlvl nbr nstab nord nb0].
      rewrite (get_nth []) by lia. cbn [rbind].
      assert (uniq_lvl G 0 (dec (padz [b])) = true) as Hu' by exact Hu.
      rewrite (perm_0 c G HG Hpos) by auto. cbn [rbind]. fold (rootx b). fold (marks_ b).
      unfold set. cbn [Nat.add]. destruct (Nat.ltb_spec 1 (length stb)); [|lia]. cbn [rbind].
      change (0 =? 0)%nat with true. cbn [orb]. rewrite !andb_true_r.
      pose proof (sup_test c G cwa supers cellsize HG Hlen Hcell (padz [b]) true Hd) as Ht.
      rewrite andb_true_r in Ht. rewrite Ht. cbn [rbind andb]. rewrite Hdl. unfold node, rootx.
      destruct (sup (padz [b])); cbn [negb andb]; auto.
      destruct (Z.of_nat 0 <? Z.of_nat k - 2); auto. }
    set (stb1 := upd stb 1 (stab_lvl G 1 (rootx b))) in *. specialize (Hstep stb1 eq_refl).
    assert (nth 0 (nbr (topstate b false stb (m0, ms))) 0 < C0) as Hlt by (cbn; lia).
    unfold BranchRun.ev_top. rewrite Hu.
    destruct (Nat.eq_dec k 1) as [E1|N1].
    - (* one colour *)
      exists 1%nat, true, stb1. split; auto. split; [unfold stb1; rewrite upd_length; auto|].
      intros b' Hb'. rewrite (ev_sub_last c G cwa supers cellsize Hlen Hcell [b] ltac:(cbn; lia) : ev_sub c G cwa supers cellsize (skipn 1 C) [b] = []). rewrite app_nil_r.
      apply run_one; auto. rewrite Hstep, E1.
      change (Z.of_nat 0 <? Z.of_nat 1 - 1) with false. cbv iota.
      change (Z.of_nat 1 - 2 <=? Z.of_nat 0) with true.
      unfold advance. cbn [backtrack rbind Nat.eqb]. rewrite padz1_upd.
      change (nth 0 (padz [b]) 0) with b. change (nth 0 (padz [b + 1]) 0) with (b + 1).
      rewrite Hb'. cbn [rbind]. rewrite padz1_upd. auto.
    - destruct (Z.ltb_spec (Z.of_nat 0) (Z.of_nat k - 1)); [|lia].
      destruct (Nat.eq_dec k 2) as [E2|N2].
      + exists 1%nat, false, (repeat [] k). split; [discriminate|]. split; [rewrite repeat_length; auto|].
        intros b' Hb'. rewrite (ev_sub_last c G cwa supers cellsize Hlen Hcell [b] ltac:(cbn; lia) : ev_sub c G cwa supers cellsize (skipn 1 C) [b] = []). rewrite app_nil_r.
        apply run_one; auto. rewrite Hstep.
        destruct (Z.leb_spec (Z.of_nat k - 2) (Z.of_nat 1)); [|lia].
        rewrite <- (padz_snoc0 c [b]) by (cbn; lia).
        rewrite (advance_exhausted c G cwa supers cellsize Hlen Hcell 1 [b] 0); auto; try lia.
        * rewrite (up1 b _ _ b') by auto. cbn [rbind]. auto.
        * pose proof (radix_last c Hc) as Hr. rewrite E2 in Hr. cbn [Nat.sub] in Hr. lia.
      + rewrite (advance_down c G cwa supers cellsize Hpos Hlen Hcell 1 [b]) in Hstep by (cbn; lia). cbn [rbind] in Hstep.
        pose proof (sub_ok_all c G cwa supers cellsize HG Hpos Hlen Hcell (k - 3) 1 ltac:(lia) ltac:(lia)) as Hsub.
        destruct (Hsub [b] stb1 ord) as [m [stb2 [Hs Hrun]]]; auto.
        { split; [unfold stb1; rewrite upd_length; auto|]. cbn [length].
          intros i Hi Hi2. assert (i = 1%nat) as -> by lia. unfold stb1. rewrite nth_upd_eq; auto. }
        exists (S m), false, (repeat [] k). split; [discriminate|]. split; [rewrite repeat_length; auto|].
        intros b' Hb'. econstructor; [exact Hlt|exact Hstep|]. apply Hrun. apply up1. auto.
  Qed.

  (** ** the marks *)
  Definition Inv (b : Z) (ms : list Z) : Prop :=
    (forall m, In m ms -> 0 <= m < C0 /\ uniqp c G [m] = false) /\
    (forall h g, 0 <= h < b -> uniqp c G [h] = true -> In g G ->
       h < lvl_rank 0 (gx g (rootx h)) -> In (lvl_rank 0 (gx g (rootx h))) ms).

  Lemma lvl0_range x : has_concs c x -> 0 <= lvl_rank 0 x < C0.
  Proof.
    intros Hx. pose proof (code_valid c x Hx) as Hv. pose proof Hk as Hk0.
    assert (lvl_rank 0 x = nth 0 (code c x) 0) as ->.
    { unfold code, encode. rewrite nth_map_lt with (d := 0%nat) by (rewrite seq_length; auto).
      rewrite seq_nth by auto. auto. }
    assert (forall D d, valid_code D d -> (0 < length D)%nat -> 0 <= nth 0 d 0 < nth 0 D 0) as F.
    { intros D d HD. destruct HD; cbn; intros; [lia|auto]. }
    apply F; auto. rewrite radices_length. auto.
  Qed.

  Lemma trunc1_of_rank x y : has_concs c x -> has_concs c y -> lvl_rank 0 x = lvl_rank 0 y ->
    trunc 1 x = trunc 1 y.
  Proof.
    intros Hx Hy E. apply (lvl_rank_inj c); auto using Hk.
    apply trunc_0_eq; try (eapply has_concs_positive; eauto).
    rewrite (concs_length c x Hx), (concs_length c y Hy). auto.
  Qed.
  Lemma rank0_trunc1 x y : has_concs c x -> has_concs c y -> trunc 1 x = trunc 1 y ->
    lvl_rank 0 x = lvl_rank 0 y.
  Proof. intros Hx Hy E. apply lvl_rank_trunc; auto; eapply has_concs_positive; eauto. Qed.

  Lemma uniqp1_spec b : 0 <= b < C0 ->
    uniqp c G [b] = true <-> forall g, In g G -> b <= lvl_rank 0 (gx g (rootx b)).
  Proof.
    intros Hb. destruct (rootx_spec b Hb) as [Hx Er]. unfold uniqp. cbn [length Nat.sub].
    fold (rootx b). rewrite uniq_lvl_spec, Er. split; intros H g Hg; auto.
    apply H; auto. apply trunc_0_eq; try (apply (has_concs_positive c); auto; apply (gx_concs c G HG); auto).
    rewrite (concs_length c _ Hx), (concs_length c (gx g (rootx b))) by (apply (gx_concs c G HG); auto). auto.
  Qed.

  (** the orbit relation on first-level numbers *)
  Lemma rank_move b g : 0 <= b < C0 -> In g G ->
    let h := lvl_rank 0 (gx g (rootx b)) in
    0 <= h < C0 /\
    (forall f, In f G -> exists f', In f' G /\ lvl_rank 0 (gx f (rootx h)) = lvl_rank 0 (gx f' (rootx b))) /\
    exists f, In f G /\ lvl_rank 0 (gx f (rootx h)) = b.
  Proof.
    intros Hb Hg h. destruct (rootx_spec b Hb) as [Hx Er].
    assert (has_concs c (gx g (rootx b))) as Hgx by (apply (gx_concs c G HG); auto).
    assert (0 <= h < C0) as Hh by (apply lvl0_range; auto).
    destruct (rootx_spec h Hh) as [Hy Eh].
    assert (trunc 1 (rootx h) = trunc 1 (gx g (rootx b))) as Et by (apply trunc1_of_rank; auto).
    assert (forall f, In f G -> lvl_rank 0 (gx f (rootx h)) = lvl_rank 0 (gx f (gx g (rootx b)))) as Hf.
    { intros f Hf. apply rank0_trunc1; try (apply (gx_concs c G HG); auto). apply (trunc_gx c G HG); auto. }
    split; auto. split.
    - intros f Hfg. rewrite Hf by auto.
      destruct (equiv_trans c G HG (rootx b) (gx g (rootx b)) (gx f (gx g (rootx b)))) as [f' [Hf' E]].
      + exists g; auto.
      + exists f; auto.
      + exists f'. split; auto. rewrite E. auto.
    - destruct (equiv_sym c G HG (rootx b) (gx g (rootx b)) Hx) as [f [Hf1 Ef]]; [exists g; auto|].
      exists f. split; auto. rewrite Hf by auto. rewrite <- Ef. auto.
  Qed.

  Lemma marks_spec b m : In m (marks_ b) <-> 
    exists g, In g G /\ m = lvl_rank 0 (gx g (rootx b)) /\ lvl_rank 0 (rootx b) < m.
  Proof.
    unfold marks_, marks. rewrite in_map_iff. split.
    - intros [g [<- Hg]]. apply filter_In in Hg as [Hg Hl]. apply Z.ltb_lt in Hl. eauto.
    - intros [g [Hg [-> Hl]]]. exists g. split; auto. apply filter_In. split; auto. apply Z.ltb_lt; auto.
  Qed.

  Lemma min_rank b : 0 <= b < C0 -> exists g, In g G /\
    forall f, In f G -> lvl_rank 0 (gx g (rootx b)) <= lvl_rank 0 (gx f (rootx b)).
  Proof.
    intros Hb. assert (forall l : list op, l <> [] -> exists g, In g l /\
      forall f, In f l -> lvl_rank 0 (gx g (rootx b)) <= lvl_rank 0 (gx f (rootx b))) as F.
    { induction l as [|a l IH]; intros Hn; [congruence|]. destruct l as [|a' l].
      - exists a. split; cbn; auto. intros f [<-|[]]. lia.
      - destruct IH as [g [Hg Hm]]; [congruence|].
        destruct (Z_le_gt_dec (lvl_rank 0 (gx a (rootx b))) (lvl_rank 0 (gx g (rootx b)))).
        + exists a. split; [cbn; auto|]. intros f [<-|Hf]; [lia|]. specialize (Hm f Hf). lia.
        + exists g. split; [cbn in *; tauto|]. intros f [<-|Hf]; [lia|]. auto. }
    apply F. destruct (G_id c G HG) as [g [Hg _]]. intros E. rewrite E in Hg. destruct Hg.
  Qed.

  Lemma unmarked_uniq b ms : 0 <= b < C0 -> Inv b ms -> ~ In b ms -> uniqp c G [b] = true.
  Proof.
    intros Hb [I1 I2] Hn. destruct (min_rank b Hb) as [g [Hg Hmin]].
    destruct (rank_move b g Hb Hg) as [Hh [Hall [f [Hf Ef]]]].
    set (h := lvl_rank 0 (gx g (rootx b))) in *.
    destruct (rootx_spec b Hb) as [Hx Er].
    apply uniqp1_spec; auto. intros f' Hf'. pose proof (Hmin f' Hf').
    destruct (Z_lt_le_dec h b) as [Hlt|Hge]; [|lia]. exfalso. apply Hn.
    rewrite <- Ef. apply I2; auto; [lia| |lia].
    apply uniqp1_spec; auto. intros f2 Hf2. destruct (Hall f2 Hf2) as [f3 [Hf3 E3]]. rewrite E3. auto.
  Qed.

  Lemma marks_bad b m : 0 <= b < C0 -> In m (marks_ b) -> 0 <= m < C0 /\ uniqp c G [m] = false.
  Proof.
    intros Hb Hm. apply marks_spec in Hm as [g [Hg [-> Hl]]].
    destruct (rank_move b g Hb Hg) as [Hh [_ [f [Hf Ef]]]].
    destruct (rootx_spec b Hb) as [_ Er]. rewrite Er in Hl. split; auto.
    destruct (uniqp c G [lvl_rank 0 (gx g (rootx b))]) eqn:E; auto.
    rewrite uniqp1_spec in E by auto. specialize (E f Hf). lia.
  Qed.

  Lemma Inv_step b ms b' : 0 <= b < C0 -> Inv b ms -> uniqp c G [b] = true ->
    b + 1 <= b' <= C0 -> (forall z, b + 1 <= z < b' -> In z (ms ++ marks_ b)) ->
    Inv b' (ms ++ marks_ b).
  Proof.
    intros Hb [I1 I2] Hu Hb' Hm.
    assert (forall m, In m (ms ++ marks_ b) -> 0 <= m < C0 /\ uniqp c G [m] = false) as J1.
    { intros m Hin. apply in_app_iff in Hin as [Hin|Hin]; auto. eapply marks_bad; eauto. }
    split; auto.
    intros h g Hh Hu' Hg Hlt. apply in_app_iff.
    destruct (Z_lt_le_dec h b); [left; apply I2; auto; lia|].
    destruct (Z.eq_dec h b) as [->|Hne].
    - right. apply marks_spec. exists g. split; auto. split; auto.
      destruct (rootx_spec b Hb) as [_ ->]. auto.
    - exfalso. assert (In h (ms ++ marks_ b)) as Hin by (apply Hm; lia).
      apply J1 in Hin as [_ Hin]. congruence.
  Qed.

  Lemma filter_length_le {A} (f : A -> bool) l : (length (filter f l) <= length l)%nat.
  Proof. induction l as [|a l IH]; cbn; auto. destruct (f a); cbn; lia. Qed.

  Lemma all_run : forall r b stb ms, Z.of_nat r = C0 - b -> 0 <= b -> Inv b ms -> ~ In b ms ->
    (k <= length stb)%nat -> (2 <= length stb \/ (b = C0))%nat ->
    forall fl, (b < C0 -> fl = false) ->
    exists m v, run m (topstate b fl stb (C0, ms)) (flat_map ev_top (range_up b C0)) v /\
                C0 <= nth 0 (nbr v) 0.
  Proof.
    induction r as [r IHr] using lt_wf_ind. intros b stb ms Er Hb HI Hn Hs1 Hs2 fl Hfl.
    destruct (Z_lt_le_dec b C0) as [Hlt|Hge].
    2:{ exists 0%nat, (topstate b fl stb (C0, ms)). rewrite range_up_empty by lia.
        split; [constructor|]. cbn. lia. }
    assert (uniqp c G [b] = true) as Hu by (apply (unmarked_uniq b ms); auto; lia).
    rewrite (Hfl Hlt).
    destruct (top_run b stb C0 ms ltac:(lia) Hu Hs1 ltac:(lia)) as [m [fl' [stb' [Hf1 [Hs' Hrun]]]]].
    assert (forall z, In z (ms ++ marks_ b) -> 0 <= z < C0) as Hrange.
    { intros z Hz. apply in_app_iff in Hz as [Hz|Hz]; [apply HI in Hz; tauto|].
      apply marks_bad in Hz; [tauto|lia]. }
    destruct (skip_seen_ok C0 (ms ++ marks_ b) Hrange (S (length (ms ++ marks_ b))) (b + 1) ltac:(lia))
      as [b' [Eb' [Hb' [Hn' Hm']]]].
    { pose proof (filter_length_le (fun m => b + 1 <=? m) (ms ++ marks_ b)). lia. }
    specialize (Hrun b' Eb').
    assert (Inv b' (ms ++ marks_ b)) as HI' by (apply Inv_step; auto; lia).
    assert (flat_map ev_top (range_up b C0) = ev_top b ++ flat_map ev_top (range_up b' C0)) as Efm.
    { rewrite range_up_cons by lia. cbn [flat_map]. f_equal.
      rewrite (range_up_app (b + 1) b' C0) by lia. rewrite flat_map_app.
      replace (flat_map ev_top (range_up (b + 1) b')) with (@nil event); auto.
      symmetry. assert (forall l, (forall z, In z l -> uniqp c G [z] = false) -> flat_map ev_top l = []) as F.
      { induction l as [|z l IH]; intros Hz; auto. cbn [flat_map]. rewrite IH by (intros; apply Hz; cbn; auto).
        unfold BranchRun.ev_top. rewrite Hz by (cbn; auto). auto. }
      apply F. intros z Hz. apply in_range_up in Hz. apply HI'. apply Hm'. lia. }
    rewrite Efm.
    assert (k = 1%nat -> b' = C0) as H1k.
    { intros E1. pose proof (radix_last c Hc) as Hr. rewrite E1 in Hr. cbn [Nat.sub] in Hr. lia. }
    destruct (IHr (Z.to_nat (C0 - b')) ltac:(lia) b' stb' (ms ++ marks_ b) ltac:(lia) ltac:(lia) HI' Hn' Hs')
      with (fl := fl') as [m2 [v [Hrun2 Hv]]].
    - destruct (Nat.eq_dec k 1) as [E1|N1]; [right|left].
      + auto.
      + pose proof Hk. lia.
    - intros Hb2. destruct fl'; auto. specialize (H1k (Hf1 eq_refl)). lia.
    - exists (m + m2)%nat, v. split; auto. eapply run_app; eauto.
  Qed.

  Definition vinit : nav := Nav (repeat 0 k) 0 false (repeat [] (k + 1)) (C0, []).

  Theorem full_run : exists m v, run m vinit ev_all v /\ C0 <= nth 0 (nbr v) 0.
  Proof.
    pose proof Hk as Hk0. pose proof (nth_radix_pos c 0 Hk0) as Hr.
    destruct (all_run (Z.to_nat (C0 - 0)) 0 (repeat [] (k + 1)) []) with (fl := false) as [m [v [H1 H2]]];
      try lia; auto.
    - split; [intros m []|]. intros; lia.
    - rewrite repeat_length. lia.
    - rewrite repeat_length. lia.
    - exists m, v. split; auto. unfold vinit, topstate in *.
      assert (padz [0] = repeat 0 k) as E.
      { change [0] with ([] ++ [0]). rewrite (padz_snoc0 c []) by (cbn; lia). unfold TreeSearch.padz. cbn. f_equal. lia. }
      rewrite E in H1. exact H1.
  Qed.

  (** ** what is kept *)
  Variable dim : Z.
  Variable accept : bool.
  Variable rnd : nat -> bool.
  Notation Apply := (apply_ev c G cwa dim supers cellsize accept rnd).
  Notation Loop := (br_loop c G cwa dim supers cellsize accept rnd).

  (** the part of the loop condition that is not about the branch *)
  Definition wants (us : bool) (o : ost) : bool :=
    (match osub o with SList l => (length (osurv o) <? length l)%nat | _ => false end)
     || negb us
     || (accept && match osub o with
                   | SInt z => Z.of_nat (length (osurv o)) =? z
                   | _ => false
                   end).

  Fixpoint process (us : bool) (evs : list event) (o : ost) : res ost :=
    match evs with
    | [] => Ok o
    | e :: es => if wants us o then do o' <- Apply us o e; process us es o' else Ok o
    end.

  Lemma continue_join us v o :
    continue c accept us (join v o) = (nth 0 (nbr v) 0 <? C0) && wants us o.
  Proof. reflexivity. Qed.

  Lemma nav_step_short v v' e : NavStep v = Ok (v', e) -> (length e <= 1)%nat.
  Proof.
    unfold nav_step. intros H.
    destruct (get (nstab v) (nlvl v)); cbn [rbind] in H; [|discriminate].
    destruct (perm (nbr v) c n (nlvl v) G a (nord v)) as [[[[u sti] ord'] ast]|]; cbn [rbind] in H; [|discriminate].
    destruct (set (nstab v) (nlvl v + 1) sti); cbn [rbind] in H; [|discriminate].
    match type of H with (do sp <- ?m; _) = _ => destruct m as [sp|]; cbn [rbind] in H; [|discriminate] end.
    match type of H with (let '(_, _) := ?m in _) = _ => destruct m as [i4 b4] end.
    destruct (Advance i4 (nbr v) b4 a0 ord'); cbn [rbind] in H; [|discriminate].
    injection H as <- <-. destruct sp; [cbn; auto|].
    destruct ((u =? 0)%nat && (nb0 v || (nlvl v =? 0)%nat)); cbn; auto.
  Qed.

  Lemma process_stop us evs o : wants us o = false -> process us evs o = Ok o.
  Proof. destruct evs; cbn; auto. intros ->. auto. Qed.

  Lemma loop_run us m v evs v2 : run m v evs v2 -> C0 <= nth 0 (nbr v2) 0 ->
    forall fuel o, (m <= fuel)%nat ->
    (do st <- Loop fuel us (join v o); Ok (oof st)) = process us evs o.
  Proof.
    induction 1 as [v|m v va vb e es Hb Hs Hr IH]; intros Hend fuel o Hf.
    - cbn [process]. assert (continue c accept us (join v o) = false) as E.
      { rewrite continue_join. destruct (Z.ltb_spec (nth 0 (nbr v) 0) C0); [lia|auto]. }
      destruct fuel; cbn [br_loop]; rewrite E; cbn [rbind]; rewrite oof_join; auto.
    - destruct fuel as [|fuel]; [lia|]. cbn [br_loop]. rewrite continue_join.
      destruct (Z.ltb_spec (nth 0 (nbr v) 0) C0); [|lia]. cbn [andb].
      destruct (wants us o) eqn:Ew.
      2:{ rewrite process_stop by auto. cbn [rbind]. rewrite oof_join. auto. }
      rewrite (step_split c G cwa dim supers cellsize accept rnd us v o va e Hs).
      pose proof (nav_step_short v va e Hs) as He.
      destruct e as [|ev [|]]; [| |cbn in He; lia].
      + cbn [apply_all rfold rbind app]. apply IH; auto. lia.
      + unfold apply_all. cbn [app rfold process]. rewrite Ew.
        destruct (Apply us o ev) as [o'|]; cbn [rbind]; auto. apply IH; auto. lia.
  Qed.

  Theorem brancher_process s : exists fuel0, forall fuel, (fuel0 <= fuel)%nat ->
    brancher c G cwa dim supers cellsize accept rnd fuel s =
    do o <- process (use_subset accept s) ev_all (Ost [] 1 s 0); Ok (osurv o).
  Proof.
    destruct full_run as [m [v [Hr Hv]]]. exists m. intros fuel Hf.
    pose proof (loop_run (use_subset accept s) m vinit ev_all v Hr Hv fuel (Ost [] 1 s 0) Hf) as H.
    rewrite <- H. unfold brancher.
    change (br_init c s) with (join vinit (Ost [] 1 s 0)).
    destruct (Loop fuel (use_subset accept s) (join vinit (Ost [] 1 s 0))); cbn [rbind];
      destruct c; [congruence|reflexivity|congruence|reflexivity].
  Qed.
End Top.
