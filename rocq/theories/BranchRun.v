(** The main loop of [brancher] traverses the tree of minimal prefixes. *)
From Coq Require Import Permutation.
From Verif Require Import PyBase Spec ListFacts PermFacts NumericsModel NumericsProofs PhononsModel
  TreeModel HashProofs CanonProofs TreeSearch PermSpec BranchMachine.
Local Open Scope Z_scope.

Lemma upd_same {A} (l : list A) i d : (i < length l)%nat -> upd l i (nth i l d) = l.
Proof. revert i; induction l as [|x l IH]; intros [|i]; cbn; intros; try lia; auto. f_equal. apply IH. lia. Qed.
Lemma upd_app_at {A} (q r : list A) x y : upd (q ++ x :: r) (length q) y = q ++ y :: r.
Proof. induction q as [|a q IH]; cbn; congruence. Qed.
Lemma get_nth {A} (d : A) l i : (i < length l)%nat -> get l i = Ok (nth i l d).
Proof. intros H. unfold get. rewrite (nth_error_nth' l d) by auto. auto. Qed.

Section Run.
  Variable c : list nat.
  Variable G : list op.
  Variable cwa : list site.
  Variable supers : bool.
  Variable cellsize : nat.
  Notation n := (sum_nat c).
  Notation k := (length c).
  Notation C := (radices c).
  Notation dec := (dec c).
  Notation padz := (padz c).
  Notation validp := (validp c).
  Notation Backtrack := (backtrack c).
  Notation IsSuper := (is_super G cellsize).
  Notation Advance := (advance c).
  Notation NavStep := (nav_step c G cwa supers cellsize).
  Hypothesis HG : perm_group n (map fst G).
  Hypothesis Hpos : Forall (fun a => (0 < a)%nat) c.
  Hypothesis Hc : c <> [].
  Hypothesis Hlen : length cwa = n.
  Hypothesis Hcell : supers = false -> (cellsize <= length G)%nat.

  (** the superperiodicity test, as a function of the code *)
  Definition sup (d : list Z) : bool :=
    negb supers && (br_narrows cwa =? 0)%nat &&
    match IsSuper (seq 1 (cellsize - 1)) (dec d) with Ok b => b | Err _ => false end.

  Lemma k_pos : (0 < k)%nat.
  Proof. destruct c; [congruence|cbn; lia]. Qed.

  Lemma is_super_ok ts x : has_concs c x -> (forall t, In t ts -> (t < length G)%nat) ->
    exists b, IsSuper ts x = Ok b.
  Proof.
    intros Hx. induction ts as [|t ts IH]; intros Ht; [cbn; eauto|].
    cbn [is_super]. unfold get at 1. 
    destruct (nth_error G t) as [g|] eqn:Eg.
    2:{ apply nth_error_None in Eg. specialize (Ht t (or_introl eq_refl)). lia. }
    cbn [rbind]. apply nth_error_In in Eg.
    pose proof (permute_gx c G HG g x Eg Hx) as Ep. unfold permute in Ep. rewrite Ep. cbn [rbind].
    destruct (nlist_eqb (gx g x) x && negb (nlist_eqb (fst g) (seq 0 cellsize))); eauto.
    apply IH. intros; apply Ht; cbn; auto.
  Qed.

  Lemma sup_test d (cond : bool) : valid_code C d ->
    (if negb supers && (br_narrows cwa =? 0)%nat && cond
     then do bt <- invhash d c (length cwa); IsSuper (seq 1 (cellsize - 1)) bt
     else Ok false) = Ok (cond && sup d).
  Proof.
    intros Hd. unfold sup.
    destruct (negb supers && (br_narrows cwa =? 0)%nat) eqn:E; cbn [andb];
      [|rewrite andb_false_r; auto].
    destruct cond; cbn [andb]; auto. rewrite Hlen.
    destruct (dec_spec c d Hd) as [Ei [Hx _]]. rewrite Ei. cbn [rbind].
    destruct (is_super_ok (seq 1 (cellsize - 1)) (dec d) Hx) as [b Eb].
    { intros t Ht. apply in_seq in Ht. apply andb_true_iff in E as [E _].
      apply negb_true_iff in E. specialize (Hcell E). lia. }
    rewrite Eb. auto.
  Qed.

  (** ** paths *)
  Inductive run : nat -> nav -> list event -> nav -> Prop :=
  | run_nil v : run 0 v [] v
  | run_cons m v v1 v2 e es : nth 0 (nbr v) 0 < nth 0 C 0 -> NavStep v = Ok (v1, e) ->
      run m v1 es v2 -> run (S m) v (e ++ es) v2.

  Lemma run_app m1 v1 e1 v2 : run m1 v1 e1 v2 -> forall m2 e2 v3, run m2 v2 e2 v3 ->
    run (m1 + m2) v1 (e1 ++ e2) v3.
  Proof.
    induction 1 as [v|m v va vb e es Hb Hs Hr IH]; intros m2 e2 v3 H2; cbn; auto.
    rewrite <- app_assoc. econstructor; eauto.
  Qed.
  Lemma run_one v v1 e : nth 0 (nbr v) 0 < nth 0 C 0 -> NavStep v = Ok (v1, e) -> run 1 v e v1.
  Proof. intros Hb Hs. rewrite <- (app_nil_r e). econstructor; eauto. constructor. Qed.

  (** ** the stabilizer array *)
  Definition StabInv (q : list Z) (stb : list (list op)) : Prop :=
    (k <= length stb)%nat /\
    forall i, (1 <= i <= length q)%nat -> (i < length stb)%nat ->
      nth i stb [] = stab_lvl G i (dec (padz q)).

  Lemma stab_prefix q v i : validp (q ++ [v]) -> validp q -> (i <= length q)%nat ->
    stab_lvl G i (dec (padz (q ++ [v]))) = stab_lvl G i (dec (padz q)).
  Proof.
    intros Hqv Hq Hi. pose proof (validp_length c _ Hq).
    apply (stab_lvl_ext c G HG).
    - apply dec_spec, padz_valid; auto.
    - apply dec_spec, padz_valid; auto.
    - apply trunc_mono with (j := length q); auto.
      apply trunc_dec; auto using padz_valid. unfold TreeSearch.padz.
      rewrite <- app_assoc, !firstn_app, Nat.sub_diag, !firstn_O, !app_nil_r. auto.
  Qed.

  Lemma StabInv_down q v stb s : validp (q ++ [v]) -> validp q -> (1 <= length q)%nat ->
    StabInv q stb -> s = stab_lvl G (S (length q)) (dec (padz (q ++ [v]))) ->
    StabInv (q ++ [v]) (upd stb (S (length q)) s).
  Proof.
    intros Hqv Hq Hl [H1 H2] ->. split; [rewrite upd_length; auto|].
    rewrite upd_length, app_length. cbn [length]. intros i Hi Hi2.
    destruct (Nat.eq_dec i (S (length q))) as [->|Hne].
    - rewrite nth_upd_eq; auto.
    - rewrite nth_upd_neq by auto. rewrite H2 by lia. symmetry. apply stab_prefix; auto. lia.
  Qed.
  Lemma StabInv_up q v stb : validp (q ++ [v]) -> validp q -> StabInv (q ++ [v]) stb -> StabInv q stb.
  Proof.
    intros Hqv Hq [H1 H2]. split; auto. rewrite app_length in H2. cbn [length] in H2.
    intros i Hi Hi2. rewrite H2 by lia. apply stab_prefix; auto. lia.
  Qed.
  Lemma StabInv_upd q stb s : StabInv q stb -> StabInv q (upd stb (S (length q)) s).
  Proof.
    intros [H1 H2]. split; [rewrite upd_length; auto|]. rewrite upd_length.
    intros i Hi Hi2. rewrite nth_upd_neq by lia. auto.
  Qed.

  (** ** loop-top states *)
  Definition stB (j : nat) (q : list Z) stb ord : nav := Nav (padz q) j false stb ord.
  Definition stC (j : nat) (q : list Z) (v : Z) stb ord : nav := Nav (padz (q ++ [v])) j true stb ord.
  Definition stD (j : nat) (q : list Z) stb ord : nav :=
    if (j <? k - 2)%nat then stB j q stb ord else stC j q 1 stb ord.
  (** level [j >= 1] is exhausted *)
  Definition up (j : nat) (br : list Z) stb ord : res nav :=
    if (j - 1 =? 0)%nat then Advance 0 (upd br 0 (nth 0 br 0 + 1)) false (repeat [] k) ord
    else Advance (j - 1) br true stb ord.

  Lemma padz_nth q v : (length q < k)%nat -> nth (length q) (padz (q ++ [v])) 0 = v.
  Proof.
    intros H. unfold TreeSearch.padz. rewrite <- app_assoc. rewrite app_nth2 by lia.
    rewrite Nat.sub_diag. reflexivity.
  Qed.
  Lemma padz_upd q v w : (length q < k)%nat -> upd (padz (q ++ [v])) (length q) w = padz (q ++ [w]).
  Proof.
    intros H. unfold TreeSearch.padz. rewrite !app_length, <- !app_assoc. cbn [app length].
    apply upd_app_at.
  Qed.
  Lemma padz_len q : (length q <= k)%nat -> length (padz q) = k.
  Proof. apply padz_length. Qed.

  Lemma advance_exhausted j q v stb ord b : (1 <= j)%nat -> length q = j -> (j < k)%nat ->
    v = nth j C 0 - 1 -> (b = true \/ (j - 1 = 0)%nat) ->
    Advance j (padz (q ++ [v])) b stb ord = up j (padz q) stb ord.
  Proof.
    intros Hj Hq Hk Hv Hb. unfold up, advance. destruct j as [|j]; [lia|]. cbn [backtrack].
    rewrite (get_nth 0) by (rewrite padz_len; rewrite ?app_length; cbn; lia).
    cbn [rbind]. unfold br_C, br_n. fold C. rewrite (get_nth 0) by (rewrite radices_length; auto).
    cbn [rbind]. rewrite <- Hq at 1. rewrite padz_nth by lia. rewrite Hv, Z.eqb_refl.
    replace (S j - 1)%nat with j by lia.
    rewrite <- Hq, padz_upd, padz_snoc0 by lia.
    destruct (Nat.eqb_spec j 0) as [->|Hne].
    - reflexivity.
    - destruct Hb as [->|Hb]; [|lia]. reflexivity.
  Qed.
  Lemma advance_next j q v stb ord : (1 <= j)%nat -> length q = j -> (j < k)%nat ->
    v <> nth j C 0 - 1 ->
    Advance j (padz (q ++ [v])) true stb ord = Ok (stC j q (v + 1) stb ord).
  Proof.
    intros Hj Hq Hk Hv. unfold advance. destruct j as [|j]; [lia|]. cbn [backtrack].
    rewrite (get_nth 0) by (rewrite padz_len; rewrite ?app_length; cbn; lia).
    cbn [rbind]. unfold br_C, br_n. fold C. rewrite (get_nth 0) by (rewrite radices_length; auto).
    cbn [rbind]. rewrite <- Hq at 1. rewrite padz_nth by lia.
    destruct (Z.eqb_spec v (nth (S j) C 0 - 1)); [congruence|]. cbn [rbind].
    cbn [Nat.eqb rbind]. unfold stC.  rewrite <- Hq. rewrite padz_nth, padz_upd by lia. auto.
  Qed.
  (** going down to a fresh level *)
  Lemma advance_down j q stb ord : (1 <= j)%nat -> length q = j -> (j + 1 < k)%nat ->
    Advance j (padz q) (Z.of_nat k - 2 <=? Z.of_nat j) stb ord = Ok (stD j q stb ord).
  Proof.
    intros Hj Hq Hk. unfold advance. destruct j as [|j]; [lia|]. cbn [backtrack].
    rewrite (get_nth 0) by (rewrite padz_len; rewrite ?app_length; cbn; lia).
    cbn [rbind]. unfold br_C, br_n. fold C. rewrite (get_nth 0) by (rewrite radices_length; lia).
    cbn [rbind]. rewrite <- (padz_snoc0 c q) by lia. rewrite <- Hq at 1. rewrite padz_nth by lia.
    pose proof (radix_ge2 c Hpos (S j) ltac:(lia)) as Hr.
    destruct (Z.eqb_spec 0 (nth (S j) C 0 - 1)); [lia|]. cbn [rbind Nat.eqb].
    unfold stD, stB, stC. destruct (Nat.ltb_spec (S j) (k - 2)).
    - destruct (Z.leb_spec (Z.of_nat k - 2) (Z.of_nat (S j))); [lia|].
      cbn [rbind]. rewrite padz_snoc0 by lia. auto.
    - destruct (Z.leb_spec (Z.of_nat k - 2) (Z.of_nat (S j))); [|lia]. cbn [rbind].
      rewrite <- Hq. rewrite padz_nth, padz_upd by lia. reflexivity.
  Qed.

  (** ** events *)
  Definition node (d : list Z) : list event :=
    if sup d then [EvSup d] else [EvOut d (stab_full G (dec d))].

  Fixpoint ev_sub (Cs : list Z) (p : list Z) : list event :=
    match Cs with
    | [] => []
    | r :: Cs' =>
        match Cs' with
        | [] => []
        | _ => ev_sub Cs' (p ++ [0]) ++
               flat_map (fun v => if uniqp c G (p ++ [v]) then
                                    if sup (padz (p ++ [v])) then [EvSup (padz (p ++ [v]))]
                                    else EvOut (padz (p ++ [v])) (stab_full G (dec (padz (p ++ [v]))))
                                         :: ev_sub Cs' (p ++ [v])
                                  else [])
                        (range_up 1 r)
        end
    end.
  Definition ev_top (b : Z) : list event :=
    if uniqp c G [b] then node (padz [b]) ++ ev_sub (skipn 1 C) [b] else [].
  Definition ev_all : list event := flat_map ev_top (range_up 0 (nth 0 C 0)).

  Lemma ev_sub_step q : (length q + 1 < k)%nat ->
    ev_sub (skipn (length q) C) q =
      ev_sub (skipn (length q + 1) C) (q ++ [0]) ++
      flat_map (fun v => if uniqp c G (q ++ [v]) then
                           if sup (padz (q ++ [v])) then [EvSup (padz (q ++ [v]))]
                           else EvOut (padz (q ++ [v])) (stab_full G (dec (padz (q ++ [v]))))
                                :: ev_sub (skipn (length q + 1) C) (q ++ [v])
                         else []) (range_up 1 (nth (length q) C 0)).
  Proof.
    intros H. rewrite (skipn_nth 0 C (length q)) by (rewrite radices_length; lia).
    rewrite Nat.add_1_r. cbn [ev_sub]. 
    destruct (skipn (S (length q)) C) as [|r Cs] eqn:E.
    - apply (f_equal (@length Z)) in E. rewrite skipn_length, radices_length in E. cbn in E. lia.
    - reflexivity.
  Qed.
  Lemma ev_sub_last q : (k <= length q + 1)%nat -> ev_sub (skipn (length q) C) q = [].
  Proof.
    intros H. destruct (skipn (length q) C) as [|r [|r' Cs]] eqn:E; auto.
    apply (f_equal (@length Z)) in E. rewrite skipn_length, radices_length in E. cbn in E. lia.
  Qed.

  (** ** one step at an inner node *)
  Lemma step_inner j q v b stb ord : (1 <= j)%nat -> length q = j -> (j + 1 < k)%nat ->
    validp q -> 0 <= v < nth j C 0 -> StabInv q stb -> (b = false -> v = 0) ->
    let d := padz (q ++ [v]) in
    let stb' := upd stb (S j) (if uniqp c G (q ++ [v]) then stab_lvl G (S j) (dec d) else []) in
    let sp := uniqp c G (q ++ [v]) && b && sup d in
    NavStep (Nav d j b stb ord) =
    do v' <- (if (uniqp c G (q ++ [v]) && negb sp && (j <? k - 2)%nat) || negb b
              then Advance (S j) d (Z.of_nat k - 2 <=? Z.of_nat (S j)) stb' ord
              else Advance j d true stb' ord);
    Ok (v', if uniqp c G (q ++ [v]) && b
            then if sup d then [EvSup d] else [EvOut d (stab_full G (dec d))] else []).
  Proof.
    intros Hj Hq Hk Hv Hr Hs Hb d stb' sp.
    assert (validp (q ++ [v])) as Hqv by (apply validp_snoc; auto; subst j; auto; lia).
    assert (valid_code C d) as Hd by (apply padz_valid; auto).
    assert (length d = k) as Hdl by (apply padz_len; rewrite app_length; cbn; lia).
    destruct Hs as [Hs1 Hs2].
    unfold nav_step. cbn [nlvl nbr nstab nord nb0].
    rewrite (get_nth []) by lia. cbn [rbind].
    assert (nth j stb [] = stab_lvl G j (dec d)) as Est.
    { rewrite Hs2 by lia. symmetry. apply stab_prefix; auto; lia. }
    rewrite Est, (perm_S c G HG Hpos) by (auto; lia).
    assert (uniqp c G (q ++ [v]) = uniq_lvl G j (dec d)) as Eu.
    { unfold uniqp. rewrite app_length. cbn [length]. f_equal. lia. }
    subst stb' sp. rewrite Eu. destruct (uniq_lvl G j (dec d)) eqn:EU; cbn [rbind].
    - unfold set. destruct (Nat.ltb_spec (j + 1) (length stb)); [|lia]. cbn [rbind].
      rewrite Nat.add_1_r.
      cbn [Nat.eqb]. destruct (Nat.eqb_spec j 0); [lia|]. rewrite !andb_true_r, !orb_false_r.
      rewrite sup_test by auto. cbn [rbind andb]. rewrite Hdl.
      destruct b; cbn [andb negb orb].
      + destruct (sup d) eqn:Esd; cbn [negb andb].
        * reflexivity.
        * destruct (Z.ltb_spec (Z.of_nat j) (Z.of_nat k - 2)); destruct (Nat.ltb_spec j (k - 2)); try lia;
            cbn [orb]; auto.
          destruct (Z.ltb_spec (Z.of_nat j) (Z.of_nat k - 1)); [|lia]. auto.
      + rewrite orb_true_r. destruct (Z.ltb_spec (Z.of_nat j) (Z.of_nat k - 1)); [|lia].
        destruct (Z.of_nat j <? Z.of_nat k - 2); auto.
    - unfold set. destruct (Nat.ltb_spec (j + 1) (length stb)); [|lia]. cbn [rbind].
      rewrite Nat.add_1_r. cbn [Nat.eqb]. rewrite !andb_false_r. cbn [andb rbind negb orb].
      destruct b; cbn [negb].
      + reflexivity.
      + exfalso. specialize (Hb eq_refl). subst v.
        rewrite uniqp_zero in Eu by (auto; lia). discriminate.
  Qed.

  (** the digits [v], [v+1], ... of level [j], given that the deeper level does its job *)
  Definition sub_ok (j : nat) : Prop :=
    forall q stb ord, length q = j -> validp q -> StabInv q stb -> hd 0 q < nth 0 C 0 ->
    exists m stb', StabInv q stb' /\
      forall v', up j (padz q) stb' ord = Ok v' ->
        run m (stD j q stb ord) (ev_sub (skipn j C) q) v'.

  Lemma hd_padz q v : (1 <= length q)%nat -> nth 0 (padz (q ++ [v])) 0 = hd 0 q.
  Proof. destruct q; cbn; intros; [lia|auto]. Qed.
  Lemma hd_padz' q : (1 <= length q)%nat -> nth 0 (padz q) 0 = hd 0 q.
  Proof. destruct q; cbn; intros; [lia|auto]. Qed.
  Lemma hd_app q (v : Z) : (1 <= length q)%nat -> hd 0 (q ++ [v]) = hd 0 q.
  Proof. destruct q; cbn; intros; [lia|auto]. Qed.

  Definition ev_digit (Cs : list Z) (q : list Z) (v : Z) : list event :=
    if uniqp c G (q ++ [v]) then
      if sup (padz (q ++ [v])) then [EvSup (padz (q ++ [v]))]
      else EvOut (padz (q ++ [v])) (stab_full G (dec (padz (q ++ [v]))))
           :: ev_sub Cs (q ++ [v])
    else [].

  (** one digit *)
  Lemma digit_run j q v stb ord : (1 <= j)%nat -> length q = j -> (j + 1 < k)%nat ->
    validp q -> 1 <= v < nth j C 0 -> StabInv q stb -> hd 0 q < nth 0 C 0 ->
    ((j + 2 < k)%nat -> sub_ok (S j)) ->
    exists m stb', StabInv q stb' /\
      forall v', Advance j (padz (q ++ [v])) true stb' ord = Ok v' ->
        run m (stC j q v stb ord) (ev_digit (skipn (j + 1) C) q v) v'.
  Proof.
    intros Hj Hq Hk Hv Hr Hs Hhd IH.
    assert (validp (q ++ [v])) as Hqv by (apply validp_snoc; auto; [|subst j; lia]; subst j; lia).
    pose proof (step_inner j q v true stb ord Hj Hq Hk Hv ltac:(lia) Hs ltac:(discriminate)) as Hstep.
    cbv zeta in Hstep. cbn [negb] in Hstep. rewrite andb_true_r, orb_false_r in Hstep.
    set (d := padz (q ++ [v])) in *.
    set (stb1 := upd stb (S j) (if uniqp c G (q ++ [v]) then stab_lvl G (S j) (dec d) else [])) in *.
    assert (StabInv q stb1) as Hs1 by (unfold stb1; rewrite <- Hq; apply StabInv_upd; auto).
    unfold ev_digit. fold d.
    destruct (uniqp c G (q ++ [v])) eqn:EU; cbn [andb] in Hstep.
    - destruct (sup d) eqn:Esd; cbn [negb andb] in Hstep.
      + exists 1%nat, stb1. split; auto. intros v' Ha. rewrite Ha in Hstep. cbn [rbind] in Hstep.
        apply run_one; auto. cbn [nbr stC]. rewrite hd_padz by lia. auto.
      + destruct (Nat.ltb_spec j (k - 2)).
          unfold d in Hstep.
          rewrite advance_down in Hstep by (try rewrite app_length; cbn [length]; lia).
          cbn [rbind] in Hstep. fold d in Hstep.
          destruct (IH ltac:(lia) (q ++ [v]) stb1 ord) as [m [stb2 [Hs2 Hrun]]]; auto.
          { rewrite app_length; cbn; lia. }
          { unfold stb1. rewrite <- Hq. apply StabInv_down; auto; lia. }
          { rewrite hd_app by lia. auto. }
          exists (S m), stb2. split; [eapply StabInv_up; eauto|].
          intros v' Ha.
          change (EvOut d (stab_full G (dec d)) :: ev_sub (skipn (j + 1) C) (q ++ [v])) with
            ([EvOut d (stab_full G (dec d))] ++ ev_sub (skipn (j + 1) C) (q ++ [v])).
          econstructor; [|exact Hstep|].
          { cbn [nbr stC]. rewrite hd_padz by lia. auto. }
          replace (j + 1)%nat with (S j) by lia.
          apply Hrun. unfold up. replace (S j - 1)%nat with j by lia.
          destruct (Nat.eqb_spec j 0); [lia|]. exact Ha.
        * exists 1%nat, stb1. split; auto. intros v' Ha. rewrite Ha in Hstep. cbn [rbind] in Hstep.
          replace (j + 1)%nat with (length (q ++ [v])) by (rewrite app_length; cbn; lia).
          rewrite ev_sub_last by (rewrite app_length; cbn; lia).
          apply run_one; auto. cbn [nbr stC]. rewrite hd_padz by lia. auto.
    - exists 1%nat, stb1. split; auto. intros v' Ha. rewrite Ha in Hstep. cbn [rbind] in Hstep.
      apply run_one; auto. cbn [nbr stC]. rewrite hd_padz by lia. auto.
  Qed.

  Lemma digits_run j q : (1 <= j)%nat -> length q = j -> (j + 1 < k)%nat ->
    validp q -> hd 0 q < nth 0 C 0 -> ((j + 2 < k)%nat -> sub_ok (S j)) ->
    forall r v stb ord, 1 <= v < nth j C 0 -> Z.of_nat r = nth j C 0 - 1 - v -> StabInv q stb ->
    exists m stb', StabInv q stb' /\
      forall v', up j (padz q) stb' ord = Ok v' ->
        run m (stC j q v stb ord)
              (flat_map (ev_digit (skipn (j + 1) C) q) (range_up v (nth j C 0))) v'.
  Proof.
    intros Hj Hq Hk Hv Hhd IH. induction r as [|r IHr]; intros v stb ord Hr Er Hs.
    - destruct (digit_run j q v stb ord Hj Hq Hk Hv Hr Hs Hhd IH) as [m [stb' [Hs' Hrun]]].
      exists m, stb'. split; auto. intros v' Hup.
      rewrite range_up_cons by lia. rewrite range_up_empty by lia. cbn [flat_map]. rewrite app_nil_r.
      apply Hrun. rewrite advance_exhausted; auto; lia.
    - destruct (digit_run j q v stb ord Hj Hq Hk Hv Hr Hs Hhd IH) as [m [stb' [Hs' Hrun]]].
      destruct (IHr (v + 1) stb' ord ltac:(lia) ltac:(lia) Hs') as [m2 [stb2 [Hs2 Hrun2]]].
      exists (m + m2)%nat, stb2. split; auto. intros v' Hup.
      rewrite range_up_cons by lia. cbn [flat_map].
      eapply run_app; [|apply Hrun2; exact Hup].
      apply Hrun. apply advance_next; auto; lia.
  Qed.

  Lemma sub_ok_all : forall m j, (1 <= j)%nat -> (j + 2 + m = k)%nat -> sub_ok j.
  Proof.
    induction m as [|m IHm]; intros j Hj Hm q stb ord Hq Hv Hs Hhd.
    - assert (j + 1 < k)%nat as Hk by lia.
      pose proof (radix_ge2 c Hpos j ltac:(lia)) as Hr.
      destruct (digits_run j q Hj Hq Hk Hv Hhd ltac:(lia) (Z.to_nat (nth j C 0 - 2)) 1 stb ord
                  ltac:(lia) ltac:(lia) Hs) as [m1 [stb1 [Hs1 Hrun]]].
      exists m1, stb1. split; auto. intros v' Hup. unfold stD.
      destruct (Nat.ltb_spec j (k - 2)); [lia|].
      rewrite <- Hq, ev_sub_step, Hq by lia.
      replace (j + 1)%nat with (length (q ++ [0])) at 1 by (rewrite app_length; cbn; lia).
      rewrite ev_sub_last by (rewrite app_length; cbn; lia). cbn [app].
      apply Hrun; auto.
    - assert (j + 1 < k)%nat as Hk by lia.
      assert (sub_ok (S j)) as HS by (apply IHm; lia).
      pose proof (radix_ge2 c Hpos j ltac:(lia)) as Hr.
      assert (validp (q ++ [0])) as Hq0 by (apply validp_snoc; auto; [|subst j; lia]; lia).
      (* the step at digit 0 *)
      pose proof (step_inner j q 0 false stb ord Hj Hq Hk Hv ltac:(lia) Hs ltac:(auto)) as Hstep.
      cbv zeta in Hstep. cbn [negb] in Hstep. rewrite orb_true_r, andb_false_r in Hstep.
      rewrite uniqp_zero in Hstep by (auto; lia).
      rewrite advance_down in Hstep by (try rewrite app_length; cbn [length]; lia).
      cbn [rbind] in Hstep.
      set (stb1 := upd stb (S j) (stab_lvl G (S j) (dec (padz (q ++ [0]))))) in *.
      assert (StabInv (q ++ [0]) stb1) as Hs1.
      { unfold stb1. rewrite <- Hq. apply StabInv_down; auto; lia. }
      destruct (HS (q ++ [0]) stb1 ord) as [m1 [stb2 [Hs2 Hrun1]]]; auto.
      { rewrite app_length; cbn; lia. }
      { rewrite hd_app by lia; auto. }
      apply StabInv_up in Hs2; auto.
      destruct (digits_run j q Hj Hq Hk Hv Hhd ltac:(auto) (Z.to_nat (nth j C 0 - 2)) 1 stb2 ord
                  ltac:(lia) ltac:(lia) Hs2) as [m2 [stb3 [Hs3 Hrun2]]].
      exists (S m1 + m2)%nat, stb3. split; auto. intros v' Hup.
      unfold stD. destruct (Nat.ltb_spec j (k - 2)); [|lia].
      rewrite <- Hq, ev_sub_step, Hq by lia.
      eapply run_app; [|apply Hrun2; exact Hup].
      rewrite <- (app_nil_l (ev_sub _ _)). econstructor.
      + cbn [nbr stB]. rewrite hd_padz' by lia. auto.
      + unfold stB. rewrite <- (padz_snoc0 c q) by lia. exact Hstep.
      + replace (j + 1)%nat with (S j) by lia. apply Hrun1.
        unfold up. replace (S j - 1)%nat with j by lia. destruct (Nat.eqb_spec j 0); [lia|].
        apply (advance_next j q 0); auto; lia.
  Qed.
End Run.
