(** What [_perm] computes on a node of the tree. *)
From Coq Require Import Permutation.
From Verif Require Import PyBase Spec ListFacts PermFacts NumericsModel NumericsProofs PhononsModel
  TreeModel HashProofs CanonProofs TreeSearch.
Local Open Scope Z_scope.

Section PermSpec.
  Variable c : list nat.
  Variable G : list op.
  Notation n := (sum_nat c).
  Notation k := (length c).
  Hypothesis HG : perm_group n (map fst G).
  Hypothesis Hpos : Forall (fun a => (0 < a)%nat) c.
  Notation C := (radices c).
  Notation dec := (dec c).

  Lemma hash_mask j x : has_concs c x -> (j < k)%nat -> hash (mask j x) = Ok (lvl_rank j x).
  Proof.
    intros Hx Hj. apply hash_rank; [apply mask_bits|]. apply occ_pos. rewrite mask_occ.
    destruct Hx as [_ Hx]. rewrite Hx by auto. rewrite Forall_forall in Hpos. apply Hpos, nth_In; auto.
  Qed.

  (** the two ways [_perm] computes the mask *)
  Lemma perm_mask0 x : positive x ->
    map (fun y => if (y =? 1)%nat then 1%nat else 0%nat) x = mask 0 x.
  Proof. intros H. unfold mask. rewrite filter_gt0; auto. Qed.

  Lemma perm_maskS j x : positive x ->
    map (fun y => if (y =? 0)%nat then 0%nat else 1%nat)
        (filter (fun y => (y =? 0)%nat || (y =? S j)%nat) (trunc (S j) x)) = mask j x.
  Proof.
    intros H. rewrite mask_trunc by auto. unfold tmask. apply map_ext_in.
    intros y Hy. apply filter_In in Hy as [_ Hy].
    destruct (Nat.eqb_spec y 0) as [E|Hn]; [subst y; reflexivity|]. cbn [orb] in Hy. rewrite Hy. auto.
  Qed.

  Definition marks (x : list nat) : list Z :=
    map (fun g => lvl_rank 0 (gx g x)) (filter (fun g => lvl_rank 0 x <? lvl_rank 0 (gx g x)) G).

  Lemma perm_level0_spec gen : forall x st ast m0 ms, incl gen G -> has_concs c x -> (0 < k)%nat ->
    (forall g, In g gen -> lvl_rank 0 x <= lvl_rank 0 (gx g x)) ->
    perm_level0 gen x (lvl_rank 0 x) st ast (m0, ms) =
    Ok (0%nat, st ++ filter (fun g => nlist_eqb (trunc 1 (gx g x)) (trunc 1 x)) gen,
        (m0, ms ++ map (fun g => lvl_rank 0 (gx g x))
                       (filter (fun g => lvl_rank 0 x <? lvl_rank 0 (gx g x)) gen)),
        ast ++ filter (fun g => nlist_eqb x (gx g x)) gen).
  Proof.
    induction gen as [|g gen IH]; intros x st ast m0 ms Hi Hx Hk Hle.
    - cbn. rewrite !app_nil_r. auto.
    - assert (In g G) as Hg by (apply Hi; cbn; auto).
      assert (has_concs c (gx g x)) as Hgx by (apply (gx_concs c G HG); auto).
      cbn [perm_level0]. rewrite (permute_gx c G HG) by auto. cbn [rbind].
      rewrite perm_mask0 by (apply (has_concs_positive c); auto).
      rewrite hash_mask by auto. cbn [rbind].
      specialize (Hle g (or_introl eq_refl)) as Hg1.
      assert (nlist_eqb (trunc 1 (gx g x)) (trunc 1 x) = negb (lvl_rank 0 x <? lvl_rank 0 (gx g x))) as Et.
      { destruct (Z.ltb_spec (lvl_rank 0 x) (lvl_rank 0 (gx g x))) as [Hlt|Hge].
        - destruct (nlist_eqb (trunc 1 (gx g x)) (trunc 1 x)) eqn:E; auto.
          apply nlist_eqb_spec in E. apply lvl_rank_trunc in E; [lia| |];
            apply (has_concs_positive c); auto.
        - apply nlist_eqb_spec. apply (lvl_rank_inj c); auto; [|lia].
          apply trunc_0_eq; try (apply (has_concs_positive c); auto).
          rewrite (concs_length c x Hx), (concs_length c _ Hgx). auto. }
      cbn [filter]. rewrite Et.
      assert (incl gen G) as Hi' by (intros h Hh; apply Hi; cbn; auto).
      assert (forall h, In h gen -> lvl_rank 0 x <= lvl_rank 0 (gx h x)) as Hle'
        by (intros h Hh; apply Hle; cbn; auto).
      destruct (Z.ltb_spec (lvl_rank 0 x) (lvl_rank 0 (gx g x))) as [Hlt|Hge].
      + cbn [negb]. unfold order_mark. cbn [fst snd]. rewrite IH by auto.
        destruct (nlist_eqb x (gx g x)); cbn [map]; rewrite <- ?app_assoc; auto.
      + destruct (Z.ltb_spec (lvl_rank 0 (gx g x)) (lvl_rank 0 x)); [lia|].
        cbn [negb]. rewrite IH by auto.
        destruct (nlist_eqb x (gx g x)); rewrite <- ?app_assoc; auto.
  Qed.

  Lemma perm_levelS_spec j stab : forall x st ast, incl stab G -> has_concs c x -> (j < k)%nat ->
    perm_levelS stab x j (lvl_rank j x) st ast =
    if forallb (fun g => lvl_rank j x <=? lvl_rank j (gx g x)) stab then
      Ok (0%nat, st ++ filter (fun g => nlist_eqb (trunc (S j) (gx g x)) (trunc (S j) x)) stab,
          ast ++ filter (fun g => nlist_eqb x (gx g x)) stab)
    else Ok (1%nat, [], []).
  Proof.
    induction stab as [|g stab IH]; intros x st ast Hi Hx Hj.
    - cbn. rewrite !app_nil_r. auto.
    - assert (In g G) as Hg by (apply Hi; cbn; auto).
      assert (has_concs c (gx g x)) as Hgx by (apply (gx_concs c G HG); auto).
      assert (incl stab G) as Hi' by (intros h Hh; apply Hi; cbn; auto).
      cbn [perm_levelS]. rewrite (permute_gx c G HG) by auto. cbn [rbind].
      change (map (fun y : nat => if (S j <? y)%nat then 0%nat else y) (gx g x)) with (trunc (S j) (gx g x)).
      change (map (fun y : nat => if (S j <? y)%nat then 0%nat else y) x) with (trunc (S j) x).
      rewrite perm_maskS by (apply (has_concs_positive c); auto).
      rewrite hash_mask by auto. cbn [rbind forallb filter].
      rewrite Z.leb_antisym.
      destruct (Z.ltb_spec (lvl_rank j (gx g x)) (lvl_rank j x)); [reflexivity|]. cbn [negb andb].
      rewrite IH by auto.
      destruct (forallb (fun g0 => lvl_rank j x <=? lvl_rank j (gx g0 x)) stab); auto.
      destruct (nlist_eqb (trunc (S j) (gx g x)) (trunc (S j) x)), (nlist_eqb x (gx g x));
        rewrite <- ?app_assoc; auto.
  Qed.

  (** level 0 of [_perm] on a node whose first digit is minimal *)
  Lemma perm_0 d stab m0 ms : valid_code C d -> (0 < k)%nat ->
    uniq_lvl G 0 (dec d) = true ->
    perm d c n 0 G stab (m0, ms) =
    Ok (0%nat, stab_lvl G 1 (dec d), (m0, ms ++ marks (dec d)), stab_full G (dec d)).
  Proof.
    intros Hd Hk Hu. destruct (dec_spec c d Hd) as [E [Hx _]]. unfold perm. rewrite E. cbn [rbind Nat.eqb].
    pose proof (valid_length c d Hd) as Hl.
    unfold get. rewrite (nth_error_nth' d 0) by lia. cbn [rbind].
    rewrite <- (lvl_rank_dec c d 0) by auto.
    rewrite perm_level0_spec; auto using incl_refl.
    intros g Hg. rewrite uniq_lvl_spec in Hu. apply Hu; auto.
    apply trunc_0_eq; try (apply (has_concs_positive c); auto; apply (gx_concs c G HG); auto).
    rewrite (concs_length c _ Hx), (concs_length c (gx g (dec d))) by (apply (gx_concs c G HG); auto). auto.
  Qed.

  Lemma stab_lvl_S j x : has_concs c x ->
    stab_lvl G (S j) x = filter (fun g => nlist_eqb (trunc (S j) (gx g x)) (trunc (S j) x)) (stab_lvl G j x).
  Proof.
    intros Hx. unfold stab_lvl. rewrite filter_filter. apply filter_ext_in. intros g Hg.
    destruct (nlist_eqb (trunc (S j) (gx g x)) (trunc (S j) x)) eqn:E; [|rewrite andb_false_r; auto].
    rewrite andb_true_r. symmetry. apply nlist_eqb_spec. apply nlist_eqb_spec in E.
    eapply trunc_mono; [|exact E]. lia.
  Qed.
  Lemma stab_full_lvl j x : has_concs c x ->
    stab_full G x = filter (fun g => nlist_eqb x (gx g x)) (stab_lvl G j x).
  Proof.
    intros Hx. unfold stab_lvl, stab_full. rewrite filter_filter. apply filter_ext_in. intros g Hg.
    destruct (nlist_eqb x (gx g x)) eqn:E; [|rewrite andb_false_r; auto].
    rewrite andb_true_r. symmetry. apply nlist_eqb_spec. apply nlist_eqb_spec in E.
    rewrite <- E. auto.
  Qed.

  (** the higher levels *)
  Lemma perm_S d j ord : valid_code C d -> (1 <= j < k)%nat ->
    perm d c n j G (stab_lvl G j (dec d)) ord =
    if uniq_lvl G j (dec d) then Ok (0%nat, stab_lvl G (S j) (dec d), ord, stab_full G (dec d))
    else Ok (1%nat, [], ord, []).
  Proof.
    intros Hd Hj. destruct (dec_spec c d Hd) as [E [Hx _]]. unfold perm. rewrite E. cbn [rbind].
    destruct (Nat.eqb_spec j 0); [lia|].
    pose proof (valid_length c d Hd) as Hl.
    unfold get. rewrite (nth_error_nth' d 0) by lia.
    rewrite <- (lvl_rank_dec c d j) by (auto; lia).
    assert (incl (stab_lvl G j (dec d)) G) as Hi by (intros g Hg; apply stab_lvl_In in Hg; tauto).
    pose proof (perm_levelS_spec j (stab_lvl G j (dec d)) (dec d) [] [] Hi Hx ltac:(lia)) as HS.
    cbn [app] in HS. rewrite <- (stab_lvl_S j), <- (stab_full_lvl j) in HS by auto.
    fold (uniq_lvl G j (dec d)) in HS.
    destruct (G_id c G HG) as [e [He Ee]].
    assert (gx e (dec d) = dec d) as Ex by (apply (gx_id c); auto).
    assert (In e (stab_lvl G j (dec d))) as Hes by (apply stab_lvl_In; rewrite Ex; auto).
    assert (forall l : list op, In e l -> (exists a b r, l = a :: b :: r) \/ l = [e]) as Hcase.
    { intros [|a [|b r]] H; [destruct H| |eauto]. destruct H as [->|[]]. auto. }
    destruct (Hcase _ Hes) as [[a [b [r Es]]]|Es].
    - rewrite Es in HS |- *. cbn [rbind]. rewrite HS. destruct (uniq_lvl G j (dec d)); reflexivity.
    - assert (uniq_lvl G j (dec d) = true) as ->.
      { unfold uniq_lvl. rewrite Es. cbn. rewrite Ex, Z.leb_refl. auto. }
      rewrite (stab_lvl_S j), (stab_full_lvl j), Es by auto. cbn [filter].
      rewrite Ex, !nlist_eqb_refl. auto.
  Qed.
End PermSpec.
