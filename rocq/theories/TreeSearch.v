(** The pruned tree of codes and its leaves. *)
From Coq Require Import Permutation.
From Verif Require Import PyBase Spec ListFacts PermFacts NumericsModel NumericsProofs PhononsModel
  TreeModel HashProofs CanonProofs.
Local Open Scope Z_scope.

(** all digit vectors below the radices, in lexicographic order *)
Fixpoint all_codes (C : list Z) : list (list Z) :=
  match C with
  | [] => [[]]
  | r :: C' => flat_map (fun v => map (cons v) (all_codes C')) (range_up 0 r)
  end.

Lemma in_range_up lo hi z : In z (range_up lo hi) <-> lo <= z < hi.
Proof.
  unfold range_up. rewrite in_map_iff. split.
  - intros [j [<- Hj]]. apply in_seq in Hj. lia.
  - intros H. exists (Z.to_nat (z - lo)). split; [lia|]. apply in_seq. lia.
Qed.
Lemma NoDup_range_up lo hi : NoDup (range_up lo hi).
Proof. apply NoDup_map_inj; [intros; lia|apply seq_NoDup]. Qed.
Lemma range_up_empty lo hi : hi <= lo -> range_up lo hi = [].
Proof. intros H. unfold range_up. replace (Z.to_nat (hi - lo)) with 0%nat by lia. auto. Qed.
Lemma range_up_cons lo hi : lo < hi -> range_up lo hi = lo :: range_up (lo + 1) hi.
Proof.
  intros H. unfold range_up.
  replace (Z.to_nat (hi - lo)) with (S (Z.to_nat (hi - (lo + 1)))) by lia.
  cbn [seq map]. f_equal; [lia|]. rewrite <- seq_shift, map_map. apply map_ext. intros; lia.
Qed.
Lemma range_up_snoc lo hi : lo <= hi -> range_up lo (hi + 1) = range_up lo hi ++ [hi].
Proof.
  intros H. unfold range_up.
  replace (Z.to_nat (hi + 1 - lo)) with (Z.to_nat (hi - lo) + 1)%nat by lia.
  rewrite seq_app, map_app. cbn. do 2 f_equal. lia.
Qed.
Lemma range_up_app lo mid hi : lo <= mid <= hi -> range_up lo hi = range_up lo mid ++ range_up mid hi.
Proof.
  intros H. unfold range_up.
  replace (Z.to_nat (hi - lo)) with (Z.to_nat (mid - lo) + Z.to_nat (hi - mid))%nat by lia.
  rewrite seq_app, map_app. f_equal. cbn.
  replace (Z.to_nat (mid - lo)) with (0 + Z.to_nat (mid - lo))%nat by lia.
  generalize 0%nat as s. generalize (Z.to_nat (hi - mid)) as m.
  induction m as [|m IH]; intros s; cbn; auto. f_equal; [lia|]. apply (IH (S s)).
Qed.

Lemma in_all_codes C d : In d (all_codes C) <-> valid_code C d.
Proof.
  revert d; induction C as [|r C IH]; intros d; cbn.
  - split; [intros [<-|[]]; constructor|]. intros H; inversion H; auto.
  - rewrite in_flat_map. split.
    + intros [v [Hv Hd]]. apply in_map_iff in Hd as [d' [<- Hd]]. apply in_range_up in Hv.
      constructor; [auto|]. apply IH; auto.
    + intros H; inversion H as [|v r' d' C' Hv Hd]; subst. exists v.
      split; [apply in_range_up; auto|]. apply in_map, IH; auto.
Qed.
Lemma NoDup_all_codes C : NoDup (all_codes C).
Proof.
  induction C as [|r C IH]; cbn; [repeat constructor; auto|].
  apply NoDup_flat_map; [apply NoDup_range_up| |].
  - intros v _. apply NoDup_map_inj; auto. intros; congruence.
  - intros x y z _ _ Hx Hy. apply in_map_iff in Hx as [w1 [<- _]].
    apply in_map_iff in Hy as [w2 [H _]]. congruence.
Qed.

Section TreeSearch.
  Variable c : list nat.
  Variable G : list op.
  Notation n := (sum_nat c).
  Notation k := (length c).
  Hypothesis HG : perm_group n (map fst G).
  Definition radices : list Z := coefficients c (Z.of_nat n).
  Notation C := radices.

  Definition dec (d : list Z) : list nat :=
    match invhash d c n with Ok x => x | Err _ => [] end.

  Lemma dec_spec d : valid_code C d ->
    invhash d c n = Ok (dec d) /\ has_concs c (dec d) /\ code c (dec d) = d.
  Proof.
    intros H. destruct (invhash_valid c d H) as [x [E [Hx Ex]]]. unfold dec. rewrite E. auto.
  Qed.
  Lemma dec_code x : has_concs c x -> dec (code c x) = x.
  Proof. intros H. unfold dec, code. rewrite invhash_encode; auto. Qed.
  Lemma code_valid x : has_concs c x -> valid_code C (code c x).
  Proof. apply encode_valid. Qed.

  Lemma radices_length : length C = k.
  Proof. apply coefficients_length. Qed.

  Lemma valid_length d : valid_code C d -> length d = k.
  Proof. intros H. rewrite <- radices_length. eapply Forall2_length; eauto. Qed.

  Lemma lvl_rank_dec d j : valid_code C d -> (j < k)%nat -> lvl_rank j (dec d) = nth j d 0.
  Proof.
    intros H Hj. destruct (dec_spec d H) as [_ [_ E]]. rewrite <- E at 2.
    unfold code, encode. rewrite nth_map_lt with (d := 0%nat) by (rewrite seq_length; auto).
    rewrite seq_nth by auto. auto.
  Qed.

  Lemma trunc_dec j d d' : valid_code C d -> valid_code C d' -> (j <= k)%nat ->
    firstn j d = firstn j d' -> trunc j (dec d) = trunc j (dec d').
  Proof.
    intros Hd Hd'. pose proof (valid_length d Hd) as Hl. pose proof (valid_length d' Hd') as Hl'.
    destruct (dec_spec d Hd) as [_ [Hx _]]. destruct (dec_spec d' Hd') as [_ [Hy _]].
    induction j as [|j IH]; intros Hj E.
    - apply trunc_0_eq; eauto using has_concs_positive.
      rewrite (concs_length c (dec d) Hx), (concs_length c (dec d') Hy); auto.
    - assert (firstn j d = firstn j d') as Ej.
      { apply (f_equal (firstn j)) in E. rewrite !firstn_firstn in E.
        replace (Nat.min j (S j)) with j in E by lia. auto. }
      apply (lvl_rank_inj c); auto; try lia.
      + apply IH; auto; lia.
      + rewrite !lvl_rank_dec by (auto; lia).
        rewrite !(firstn_nth_snoc 0) in E by lia. apply app_inj_tail in E. tauto.
  Qed.

  Lemma radix_pos_aux cs m : (sum_nat cs <= m)%nat -> Forall (fun r => 0 < r) (coefficients cs (Z.of_nat m)).
  Proof.
    revert m; induction cs as [|a cs IH]; intros m H; [constructor|].
    rewrite coefficients_nat by auto. rewrite sum_nat_cons in H. constructor.
    - apply pascal_pos. lia.
    - apply IH. lia.
  Qed.
  Lemma radix_pos : Forall (fun r => 0 < r) C.
  Proof. apply radix_pos_aux. lia. Qed.

  (** the last radix is 1 *)
  Lemma radix_last_aux cs : cs <> [] -> nth (length cs - 1) (coefficients cs (Z.of_nat (sum_nat cs))) 0 = 1.
  Proof.
    induction cs as [|a cs IH]; intros H; [congruence|].
    rewrite coefficients_nat by auto.
    replace (sum_nat (a :: cs) - a)%nat with (sum_nat cs) by (rewrite sum_nat_cons; lia).
    destruct cs as [|b cs].
    - cbn [length Nat.sub nth]. rewrite sum_nat_cons. cbn [sum_nat fold_right].
      rewrite Nat.add_0_r. apply pascal_diag.
    - cbn [length] in *. replace (S (S (length cs)) - 1)%nat with (S (S (length cs) - 1)) by lia.
      cbn [nth]. apply IH. congruence.
  Qed.
  Lemma radix_last : c <> [] -> nth (k - 1) C 0 = 1.
  Proof. apply radix_last_aux. Qed.

  (** the others are at least 2 when every colour occurs *)
  Lemma radix_ge2_aux cs : Forall (fun a => (0 < a)%nat) cs -> forall j, (S j < length cs)%nat ->
    2 <= nth j (coefficients cs (Z.of_nat (sum_nat cs))) 0.
  Proof.
    induction 1 as [|a cs Ha Hcs IH]; intros j Hj; [cbn in Hj; lia|].
    rewrite coefficients_nat by auto.
    replace (sum_nat (a :: cs) - a)%nat with (sum_nat cs) by (rewrite sum_nat_cons; lia).
    cbn [length] in Hj. destruct j as [|j]; cbn [nth].
    - apply pascal_ge2; auto. rewrite sum_nat_cons. destruct Hcs; [cbn in Hj; lia|].
      rewrite sum_nat_cons. lia.
    - apply IH. lia.
  Qed.
  Lemma radix_ge2 : Forall (fun a => (0 < a)%nat) c -> forall j, (S j < k)%nat -> 2 <= nth j C 0.
  Proof. apply radix_ge2_aux. Qed.

  (** ** prefixes *)

  Definition padz (q : list Z) : list Z := q ++ repeat 0 (k - length q).
  Definition validp (q : list Z) : Prop := valid_code (firstn (length q) C) q.

  Lemma valid_app q r : valid_code (firstn (length q) C) q -> valid_code (skipn (length q) C) r ->
    valid_code C (q ++ r).
  Proof. intros H1 H2. rewrite <- (firstn_skipn (length q) C). apply Forall2_app; auto. Qed.

  Lemma valid_app_inv q r : valid_code C (q ++ r) ->
    validp q /\ valid_code (skipn (length q) C) r.
  Proof.
    intros H. apply Forall2_app_inv_l in H as [C1 [C2 [H1 [H2 E]]]].
    pose proof (Forall2_length _ _ _ H1) as Hl. unfold validp. rewrite E.
    split.
    - rewrite firstn_app, Hl, Nat.sub_diag, firstn_O, app_nil_r, firstn_all. auto.
    - rewrite skipn_app, Hl, Nat.sub_diag, skipn_all. auto.
  Qed.

  Lemma validp_length q : validp q -> (length q <= k)%nat.
  Proof.
    intros H. apply Forall2_length in H. rewrite firstn_length, radices_length in H. lia.
  Qed.

  Lemma valid_zeros D : Forall (fun r => 0 < r) D -> valid_code D (repeat 0 (length D)).
  Proof. induction 1; cbn; constructor; auto; lia. Qed.

  Lemma padz_valid q : validp q -> valid_code C (padz q).
  Proof.
    intros H. unfold padz. apply valid_app; auto.
    replace (k - length q)%nat with (length (skipn (length q) C))
      by (rewrite skipn_length, radices_length; auto).
    apply valid_zeros. rewrite <- (firstn_skipn (length q) C) in *.
    pose proof radix_pos as Hp. rewrite <- (firstn_skipn (length q) C) in Hp.
    apply Forall_app in Hp as [_ Hp]. rewrite (firstn_skipn (length q) C). auto.
  Qed.

  Lemma padz_length q : (length q <= k)%nat -> length (padz q) = k.
  Proof. intros H. unfold padz. rewrite app_length, repeat_length. lia. Qed.

  Lemma padz_snoc0 q : (length q < k)%nat -> padz (q ++ [0]) = padz q.
  Proof.
    intros H. unfold padz. rewrite app_length. cbn [length].
    replace (k - length q)%nat with (S (k - (length q + 1))) by lia. cbn [repeat].
    rewrite <- app_assoc. reflexivity.
  Qed.

  Lemma validp_snoc q v : validp q -> (length q < k)%nat -> 0 <= v < nth (length q) C 0 ->
    validp (q ++ [v]).
  Proof.
    intros Hq Hl Hv. unfold validp in *. rewrite app_length. cbn [length].
    rewrite Nat.add_1_r, (firstn_nth_snoc 0) by (rewrite radices_length; auto).
    apply Forall2_app; auto.
  Qed.

  (** level [|q|-1] of the prefix [q] is minimal *)
  Definition uniqp (q : list Z) : bool := uniq_lvl G (length q - 1) (dec (padz q)).

  Lemma firstn_padz q r : (length q <= k)%nat ->
    firstn (length q) (padz q) = firstn (length q) (q ++ r).
  Proof.
    intros H. unfold padz. rewrite !firstn_app, Nat.sub_diag, !firstn_O, firstn_all. auto.
  Qed.

  (** the minimality of the levels below [|q|] is a matter of [q] *)
  Lemma uniq_lvl_prefix q d j : valid_code C d -> validp q -> firstn (length q) d = q ->
    (j < length q)%nat -> uniq_lvl G j (dec d) = uniq_lvl G j (dec (padz q)).
  Proof.
    intros Hd Hq E Hj. pose proof (validp_length q Hq).
    apply (uniq_lvl_ext c G HG).
    - apply dec_spec; auto.
    - apply dec_spec, padz_valid; auto.
    - apply trunc_mono with (j := length q); [lia|].
      apply trunc_dec; auto using padz_valid. rewrite E. unfold padz.
      rewrite firstn_app, Nat.sub_diag, firstn_O, app_nil_r, firstn_all. auto.
  Qed.

  (** all levels of the prefix are minimal *)
  Definition goodp (q : list Z) : Prop :=
    forall j, (j < length q)%nat -> uniq_lvl G j (dec (padz q)) = true.

  Lemma goodp_snoc q v : validp (q ++ [v]) -> validp q -> 
    goodp (q ++ [v]) <-> goodp q /\ uniqp (q ++ [v]) = true.
  Proof.
    intros H1 H2.
    assert (forall j, (j < length q)%nat ->
      uniq_lvl G j (dec (padz (q ++ [v]))) = uniq_lvl G j (dec (padz q))) as F.
    { intros j Hj. apply uniq_lvl_prefix; auto using padz_valid.
      unfold padz. rewrite <- app_assoc.
      rewrite firstn_app, Nat.sub_diag, firstn_O, app_nil_r, firstn_all. auto. }
    unfold goodp, uniqp. rewrite app_length. cbn [length].
    replace (length q + 1 - 1)%nat with (length q) by lia. split.
    - intros H. split; [intros j Hj; rewrite <- F by auto; apply H; lia|apply H; lia].
    - intros [Ha Hb] j Hj. destruct (Nat.eq_dec j (length q)) as [->|Hn]; auto.
      rewrite F by lia. apply Ha. lia.
  Qed.

  Lemma uniqp_zero q : validp q -> (length q < k)%nat -> uniqp (q ++ [0]) = true.
  Proof.
    intros Hq Hl. unfold uniqp. rewrite app_length. cbn [length].
    replace (length q + 1 - 1)%nat with (length q) by lia.
    rewrite padz_snoc0 by auto. apply uniq_lvl_zero with (c := c); auto.
    - apply dec_spec, padz_valid; auto.
    - rewrite lvl_rank_dec by (auto using padz_valid). unfold padz.
      rewrite app_nth2 by lia. rewrite Nat.sub_diag.
      destruct (k - length q)%nat; reflexivity.
  Qed.

  Lemma nth_radix_pos j : (j < k)%nat -> 0 < nth j C 0.
  Proof.
    intros H. pose proof radix_pos as Hp. rewrite Forall_forall in Hp. apply Hp.
    apply nth_In. rewrite radices_length; auto.
  Qed.

  (** ** the tree *)
  Variable sup : list Z -> bool.   (* structures suppressed on output (superperiodic ones) *)

  (** what is emitted below the prefix [p], without [p ++ zeros] itself; [Cs] are the radices left *)
  Fixpoint tree_sub (Cs : list Z) (p : list Z) : list (list Z) :=
    match Cs with
    | [] => []
    | r :: Cs' =>
        match Cs' with
        | [] => []
        | _ => tree_sub Cs' (p ++ [0]) ++
               flat_map (fun v => if uniqp (p ++ [v]) then
                                    if sup (padz (p ++ [v])) then []
                                    else padz (p ++ [v]) :: tree_sub Cs' (p ++ [v])
                                  else [])
                        (range_up 1 r)
        end
    end.

  Definition tree_top (b : Z) : list (list Z) :=
    if uniqp [b] then (if sup (padz [b]) then [] else [padz [b]]) ++ tree_sub (skipn 1 C) [b] else [].

  Definition tree_all : list (list Z) := flat_map tree_top (range_up 0 (nth 0 C 0)).

  Definition canon_code (d : list Z) : bool := canonb c G (dec d).

  Lemma canon_code_good d : valid_code C d -> canon_code d = true <-> goodp d.
  Proof.
    intros Hd. destruct (dec_spec d Hd) as [_ [Hx _]]. unfold canon_code.
    rewrite canonb_spec, (canon_uniq c G HG) by auto. unfold goodp.
    pose proof (valid_length d Hd) as Hl. rewrite Hl.
    assert (padz d = d) as ->; [|tauto].
    unfold padz. rewrite Hl, Nat.sub_diag. apply app_nil_r.
  Qed.

  Lemma canon_code_bad q r : valid_code C (q ++ r) -> ~ goodp q -> canon_code (q ++ r) = false.
  Proof.
    intros Hv Hb. destruct (canon_code (q ++ r)) eqn:E; auto. exfalso. apply Hb.
    apply canon_code_good in E; auto. intros j Hj.
    rewrite <- (uniq_lvl_prefix q (q ++ r)); auto.
    - specialize (E j). rewrite app_length in E.
      assert (padz (q ++ r) = q ++ r) as Ep.
      { unfold padz. rewrite (valid_length _ Hv), Nat.sub_diag. apply app_nil_r. }
      rewrite Ep in E. apply E. lia.
    - apply (valid_app_inv q r); auto.
    - rewrite firstn_app, Nat.sub_diag, firstn_O, app_nil_r, firstn_all. auto.
  Qed.

  Lemma flat_map_filter {A B} (f : B -> bool) (g : A -> list B) l :
    filter f (flat_map g l) = flat_map (fun a => filter f (g a)) l.
  Proof. induction l as [|a l IH]; cbn; auto. rewrite filter_app, IH. auto. Qed.
  Lemma flat_map_ext_in {A B} (f g : A -> list B) l :
    (forall a, In a l -> f a = g a) -> flat_map f l = flat_map g l.
  Proof. induction l as [|a l IH]; cbn; intros H; auto. rewrite H, IH by auto. auto. Qed.
  Lemma map_flat_map {A B D} (h : B -> D) (g : A -> list B) l :
    map h (flat_map g l) = flat_map (fun a => map h (g a)) l.
  Proof. induction l as [|a l IH]; cbn; auto. rewrite map_app, IH. auto. Qed.

  Lemma skipn_nth {A} (d : A) l j : (j < length l)%nat -> skipn j l = nth j l d :: skipn (S j) l.
  Proof.
    revert j; induction l as [|x l IH]; intros j H; [cbn in H; lia|].
    destruct j; cbn; auto. apply IH. cbn in H; lia.
  Qed.


  Lemma tree_sub_filter Cs : (forall d, sup d = false) -> c <> [] ->
    forall q, validp q -> (1 <= length q <= k)%nat -> goodp q -> Cs = skipn (length q) C ->
    filter canon_code (map (app q) (all_codes Cs)) = padz q :: tree_sub Cs q.
  Proof.
    intros Hsup Hc. induction Cs as [|r Cs IH]; intros q Hq Hl Hg E.
    - assert (length q = k) as Hk.
      { apply (f_equal (@length Z)) in E. rewrite skipn_length, radices_length in E. cbn in E. lia. }
      cbn. rewrite app_nil_r.
      assert (padz q = q) as Ep.
      { unfold padz. rewrite Hk, Nat.sub_diag. apply app_nil_r. }
      assert (valid_code C q) as Hv by (rewrite <- Ep; apply padz_valid; auto).
      rewrite (proj2 (canon_code_good q Hv) Hg), Ep. auto.
    - assert (length q < k)%nat as Hlt.
      { apply (f_equal (@length Z)) in E. rewrite skipn_length, radices_length in E. cbn in E. lia. }
      assert (r = nth (length q) C 0 /\ Cs = skipn (length q + 1) C) as [Er ECs].
      { rewrite (skipn_nth 0) in E by (rewrite radices_length; auto).
        replace (length q + 1)%nat with (S (length q)) by lia. split; congruence. }
      assert (0 < r) as Hr by (subst r; apply nth_radix_pos; auto).
      (* split by the next digit *)
      assert (forall v, 0 <= v < r -> 
        filter canon_code (map (app (q ++ [v])) (all_codes Cs)) =
        if uniqp (q ++ [v]) then padz (q ++ [v]) :: tree_sub Cs (q ++ [v]) else []) as Hdig.
      { intros v Hv. assert (validp (q ++ [v])) as Hqv by (apply validp_snoc; auto; subst r; auto).
        destruct (uniqp (q ++ [v])) eqn:Eu.
        - apply IH; auto.
          + rewrite app_length. cbn. lia.
          + apply goodp_snoc; auto.
          + rewrite ECs, app_length. auto.
        - apply filter_none. intros d Hd. apply in_map_iff in Hd as [s [<- Hs]].
          apply canon_code_bad.
          + apply valid_app; auto. apply in_all_codes in Hs. rewrite ECs in Hs.
            rewrite app_length. auto.
          + intros Hbad. apply goodp_snoc in Hbad; auto. destruct Hbad. congruence. }
      cbn [all_codes]. rewrite map_flat_map, flat_map_filter.
      rewrite (flat_map_ext_in _ (fun v => if uniqp (q ++ [v])
                then padz (q ++ [v]) :: tree_sub Cs (q ++ [v]) else [])).
      2:{ intros v Hv. apply in_range_up in Hv. rewrite <- Hdig by auto. rewrite map_map.
          f_equal. apply map_ext. intros s. rewrite <- app_assoc. auto. }
      rewrite range_up_cons by lia. cbn [flat_map].
      rewrite uniqp_zero, padz_snoc0 by auto. cbn [app]. f_equal.
      destruct Cs as [|r' Cs].
      + (* last level: r = 1 *)
        assert (r = 1) as ->.
        { rewrite Er. rewrite <- (radix_last Hc). f_equal.
          apply (f_equal (@length Z)) in ECs. rewrite skipn_length, radices_length in ECs.
          cbn in ECs. lia. }
        cbn. reflexivity.
      + cbn [tree_sub]. fold tree_sub. f_equal. apply flat_map_ext_in. intros v Hv.
        destruct (uniqp (q ++ [v])); auto. rewrite Hsup. auto.
  Qed.

  Theorem tree_all_filter : (forall d, sup d = false) -> c <> [] ->
    tree_all = filter canon_code (all_codes C).
  Proof.
    intros Hsup Hc.
    assert (0 < k)%nat as Hk by (destruct c; [congruence|cbn; lia]).
    assert (C = nth 0 C 0 :: skipn 1 C) as EC by (apply (skipn_nth 0 C 0); rewrite radices_length; auto).
    unfold tree_all. rewrite EC at 2. cbn [all_codes]. rewrite flat_map_filter.
    apply flat_map_ext_in. intros v Hv. apply in_range_up in Hv.
    unfold tree_top. rewrite Hsup.
    assert (validp [v]) as Hqv.
    { apply (validp_snoc []); cbn; auto. constructor. }
    assert (validp []) as Hq0 by constructor.
    assert (goodp []) as Hg0 by (intros j Hj; cbn in Hj; lia).
    change (map (cons v) (all_codes (skipn 1 C))) with (map (app [v]) (all_codes (skipn 1 C))).
    destruct (uniqp [v]) eqn:Eu.
    - rewrite (tree_sub_filter (skipn 1 C)); auto.
      apply (goodp_snoc [] v); auto.
    - symmetry. apply filter_none. intros d Hd. apply in_map_iff in Hd as [s [<- Hs]].
      apply canon_code_bad.
      + apply (valid_app [v]); auto. apply in_all_codes; auto.
      + intros Hbad. apply (goodp_snoc [] v) in Hbad; auto. destruct Hbad. cbn [app] in *. congruence.
  Qed.
End TreeSearch.
