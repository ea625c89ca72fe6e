(** Colour lists and concentrations. *)
From Coq Require Import Permutation.
From Verif Require Import PyBase Spec ListFacts PhononsModel.

Section Colors.
  Context {A : Type}.
  Variable eqb : A -> A -> bool.
  Hypothesis eqb_spec : forall x y, eqb x y = true <-> x = y.

  Lemma eqb_refl' x : eqb x x = true.
  Proof. apply eqb_spec; auto. Qed.
  Lemma eqb_sym' x y : eqb x y = eqb y x.
  Proof.
    destruct (eqb x y) eqn:E1, (eqb y x) eqn:E2; auto.
    - apply eqb_spec in E1. subst. rewrite eqb_refl' in E2. discriminate.
    - apply eqb_spec in E2. subst. rewrite eqb_refl' in E1. discriminate.
  Qed.
  Lemma existsb_mem a l : existsb (eqb a) l = true <-> In a l.
  Proof.
    rewrite existsb_exists. split.
    - intros [x [Hx E]]. apply eqb_spec in E. subst; auto.
    - intros H. exists a. split; auto. apply eqb_refl'.
  Qed.

  Definition fo_step (seen : list A) (a : A) : list A := if existsb (eqb a) seen then seen else seen ++ [a].
  Lemma first_occ_snoc l a : first_occurrences eqb (l ++ [a]) = fo_step (first_occurrences eqb l) a.
  Proof. unfold first_occurrences. rewrite fold_left_app. reflexivity. Qed.

  Lemma first_occ_In l a : In a (first_occurrences eqb l) <-> In a l.
  Proof.
    induction l as [|x l IH] using rev_ind; [cbn; tauto|].
    rewrite first_occ_snoc, in_app_iff, <- IH. unfold fo_step.
    destruct (existsb (eqb x) (first_occurrences eqb l)) eqn:E.
    - apply existsb_mem in E. cbn. split; auto. intros [H|[<-|[]]]; auto.
    - rewrite in_app_iff. tauto.
  Qed.
  Lemma first_occ_NoDup l : NoDup (first_occurrences eqb l).
  Proof.
    induction l as [|x l IH] using rev_ind; [constructor|].
    rewrite first_occ_snoc. unfold fo_step.
    destruct (existsb (eqb x) (first_occurrences eqb l)) eqn:E; auto.
    apply NoDup_app_intro; auto; [repeat constructor; auto|].
    intros y Hy [<-|[]]. apply existsb_mem in Hy. congruence.
  Qed.

  Definition hide (cols : list A) (l : list (option A)) : list (option A) :=
    map (fun y => match y with Some b => if existsb (eqb b) cols then None else Some b | None => None end) l.

  Lemma zero_out_hide a cols l : zero_out eqb a (hide cols l) = hide (cols ++ [a]) l.
  Proof.
    unfold zero_out, hide. rewrite map_map. apply map_ext. intros [b|]; auto.
    rewrite existsb_app. cbn. destruct (existsb (eqb b) cols); auto. cbn.
    rewrite orb_false_r. auto.
  Qed.
  Lemma ocount_hide a cols l : ~ In a cols -> ocount eqb a (hide cols l) = multiplicity eqb (somes l) a.
  Proof.
    intros Hn. unfold ocount, multiplicity, hide, somes.
    induction l as [|[b|] l IH]; auto. cbn [map filter flat_map app].
    destruct (existsb (eqb b) cols) eqn:E.
    - rewrite IH. destruct (eqb a b) eqn:Eab; auto. apply eqb_spec in Eab. subst.
      apply existsb_mem in E. contradiction.
    - rewrite (eqb_sym' b a). destruct (eqb a b); cbn [length]; rewrite IH; auto.
  Qed.
  Lemma nth_hide i cols l : nth i (hide cols l) None =
    match nth i l None with Some b => if existsb (eqb b) cols then None else Some b | None => None end.
  Proof.
    unfold hide. revert i; induction l as [|y l IH]; intros [|i]; cbn; auto.
  Qed.

  Lemma somes_app (l1 l2 : list (option A)) : somes (l1 ++ l2) = somes l1 ++ somes l2.
  Proof. unfold somes. apply flat_map_app. Qed.

  Definition cl_step (st : list (option A) * list A) (i : nat) :=
    match nth i (fst st) None with
    | Some a => (zero_out eqb a (fst st), snd st ++ [a])
    | None => st
    end.
  Definition fc_step (st : list (option A) * list nat) (i : nat) :=
    match nth i (fst st) None with
    | Some a => (zero_out eqb a (fst st), snd st ++ [ocount eqb a (fst st)])
    | None => st
    end.

  Lemma cl_inv l m : m <= length l ->
    fold_left cl_step (seq 0 m) (l, []) =
    (hide (first_occurrences eqb (somes (firstn m l))) l, first_occurrences eqb (somes (firstn m l))).
  Proof.
    induction m as [|m IH]; intros Hm.
    - cbn. f_equal. unfold hide. rewrite <- map_id at 1. apply map_ext. intros [b|]; auto.
    - rewrite seq_S, fold_left_app, IH by lia. cbn [fold_left plus]. unfold cl_step at 1. cbn [fst snd].
      rewrite nth_hide, (firstn_nth_snoc None) by lia. rewrite somes_app.
      destruct (nth m l None) as [b|] eqn:Eb.
      + change (somes [Some b]) with [b]. rewrite !first_occ_snoc. unfold fo_step.
        destruct (existsb (eqb b) (first_occurrences eqb (somes (firstn m l)))); auto.
        rewrite zero_out_hide. auto.
      + change (somes [None]) with (@nil A). rewrite app_nil_r. auto.
  Qed.
  Lemma fc_inv l m : m <= length l ->
    fold_left fc_step (seq 0 m) (l, []) =
    (hide (first_occurrences eqb (somes (firstn m l))) l,
     map (multiplicity eqb (somes l)) (first_occurrences eqb (somes (firstn m l)))).
  Proof.
    induction m as [|m IH]; intros Hm.
    - cbn. f_equal. unfold hide. rewrite <- map_id at 1. apply map_ext. intros [b|]; auto.
    - rewrite seq_S, fold_left_app, IH by lia. cbn [fold_left plus]. unfold fc_step at 1. cbn [fst snd].
      rewrite nth_hide, (firstn_nth_snoc None) by lia. rewrite somes_app.
      destruct (nth m l None) as [b|] eqn:Eb.
      + change (somes [Some b]) with [b]. rewrite !first_occ_snoc. unfold fo_step.
        destruct (existsb (eqb b) (first_occurrences eqb (somes (firstn m l)))) eqn:E; auto.
        rewrite zero_out_hide, map_app. cbn [map]. rewrite ocount_hide; auto.
        intros H. apply existsb_mem in H. congruence.
      + change (somes [None]) with (@nil A). rewrite app_nil_r. auto.
  Qed.

  Theorem color_list_spec l : color_list eqb l = first_occurrences eqb (somes l).
  Proof.
    unfold color_list. pose proof (cl_inv l (length l) (le_n _)) as H. unfold cl_step in H.
    rewrite H, firstn_all. auto.
  Qed.
  Theorem find_concentrations_spec l :
    find_concentrations eqb l = map (multiplicity eqb (somes l)) (first_occurrences eqb (somes l)).
  Proof.
    unfold find_concentrations. pose proof (fc_inv l (length l) (le_n _)) as H. unfold fc_step in H.
    rewrite H, firstn_all. auto.
  Qed.

  Lemma somes_Some (l : list A) : somes (map Some l) = l.
  Proof. unfold somes. induction l as [|a l IH]; cbn; congruence. Qed.

  (** counting by classes *)
  Lemma multiplicity_cons x l a : multiplicity eqb (x :: l) a = (if eqb a x then 1 else 0) + multiplicity eqb l a.
  Proof. unfold multiplicity. cbn. destruct (eqb a x); auto. Qed.
  Lemma multiplicity_permutation l l' a : Permutation l l' -> multiplicity eqb l a = multiplicity eqb l' a.
  Proof.
    intros H. induction H; rewrite ?multiplicity_cons; try lia; auto.
  Qed.
  Lemma permutation_multiplicity l l' : (forall a, multiplicity eqb l a = multiplicity eqb l' a) ->
    Permutation l l'.
  Proof.
    revert l'; induction l as [|x l IH]; intros l' H.
    - destruct l' as [|y l']; auto. specialize (H y). rewrite multiplicity_cons, eqb_refl' in H. cbn in H. lia.
    - assert (In x l') as Hx.
      { specialize (H x). rewrite multiplicity_cons, eqb_refl' in H. unfold multiplicity in H.
        destruct (filter (eqb x) l') as [|y r] eqn:E; [cbn in H; lia|].
        assert (In y (filter (eqb x) l')) as Hy by (rewrite E; cbn; auto).
        apply filter_In in Hy as [Hy Exy]. apply eqb_spec in Exy. subst; auto. }
      apply in_split in Hx as [l1 [l2 ->]]. apply Permutation_cons_app. apply IH. intros a.
      specialize (H a). rewrite (multiplicity_permutation (l1 ++ x :: l2) (x :: l1 ++ l2)) in H
        by (symmetry; apply Permutation_middle).
      rewrite !multiplicity_cons in H. lia.
  Qed.
  Lemma multiplicity_pos l a : 0 < multiplicity eqb l a <-> In a l.
  Proof.
    unfold multiplicity. split.
    - destruct (filter (eqb a) l) as [|y r] eqn:E; [cbn; lia|]. intros _.
      assert (In y (filter (eqb a) l)) as Hy by (rewrite E; cbn; auto).
      apply filter_In in Hy as [Hy Exy]. apply eqb_spec in Exy. subst; auto.
    - intros H. assert (In a (filter (eqb a) l)) as Hf by (apply filter_In; rewrite eqb_refl'; auto).
      destruct (filter (eqb a) l); [destruct Hf|cbn; lia].
  Qed.
  Lemma multiplicity_sum cols l : NoDup cols -> (forall a, In a l -> In a cols) ->
    sum_nat (map (multiplicity eqb l) cols) = length l.
  Proof.
    intros Hnd. induction l as [|x l IH]; intros Hin.
    - clear. induction cols; cbn; auto.
    - cbn [length]. rewrite <- IH by (intros; apply Hin; cbn; auto).
      assert (In x cols) as Hx by (apply Hin; cbn; auto). clear IH Hin.
      induction Hnd as [|a cols Ha Hnd IHc]; [destruct Hx|].
      unfold sum_nat in *. cbn [map fold_right]. rewrite multiplicity_cons.
      destruct (eqb a x) eqn:E.
      + apply eqb_spec in E. subst a.
        assert (map (multiplicity eqb (x :: l)) cols = map (multiplicity eqb l) cols) as ->; [|lia].
        apply map_ext_in. intros b Hb. rewrite multiplicity_cons.
        destruct (eqb b x) eqn:Eb; auto. apply eqb_spec in Eb. subst. contradiction.
      + destruct Hx as [->|Hx]; [rewrite eqb_refl' in E; discriminate|]. rewrite IHc by auto. lia.
  Qed.
End Colors.

Lemma site_eqb_spec a b : site_eqb a b = true <-> a = b.
Proof.
  unfold site_eqb. destruct a, b; cbn. rewrite andb_true_iff, !Z.eqb_eq.
  split; [intros [-> ->]; auto|intros E; inversion E; auto].
Qed.
