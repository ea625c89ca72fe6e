(** The summary of a polya file. *)
From Coq Require Import Permutation Sorted.
From Verif Require Import PyBase ListFacts TransFacts DistModel DistSpec DistProofs.
Local Open Scope Z_scope.

Lemma combine_map {A B C} (f : A -> B) (g : A -> C) l : combine (map f l) (map g l) = map (fun x => (f x, g x)) l.
Proof. induction l; cbn; congruence. Qed.
Lemma combine_map_r {A C} (g : A -> C) l : combine l (map g l) = map (fun x => (x, g x)) l.
Proof. rewrite <- (map_id l) at 1. apply combine_map. Qed.
Lemma filter_map_comm {A B} (f : A -> B) (p : B -> bool) l : filter p (map f l) = map f (filter (fun x => p (f x)) l).
Proof. induction l as [|a l IH]; cbn; auto. destruct (p (f a)); cbn; congruence. Qed.
Lemma map_fst_pair {A B} (g : A -> B) l : map fst (map (fun x => (x, g x)) l) = l.
Proof. rewrite map_map. cbn. apply map_id. Qed.
Lemma fold_left_ext {A B} (f g : A -> B -> A) l : (forall a b, f a b = g a b) -> forall a, fold_left f l a = fold_left g l a.
Proof. intros H. induction l as [|b l IH]; intros a; cbn; auto. rewrite H. auto. Qed.
Lemma NoDup_filter_ {A} (p : A -> bool) l : NoDup l -> NoDup (filter p l).
Proof. apply NoDup_filter. Qed.

Lemma dadd_one concs (a : list Z -> Z) c w : NoDup concs -> In c concs ->
  dadd zlist_eqb (map (fun x => (x, a x)) concs) c w = map (fun x => (x, if zlist_eqb x c then a x + w else a x)) concs.
Proof.
  intros Hn Hc. apply in_split in Hc. destruct Hc as [l1 [l2 ->]]. rewrite !map_app. cbn [map].
  apply NoDup_remove_2 in Hn. assert (~ In c (map fst (map (fun x => (x, a x)) l1))) as H1 by (rewrite map_fst_pair; intros H; apply Hn, in_or_app; auto).
  unfold dadd. rewrite dget_old by (auto using zlist_eqb_spec). rewrite dset_old by (auto using zlist_eqb_spec).
  rewrite (proj2 (zlist_eqb_spec c c) eq_refl).
  assert (forall l, ~ In c l -> map (fun x => (x, if zlist_eqb x c then a x + w else a x)) l = map (fun x => (x, a x)) l) as E.
  { intros l Hl. apply map_ext_in. intros x Hx. destruct (zlist_eqb x c) eqn:Ex; auto. apply zlist_eqb_spec in Ex. subst. tauto. }
  rewrite !E; auto; intros H; apply Hn, in_or_app; auto.
Qed.
Lemma dadd_many concs (v : list Z -> Z) L : NoDup concs -> NoDup L -> incl L concs -> forall a,
  fold_left (fun ct '(c, w) => dadd zlist_eqb ct c w) (map (fun c => (c, v c)) L) (map (fun x => (x, a x)) concs) =
  map (fun x => (x, if zl_in x L then a x + v x else a x)) concs.
Proof.
  intros Hn. induction L as [|c L IH]; intros HL Hi a; [auto|].
  cbn [map fold_left]. rewrite dadd_one by (auto; apply Hi; cbn; auto). inversion HL; subst. rewrite IH by (auto; intros x Hx; apply Hi; cbn; auto).
  apply map_ext_in. intros x _. f_equal. cbn [zl_in existsb]. fold (zl_in x L). destruct (zlist_eqb x c) eqn:E; cbn; auto.
  apply zlist_eqb_spec in E. subst x. destruct (zl_in c L) eqn:E; auto. apply zl_in_spec in E. tauto.
Qed.

Section Table.
Variables (concs hnfs : list (list Z)) (count : list Z -> list Z -> Z).
Hypothesis Hc : NoDup concs.
Hypothesis Hh : NoDup hnfs.
Lemma table_last : t_last (polya_table concs hnfs count) = map (fun c => total (fun h => count h c) hnfs) concs.
Proof.
  cbn. assert (forall a, fold_left (fun totals h => map (fun '(t, c) => t + count h c) (combine totals concs)) hnfs (map a concs) =
    map (fun c => a c + total (fun h => count h c) hnfs) concs) as E.
  { clear Hh. induction hnfs as [|h l IH]; intros a; cbn [fold_left].
    - apply map_ext. intros. unfold total. cbn. lia.
    - replace (combine (map a concs) concs) with (map (fun c => (a c, c)) concs) by (rewrite <- (map_id concs) at 3; rewrite combine_map; auto).
      rewrite map_map. rewrite IH. apply map_ext. intros c. unfold total. cbn. lia. }
  rewrite E. apply map_ext. intros. lia.
Qed.
Definition keep_h (flt : filter_by) (h : list Z) : bool := match flt with ByShape l => zl_in h l | _ => true end.
Definition keep_c (flt : filter_by) (c : list Z) : bool := match flt with ByConc l => zl_in c l | _ => true end.
Notation hs flt := (filter (keep_h flt) hnfs).
Notation cs flt := (filter (keep_c flt) concs).
Lemma filter_true {A} (l : list A) : filter (fun _ => true) l = l.
Proof. induction l; cbn; congruence. Qed.
Lemma zl_in_filter (p : list Z -> bool) x : In x concs -> zl_in x (filter p concs) = p x.
Proof.
  intros Hx. destruct (p x) eqn:E.
  - apply zl_in_spec, filter_In. auto.
  - destruct (zl_in x (filter p concs)) eqn:E'; auto. apply zl_in_spec, filter_In in E'. destruct E'. congruence.
Qed.
Lemma fold_ct (p : list Z -> bool) l : forall a,
  fold_left (fun ct h => fold_left (fun ct '(c, v) => dadd zlist_eqb ct c v) (map (fun c => (c, count h c)) (filter p concs)) ct) l (map (fun x => (x, a x)) concs) =
  map (fun x => (x, if p x then a x + total (fun h => count h x) l else a x)) concs.
Proof.
  induction l as [|h l IH]; intros a; cbn [fold_left].
  - apply map_ext. intros x. f_equal. unfold total. cbn. destruct (p x); lia.
  - rewrite dadd_many; auto using NoDup_filter_; [|apply incl_filter]. rewrite IH. apply map_ext_in. intros x Hx. f_equal. rewrite zl_in_filter by auto.
    destruct (p x); auto. unfold total. cbn. lia.
Qed.
Lemma fold_left_map_ {A B S} (f : S -> B -> S) (g : A -> B) l s : fold_left f (map g l) s = fold_left (fun s x => f s (g x)) l s.
Proof. revert s. induction l; cbn; auto. Qed.
Lemma summary_table flt : let d := summary_one flt (polya_table concs hnfs count) in
  d_distr d = map (fun h => (h, map (fun c => (c, count h c)) (cs flt))) (hs flt) /\
  d_ctotals d = map (fun c => (c, if keep_c flt c then total (fun h => count h c) (hs flt) else 0)) concs /\
  d_stotals d = map (fun h => (h, total (count h) concs)) (hs flt) /\
  d_gtotal d = total (fun h => total (count h) (cs flt)) (hs flt).
Proof.
  intros d.
  assert (d_ctotals d = map (fun c => (c, if keep_c flt c then total (fun h => count h c) (hs flt) else 0)) concs ->
          d_gtotal d = total (fun h => total (count h) (cs flt)) (hs flt)) as Hg.
  { intros E. assert (d_gtotal d = sum_Z (map snd (d_ctotals d))) as Ed by (unfold d, summary_one; destruct flt; reflexivity).
    rewrite Ed, E, map_map. cbn [snd]. change (sum_Z (map (fun c => if keep_c flt c then total (fun h => count h c) (hs flt) else 0) concs)) with (total (fun c => if keep_c flt c then total (fun h => count h c) (hs flt) else 0) concs).
    rewrite <- total_filter. symmetry. apply total_swap. }
  assert (forall cs' h, NoDup cs' -> dict_of zlist_eqb (map (fun c => (c, count h c)) cs') = map (fun c => (c, count h c)) cs') as Ed.
  { intros cs' h Hn. apply dict_of_nodup; auto using zlist_eqb_spec. rewrite map_fst_pair. auto. }
  assert (dict_of zlist_eqb (map (fun c => (c, 0)) concs) = map (fun c => (c, 0)) concs) as Ez by (apply dict_of_nodup; auto using zlist_eqb_spec; rewrite map_fst_pair; auto).
  assert (forall (B : Type) (g : list Z -> B) hs', NoDup hs' -> dict_of zlist_eqb (map (fun h => (h, g h)) hs') = map (fun h => (h, g h)) hs') as Eh.
  { intros B g hs' Hn. apply dict_of_nodup; auto using zlist_eqb_spec. rewrite map_fst_pair. auto. }
  enough (d_distr d = map (fun h => (h, map (fun c => (c, count h c)) (cs flt))) (hs flt) /\
    d_ctotals d = map (fun c => (c, if keep_c flt c then total (fun h => count h c) (hs flt) else 0)) concs /\
    d_stotals d = map (fun h => (h, total (count h) concs)) (hs flt)) as [A1 [A2 A3]] by auto. clear Hg.
  unfold d, summary_one. destruct flt as [|fh|fc]; cbn [d_distr d_ctotals d_stotals keep_h keep_c].
  - rewrite !filter_true. rewrite table_last. cbn [t_concs t_rows polya_table]. rewrite !map_map. cbn beta iota. split; [|split].
    + rewrite <- (Eh _ (fun h => map (fun c => (c, count h c)) concs)) by auto. f_equal. apply map_ext. intros h. f_equal. rewrite combine_map_r. apply Ed; auto.
    + rewrite combine_map_r. apply Eh; auto.
    + apply (Eh _ (fun h => sum_Z (map (count h) concs))); auto.
  - cbn [t_concs t_rows polya_table]. rewrite !filter_true. rewrite filter_map_comm. rewrite !map_map. cbn beta iota.
    change (fun x => zl_in x fh) with (keep_h (ByShape fh)). split; [|split].
    + rewrite <- (Eh _ (fun h => map (fun c => (c, count h c)) concs)) by auto using NoDup_filter_. f_equal. apply map_ext. intros h. f_equal. rewrite combine_map_r. apply Ed; auto.
    + rewrite Ez. rewrite fold_left_map_.
      erewrite fold_left_ext; [|intros s h; cbn beta iota; rewrite combine_map_r; reflexivity].
      pose proof (fold_ct (fun _ => true) (hs (ByShape fh)) (fun _ => 0)) as Ef. rewrite filter_true in Ef. etransitivity; [exact Ef|]. apply map_ext. intros; f_equal. 
    + apply (Eh _ (fun h => sum_Z (map (count h) concs))); auto using NoDup_filter_.
  - cbn [t_concs t_rows polya_table]. rewrite !filter_true. rewrite !map_map. cbn beta iota. 
    assert (forall h, filter (fun '(c, _) => zl_in c fc) (combine concs (map (count h) concs)) = map (fun c => (c, count h c)) (filter (fun c => zl_in c fc) concs)) as Ep.
    { intros h. rewrite combine_map_r, filter_map_comm. auto. }
    change (fun c => zl_in c fc) with (keep_c (ByConc fc)) in *. split; [|split].
    + rewrite <- (Eh _ (fun h => map (fun c => (c, count h c)) (cs (ByConc fc)))) by auto. f_equal. apply map_ext. intros h. f_equal. rewrite Ep. apply Ed; auto using NoDup_filter_.
    + rewrite Ez. rewrite fold_left_map_. erewrite fold_left_ext; [|intros s h; cbn beta iota; rewrite Ep; reflexivity].
      etransitivity; [apply (fold_ct (keep_c (ByConc fc)) _ (fun _ => 0))|]. apply map_ext. intros; f_equal. 
    + apply (Eh _ (fun h => sum_Z (map (count h) concs))); auto.
Qed.
End Table.
