(** The distribution of everything, and the random one. *)
From Coq Require Import Permutation Sorted.
From Verif Require Import PyBase ListFacts TransFacts DistModel DistSpec DistProofs DistSummary.
Local Open Scope Z_scope.

Lemma summary_sizes (file : Z -> option table) (tab : Z -> table) flt sizes : NoDup sizes -> (forall s, In s sizes -> file s = Some (tab s)) ->
  distribution_summary file sizes flt = (map (fun s => (s, summary_one flt (tab s))) sizes, total (fun s => d_gtotal (summary_one flt (tab s))) sizes).
Proof.
  intros Hn Hf. unfold distribution_summary.
  assert (forall ds g, (forall s, In s sizes -> ~ In s (map fst ds)) ->
    fold_left (fun '(ds, g) s => match file s with None => (ds, g) | Some t => let d := summary_one flt t in (dset Z.eqb ds s d, g + d_gtotal d) end) sizes (ds, g) =
    (ds ++ map (fun s => (s, summary_one flt (tab s))) sizes, g + total (fun s => d_gtotal (summary_one flt (tab s))) sizes)) as E.
  { induction sizes as [|s l IH]; intros ds g Hd.
    - cbn. rewrite app_nil_r. f_equal. unfold total. cbn. lia.
    - cbn [fold_left]. rewrite (Hf s) by (cbn; auto). cbv zeta. inversion Hn; subst. rewrite dset_new by (auto using Z.eqb_eq; apply Hd; cbn; auto).
      rewrite IH; auto.
      + rewrite <- app_assoc. f_equal. unfold total. cbn. lia.
      + intros; apply Hf; cbn; auto.
      + intros s' Hs'. rewrite map_app, in_app_iff. cbn. intros [H|[<-|[]]]; [|tauto]. apply (Hd s'); cbn; auto. }
  rewrite E; auto.
Qed.

(** Which parts of a key a kind of distribution looks at. *)
Definition by_shape (ft : ftype) : bool := match ft with FAll | FShape => true | _ => false end.
Definition by_conc (ft : ftype) : bool := match ft with FAll | FConc => true | _ => false end.

Section Main.
Variables (file : Z -> option table) (sizes : list Z) (hnfs concs : Z -> list (list Z)) (count : Z -> list Z -> list Z -> Z) (flt : filter_by).
Hypothesis Hsz : NoDup sizes.
Hypothesis Hfile : forall s, In s sizes -> file s = Some (polya_table (concs s) (hnfs s) (count s)).
Hypothesis Hc : forall s, In s sizes -> NoDup (concs s).
Hypothesis Hh : forall s, In s sizes -> NoDup (hnfs s).
Hypothesis Hpos : forall s h c, In s sizes -> In h (hnfs s) -> In c (concs s) -> 0 <= count s h c.
Notation hs s := (filter (keep_h flt) (hnfs s)).
Notation cs s := (filter (keep_c flt) (concs s)).
Notation avail := (available (fun s => hs s) (fun s => cs s) count).
Notation knd ft := (kind sizes (fun s => hs s) (fun s => cs s) (by_shape ft) (by_conc ft)).
Notation data_of s := (summary_one flt (polya_table (concs s) (hnfs s) (count s))).
Notation gtotal := (total (fun s => avail (s, None, None)) sizes).

Lemma summary_ok : distribution_summary file sizes flt = (map (fun s => (s, data_of s)) sizes, gtotal).
Proof.
  rewrite (summary_sizes file (fun s => polya_table (concs s) (hnfs s) (count s)) flt sizes Hsz Hfile). f_equal. apply total_ext. intros s Hs.
  apply (summary_table (concs s) (hnfs s) (count s) (Hc s Hs) (Hh s Hs) flt).
Qed.

(** A clean description of the keys and limits. *)
Definition rel_of (ft : ftype) (s : Z) : list (key * Z) :=
  match ft with
  | FAll => flat_map (fun h => map (fun c => ((s, Some h, Some c), count s h c)) (cs s)) (hs s)
  | FShape => map (fun h => ((s, Some h, None), total (count s h) (concs s))) (hs s)
  | FConc => map (fun c => ((s, None, Some c), if keep_c flt c then total (fun h => count s h c) (hs s) else 0)) (concs s)
  | FSize => [((s, None, None), avail (s, None, None))]
  end.
Lemma relvals_ok ft : relvals ft (map (fun s => (s, data_of s)) sizes) = flat_map (rel_of ft) sizes.
Proof.
  assert (forall s, In s sizes -> _) as HS by (intros s Hs; exact (summary_table (concs s) (hnfs s) (count s) (Hc s Hs) (Hh s Hs) flt)). cbv zeta in HS.
  assert (forall (g : Z * data -> list (key * Z)), (forall s, In s sizes -> g (s, data_of s) = rel_of ft s) -> flat_map g (map (fun s => (s, data_of s)) sizes) = flat_map (rel_of ft) sizes) as Key.
  { intros g Hg. clear - Hg. induction sizes as [|s l IH]; cbn; auto. rewrite Hg by (cbn; auto). rewrite IH by (intros; apply Hg; cbn; auto). auto. }
  destruct ft; cbn [relvals].
  - apply Key. intros s Hs. destruct (HS s Hs) as [-> _]. cbn [rel_of]. generalize (hs s). intros l. induction l as [|h l IH]; cbn; auto. rewrite map_map. f_equal. auto.
  - apply Key. intros s Hs. destruct (HS s Hs) as [_ [_ [-> _]]]. rewrite map_map. auto.
  - apply Key. intros s Hs. destruct (HS s Hs) as [_ [-> _]]. rewrite map_map. auto.
  - rewrite map_map. clear Key. revert HS. generalize sizes. intros l HS. induction l as [|s l IH]; cbn; auto. rewrite IH by (intros; apply HS; cbn; auto).
    destruct (HS s) as [_ [_ [_ E]]]; [cbn; auto|]. rewrite E. auto.
Qed.
(** With a filter on the concentrations the numbers per shape are not the ones wanted. *)
Definition fair (ft : ftype) : Prop := match flt, ft with ByConc _, FShape => False | _, _ => True end.
Lemma fair_shape l : fair FShape -> filter (keep_c flt) l = l.
Proof. unfold fair. destruct flt; intros H; try tauto; apply filter_true. Qed.
Lemma rel_limit ft s k v : fair ft -> In s sizes -> In (k, v) (rel_of ft s) -> 0 <= v /\ fst (fst k) = s /\ (v <> 0 -> knd ft k) /\ (knd ft k -> v = avail k).
Proof.
  intros Hfair Hs. assert (forall h c, In h (hs s) -> In c (cs s) -> 0 <= count s h c) as Hp.
  { intros h c H1 H2. apply filter_In in H1, H2. apply Hpos; tauto. }
  destruct ft; cbn [rel_of].
  - intros Hin. apply in_flat_map in Hin. destruct Hin as [h [Hh' Hin]]. apply in_map_iff in Hin. destruct Hin as [c [E Hc']]. inversion E; subst. cbn. repeat split; auto.
  - intros Hin. apply in_map_iff in Hin. destruct Hin as [h [E Hh']]. inversion E; subst.
    assert (total (count s h) (concs s) = total (count s h) (cs s)) as Et.
    { rewrite fair_shape; auto. }
    rewrite Et. split; [apply total_nonneg; auto|]. cbn. repeat split; auto.
  - intros Hin. apply in_map_iff in Hin. destruct Hin as [c [E Hc']]. inversion E; subst. destruct (keep_c flt c) eqn:Ek.
    + assert (In c (cs s)) as Hc2 by (apply filter_In; auto). split; [apply total_nonneg; auto|]. cbn. repeat split; auto.
    + split; [lia|]. cbn. split; auto. split; [lia|]. intros [_ [_ [_ Hx]]]. apply filter_In in Hx. destruct Hx. congruence.
  - intros [E|[]]. inversion E; subst. split; [|cbn; repeat split; auto]. cbn. apply total_nonneg. intros h Hh'. apply total_nonneg. auto.
Qed.
Lemma rel_all ft k : knd ft k -> exists v, In (k, v) (flat_map (rel_of ft) sizes).
Proof.
  destruct k as [[s h] c]. intros [Hs [H1 H2]]. cbn in Hs. destruct ft, h as [h|], c as [c|]; cbn in H1, H2; try discriminate;
    try (lazymatch type of H1 with _ /\ _ => destruct H1 as [E1 H1] end); try (lazymatch type of H2 with _ /\ _ => destruct H2 as [E2 H2] end); try discriminate.
  - exists (count s h c). apply in_flat_map. exists s. split; auto. cbn [rel_of]. apply in_flat_map. exists h. split; auto. apply in_map_iff. eauto.
  - eexists. apply in_flat_map. exists s. split; auto. cbn [rel_of]. apply in_map_iff. exists h. split; eauto.
  - eexists. apply in_flat_map. exists s. split; auto. cbn [rel_of]. apply in_map_iff. exists c. split; eauto. apply filter_In in H2. tauto.
  - eexists. apply in_flat_map. exists s. split; auto. cbn [rel_of]. left. reflexivity.
Qed.
Lemma rel_keys_nodup ft : NoDup (map fst (flat_map (rel_of ft) sizes)).
Proof.
  assert (forall s, In s sizes -> NoDup (map fst (rel_of ft s)) /\ forall k, In k (map fst (rel_of ft s)) -> fst (fst k) = s) as H1.
  { intros s Hs. assert (NoDup (hs s)) as N1 by (apply NoDup_filter; auto). assert (NoDup (cs s)) as N2 by (apply NoDup_filter; auto).
    destruct ft; cbn [rel_of].
    - split.
      + rewrite flat_map_concat_map, concat_map, map_map. rewrite <- flat_map_concat_map. apply NoDup_flat_map; auto.
        * intros h _. rewrite map_map. cbn. apply NoDup_map_inj; auto. intros x y _ _ E. congruence.
        * intros h h' x _ _ Hx Hx'. rewrite map_map in Hx, Hx'. apply in_map_iff in Hx, Hx'. destruct Hx as [c [<- _]], Hx' as [c' [E _]]. cbn in E. congruence.
      + intros k Hk. apply in_map_iff in Hk. destruct Hk as [[k' v] [<- Hk]]. apply in_flat_map in Hk. destruct Hk as [h [_ Hk]]. apply in_map_iff in Hk. destruct Hk as [c [E _]]. inversion E; auto.
    - rewrite map_map. cbn. split; [apply NoDup_map_inj; auto; congruence|]. intros k Hk. apply in_map_iff in Hk. destruct Hk as [h [<- _]]. auto.
    - rewrite map_map. cbn. split; [apply NoDup_map_inj; auto; congruence|]. intros k Hk. apply in_map_iff in Hk. destruct Hk as [h [<- _]]. auto.
    - cbn. split; [repeat constructor; tauto|]. intros k [<-|[]]. auto. }
  rewrite flat_map_concat_map, concat_map, map_map, <- flat_map_concat_map. apply NoDup_flat_map; auto.
  - intros s Hs. apply H1; auto.
  - intros s s' x Hs Hs' Hx Hx'. rewrite <- (proj2 (H1 s Hs) x Hx). apply (H1 s' Hs'); auto.
Qed.
Lemma rel_total ft : fair ft -> total snd (flat_map (rel_of ft) sizes) = gtotal.
Proof.
  intros Hfair. rewrite total_flat_map. apply total_ext. intros s Hs. cbn [available]. destruct ft; cbn [rel_of].
  - rewrite total_flat_map. apply total_ext. intros h _. rewrite total_map. cbn. auto.
  - rewrite total_map. cbn [snd]. apply total_ext. intros h _. rewrite fair_shape; auto.
  - rewrite total_map. cbn [snd]. rewrite <- total_filter. symmetry. apply total_swap.
  - unfold total at 1. cbn [map snd fold_right]. rewrite Z.add_0_r. reflexivity.
Qed.

Lemma gtotal_nonneg : 0 <= gtotal.
Proof.
  apply total_nonneg. intros s Hs. cbn. apply total_nonneg. intros h Hh'. apply total_nonneg. intros c Hc'. apply filter_In in Hh', Hc'. apply Hpos; tauto.
Qed.
Theorem distribute_everything ft wanted rnd : fair ft -> (forall n, wanted = Some n -> gtotal <= n) ->
  let result := distribute file sizes ft wanted flt rnd in
  (forall k, knd ft k -> requested key_eqb result k = avail k) /\
  (forall k v, In (k, v) result -> knd ft k /\ v = avail k /\ 0 < v) /\
  NoDup (map fst result) /\ total snd result = gtotal.
Proof.
  intros Hfair Hw. unfold distribute. rewrite summary_ok. rewrite relvals_ok.
  assert ((match wanted with None => gtotal | Some n => if gtotal <? n then gtotal else n end) = gtotal) as ->.
  { destruct wanted as [n|]; auto. specialize (Hw n eq_refl). destruct (Z.ltb_spec gtotal n); lia. }
  rewrite Z.eqb_refl. pose proof (rel_keys_nodup ft) as Hn.
  assert (forall k v, In (k, v) (flat_map (rel_of ft) sizes) -> 0 <= v /\ (v <> 0 -> knd ft k) /\ (knd ft k -> v = avail k)) as Hl.
  { intros k v Hin. apply in_flat_map in Hin. destruct Hin as [s [Hs Hin]]. destruct (rel_limit ft s k v Hfair Hs Hin) as [A [_ [B C]]]. auto. }
  assert (forall k v, In (k, v) (flat_map (rel_of ft) sizes) -> 0 <= v) as Hv by (intros k v Hin; apply (Hl k v Hin)).
  rewrite (assign_all_ok _ gtotal Hn Hv (rel_total ft Hfair)). cbn [fst].
  destruct (filter_pos _ Hn Hv) as [F1 [F2 [F3 F4]]]. split; [|split; [|split]]; auto.
  - intros k Hk. destruct (rel_all ft k Hk) as [v Hin]. rewrite (F2 k v Hin). apply (Hl k v Hin); auto.
  - intros k v Hin. destruct (F3 k v Hin) as [H1 H2]. destruct (Hl k v H1) as [_ [A B]]. assert (knd ft k) as Hk by (apply A; lia). auto.
  - rewrite F4. apply rel_total; auto.
Qed.
End Main.
