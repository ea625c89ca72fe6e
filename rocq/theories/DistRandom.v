(** The random distribution: what can be said for every stream of random numbers. *)
From Coq Require Import Permutation Sorted.
From Verif Require Import PyBase ListFacts TransFacts DistModel DistSpec DistProofs DistSummary DistMain.
Local Open Scope Z_scope.

Notation req := (requested key_eqb).
Lemma requested_dget r k : req r k = match dget key_eqb r k with Some v => v | None => 0 end.
Proof. unfold requested. induction r as [|[k' v] r IH]; cbn; auto. destruct (key_eqb k k'); auto. Qed.
Lemma key_dec (x y : key) : {x = y} + {x <> y}.
Proof. destruct (key_eqb x y) eqn:E; [left; apply key_eqb_spec; auto|right; intros ->; rewrite (proj2 (key_eqb_spec y y) eq_refl) in E; discriminate]. Qed.
Lemma dset_spec (r : list (key * Z)) k v : exists a b : list (key * Z), (r = a ++ b /\ ~ In k (map fst r) /\ dset key_eqb r k v = r ++ [(k, v)]) \/
  exists w : Z, r = a ++ (k, w) :: b /\ ~ In k (map fst a) /\ dset key_eqb r k v = a ++ (k, v) :: b.
Proof.
  destruct (in_dec key_dec k (map fst r)) as [Hin|Hn].
  - assert (exists a w b, r = a ++ (k, w) :: b /\ ~ In k (map fst a)) as [a [w [b [-> Ha]]]].
    { induction r as [|[k' v'] r IH]; [destruct Hin|]. destruct (key_eqb k k') eqn:E.
      - apply key_eqb_spec in E. subst. exists [], v', r. auto.
      - cbn in Hin; destruct Hin as [<-|Hin]; [rewrite (proj2 (key_eqb_spec k' k') eq_refl) in E; discriminate|]. destruct (IH Hin) as [a [w [b [-> Ha]]]].
        exists ((k', v') :: a), w, b. split; auto. cbn. intros [->|H]; [rewrite (proj2 (key_eqb_spec k k) eq_refl) in E; discriminate|auto]. }
    exists a, b. right. exists w. split; auto. split; auto. apply dset_old; auto using key_eqb_spec.
  - exists r, []. left. split; [symmetry; apply app_nil_r|]. split; auto. apply dset_new; auto using key_eqb_spec.
Qed.
Lemma dadd_spec (r : list (key * Z)) k v : NoDup (map fst r) -> exists (a b : list (key * Z)) w, (forall x, req (dadd key_eqb r k v) x = req r x + if key_eqb x k then v else 0) /\
  NoDup (map fst (dadd key_eqb r k v)) /\ total snd (dadd key_eqb r k v) = total snd r + v /\
  ((dadd key_eqb r k v = r ++ [(k, v)] /\ ~ In k (map fst r)) \/ (r = a ++ (k, w) :: b /\ dadd key_eqb r k v = a ++ (k, w + v) :: b)).
Proof.
  intros Hn. unfold dadd. destruct (dset_spec r k v) as [a [b [[E [Hk _]]|[w [E [Ha _]]]]]].
  - exists a, b, 0. rewrite dget_none by (auto using key_eqb_spec). rewrite dset_new by (auto using key_eqb_spec). split; [|split; [|split]].
    + intros x. clear E a b Hn. rewrite !requested_dget. induction r as [|[k' v'] r IH]; cbn.
      * destruct (key_eqb x k); lia.
      * destruct (key_eqb x k') eqn:E1; [|apply IH; cbn in Hk; tauto]. apply key_eqb_spec in E1. subst x. destruct (key_eqb k' k) eqn:E2; [|lia]. apply key_eqb_spec in E2. cbn in Hk. tauto.
    + rewrite map_app. cbn. rewrite <- (rev_involutive (map fst r ++ [k])). apply NoDup_rev. rewrite rev_app_distr. cbn. constructor; [rewrite <- in_rev; auto|apply NoDup_rev; auto].
    + rewrite total_app. unfold total. cbn. lia.
    + left. auto.
  - subst r. exists a, b, w. rewrite dget_old by (auto using key_eqb_spec). rewrite dset_old by (auto using key_eqb_spec). split; [|split; [|split]].
    + intros x. rewrite !requested_dget. clear Hn. induction a as [|[k' v'] a IH]; cbn.
      * destruct (key_eqb x k); [lia|]. destruct (dget key_eqb b x); lia.
      * destruct (key_eqb x k') eqn:E1; [|apply IH; cbn in Ha; tauto]. apply key_eqb_spec in E1. subst x. destruct (key_eqb k' k) eqn:E2; [|lia]. apply key_eqb_spec in E2. cbn in Ha. tauto.
    + rewrite map_app in *. auto.
    + rewrite !total_app. unfold total. cbn. lia.
    + right. auto.
Qed.
Lemma insert_desc_perm x l : Permutation (insert_desc x l) (x :: l).
Proof. induction l as [|y l IH]; cbn; auto. destruct (snd y <? snd x); auto. rewrite IH. apply perm_swap. Qed.
Lemma sort_desc_perm l : Permutation (sort_desc l) l.
Proof.
  unfold sort_desc. assert (forall s, Permutation (fold_left (fun s x => insert_desc x s) l s) (l ++ s)) as E; [|rewrite E, app_nil_r; auto].
  induction l as [|x l IH]; intros s; cbn; auto. rewrite IH, insert_desc_perm. symmetry. apply Permutation_middle.
Qed.
Lemma draw_bound limit delta g b : 0 <= limit -> 0 <= delta < g -> 0 <= draw limit delta g b <= limit.
Proof.
  intros Hl [Hd Hg]. unfold draw. pose proof (Z.div_mod (limit * delta) g ltac:(lia)) as E. pose proof (Z.mod_pos_bound (limit * delta) g ltac:(lia)) as Hm.
  assert (0 <= limit * delta / g) by (apply Z.div_pos; nia).
  destruct (Z.eqb_spec ((limit * delta) mod g) 0); [split; nia|]. destruct b; split; nia.
Qed.

Section Rounds.
Variables (rel : list (key * Z)) (g n m : Z).
Hypothesis Hrel : NoDup (map fst rel).
Hypothesis Hlim : forall k v, In (k, v) rel -> 0 <= v <= m.
Hypothesis Hn : 0 <= n < g.
Hypothesis Hm : 1 <= m.
(** State: [j] rounds completed. *)
Record good (j : Z) (st : list (key * Z) * Z) : Prop := {
  g_keys : NoDup (map fst (fst st));
  g_sum : total snd (fst st) = snd st;
  g_pos : forall k v, In (k, v) (fst st) -> 0 < v /\ In k (map fst rel);
  g_lim : forall k v, In (k, v) rel -> req (fst st) k <= j * v;
  g_tot : 0 <= snd st <= n + m - 1 }.
Lemma round_good l : forall j i st delta rnd, incl l rel -> NoDup (map fst l) -> good (j + 1) st -> (forall k v, In (k, v) l -> req (fst st) k <= j * v) ->
  0 <= delta < g -> good (j + 1) (fst (assign_round l delta g n rnd i st)).
Proof.
  induction l as [|[k limit] l IH]; intros j i st delta rnd Hi Hnd Hg Hl Hd; cbn [assign_round fst]; auto.
  assert (In (k, limit) rel) as Hkr by (apply Hi; cbn; auto). pose proof (Hlim k limit Hkr) as Hlm.
  pose proof (draw_bound limit delta g (rnd i) ltac:(lia) Hd) as Hdr. set (v := draw limit delta g (rnd i)) in *.
  destruct st as [r t]. unfold vinsert. cbn [fst snd] in *. inversion Hnd as [|? ? Hk1 Hk2]; subst.
  destruct (Z.ltb_spec t n) as [Ht|Ht]; [|exact Hg]. destruct (Z.ltb_spec 0 v) as [Hv|Hv].
  - destruct Hg as [G1 G2 G3 G4 G5]. cbn [fst snd] in *. destruct (dadd_spec r k v G1) as [a [b [w [D1 [D2 [D3 D4]]]]]].
    apply IH; auto.
    + intros x Hx; apply Hi; cbn; auto.
    + split; cbn [fst snd]; auto.
      * lia.
      * intros k' v' Hin. destruct D4 as [[E4 Hk4]|[E4 E5]].
        -- rewrite E4 in Hin. apply in_app_iff in Hin. destruct Hin as [Hin|[E|[]]]; [auto|]. inversion E; subst. split; [lia|]. apply in_map_iff. exists (k', limit). auto.
        -- rewrite E5 in Hin. assert (0 < w) by (apply (G3 k w); rewrite E4; apply in_or_app; cbn; auto). rewrite E4 in G3.
           apply in_app_iff in Hin. destruct Hin as [Hin|[E|Hin]]; [apply G3, in_or_app; auto| |apply G3, in_or_app; cbn; auto].
           inversion E; subst. split; [lia|]. apply in_map_iff. exists (k', limit). auto.
      * intros k' v' Hin. rewrite D1. destruct (key_eqb k' k) eqn:E; [|rewrite Z.add_0_r; auto]. apply key_eqb_spec in E. subst k'.
        assert (v' = limit) as ->.
        { pose proof (dget_in key_eqb key_eqb_spec rel k v' Hrel Hin) as E1. pose proof (dget_in key_eqb key_eqb_spec rel k limit Hrel Hkr) as E2. congruence. }
        pose proof (Hl k limit ltac:(cbn; auto)). lia.
      * lia.
    + intros k' v' Hin. cbn [fst]. rewrite D1. destruct (key_eqb k' k) eqn:E; [|rewrite Z.add_0_r; apply Hl; cbn; auto].
      apply key_eqb_spec in E. subst k'. exfalso. apply Hk1. apply in_map_iff. exists (k, v'). auto.
  - apply IH; auto; [intros x Hx; apply Hi; cbn; auto|]. intros; apply Hl; cbn; auto.
Qed.
Lemma rounds_good rounds : forall j i st rnd, 0 <= j -> good j st -> exists j', j <= j' <= j + Z.of_nat rounds /\ good j' (assign_rounds rounds rel g n rnd i st).
Proof.
  induction rounds as [|rounds IH]; intros j i st rnd Hj Hg; cbn [assign_rounds].
  - exists j. split; [lia|auto].
  - destruct (Z.ltb_spec (snd st) n) as [Ht|Ht]; [|exists j; split; [lia|auto]].
    assert (good (j + 1) (fst (assign_round rel (n - snd st) g n rnd i st))) as H1.
    { apply round_good; auto; [apply incl_refl| |apply Hg|].
      - destruct Hg as [G1 G2 G3 G4 G5]. split; auto. intros k v Hin. pose proof (G4 k v Hin). pose proof (Hlim k v Hin). nia.
      - destruct Hg as [G1 G2 G3 G4 G5]. lia. }
    destruct (assign_round rel (n - snd st) g n rnd i st) as [st' i']. cbn [fst] in H1.
    destruct (IH (j + 1) i' st' rnd ltac:(lia) H1) as [j' [Hj' Hg']]. exists j'. split; [lia|auto].
Qed.
Lemma rounds_start : good 0 ([], 0).
Proof. split; cbn; [constructor|auto|tauto|intros; lia|lia]. Qed.

(** Whole-number weights: the first round gives every key its weight, whatever the random numbers. *)
Lemma round_exact l : (forall k v, In (k, v) l -> 0 <= v /\ (v * n) mod g = 0) -> forall r t i rnd, NoDup (map fst (r ++ l)) ->
  t + total (fun kv => snd kv * n / g) l = n ->
  fst (fst (assign_round l n g n rnd i (r, t))) = r ++ filter (fun kv => 0 <? snd kv) (map (fun kv => (fst kv, snd kv * n / g)) l) /\
  snd (fst (assign_round l n g n rnd i (r, t))) = n.
Proof.
  induction l as [|[k v] l IH]; intros Hd r t i rnd Hnd Ht.
  - cbn. rewrite app_nil_r. unfold total in Ht. cbn in Ht. split; auto. lia.
  - change (total (fun kv : key * Z => snd kv * n / g) ((k, v) :: l)) with (v * n / g + total (fun kv : key * Z => snd kv * n / g) l) in Ht.
    destruct (Hd k v ltac:(cbn; auto)) as [Hv Hdiv].
    assert (0 <= v * n / g) as Hq by (apply Z.div_pos; nia).
    assert (forall k' v', In (k', v') l -> 0 <= v' /\ (v' * n) mod g = 0) as Hd' by (intros; apply (Hd k' v'); cbn; auto).
    assert (0 <= total (fun kv : key * Z => snd kv * n / g) l) as Hrest.
    { apply total_nonneg. intros [k' v'] Hin. cbn. apply Z.div_pos; [|lia]. destruct (Hd' k' v' Hin). nia. }
    cbn [assign_round map filter fst snd]. unfold draw. rewrite Hdiv. cbn [Z.eqb]. rewrite Z.add_0_r. unfold vinsert.
    assert (~ In k (map fst r)) as Hk by (rewrite map_app in Hnd; cbn in Hnd; apply NoDup_remove_2 in Hnd; intros Hin; apply Hnd, in_or_app; auto).
    destruct (Z.ltb_spec t n) as [Hlt|Hge].
    + destruct (Z.ltb_spec 0 (v * n / g)).
      * unfold dadd. rewrite dget_none by (auto using key_eqb_spec). rewrite dset_new by (auto using key_eqb_spec).
        destruct (IH Hd' (r ++ [(k, v * n / g)]) (t + v * n / g) (S i) rnd) as [E1 E2].
        { rewrite map_app in *. rewrite map_app. cbn in *. rewrite <- app_assoc. auto. }
        { lia. }
        split; auto. rewrite E1, <- app_assoc. auto.
      * apply IH; auto; [|lia]. rewrite map_app in *. cbn in Hnd. apply NoDup_remove_1 in Hnd. auto.
    + cbn [fst snd]. split; [|lia]. assert (forall l', (forall k' v', In (k', v') l' -> v' * n / g = 0) -> filter (fun kv : key * Z => 0 <? snd kv) (map (fun kv => (fst kv, snd kv * n / g)) l') = []) as Hz.
      { intros l' Hl'. induction l' as [|[k' v'] l' IH']; cbn; auto. rewrite (Hl' k' v') by (cbn; auto). cbn. apply IH'. intros k0 v0 Hx0; apply (Hl' k0 v0); cbn; auto. }
      destruct (Z.ltb_spec 0 (v * n / g)); [lia|]. rewrite Hz; [symmetry; apply app_nil_r|].
      intros k' v' Hin. assert (forall x, In x l -> 0 <= snd x * n / g) as Hp by (intros [k2 v2] Hx; cbn; apply Z.div_pos; [|lia]; destruct (Hd' k2 v2 Hx); nia).
      assert (total (fun kv : key * Z => snd kv * n / g) l = 0) as Hz0 by lia. clear - Hin Hp Hz0. revert Hin Hp Hz0. induction l as [|x l IH]; intros Hin Hp Hz0; [destruct Hin|].
      change (total (fun kv : key * Z => snd kv * n / g) (x :: l)) with (snd x * n / g + total (fun kv : key * Z => snd kv * n / g) l) in Hz0.
      assert (0 <= total (fun kv : key * Z => snd kv * n / g) l) by (apply total_nonneg; intros; apply Hp; cbn; auto). pose proof (Hp x ltac:(cbn; auto)).
      destruct Hin as [->|Hin]; [cbn in *; lia|]. apply IH; auto; [intros; apply Hp; cbn; auto|lia].
Qed.
End Rounds.

Section Random.
Variables (file : Z -> option table) (sizes : list Z) (hnfs concs : Z -> list (list Z)) (count : Z -> list Z -> list Z -> Z) (flt : filter_by).
Hypothesis Hsz : NoDup sizes.
Hypothesis Hfile : forall s, In s sizes -> file s = Some (polya_table (concs s) (hnfs s) (count s)).
Hypothesis Hc : forall s, In s sizes -> NoDup (concs s).
Hypothesis Hh : forall s, In s sizes -> NoDup (hnfs s).
Hypothesis Hpos : forall s h c, In s sizes -> In h (hnfs s) -> In c (concs s) -> 0 <= count s h c.
Notation hs := (fun s => filter (keep_h flt) (hnfs s)).
Notation cs := (fun s => filter (keep_c flt) (concs s)).
Notation avail := (available hs cs count).
Notation knd ft := (kind sizes hs cs (by_shape ft) (by_conc ft)).
Notation gtotal := (grand_total sizes hs cs count).
Notation rel ft := (sort_desc (flat_map (rel_of hnfs concs count flt ft) sizes)).

Lemma distribute_random ft n rnd : n < gtotal ->
  distribute file sizes ft (Some n) flt rnd = fst (assign_rounds 4 (rel ft) gtotal n rnd 0 ([], 0)).
Proof.
  intros Hn. unfold distribute. rewrite (summary_ok file sizes hnfs concs count flt Hsz Hfile Hc Hh), (relvals_ok sizes hnfs concs count flt Hc Hh).
  unfold grand_total in *. destruct (Z.ltb_spec (total (fun s => avail (s, None, None)) sizes) n); [lia|].
  destruct (Z.eqb_spec n (total (fun s => avail (s, None, None)) sizes)); [lia|]. reflexivity.
Qed.
Lemma rel_facts ft : fair flt ft -> NoDup (map fst (rel ft)) /\
  (forall k v, In (k, v) (rel ft) -> 0 <= v /\ (v <> 0 -> knd ft k) /\ (knd ft k -> v = avail k)) /\
  (forall k, knd ft k -> In (k, avail k) (rel ft)) /\ total snd (rel ft) = gtotal.
Proof.
  intros Hf. pose proof (sort_desc_perm (flat_map (rel_of hnfs concs count flt ft) sizes)) as HP.
  assert (forall k v, In (k, v) (rel ft) -> 0 <= v /\ (v <> 0 -> knd ft k) /\ (knd ft k -> v = avail k)) as Hl.
  { intros k v Hin. apply (Permutation_in _ HP) in Hin. apply in_flat_map in Hin. destruct Hin as [s [Hs Hin]].
    destruct (rel_limit sizes hnfs concs count flt Hpos ft s k v Hf Hs Hin) as [A [_ [B C]]]. auto. }
  split; [|split; [|split]]; auto.
  - eapply Permutation_NoDup; [apply Permutation_map, Permutation_sym; exact HP|]. apply (rel_keys_nodup sizes hnfs concs count flt Hsz Hc Hh).
  - intros k Hk. destruct (rel_all sizes hnfs concs count flt ft k Hk) as [v Hin]. apply (Permutation_in _ (Permutation_sym HP)) in Hin.
    destruct (Hl k v Hin) as [_ [_ E]]. rewrite <- E; auto.
  - unfold grand_total. rewrite <- (rel_total sizes hnfs concs count flt ft Hf). unfold total. apply (Permutation_map snd) in HP. clear - HP.
    induction HP; cbn; lia.
Qed.
Theorem random_bounds ft n m rnd : fair flt ft -> 0 <= n < gtotal -> 1 <= m -> (forall k, knd ft k -> avail k <= m) ->
  let result := distribute file sizes ft (Some n) flt rnd in
  NoDup (map fst result) /\ (forall k v, In (k, v) result -> knd ft k /\ 0 < v <= 4 * avail k) /\ total snd result <= n + m - 1.
Proof.
  intros Hf Hn Hm Hav result. unfold result. rewrite distribute_random by lia. destruct (rel_facts ft Hf) as [R1 [R2 [R3 R4]]].
  assert (forall k v, In (k, v) (rel ft) -> 0 <= v <= m) as Hlim.
  { intros k v Hin. destruct (R2 k v Hin) as [A [B C]]. split; auto. destruct (Z.eq_dec v 0); [lia|]. rewrite C by auto. apply Hav; auto. }
  destruct (rounds_good (rel ft) gtotal n m R1 Hlim Hn 4 0 0%nat ([], 0) rnd ltac:(lia) (rounds_start (rel ft) gtotal n m Hn Hm)) as [j [Hj [G1 G2 G3 G4 G5]]].
  split; auto. split; [|lia]. intros k v Hin. destruct (G3 k v Hin) as [Hv Hk]. apply in_map_iff in Hk. destruct Hk as [[k' l] [E Hk]]. cbn in E. subst k'.
  pose proof (G4 k l Hk) as Hle. rewrite (requested_in _ k v G1 Hin) in Hle. destruct (R2 k l Hk) as [A [B C]]. assert (l <> 0) as Hl by nia. specialize (B Hl). rewrite <- (C B). split; auto. split; auto. nia.
Qed.
Theorem random_exact ft n rnd : fair flt ft -> 0 <= n < gtotal -> (forall k, knd ft k -> (avail k * n) mod gtotal = 0) ->
  let result := distribute file sizes ft (Some n) flt rnd in
  (forall k, knd ft k -> req result k = avail k * n / gtotal) /\ (forall k v, In (k, v) result -> knd ft k) /\ total snd result = n.
Proof.
  intros Hf Hn Hdiv result. unfold result. rewrite distribute_random by lia. destruct (rel_facts ft Hf) as [R1 [R2 [R3 R4]]].
  assert (forall k v, In (k, v) (rel ft) -> 0 <= v /\ (v * n) mod gtotal = 0) as Hd.
  { intros k v Hin. destruct (R2 k v Hin) as [A [B C]]. split; auto. destruct (Z.eq_dec v 0) as [->|Hv]; [apply Z.mod_0_l; lia|]. rewrite C by auto. auto. }
  assert (total (fun kv => snd kv * n / gtotal) (rel ft) = n) as Ht.
  { assert (forall l, (forall k v, In (k, v) l -> 0 <= v /\ (v * n) mod gtotal = 0) -> gtotal * total (fun kv : key * Z => snd kv * n / gtotal) l = n * total snd l) as E.
    { induction l as [|[k v] l IH]; intros Hl; [cbn; lia|].
      change (total (fun kv : key * Z => snd kv * n / gtotal) ((k, v) :: l)) with (v * n / gtotal + total (fun kv : key * Z => snd kv * n / gtotal) l).
      change (total snd ((k, v) :: l)) with (v + total snd l). rewrite Z.mul_add_distr_l, IH by (intros k0 v0 Hx0; apply (Hl k0 v0); cbn; auto).
      destruct (Hl k v ltac:(cbn; auto)) as [_ Hz]. pose proof (Z.div_mod (v * n) gtotal ltac:(lia)) as Ez. nia. }
    specialize (E (rel ft) Hd). rewrite R4 in E. nia. }
  destruct (round_exact gtotal n Hn (rel ft) Hd [] 0 0%nat rnd R1 ltac:(lia)) as [E1 E2].
  cbn [assign_rounds snd]. destruct (Z.ltb_spec 0 n) as [Hn0|Hn0].
  - rewrite Z.sub_0_r. destruct (assign_round (rel ft) n gtotal n rnd 0 ([], 0)) as [st i]. cbn [fst snd] in E1, E2. rewrite E2. rewrite Z.ltb_irrefl.
    cbn [app] in E1. rewrite E1. set (scaled := map (fun kv : key * Z => (fst kv, snd kv * n / gtotal)) (rel ft)).
    assert (NoDup (map fst scaled)) as Hs by (unfold scaled; rewrite map_map; cbn; auto).
    assert (forall k v, In (k, v) scaled -> exists w, In (k, w) (rel ft) /\ v = w * n / gtotal) as Hin.
    { intros k v Hx. unfold scaled in Hx. apply in_map_iff in Hx. destruct Hx as [[k' w] [E Hx]]. inversion E; subst. eauto. }
    destruct (filter_pos scaled Hs) as [F1 [F2 [F3 F4]]].
    { intros k v Hx. apply Hin in Hx. destruct Hx as [w [Hx ->]]. apply Z.div_pos; [|lia]. destruct (Hd k w Hx). nia. }
    split; [|split].
    + intros k Hk. apply F2. unfold scaled. apply in_map_iff. exists (k, avail k). split; auto.
    + intros k v Hx. destruct (F3 k v Hx) as [Hx1 Hv]. apply Hin in Hx1. destruct Hx1 as [w [Hw ->]]. apply (R2 k w Hw). intros ->. rewrite Z.mul_0_l, Z.div_0_l in Hv by lia. lia.
    + rewrite F4. unfold scaled. rewrite total_map. cbn [snd]. auto.
  - assert (n = 0) as -> by lia. cbn [fst]. split; [|split; [intros k v []|auto]]. intros k Hk. rewrite Z.mul_0_r, Z.div_0_l by lia. auto.
Qed.
End Random.
