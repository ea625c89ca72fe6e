(** [polya] counts the classes of decorated structures. *)
From Coq Require Import Permutation.
From Verif Require Import PyBase Spec ListFacts PermFacts PhononsModel HashProofs DecoFacts MultiProofs PolyaModel PolyaSpec Burnside CycleProofs PolyaCount
  FloatProofs ChooseProofs PolyaCoeff PolyaTerm PolyaSum.

(** ** [Product.coeff] *)
Section Coeff.
  Variables (v : pyversion) (flags : list bool) (concs : list nat) (d : nat).
  Hypothesis Hk : 0 < length concs.
  Hypothesis Hflags : length flags = length concs.
  Hypothesis Hn : 0 < sum_nat concs.
  Hypothesis Hd : 1 <= d.
  Hypothesis HB : (Z.of_nat (sum_nat concs) * Z.of_nat (mult concs * wt d flags concs) < 2 ^ 53)%Z.
  Hypothesis HBB : (Z.of_nat (mult concs * wt d flags concs) < 2 ^ 53)%Z.
  Let targets := map Z.of_nat concs.

  Lemma single_dead L c e : 0 < e -> forallb (fun t => (0 <? Z.of_nat L - t)%Z) targets = true -> cw flags (repeat (L, c) e) targets = 0.
  Proof.
    intros He H. destruct e as [|e]; [lia|]. cbn [repeat cw]. rewrite (sumf_ext _ (fun _ => 0)); [apply sumf_zero|].
    intros i Hi. apply in_seq in Hi. rewrite (cw_neg flags _ _ i); [lia|rewrite sub_at_length; lia|].
    rewrite nth_sub_at by lia. rewrite Nat.eqb_refl. rewrite forallb_forall in H.
    assert (In (nth i targets 0%Z) targets) as Hin by (apply nth_In; lia). specialize (H _ Hin). apply Z.ltb_lt in H. lia.
  Qed.

  Lemma vsub_all_zero t L ns : length ns = length t -> cw flags [] (vsub t L ns) = b2n (zlist_eqb (scale L ns) t).
  Proof. intros H. cbn [cw]. rewrite (vsub_zero flags concs); auto. Qed.

  Lemma single_cw L c e : 0 < L -> 0 < e -> L * e = sum_nat concs ->
    cw flags (repeat (L, c) e) targets =
    if forallb (fun a => (a mod Z.of_nat L =? 0)%Z) targets
    then let ns := map (fun a => Nat.div a L) concs in mult ns * wt c flags ns else 0.
  Proof.
    intros HL He Hsum. rewrite <- (app_nil_r (repeat (L, c) e)).
    assert (Htl : length targets = length concs) by (unfold targets; apply map_length).
    destruct (forallb (fun a => (a mod Z.of_nat L =? 0)%Z) targets) eqn:E.
    - set (ns := map (fun a => a / L) concs). cbn zeta.
      assert (scale L ns = targets) as Hsc.
      { unfold scale, ns, targets. rewrite map_map. apply map_ext_in. intros a Ha. rewrite forallb_forall in E.
        specialize (E (Z.of_nat a)). rewrite Z.eqb_eq in E. assert (In (Z.of_nat a) targets) as Hin by (apply in_map; auto).
        specialize (E Hin). rewrite <- Nat2Z.inj_mod in E. pose proof (Nat.div_mod a L). f_equal. lia. }
      assert (Hln : length ns = length targets) by (unfold ns, targets; rewrite !map_length; auto).
      assert (L * sum_nat ns = sum_nat concs) as Hsn.
      { rewrite <- (Nat2Z.id (L * sum_nat ns)), <- (Nat2Z.id (sum_nat concs)). f_equal.
        rewrite <- (targets_sum concs). fold targets. rewrite <- Hsc. clear. induction ns as [|a l IH]; [cbn; lia|].
        unfold scale in *. cbn [map]. rewrite sum_Z_cons, sum_nat_cons, <- IH. lia. }
      rewrite (cw_group flags L c e [] targets [ns]).
      + rewrite sumf_cons. change (sumf _ []) with 0. rewrite (vsub_all_zero targets L ns) by auto.
        rewrite Hsc. assert (zlist_eqb targets targets = true) as -> by (apply zlist_eqb_spec; auto). cbn [b2n].
        assert (sum_nat ns = e) as -> by nia. rewrite Nat.eqb_refl. lia.
      + lia.
      + repeat constructor; auto.
      + intros ? [<-|[]]; auto.
      + intros u Hu Hni. rewrite vsub_all_zero by apply counts_length.
        destruct (zlist_eqb (scale L (counts (length targets) u)) targets) eqn:Ez; auto. exfalso. apply Hni. left.
        apply zlist_eqb_spec in Ez. apply (scale_inj L); auto. congruence.
    - rewrite (cw_group flags L c e [] targets []); auto; [lia|constructor|intros ? []|].
      intros u Hu _. rewrite vsub_all_zero by apply counts_length.
      destruct (zlist_eqb (scale L (counts (length targets) u)) targets) eqn:Ez; auto. exfalso. apply zlist_eqb_spec in Ez.
      assert (forallb (fun a => (a mod Z.of_nat L =? 0)%Z) targets = true); [|congruence].
      apply forallb_forall. intros x Hx. rewrite <- Ez in Hx. unfold scale in Hx. apply in_map_iff in Hx. destruct Hx as [a [<- _]].
      apply Z.eqb_eq. rewrite Nat2Z.inj_mul, Z.mul_comm. apply Z.mod_mul. lia.
  Qed.

  Lemma coeff_val c ms : good concs d ms -> (0 <= c)%Z -> (c * Z.of_nat (mult concs * wt d flags concs) < 2 ^ 53)%Z ->
    val (coeff v c targets (map (mk flags) ms)) (c * Z.of_nat (cw flags (flat_map ex ms) targets)).
  Proof.
    intros Hg Hc Hcb.
    assert (ms <> []) as Hne. { intros ->. destruct Hg as [_ [_ H]]. cbn in H. lia. }
    pose proof (good_cw flags concs Hk Hflags d Hd ms Hg) as Hcw. fold targets in Hcw.
    destruct ms as [|m1 [|m2 ms]]; [congruence| |].
    - destruct m1 as [[L cc] e]. cbn [map coeff]. destruct Hg as [Hp [Hdd Ht]]. apply Forall_inv in Hp. destruct Hp as [HL He].
      apply Forall_inv in Hdd. rename Hdd into Hc1. cbn [fst snd] in Hc1. unfold total in Ht. cbn in Ht. rewrite Nat.add_0_r in Ht.
      cbn [flat_map ex] in *. rewrite app_nil_r in *. cbn [m_power mk].
      change (nchoosekm v (mk flags (L, cc, e)) targets) with (nchoosekm v (mk flags (L, cc, e)) targets).
      destruct (forallb (fun t => (0 <? Z.of_nat L - t)%Z) targets) eqn:E.
      + rewrite single_dead by auto. rewrite Z.mul_0_r. apply (val_I 0).
      + rewrite single_cw in * by auto.
        assert (Hv : val (nchoosekm v (mk flags (L, cc, e)) targets)
            (Z.of_nat (if forallb (fun a => (a mod Z.of_nat L =? 0)%Z) targets
                       then let ns := map (fun a => Nat.div a L) concs in mult ns * wt cc flags ns else 0))).
        { destruct (forallb (fun a => (a mod Z.of_nat L =? 0)%Z) targets) eqn:E2.
          - set (ns := map (fun a => a / L) concs) in *. cbn zeta in *.
            assert (scale L ns = targets) as Hsc.
            { unfold scale, ns, targets. rewrite map_map. apply map_ext_in. intros a Ha. rewrite forallb_forall in E2.
              specialize (E2 (Z.of_nat a)). rewrite Z.eqb_eq in E2. assert (In (Z.of_nat a) targets) as Hin by (apply in_map; auto).
              specialize (E2 Hin). rewrite <- Nat2Z.inj_mod in E2. pose proof (Nat.div_mod a L). f_equal. lia. }
            assert (L * sum_nat ns = sum_nat concs) as Hsn.
            { rewrite <- (Nat2Z.id (L * sum_nat ns)), <- (Nat2Z.id (sum_nat concs)). f_equal.
              rewrite <- (targets_sum concs). fold targets. rewrite <- Hsc. clear. induction ns as [|a l IH]; [cbn; lia|].
              unfold scale in *. cbn [map]. rewrite sum_Z_cons, sum_nat_cons, <- IH. lia. }
            rewrite <- Hsc.
            pose proof (one_val v flags concs Hk Hflags (L, cc, e) ns (Z.of_nat (mult concs * wt d flags concs))) as Hone.
            cbn [fst snd] in Hone. apply Hone; auto.
            + split; auto.
            + unfold ns. apply map_length.
            + rewrite Hsn. auto.
            + assert (good concs d [(L, max cc 1, e)]) as Hg1.
              { repeat split; [repeat constructor; auto|repeat constructor; cbn; lia|]. unfold total. cbn. lia. }
              pose proof (good_cw flags concs Hk Hflags d Hd _ Hg1) as Hcw1. cbn [flat_map ex] in Hcw1. rewrite app_nil_r in Hcw1.
              fold targets in Hcw1. rewrite single_cw in Hcw1 by auto. rewrite E2 in Hcw1. cbn zeta in Hcw1. fold ns in Hcw1. lia.
            + assert (0 < mult concs * wt d flags concs); [|lia]. pose proof (mult_pos concs). pose proof (wt_pos d flags concs Hd). nia.
          - unfold nchoosekm. cbn [mk m_power]. rewrite E2. cbn [negb]. apply (val_I 0). }
        rewrite Z.mul_comm. apply nmul_val; auto; [apply val_I| | |]; try nia.
        assert (0 < mult concs * wt d flags concs); [|nia]. pose proof (mult_pos concs). pose proof (wt_pos d flags concs Hd). nia.
    - pose proof (code_sum_val v flags concs Hk Hflags d Hd HB HBB (m1 :: m2 :: ms) Hg Hne) as Hv.
      change (coeff v c targets (map (mk flags) (m1 :: m2 :: ms))) with
        (I (nint (code_sum v concs (map (mk flags) (m1 :: m2 :: ms))) * c)).
      rewrite (nint_val _ _ Hv). rewrite Z.mul_comm. apply val_I.
  Qed.
End Coeff.

(** ** The dictionaries *)
Definition triple (x : (nat * nat) * nat) : mm := let '((e, c), n) := x in (e, c, n).
Lemma multinomials_mk flags d : multinomials flags d = map (mk flags) (map triple d).
Proof. unfold multinomials. rewrite map_map. apply map_ext. intros [[e c] n]; auto. Qed.

Lemma dict_incr_ex d key : Permutation (flat_map ex (map triple (dict_incr d key))) (key :: flat_map ex (map triple d)).
Proof.
  induction d as [|[[a b] n] d IH]; [destruct key; cbn; auto|]. cbn [dict_incr].
  destruct key as [x y]. cbn [fst snd]. destruct (Nat.eqb_spec a x), (Nat.eqb_spec b y); subst; cbn [andb map triple flat_map ex repeat app]; auto; rewrite IH; symmetry; apply Permutation_middle.
Qed.
Lemma dict_incr_pos d key : Forall (fun x => 0 < snd x) d -> Forall (fun x => 0 < snd x) (dict_incr d key).
Proof.
  induction 1 as [|[[a b] n] d H1 H2 IH]; cbn; [repeat constructor|]. destruct (_ && _); constructor; cbn; auto; lia.
Qed.
Lemma dict_incr_keys d key x : In x (map fst (dict_incr d key)) <-> x = key \/ In x (map fst d).
Proof.
  induction d as [|[[a b] n] d IH]; cbn.
  - intuition.
  - destruct key as [p q]. cbn. destruct (Nat.eqb_spec a p), (Nat.eqb_spec b q); subst; cbn [andb]; cbn; rewrite ?IH; intuition congruence.
Qed.
Lemma dict_incr_nodup d key : NoDup (map fst d) -> NoDup (map fst (dict_incr d key)).
Proof.
  induction d as [|[[a b] n] d IH]; intros H; cbn.
  - repeat constructor; auto.
  - inversion H; subst. destruct key as [p q]. cbn [fst snd]. destruct (Nat.eqb_spec a p), (Nat.eqb_spec b q); subst; cbn [andb map fst]; auto.
    all: constructor; auto; rewrite dict_incr_keys; intros [E|E]; [inversion E; congruence|auto].
Qed.
Lemma fold_dict (f : nat -> nat * nat) ls : forall d,
  Permutation (flat_map ex (map triple (fold_left (fun d p => dict_incr d (f p)) ls d))) (map f ls ++ flat_map ex (map triple d)) /\
  (Forall (fun x => 0 < snd x) d -> Forall (fun x => 0 < snd x) (fold_left (fun d p => dict_incr d (f p)) ls d)) /\
  (NoDup (map fst d) -> NoDup (map fst (fold_left (fun d p => dict_incr d (f p)) ls d))) /\
  (forall x, In x (map fst (fold_left (fun d p => dict_incr d (f p)) ls d)) <-> In x (map f ls) \/ In x (map fst d)).
Proof.
  induction ls as [|p ls IH]; intros d; cbn [fold_left map app].
  - repeat split; auto; cbn; tauto.
  - destruct (IH (dict_incr d (f p))) as [H1 [H2 [H3 H4]]]. repeat split.
    + rewrite H1, dict_incr_ex. symmetry. apply Permutation_middle.
    + intros H. apply H2, dict_incr_pos; auto.
    + intros H. apply H3, dict_incr_nodup; auto.
    + rewrite H4, dict_incr_keys. cbn. intuition.
    + rewrite H4, dict_incr_keys. cbn. intuition.
Qed.

(** One operation. *)
Definition cyc_data (o : op) (cs : list (list nat)) : list (nat * nat) :=
  map (fun c => (length c, length (fixed_directions (snd o) (length c)))) cs.
Lemma polynomials_spec n d o : is_perm n (fst o) -> is_perm d (snd o) -> exists cs dict,
  cycle_decomposition (fst o) cs /\ polynomials o = Ok dict /\
  Permutation (flat_map ex (map triple dict)) (cyc_data o cs) /\ Forall (fun x => 0 < snd x) dict /\ NoDup (map fst dict) /\
  (forall x, In x (map fst dict) <-> In x (cyc_data o cs)).
Proof.
  intros Hp Hs. destruct (cycle_lengths_spec n (fst o) Hp) as [cs [H1 H2]].
  destruct (cycle_lengths_spec d (snd o) Hs) as [as_ [H3 H4]].
  exists cs. unfold polynomials. rewrite H4. cbn [rbind]. rewrite H2. cbn [rbind].
  eexists. split; auto. split; [reflexivity|].
  destruct (fold_dict (fun p => (p, arrow_coef (map (@length nat) as_) p)) (map (@length nat) cs) []) as [F1 [F2 [F3 F4]]].
  assert (map (fun p => (p, arrow_coef (map (@length nat) as_) p)) (map (@length nat) cs) = cyc_data o cs) as E.
  { unfold cyc_data. rewrite map_map. apply map_ext. intros c. rewrite <- (fixed_directions_count (snd o)); auto. }
  rewrite E in *. cbn [map flat_map] in F1. rewrite app_nil_r in F1. split; auto. split; [apply F2; constructor|].
  split; [apply F3; constructor|]. intros x. rewrite F4. cbn. tauto.
Qed.

(** ** Equal keys mean equal contributions *)
Lemma m_insert_perm m l : Permutation (m_insert m l) (m :: l).
Proof. induction l as [|x l IH]; cbn; auto. destruct (m_ge m x); auto. rewrite IH. apply perm_swap. Qed.
Lemma m_sort_perm l : Permutation (m_sort l) l.
Proof. induction l as [|x l IH]; cbn; auto. unfold m_sort in IH. rewrite m_insert_perm. auto. Qed.

Lemma cw_same flags cs cs' : Forall2 (fun x y => fst x = fst y /\ (snd x = snd y \/ forall i, nth i flags false = false)) cs cs' ->
  forall t, cw flags cs t = cw flags cs' t.
Proof.
  induction 1 as [|[L c] [L' c'] cs cs' [H1 H2] H IH]; intros t; auto. cbn in H1, H2. subst L'. cbn [cw]. apply sumf_ext.
  intros i Hi. rewrite IH. destruct H2 as [->|H2]; auto. rewrite H2. auto.
Qed.

Lemma key_eqb_spec a b : key_eqb a b = true <-> a = b.
Proof.
  unfold key_eqb. apply list_eqb_spec. intros [x e] [y f]. cbn. rewrite andb_true_iff, Z.eqb_eq.
  rewrite (list_eqb_spec zz_eqb).
  - split; [intros [-> ->]; auto|intros E; inversion E; auto].
  - intros [p q] [r s]. unfold zz_eqb. cbn. rewrite andb_true_iff, !Z.eqb_eq. split; [intros [-> ->]; auto|intros E; inversion E; auto].
Qed.

Lemma key_cw flags ms ms' : flags <> [] -> product_key (map (mk flags) ms) = product_key (map (mk flags) ms') ->
  forall t, cw flags (flat_map ex ms) t = cw flags (flat_map ex ms') t.
Proof.
  intros Hf E t. unfold product_key in E.
  destruct (Permutation_map_inv _ _ (m_sort_perm (map (mk flags) ms))) as [l [E1 P1]].
  destruct (Permutation_map_inv _ _ (m_sort_perm (map (mk flags) ms'))) as [l' [E2 P2]].
  rewrite E1, E2 in E. rewrite (cw_perm _ _ (flat_map ex l)) by (apply Permutation_flat_map; auto).
  rewrite (cw_perm _ (flat_map ex ms') (flat_map ex l')) by (apply Permutation_flat_map; auto).
  apply cw_same. clear - E Hf. revert l' E. induction l as [|[[L c] e] l IH]; intros [|[[L' c'] e'] l'] E; cbn [map] in E; try discriminate; [constructor|].
  injection E as E0 E1 E2. cbn [flat_map]. apply Forall2_app; auto. cbn [mk m_arrowings m_coeff m_power m_exponent] in *.
  apply Nat2Z.inj in E1. subst e'.
  assert (L = L' /\ (c = c' \/ forall i, nth i flags false = false)) as [<- Hc].
  { destruct flags as [|f fl]; [congruence|]. split; [cbn in E0; inversion E0; lia|].
    revert E0. clear. induction (f :: fl) as [|b bl IH]; intros E0; [right; intros [|]; auto|].
    cbn in E0. injection E0 as X Y Z. destruct b; [left; lia|]. destruct (IH Z) as [->|H]; auto. right. intros [|i]; cbn; auto. }
  cbn [ex]. clear - Hc. induction e; cbn; constructor; auto.
Qed.

(** ** The sum over the dictionary of products *)
Section Products.
  Variables (flags : list bool) (t : list Z).
  Hypothesis Hf : flags <> [].
  Let f (ms : list mm) : Z := Z.of_nat (cw flags (flat_map ex ms) t).
  Definition entry_ok (done : list (list mm)) (x : key * (Z * list multinomial)) : Prop :=
    exists ms, In ms done /\ snd (snd x) = map (mk flags) ms /\ fst x = product_key (map (mk flags) ms) /\ (0 <= fst (snd x))%Z.
  Definition entry_mm (x : key * (Z * list multinomial)) : list mm := 
    map (fun m => (Z.to_nat (m_power m), Z.to_nat (m_coeff m), Z.to_nat (m_exponent m))) (snd (snd x)).
  Lemma mm_mk ms : map (fun m => (Z.to_nat (m_power m), Z.to_nat (m_coeff m), Z.to_nat (m_exponent m))) (map (mk flags) ms) = ms.
  Proof. rewrite map_map. rewrite <- (map_id ms) at 2. apply map_ext. intros [[L c] e]. cbn. rewrite !Nat2Z.id. auto. Qed.

  Definition dsum (D : list (key * (Z * list multinomial))) : Z := sum_Z (map (fun x => fst (snd x) * f (entry_mm x))%Z D).
  Definition csum (D : list (key * (Z * list multinomial))) : Z := sum_Z (map (fun x => fst (snd x)) D).

  Lemma add_entry done D ms : Forall (entry_ok done) D ->
    Forall (entry_ok (ms :: done)) (polyndict_add D (map (mk flags) ms)) /\
    dsum (polyndict_add D (map (mk flags) ms)) = (dsum D + f ms)%Z /\ csum (polyndict_add D (map (mk flags) ms)) = (csum D + 1)%Z.
  Proof.
    unfold dsum, csum. induction 1 as [|[k [c ms']] D H1 H2 IH]; cbn [polyndict_add].
    - split; [repeat constructor; exists ms; cbn; repeat split; auto; lia|]. cbn [map]. rewrite !sum_Z_cons. cbn [fst snd]. unfold entry_mm. cbn [snd]. rewrite mm_mk.
      cbn [sum_Z fold_right]. change (sum_Z []) with 0%Z. lia.
    - destruct (key_eqb k (product_key (map (mk flags) ms))) eqn:E.
      + apply key_eqb_spec in E. destruct H1 as [m0 [G1 [G2 [G3 G4]]]]. cbn [fst snd] in *. split.
        * constructor.
          -- exists m0. cbn. repeat split; auto. lia.
          -- eapply Forall_impl; [|exact H2]. intros x [m [? ?]]. exists m. cbn. tauto.
        * cbn [map]. rewrite !sum_Z_cons. cbn [fst snd]. unfold entry_mm. cbn [snd]. rewrite G2, mm_mk.
          replace (f ms) with (f m0); [lia|]. unfold f. f_equal. apply key_cw; auto. congruence.
      + destruct IH as [I1 [I2 I3]]. split.
        * constructor; auto. destruct H1 as [m [? ?]]. exists m. cbn in *. tauto.
        * cbn [map]. rewrite !sum_Z_cons, I2, I3. lia.
  Qed.
  Lemma add_entries (L : list (list mm)) : forall done D, Forall (entry_ok done) D ->
    let D' := fold_left (fun d ms => polyndict_add d (map (mk flags) ms)) L D in
    Forall (entry_ok (rev L ++ done)) D' /\ dsum D' = (dsum D + sum_Z (map f L))%Z /\ csum D' = (csum D + Z.of_nat (length L))%Z.
  Proof.
    induction L as [|ms L IH]; intros done D HD; cbn [fold_left].
    - cbn. repeat split; auto; cbn; lia.
    - destruct (add_entry done D ms HD) as [H1 [H2 H3]]. destruct (IH _ _ H1) as [I1 [I2 I3]].
      cbn [rev]. rewrite <- app_assoc. cbn [app]. split; auto. rewrite I2, I3, H2, H3. cbn [map length]. rewrite sum_Z_cons. lia.
  Qed.
End Products.
