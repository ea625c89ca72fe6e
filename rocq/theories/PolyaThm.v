(** [polya] returns the number of classes of decorated structures. *)
From Coq Require Import Permutation.
From Verif Require Import PyBase Spec ListFacts PermFacts PhononsModel HashProofs DecoFacts MultiProofs PolyaModel PolyaSpec Burnside CycleProofs PolyaCount
  FloatProofs ChooseProofs PolyaCoeff PolyaTerm PolyaSum PolyaMain.

Lemma rmap_exists {A B} (f : A -> res B) (P : A -> B -> Prop) l : (forall a, In a l -> exists b, f a = Ok b /\ P a b) ->
  exists bs, rmap f l = Ok bs /\ Forall2 P l bs.
Proof.
  induction l as [|a l IH]; intros H; cbn.
  - exists []. auto.
  - destruct (H a) as [b [E Hb]]; [cbn; auto|]. destruct IH as [bs [E2 H2]]; [intros; apply H; cbn; auto|].
    exists (b :: bs). rewrite E. cbn. rewrite E2. cbn. auto.
Qed.

Lemma perm_has_zero n p : is_perm n p -> 0 < n -> has_zero p = true.
Proof.
  intros Hp Hn. unfold has_zero. apply existsb_exists. exists 0. split; auto.
  apply is_perm_permutation in Hp. apply (Permutation_in _ (Permutation_sym Hp)). apply in_seq. lia.
Qed.
Lemma zero_based_perm n p : is_perm n p -> zero_based p = p.
Proof.
  intros Hp. unfold zero_based. destruct n.
  - destruct Hp as [Hl _]. destruct p; [auto|cbn in Hl; lia].
  - rewrite (perm_has_zero (S n)); auto. lia.
Qed.

Lemma filter_length_le {A} (f : A -> bool) l : length (filter f l) <= length l.
Proof. induction l as [|x l IH]; cbn; auto. destruct (f x); cbn; lia. Qed.
Lemma concat_length_sum (cs : list (list nat)) : length (concat cs) = sum_nat (map (@length nat) cs).
Proof. induction cs; auto. cbn [concat map]. rewrite app_length, sum_nat_cons, IHcs. auto. Qed.
Lemma sum_nat_perm l l' : Permutation l l' -> sum_nat l = sum_nat l'.
Proof. induction 1; rewrite ?sum_nat_cons; try lia. Qed.
Lemma sum_Z_perm_ge (l : list Z) x : Forall (fun z => 0 <= z)%Z l -> In x l -> (x <= sum_Z l)%Z.
Proof.
  induction 1 as [|a l Ha H IH]; [intros []|]. intros [->|Hx]; rewrite sum_Z_cons.
  - assert (0 <= sum_Z l)%Z; [|lia]. clear - H. induction H; [cbn; lia|]. rewrite sum_Z_cons. lia.
  - specialize (IH Hx). lia.
Qed.
Lemma sum_Z_sumf {A} (f : A -> nat) l : sum_Z (map (fun a => Z.of_nat (f a)) l) = Z.of_nat (sumf f l).
Proof. induction l; auto. cbn [map]. rewrite sum_Z_cons, sumf_cons, IHl. lia. Qed.
Lemma Forall2_sumf {A B} (R : A -> B -> Prop) f g l l' : Forall2 R l l' -> (forall a b, R a b -> f a = g b) -> sumf f l = sumf g l'.
Proof. intros H HR. induction H; auto. rewrite !sumf_cons, IHForall2. f_equal. auto. Qed.

Section Main.
  Variables (v : pyversion) (kinds : list site) (d n : nat) (concs : list nat) (G : list op) (a : nat).
  Hypothesis kinds_nodup : NoDup kinds.
  Hypothesis kinds_skel : forall kd, In kd kinds -> skeleton kd = kd.
  Hypothesis kinds_length : length kinds = length concs.
  Hypothesis kinds_flags : map has_arrow kinds = arrow_flags (length concs) a.
  Hypothesis Hsum : sum_nat concs = n.
  Hypothesis Hn : 0 < n.
  Hypothesis HG : op_group n d G.
  Hypothesis HGn : NoDup G.
  Let fl := arrow_flags (length concs) a.
  Let B := mult concs * wt (max d 1) fl concs.
  Hypothesis HB : (Z.of_nat n * Z.of_nat B < 2 ^ 53)%Z.
  Hypothesis HGB : (Z.of_nat (length G) * Z.of_nat B < 2 ^ 53)%Z.
  Let targets := map Z.of_nat concs.
  Let X := structs kinds d n targets.

  Lemma Hk : 0 < length concs.
  Proof. destruct concs; cbn in *; [subst; cbn in Hn; lia|lia]. Qed.
  Lemma Hfl : length fl = length concs.
  Proof. unfold fl. rewrite <- kinds_flags, map_length. auto. Qed.

  Lemma X_okw x : In x X -> okw n (Z.of_nat d) x.
  Proof. intros H. apply in_structs in H; auto. destruct H as [H1 [H2 _]]. split; auto. intros s Hs. apply H2; auto. Qed.

  Lemma X_act g x : In g G -> In x X -> In (act_op g x) X.
  Proof.
    intros Hg Hx. pose proof (X_okw x Hx) as Hok. destruct HG as [Hp _]. destruct (Hp g Hg) as [P1 P2].
    apply in_structs in Hx; auto. destruct Hx as [H1 [H2 H3]]. apply in_structs; auto. split; [rewrite act_op_length; apply P1|].
    assert (Hskel : map skeleton (act_op g x) = act (-1, 0)%Z (fst g) (map skeleton x)).
    { apply act_op_skeleton. destruct P1 as [_ [_ P1]]. rewrite H1. auto. }
    assert (Hperm : Permutation (map skeleton (act_op g x)) (map skeleton x)).
    { rewrite Hskel. apply (act_permutation _ n); auto. rewrite map_length. auto. }
    split.
    - intros s Hs. split.
      + assert (In (skeleton s) (map skeleton x)) as Hin by (apply (Permutation_in _ Hperm), in_map; auto).
        apply in_map_iff in Hin. destruct Hin as [s' [<- Hs']]. apply H2; auto.
      + assert (directions_below (Z.of_nat d) (act_op g x)) as Hb by (eapply act_op_below; eauto; apply Hok). apply Hb; auto.
    - rewrite <- H3. unfold ok_counts. 
      assert (forall kd, kcount kd (act_op g x) = kcount kd x) as Hkc.
      { intros kd. unfold kcount. rewrite !length_filter_sumf.
        rewrite <- (sumf_map skeleton (fun s => b2n (site_eqb kd s)) (act_op g x)), <- (sumf_map skeleton (fun s => b2n (site_eqb kd s)) x).
        apply sumf_perm. auto. }
      induction (combine kinds targets) as [|[kd c] l IH]; cbn; auto. rewrite IH, Hkc. auto.
  Qed.

  (** What the code computes for one operation. *)
  Definition opmm (o : op) (ms : list mm) : Prop :=
    good concs (max d 1) ms /\ cw fl (flat_map ex ms) targets = length (filter (fun x => w_eqb (act_op o x) x) X).

  Lemma op_dict o : In o G -> exists dict, polynomials o = Ok dict /\ opmm o (map triple dict).
  Proof.
    intros Ho. destruct HG as [Hp _]. destruct (Hp o Ho) as [P1 P2].
    destruct (polynomials_spec n d o P1 P2) as [cs [dict [H1 [H2 [H3 [H4 [H5 H6]]]]]]].
    exists dict. split; auto. split.
    - assert (Hcd : forall x, In x (cyc_data o cs) -> 0 < fst x /\ snd x <= max d 1).
      { intros x Hx. unfold cyc_data in Hx. apply in_map_iff in Hx. destruct Hx as [c [<- Hc]]. cbn. split.
        - destruct H1 as [_ H1]. rewrite Forall_forall in H1. destruct (H1 c Hc) as [Hne _]. destruct c; [congruence|cbn; lia].
        - unfold fixed_directions. pose proof (filter_length_le (fun a0 => Nat.iter (length c) (fun b => nth b (snd o) 0) a0 =? a0) (seq 0 (length (snd o)))) as Hle.
          rewrite seq_length in Hle. destruct P2 as [P2 _]. lia. }
      repeat split.
      + apply Forall_map, Forall_forall. intros [[L c] e] Hin. cbn. rewrite Forall_forall in H4. split.
        * apply (Hcd (L, c)). apply H6. apply in_map_iff. exists ((L, c), e). auto.
        * apply (H4 _ Hin).
      + apply Forall_map, Forall_forall. intros [[L c] e] Hin. cbn. apply (Hcd (L, c)). apply H6. apply in_map_iff. exists ((L, c), e). auto.
      + rewrite <- (ex_sum (map triple dict)). rewrite (sum_nat_perm _ (map fst (cyc_data o cs))) by (apply Permutation_map; auto).
        unfold cyc_data. rewrite map_map. cbn [fst]. rewrite <- concat_length_sum. destruct H1 as [H1 _].
        rewrite (Permutation_length H1), seq_length. rewrite Hsum. apply P1.
    - destruct o as [p sigma]. unfold X.
      rewrite (fixed_count kinds d n kinds_nodup kinds_skel p sigma P1 P2 cs H1) by (unfold targets; rewrite map_length; auto).
      unfold flags. rewrite kinds_flags. fold fl. apply cw_perm. auto.
  Qed.

  Lemma burnside_ops reps : transversal (fun x => In x X) (op_equiv G) reps ->
    sumf (fun o => length (filter (fun x => w_eqb (act_op o x) x) X)) G = length G * length reps.
  Proof.
    intros Hreps. pose proof HG as [Hp [_ Hcl]].
    apply (burnside w_eqb w_eqb_spec act_op (fun g h => (comp (fst g) (fst h), comp (snd h) (snd g)))); auto.
      - apply structs_nodup; auto.
      - intros; apply X_act; auto.
      - intros g x y Hg Hx Hy E. pose proof (X_okw x Hx) as [Lx Bx]. pose proof (X_okw y Hy) as [Ly By].
        destruct (op_inverse n d G HG g Hg) as [h [Hh [E1 E2]]].
        destruct (Hp g Hg), (Hp h Hh).
        rewrite <- (act_op_id n d (Z.of_nat d) x), <- (act_op_id n d (Z.of_nat d) y) by auto. rewrite <- E1, <- E2.
        rewrite !(act_op_comp n d (Z.of_nat d)) by auto. congruence.
      - intros g h k Hg Hh Hk' E. inversion E as [[E1 E2]]. destruct (Hp g Hg), (Hp h Hh), (Hp k Hk').
        destruct h as [h1 h2], k as [k1 k2]. cbn in *. f_equal; [apply (comp_cancel_l n h1 k1 (fst g))|apply (comp_cancel_r d h2 k2 (snd g))]; auto.
      - intros g h x Hg Hh Hx. destruct (Hp g Hg), (Hp h Hh). pose proof (X_okw x Hx) as [Lx Bx]. apply (act_op_comp n d (Z.of_nat d)); auto.
      - intros x Hx. apply (op_equiv_refl n d (Z.of_nat d) G eq_refl HG). apply X_okw; auto.
      - intros x y Hx Hy. apply (op_equiv_sym n d (Z.of_nat d) G eq_refl HG). apply X_okw; auto.
      - intros x y z Hx Hy Hz. apply (op_equiv_trans n d (Z.of_nat d) G eq_refl HG). apply X_okw; auto. 
  Qed.

  Theorem polya_orbits reps : transversal (fun x => In x X) (op_equiv G) reps -> polya v concs G a = Ok (Z.of_nat (length reps), G).
  Proof.
    intros Hreps. unfold polya. pose proof HG as [Hp [Hid Hcl]].
    destruct G as [|g0 G0] eqn:EG; [destruct Hid|]. rewrite <- EG in *. 
    assert (get G 0 = Ok g0) as -> by (rewrite EG; auto). cbn [rbind].
    assert (In g0 G) as Hg0 by (rewrite EG; cbn; auto). destruct (Hp g0 Hg0) as [P1 P2].
    assert (length (fst g0) = n) as -> by apply P1. rewrite Hsum, Nat.eqb_refl. cbn [negb].
    assert (map (fun o : op => (zero_based (fst o), zero_based (snd o))) G = G) as ->.
    { rewrite <- (map_id G) at 2. apply map_ext_in. intros o Ho. destruct (Hp o Ho) as [Q1 Q2].
      rewrite (zero_based_perm n), (zero_based_perm d) by auto. destruct o; auto. }
    unfold group_to_cyclic. assert (get G 0 = Ok g0) as -> by (rewrite EG; auto). cbn [rbind].
    rewrite (perm_has_zero n) by auto.
    destruct (rmap_exists polynomials (fun o dict => opmm o (map triple dict)) G op_dict) as [dicts [-> HF]]. cbn [rbind].
    pose proof (burnside_ops reps Hreps) as Hburn.
    set (L := map (map triple) dicts).
    fold fl. fold targets.
    assert (fold_left (fun dd p => polyndict_add dd (multinomials fl p)) dicts [] =
            fold_left (fun dd ms => polyndict_add dd (map (mk fl) ms)) L []) as ->.
    { unfold L. rewrite fold_left_map. generalize (@nil (key * (Z * list multinomial))). induction dicts as [|x dicts IH]; intros D; cbn; auto.
      rewrite multinomials_mk. inversion HF; subst; try congruence. clear - x. 
      generalize (polyndict_add D (map (mk fl) (map triple x))). generalize dicts. clear. induction dicts as [|y ds IH]; intros D; cbn; auto. rewrite multinomials_mk. auto. }
    set (D := fold_left (fun dd ms => polyndict_add dd (map (mk fl) ms)) L []).
    assert (fl <> []) as Hflne. { pose proof Hfl. pose proof Hk. destruct fl; cbn in *; [lia|discriminate]. }
    destruct (add_entries fl targets Hflne L [] [] (Forall_nil _)) as [A1 [A2 A3]]. fold D in A1, A2, A3.
    assert (length L = length G) as HLG. { unfold L. rewrite map_length. apply Forall2_length in HF. auto. }
    assert (HLgood : forall ms, In ms (rev L ++ []) -> good concs (max d 1) ms).
    { intros ms Hms. rewrite app_nil_r in Hms. apply in_rev in Hms. unfold L in Hms. apply in_map_iff in Hms. destruct Hms as [dict [<- Hd]].
      clear - HF Hd. induction HF; [destruct Hd|]. destruct Hd as [->|Hd]; auto. apply H. }
    assert (Hdsum : dsum fl targets D = Z.of_nat (length G * length reps)).
    { rewrite A2. change (dsum fl targets []) with 0%Z. rewrite Z.add_0_l, sum_Z_sumf. f_equal. rewrite <- Hburn. unfold L. rewrite sumf_map.
      symmetry. eapply Forall2_sumf; [exact HF|]. intros o dict [_ E]. auto. }
    assert (HcB : forall x, In x D -> (0 <= fst (snd x) <= Z.of_nat (length G))%Z).
    { intros x Hx. rewrite Forall_forall in A1. destruct (A1 x Hx) as [ms [_ [_ [_ Hc]]]]. split; auto.
      rewrite <- HLG. change (csum []) with 0%Z in A3. rewrite Z.add_0_l in A3. rewrite <- A3. unfold csum.
      apply sum_Z_perm_ge; [|apply in_map_iff; eauto]. apply Forall_map, Forall_forall. intros y Hy. destruct (A1 y Hy) as [? [_ [_ [_ ?]]]]. auto. }
    assert (HBpos : 1 <= B). { unfold B. pose proof (mult_pos concs). pose proof (wt_pos (max d 1) fl concs). nia. }
    assert (1 <= length G) by (rewrite EG; cbn; lia).
    assert (Hreps_le : (Z.of_nat (length G * length reps) <= Z.of_nat (length G) * Z.of_nat B)%Z).
    { rewrite <- Hburn. rewrite <- Nat2Z.inj_mul. apply inj_le. rewrite <- sumf_const. 
      apply sumf_le. intros o Ho. destruct (op_dict o Ho) as [dict [_ [Hg E]]]. rewrite <- E. apply good_cw; auto; [apply Hk|apply Hfl|lia]. }
    assert (Hvals : forall x, In x D -> val (coeff v (fst (snd x)) targets (snd (snd x))) (fst (snd x) * Z.of_nat (cw fl (flat_map ex (entry_mm x)) targets))).
    { intros x Hx. rewrite Forall_forall in A1. destruct (A1 x Hx) as [ms [Hms [E1 [_ _]]]]. unfold entry_mm. rewrite E1, mm_mk.
      apply (coeff_val v fl concs (max d 1)); try lia.
      - apply Hk.
      - apply Hfl.
      - apply HLgood; auto.
      - apply HcB; auto.
      - fold B. specialize (HcB x Hx). nia. }
    assert (Hrad : val (fold_left nadd (map (fun '(_, (c, ms)) => coeff v c targets ms) D) (I 0)) (Z.of_nat (length G * length reps))).
    { rewrite <- Hdsum.
      set (g := fun x : key * (Z * list multinomial) => Z.to_nat (fst (snd x) * Z.of_nat (cw fl (flat_map ex (entry_mm x)) targets))).
      assert (dsum fl targets D = Z.of_nat (sumf g D)) as Hdg.
      { rewrite <- sum_Z_sumf. unfold dsum. f_equal. apply map_ext_in. intros x Hx. unfold g. specialize (HcB x Hx). rewrite Z2Nat.id; nia. }
      rewrite Hdg. rewrite fold_left_map.
      pose proof (fold_nadd_val' (fun '(_, (c, ms)) => coeff v c targets ms) g D (I 0) 0) as Hfold. cbn [Nat.add] in Hfold. apply Hfold.
      - apply (val_I 0).
      - intros x Hx. specialize (Hvals x Hx). specialize (HcB x Hx). unfold g. rewrite Z2Nat.id by nia. destruct x as [k0 [c ms]]. exact Hvals.
      - rewrite <- Hdg, Hdsum. lia. }
    do 2 f_equal.
    apply nint_val. apply ndiv_val with (b := Z.of_nat (length G)); try lia; try nia.
    - replace (Z.of_nat (length reps) * Z.of_nat (length G))%Z with (Z.of_nat (length G * length reps)) by lia. exact Hrad.
    - apply to_float_val; [apply val_I|nia].
  Qed.
End Main.
