(** [arrow_concs] and [how_many_arrows] (C42). *)
From Coq Require Import Permutation Sorted.
From Verif Require Import PyBase Spec ListFacts PermFacts PhononsModel ColorProofs ArrowEnum PolyaSpec PolyaUse EnumSysModel.
Local Open Scope nat_scope.

(** Runs: (value, how often), written out. *)
Definition runs {A} (bs : list (A * nat)) : list A := flat_map (fun b => repeat (fst b) (snd b)) bs.

Lemma runs_app {A} (a b : list (A * nat)) : runs (a ++ b) = runs a ++ runs b.
Proof. unfold runs. apply flat_map_app. Qed.
Lemma runs_in {A} (bs : list (A * nat)) x : In x (runs bs) -> In x (map fst bs).
Proof.
  unfold runs. intros H. apply in_flat_map in H. destruct H as [b [Hb H]]. apply repeat_spec in H. subst. apply in_map; auto.
Qed.

(** ** Stable sorting keeps runs together *)
Section Sort.
  Context {A : Type} (key : A -> nat).
  Fixpoint insert_run (b : A * nat) (bs : list (A * nat)) : list (A * nat) :=
    match bs with
    | [] => [b]
    | c :: bs' => if key (fst b) <=? key (fst c) then b :: bs else c :: insert_run b bs'
    end.

  Lemma insert_pre x pre l : Forall (fun y => key y < key x) pre -> insert_by key x (pre ++ l) = pre ++ insert_by key x l.
  Proof.
    induction pre as [|y pre IH]; cbn; auto. intros H. inversion H; subst.
    destruct (Nat.leb_spec (key x) (key y)); [lia|]. rewrite IH; auto.
  Qed.
  Lemma insert_head x l : (forall y l', l = y :: l' -> key x <= key y) -> insert_by key x l = x :: l.
  Proof. destruct l as [|y l]; cbn; auto. intros H. destruct (Nat.leb_spec (key x) (key y)); auto. specialize (H y l eq_refl). lia. Qed.
  Lemma insert_many x k pre l : Forall (fun y => key y < key x) pre -> (forall y l', l = y :: l' -> key x <= key y) ->
    fold_right (insert_by key) (pre ++ l) (repeat x k) = pre ++ repeat x k ++ l.
  Proof.
    intros Hp Hl. induction k as [|k IH]; cbn; auto. rewrite IH, insert_pre by auto. f_equal. apply insert_head.
    intros y l'. destruct k; cbn; intros E; [eauto|]. inversion E. auto.
  Qed.
  Lemma insert_run_spec x k bs : Forall (fun b => 0 < snd b) bs ->
    fold_right (insert_by key) (runs bs) (repeat x k) = runs (insert_run (x, k) bs).
  Proof.
    intros H. cut (forall pre, Forall (fun y => key y < key x) pre ->
      fold_right (insert_by key) (pre ++ runs bs) (repeat x k) = pre ++ runs (insert_run (x, k) bs)).
    { intros Hc. apply (Hc []). auto. }
    induction bs as [|[y m] bs IH]; intros pre Hp; cbn [insert_run fst].
    - rewrite insert_many; auto. cbn. intros; discriminate.
    - inversion H; subst. cbn in *. destruct (Nat.leb_spec (key x) (key y)).
      + rewrite insert_many; auto. intros z l' E. destruct m; [lia|]. inversion E. subst. auto.
      + cbn. rewrite !app_assoc. apply IH; auto. apply Forall_app. split; auto. apply Forall_forall. intros z Hz.
        apply repeat_spec in Hz. subst. auto.
  Qed.
  Lemma insert_run_perm b bs : Permutation (insert_run b bs) (b :: bs).
  Proof.
    induction bs as [|c bs IH]; cbn; auto. destruct (_ <=? _); auto. rewrite IH. apply perm_swap.
  Qed.
  Definition sort_runs (bs : list (A * nat)) := fold_right insert_run [] bs.
  Lemma sort_runs_perm bs : Permutation (sort_runs bs) bs.
  Proof. induction bs; cbn; auto. rewrite insert_run_perm. auto. Qed.
  Lemma sorted_by_runs bs : Forall (fun b => 0 < snd b) bs -> sorted_by key (runs bs) = runs (sort_runs bs).
  Proof.
    unfold sorted_by. induction bs as [|[x k] bs IH]; cbn; auto. intros H. inversion H; subst. fold (runs bs). rewrite fold_right_app, IH by auto.
    apply insert_run_spec. apply Forall_forall. intros b Hb. apply (Permutation_in _ (sort_runs_perm bs)) in Hb.
    rewrite Forall_forall in *. auto.
  Qed.
  (** The keys of the runs increase. *)
  Lemma insert_run_sorted b bs : StronglySorted (fun a c => key (fst a) <= key (fst c)) bs ->
    StronglySorted (fun a c => key (fst a) <= key (fst c)) (insert_run b bs).
  Proof.
    induction bs as [|c bs IH]; cbn; intros H; [repeat constructor|]. inversion H; subst.
    destruct (Nat.leb_spec (key (fst b)) (key (fst c))).
    - constructor; auto. constructor; auto. rewrite Forall_forall in *. intros x Hx. specialize (H3 x Hx). lia.
    - constructor; auto. rewrite Forall_forall in *. intros x Hx. apply (Permutation_in _ (insert_run_perm b bs)) in Hx.
      destruct Hx as [<-|Hx]; auto. lia.
  Qed.
  Lemma sort_runs_sorted bs : StronglySorted (fun a c => key (fst a) <= key (fst c)) (sort_runs bs).
  Proof. induction bs; cbn; [constructor|]. apply insert_run_sorted; auto. Qed.
End Sort.

Lemma sorted_by_perm {A} (key : A -> nat) l : Permutation (sorted_by key l) l.
Proof.
  induction l as [|x l IH]; cbn; auto.
  assert (forall m, Permutation (insert_by key x m) (x :: m)) as H.
  { induction m as [|y m IHm]; cbn; auto. destruct (_ <=? _); auto. rewrite IHm. apply perm_swap. }
  rewrite H. auto.
Qed.

(** ** Counting in runs *)
Lemma filter_runs {A} (f : A -> bool) (bs : list (A * nat)) : filter f (runs bs) = runs (filter (fun b => f (fst b)) bs).
Proof.
  induction bs as [|[x k] bs IH]; cbn; auto. rewrite filter_app. fold (runs bs). rewrite IH.
  assert (forall k, filter f (repeat x k) = if f x then repeat x k else []) as H.
  { clear. induction k; cbn; [destruct (f x); auto|]. rewrite IHk. destruct (f x); auto. }
  rewrite H. destruct (f x); cbn; auto.
Qed.
Lemma mult_runs {A} (eqb : A -> A -> bool) (Heq : forall x y, eqb x y = true <-> x = y) bs x k :
  NoDup (map fst bs) -> In (x, k) bs -> multiplicity eqb (runs bs) x = k.
Proof.
  unfold multiplicity. rewrite filter_runs. induction bs as [|[y m] bs IH]; cbn; [tauto|]. intros Hnd [E|Hin]; inversion Hnd; subst.
  - inversion E; subst. destruct (eqb x x) eqn:Ex; [|assert (eqb x x = true) by (apply Heq; auto); congruence]. cbn. rewrite app_length, repeat_length.
    replace (filter (fun b => eqb x (fst b)) bs) with (@nil (A * nat)); [cbn; lia|]. symmetry. apply filter_none.
    intros [z j] Hz. cbn. destruct (eqb x z) eqn:Ez; auto. apply Heq in Ez. subst. destruct H1. apply (in_map fst) in Hz. auto.
  - destruct (eqb x y) eqn:Ex.
    + apply Heq in Ex. subst. destruct H1. apply (in_map fst) in Hin. auto.
    + apply IH; auto.
Qed.
Lemma mult_runs_absent {A} (eqb : A -> A -> bool) (Heq : forall x y, eqb x y = true <-> x = y) bs x :
  ~ In x (map fst bs) -> multiplicity eqb (runs bs) x = 0.
Proof.
  intros H. unfold multiplicity. rewrite filter_runs, filter_none; auto. intros [y k] Hy. cbn. destruct (eqb x y) eqn:E; auto.
  apply Heq in E. subst. destruct H. apply (in_map fst) in Hy. auto.
Qed.
Lemma first_occ_runs {A} (eqb : A -> A -> bool) (Heq : forall x y, eqb x y = true <-> x = y) bs :
  NoDup (map fst bs) -> Forall (fun b => 0 < snd b) bs -> first_occurrences eqb (runs bs) = map fst bs.
Proof.
  unfold first_occurrences. intros Hnd Hpos.
  cut (forall seen, (forall x, In x seen -> ~ In x (map fst bs)) ->
    fold_left (fun s a => if existsb (eqb a) s then s else s ++ [a]) (runs bs) seen = seen ++ map fst bs).
  { intros H. apply (H []). auto. }
  assert (forall x s, In x s -> existsb (eqb x) s = true) as Hex.
  { intros x s H. apply existsb_exists. exists x. split; auto. apply Heq; auto. }
  induction bs as [|[y k] bs IH]; intros seen Hs; cbn; [rewrite app_nil_r; auto|]. inversion Hnd; inversion Hpos; subst. cbn in *.
  rewrite fold_left_app. fold (runs bs).
  assert (forall m s, In y s -> fold_left (fun s a => if existsb (eqb a) s then s else s ++ [a]) (repeat y m) s = s) as Hrep.
  { induction m; cbn; intros s H; auto. rewrite Hex by auto. auto. }
  destruct k; [lia|]. cbn.
  destruct (existsb (eqb y) seen) eqn:E.
  { apply existsb_exists in E. destruct E as [z [Hz E]]. apply Heq in E. subst. destruct (Hs z Hz). auto. }
  rewrite Hrep by (apply in_or_app; right; left; auto). rewrite IH; auto.
  - rewrite <- app_assoc. auto.
  - intros x Hx. apply in_app_or in Hx. destruct Hx as [Hx|[<-|[]]]; auto. intros Hc. apply (Hs x Hx). auto.
Qed.

Lemma flat_map_ext_in' {A B} (f g : A -> list B) l : (forall a, In a l -> f a = g a) -> flat_map f l = flat_map g l.
Proof. induction l; cbn; auto. intros H. rewrite H, IHl; auto. Qed.
Lemma flat_map_length_perm {A B} (f : A -> list B) l m : Permutation l m -> length (flat_map f l) = length (flat_map f m).
Proof. induction 1; cbn; rewrite ?app_length; lia. Qed.

(** ** The decorations *)
Definition deco_runs (cList : list nat) (na : list Z) : list (site * nat) :=
  flat_map (fun i => [((1%Z, Z.of_nat (S i)), Z.to_nat (nth i na 0%Z)); (((-1)%Z, Z.of_nat (S i)), nth i cList 0 - Z.to_nat (nth i na 0%Z))])
           (seq 0 (length cList)).

Lemma rmap_all {A B} (f : A -> res B) (g : A -> B) l : (forall a, In a l -> f a = Ok (g a)) -> rmap f l = Ok (map g l).
Proof.
  induction l as [|a l IH]; cbn; auto. intros H. rewrite H by auto. cbn. rewrite IH by auto. auto.
Qed.
Lemma get_nth {A} (l : list A) i d : i < length l -> get l i = Ok (nth i l d).
Proof. intros H. unfold get. rewrite nth_error_nth' with (d := d) by auto. auto. Qed.

Lemma concat_runs {A} (f : nat -> list (A * nat)) l : concat (map (fun i => runs (f i)) l) = runs (flat_map f l).
Proof. induction l; cbn [map concat flat_map]; auto. rewrite runs_app, IHl. auto. Qed.

Definition nonneg_at_most (cList : list nat) (na : list Z) : Prop :=
  length na = length cList /\ forall i, i < length cList -> (0 <= nth i na 0 <= Z.of_nat (nth i cList 0%nat))%Z.

Lemma arrow_concs_runs cList na : nonneg_at_most cList na -> arrow_concs cList na = Ok (col_sort (runs (deco_runs cList na))).
Proof.
  intros [Hl Hna]. unfold arrow_concs.
  rewrite rmap_all with (g := fun i => runs [((1%Z, Z.of_nat (S i)), Z.to_nat (nth i na 0%Z)); (((-1)%Z, Z.of_nat (S i)), nth i cList 0 - Z.to_nat (nth i na 0%Z))]).
  - cbn [rbind]. rewrite concat_runs. auto.
  - intros i Hi. apply in_seq in Hi. rewrite get_nth with (d := 0) by lia. cbn [rbind]. rewrite get_nth with (d := 0%Z) by lia. cbn [rbind].
    unfold species_decorations. specialize (Hna i ltac:(lia)). destruct (Z.leb_spec (nth i na 0%Z) (Z.of_nat (nth i cList 0))); [|lia].
    unfold runs. cbn [flat_map fst snd]. rewrite app_nil_r. auto.
Qed.

Lemma runs_pos {A} (bs : list (A * nat)) : runs bs = runs (filter (fun b => 0 <? snd b) bs).
Proof. induction bs as [|[x [|k]] bs IH]; cbn; auto. unfold runs in IH. rewrite IH. auto. Qed.

Lemma nodup_map_filter {A B} (f : A -> B) (p : A -> bool) l : NoDup (map f l) -> NoDup (map f (filter p l)).
Proof.
  induction l as [|a l IH]; cbn; auto. intros H. inversion H; subst. destruct (p a); cbn; auto. constructor; auto.
  intros Hin. apply H2. apply in_map_iff in Hin. destruct Hin as [b [E Hb]]. apply filter_In in Hb. apply in_map_iff. exists b. tauto.
Qed.
Lemma map_flat_map {A B C} (g : B -> C) (f : A -> list B) l : map g (flat_map f l) = flat_map (fun a => map g (f a)) l.
Proof. induction l; cbn; auto. rewrite map_app, IHl. auto. Qed.
Lemma deco_runs_nodup cList na : NoDup (map fst (deco_runs cList na)).
Proof.
  unfold deco_runs. rewrite map_flat_map. cbn [map fst].
  assert (forall l, NoDup l -> NoDup (flat_map (fun i => [(1%Z, Z.of_nat (S i)); ((-1)%Z, Z.of_nat (S i))]) l)) as H; [|apply H, seq_NoDup].
  clear. induction l as [|i l IH]; intros H; cbn [flat_map]; [constructor|]. inversion H; subst. cbn [app].
  assert (forall a, In (a, Z.of_nat (S i)) (flat_map (fun i => [(1%Z, Z.of_nat (S i)); ((-1)%Z, Z.of_nat (S i))]) l) -> False) as Hout.
  { intros a Hin. apply in_flat_map in Hin. destruct Hin as [j [Hj [E|[E|[]]]]]; apply (f_equal snd) in E; cbn [snd] in E; apply Nat2Z.inj in E; injection E as E; subst; auto. }
  constructor; [|constructor; eauto]. intros [E|Hin]; [discriminate|eauto].
Qed.

(** The sorted runs. *)
Lemma filter_perm {A} (f : A -> bool) (l m : list A) : Permutation l m -> Permutation (filter f l) (filter f m).
Proof.
  induction 1; cbn; auto.
  - destruct (f x); auto.
  - destruct (f x), (f y); auto. apply perm_swap.
  - etransitivity; eauto.
Qed.

Lemma col_sort_runs bs : NoDup (map fst bs) -> Forall (fun b => 0 < snd b) bs ->
  let less := StronglySorted (fun a c : site * nat => snd a <= snd c) in
  exists u a, col_sort (runs bs) = runs (u ++ a) /\ Permutation (u ++ a) bs /\
    Forall (fun b => has_arrow (fst b) = false) u /\ Forall (fun b => has_arrow (fst b) = true) a /\ less u /\ less a.
Proof.
  intros Hnd Hpos less. unfold col_sort.
  set (f := fun i : site => (fst i <? 0)%Z). set (g := fun i : site => negb (fst i <? 0)%Z && (0 <=? fst i)%Z).
  rewrite !filter_runs.
  set (b1 := filter (fun b : site * nat => f (fst b)) bs). set (b2 := filter (fun b : site * nat => g (fst b)) bs).
  assert (forall p, Forall (fun b : site * nat => 0 < snd b) (filter p bs)) as Hpos'.
  { intros p. apply Forall_forall. intros b Hb. apply filter_In in Hb. rewrite Forall_forall in Hpos. apply Hpos; tauto. }
  rewrite !sorted_by_runs by apply Hpos'.
  exists (sort_runs (scount (runs b1)) b1), (sort_runs (scount (runs b2)) b2).
  assert (forall p (key := scount (runs (filter p bs))), less (sort_runs key (filter p bs))) as Hless.
  { intros p key. unfold less. pose proof (sort_runs_sorted key (filter p bs)) as Hs. pose proof (sort_runs_perm key (filter p bs)) as Hp.
    assert (forall b, In b (sort_runs key (filter p bs)) -> key (fst b) = snd b) as Hk.
    { intros [x k] Hb. apply (Permutation_in _ Hp) in Hb. cbn. apply mult_runs; auto using site_eqb_spec. apply nodup_map_filter; auto. }
    revert Hs Hk. generalize (sort_runs key (filter p bs)). induction l as [|b l IH]; intros Hs Hk; constructor; inversion Hs; subst.
    - apply IH; auto. intros c Hc. apply Hk. right; auto.
    - rewrite Forall_forall in *. intros c Hc. specialize (H2 c Hc). rewrite !Hk in H2; auto. right; auto. left; auto. }
  split; [symmetry; apply runs_app|]. split; [|split; [|split; [|split]]].
  - rewrite !sort_runs_perm. unfold b1, b2. clear - bs. induction bs as [|[s k] bs IH]; cbn; auto. unfold f, g in *.
    destruct (Z.ltb_spec (fst s) 0), (Z.leb_spec 0 (fst s)); cbn; try lia.
    + constructor. auto.
    + rewrite <- Permutation_middle. constructor. auto.
  - apply Forall_forall. intros b Hb. apply (Permutation_in _ (sort_runs_perm _ _)) in Hb. apply filter_In in Hb. unfold f, has_arrow in *. apply Z.leb_gt.
    destruct Hb as [_ Hb]. apply Z.ltb_lt in Hb. auto.
  - apply Forall_forall. intros b Hb. apply (Permutation_in _ (sort_runs_perm _ _)) in Hb. apply filter_In in Hb. unfold g, has_arrow in *.
    destruct Hb as [_ Hb]. apply andb_true_iff in Hb. tauto.
  - apply Hless.
  - apply Hless.
Qed.

(** ** [arrow_concs] *)
Section ArrowConcs.
  Variable cList : list nat.
  Variable na : list Z.
  Hypothesis Hna : nonneg_at_most cList na.
  Let bs := filter (fun b : site * nat => 0 <? snd b) (deco_runs cList na).

  Lemma bs_pos : Forall (fun b : site * nat => 0 < snd b) bs.
  Proof. apply Forall_forall. intros b Hb. apply filter_In in Hb. apply Nat.ltb_lt. tauto. Qed.
  Lemma bs_nodup : NoDup (map fst bs).
  Proof. apply nodup_map_filter, deco_runs_nodup. Qed.

  Lemma arrow_concs_shape : exists u a : list (site * nat),
    arrow_concs cList na = Ok (runs (u ++ a)) /\ Permutation (u ++ a) bs /\
    Forall (fun b => has_arrow (fst b) = false) u /\ Forall (fun b => has_arrow (fst b) = true) a /\
    StronglySorted (fun b c => snd b <= snd c) u /\ StronglySorted (fun b c => snd b <= snd c) a.
  Proof.
    rewrite arrow_concs_runs by auto. rewrite runs_pos. fold bs.
    destruct (col_sort_runs bs bs_nodup bs_pos) as [u [a [E H]]]. exists u, a. rewrite E. tauto.
  Qed.

  Lemma shape_nodup l : Permutation l bs -> NoDup (map fst l) /\ Forall (fun b => 0 < snd b) l.
  Proof.
    intros H. split.
    - eapply Permutation_NoDup; [apply Permutation_map; symmetry; eauto|apply bs_nodup].
    - eapply Permutation_Forall; [symmetry; eauto|apply bs_pos].
  Qed.

  Lemma deco_runs_in i : i < length cList ->
    In ((1%Z, Z.of_nat (S i)), Z.to_nat (nth i na 0%Z)) (deco_runs cList na) /\
    In (((-1)%Z, Z.of_nat (S i)), nth i cList 0 - Z.to_nat (nth i na 0%Z)) (deco_runs cList na).
  Proof. intros Hi. unfold deco_runs. split; apply in_flat_map; exists i; (split; [apply in_seq; lia|cbn; auto]). Qed.

  Lemma shape_mult l x k : Permutation l bs -> In (x, k) (deco_runs cList na) -> multiplicity site_eqb (runs l) x = k.
  Proof.
    intros Hp Hin. destruct (shape_nodup l Hp) as [Hnd Hpos]. destruct (Nat.eq_dec k 0) as [->|Hk].
    - apply mult_runs_absent; [apply site_eqb_spec|]. intros H. apply in_map_iff in H. destruct H as [[y m] [E H]]. cbn in E. subst y.
      apply (Permutation_in _ Hp) in H. apply filter_In in H. destruct H as [H H0]. cbn in H0.
      assert (m = 0); [|subst; discriminate].
      assert (forall l : list (site * nat), NoDup (map fst l) -> In (x, m) l -> In (x, 0) l -> m = 0) as Hu.
      { clear. induction l as [|[y j] l IH]; cbn; [tauto|]. intros Hnd H1 H2. inversion Hnd; subst. destruct H1 as [E1|H1], H2 as [E2|H2].
        - congruence.
        - inversion E1; subst. destruct H3. apply (in_map fst) in H2. auto.
        - inversion E2; subst. destruct H3. apply (in_map fst) in H1. auto.
        - auto. }
      apply (Hu (deco_runs cList na)); auto. apply deco_runs_nodup.
    - apply mult_runs; auto using site_eqb_spec. apply (Permutation_in _ (Permutation_sym Hp)). apply filter_In. split; auto. apply Nat.ltb_lt. cbn. lia.
  Qed.
  Lemma shape_entries l s : Permutation l bs -> In s (runs l) -> exists i, i < length cList /\ snd s = Z.of_nat (S i) /\ (fst s = 1 \/ fst s = -1)%Z.
  Proof.
    intros Hp Hs. apply runs_in in Hs. apply (Permutation_in _ (Permutation_map fst Hp)) in Hs.
    apply in_map_iff in Hs. destruct Hs as [[x k] [E Hs]]. cbn in E. subst x. apply filter_In in Hs. destruct Hs as [Hs _].
    apply in_flat_map in Hs. destruct Hs as [i [Hi [E|[E|[]]]]]; apply in_seq in Hi; exists i; (split; [lia|]); inversion E; subst; cbn; auto.
  Qed.
  Lemma shape_cons l s t : Permutation l bs -> In s (runs l) -> In t (runs l) -> skeleton s = skeleton t -> s = t.
  Proof.
    intros Hp Hs Ht E. destruct (shape_entries l s Hp Hs) as [i [_ [E1 E2]]]. destruct (shape_entries l t Hp Ht) as [j [_ [E3 E4]]].
    destruct s as [s1 s2], t as [t1 t2]. cbn in *. unfold skeleton, has_arrow in E. cbn in E.
    destruct E2 as [->| ->], E4 as [->| ->]; cbn in E; congruence.
  Qed.
  Lemma shape_contiguous l : Permutation l bs ->
    runs l = flat_map (fun d => repeat d (multiplicity site_eqb (runs l) d)) (first_occurrences site_eqb (runs l)).
  Proof.
    intros Hp. destruct (shape_nodup l Hp) as [Hnd Hpos]. rewrite (first_occ_runs site_eqb site_eqb_spec) by auto.
    transitivity (flat_map (fun b : site * nat => repeat (fst b) (multiplicity site_eqb (runs l) (fst b))) l).
    - unfold runs at 1. apply flat_map_ext_in'. intros [x k] Hb. cbn. f_equal. symmetry. apply mult_runs; auto using site_eqb_spec.
    - clear. generalize (multiplicity site_eqb (runs l)). intros f. induction l; cbn; auto. f_equal; auto.
  Qed.

  Lemma shape_counts l : Permutation l bs ->
    how_many_arrows (runs l) =
      (Z.to_nat (fold_right Z.add 0%Z na), length (filter (fun a => 0 <? a)%Z na),
       map (multiplicity site_eqb (runs l)) (first_occurrences site_eqb (runs l))).
  Proof.
    intros Hp. rewrite cwa_how_many by (intros s t; apply shape_cons; auto). destruct (shape_nodup l Hp) as [Hnd Hpos].
    destruct Hna as [Hlen Hle].
    assert (map (fun i => nth i na 0%Z) (seq 0 (length cList)) = na) as Hnth.
    { rewrite <- Hlen. clear. induction na as [|a r IH]; cbn; auto. rewrite <- seq_shift, map_map. f_equal; auto. }
    assert (forall i, In i (seq 0 (length cList)) -> (0 <= nth i na 0)%Z) as Hge by (intros i Hi; apply in_seq in Hi; apply Hle; lia).
    f_equal. f_equal.
    - rewrite filter_runs. unfold runs. rewrite (flat_map_length_perm _ _ (filter (fun b : site * nat => has_arrow (fst b)) bs)) by (apply filter_perm; auto).
      unfold bs. change (flat_map (fun b : site * nat => repeat (fst b) (snd b))) with (@runs site). rewrite <- filter_runs, <- runs_pos, filter_runs.
      transitivity (Z.to_nat (fold_right Z.add 0%Z (map (fun i => nth i na 0%Z) (seq 0 (length cList))))); [|rewrite Hnth; auto].
      unfold deco_runs. revert Hge. generalize (seq 0 (length cList)). clear. induction l as [|i l IH]; intros Hge; auto.
      cbn [flat_map map fold_right]. rewrite filter_app. cbn [filter fst has_arrow Z.leb Z.compare app]. cbn. rewrite app_length, repeat_length.
      fold (@runs site). unfold runs in IH. cbn in IH. rewrite IH by (intros; apply Hge; right; auto).
      assert (0 <= fold_right Z.add 0 (map (fun i => nth i na 0) l))%Z.
      { assert (forall j, In j l -> (0 <= nth j na 0)%Z) as H by (intros; apply Hge; right; auto). revert H. clear. induction l; cbn; [lia|]. intros H.
        assert (0 <= nth a na 0)%Z by (apply H; auto). assert (0 <= fold_right Z.add 0 (map (fun i => nth i na 0) l))%Z; [|lia]. apply IHl. auto. }
      specialize (Hge i (or_introl eq_refl)). lia.
    - rewrite (first_occ_runs site_eqb site_eqb_spec) by auto.
      rewrite (Permutation_length (filter_perm _ _ _ (Permutation_map fst Hp))). transitivity (length (filter (fun a => (0 <? a)%Z) (map (fun i => nth i na 0%Z) (seq 0 (length cList))))); [|rewrite Hnth; auto].
      unfold bs, deco_runs.
      revert Hge. generalize (seq 0 (length cList)). clear. induction l as [|i l IH]; intros Hge; auto.
      cbn [flat_map map]. rewrite filter_app, map_app, filter_app, app_length. rewrite IH by (intros; apply Hge; right; auto).
      specialize (Hge i (or_introl eq_refl)). cbn [filter snd]. 
      destruct (Nat.ltb_spec 0 (Z.to_nat (nth i na 0%Z))), (Nat.ltb_spec 0 (nth i cList 0 - Z.to_nat (nth i na 0%Z))), (Z.ltb_spec 0 (nth i na 0%Z)); try lia; reflexivity.
  Qed.
End ArrowConcs.
