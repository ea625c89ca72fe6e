(** The POSCAR as a whole (C36, C54). *)
From Coq Require Import Permutation Sorted QArith.
From Verif Require Import TextModel TextProofs PyBase Spec ListFacts TreeSearch Mat3 MapModel MapSpec MapProofs PoscarModel PoscarSpec PoscarProofs ElementProofs.
Local Open Scope Z_scope.

Lemma classes_perm (f : nat -> Z) (l : list nat) keys : NoDup l -> NoDup keys -> (forall i, In i l -> In (f i) keys) ->
  Permutation (flat_map (fun s => filter (fun i => f i =? s) l) keys) l.
Proof.
  intros Hl Hk Hin. apply NoDup_Permutation; auto.
  - apply NoDup_flat_map; auto; [intros; apply ListFacts.NoDup_filter; auto|]. intros x y z _ _ Hx Hy. apply filter_In in Hx as [_ Hx]. apply filter_In in Hy as [_ Hy]. apply Z.eqb_eq in Hx, Hy. congruence.
  - intros i. rewrite in_flat_map. split; [intros [s [_ H]]; apply filter_In in H; tauto|]. intros H. exists (f i). split; auto. apply filter_In. split; auto. apply Z.eqb_refl.
Qed.
Lemma filter_seq_labels (labels : list Z) s : length (filter (fun i => nth i labels 0 =? s) (seq 0 (length labels))) = Z.to_nat (number_with labels s).
Proof.
  unfold number_with. rewrite Nat2Z.id. induction labels as [|a l IH] using rev_ind; [auto|]. rewrite app_length. cbn [length]. rewrite Nat.add_1_r, seq_S, !ListFacts.filter_app, !app_length, <- IH. f_equal.
  - f_equal. apply filter_ext_in. intros i Hi. apply in_seq in Hi. rewrite app_nth1 by lia. auto.
  - cbn [filter Nat.add]. rewrite app_nth2 by lia. rewrite Nat.sub_diag. cbn [nth]. rewrite (Z.eqb_sym a s). destruct (s =? a); auto.
Qed.
Lemma species_order_all {S} (keys : list S) (num : S -> Z) : species_order keys (map num keys) = flat_map (fun s => repeat s (Z.to_nat (num s))) keys.
Proof. unfold species_order. induction keys as [|a l IH]; [auto|]. cbn [map combine flat_map]. rewrite IH. auto. Qed.
Lemma species_order_shown (keys : list Z) (num : Z -> Z) :
  species_order (filter (fun s => negb (num s =? 0)) keys) (filter (fun c => negb (c =? 0)) (map num keys)) = flat_map (fun s => repeat s (Z.to_nat (num s))) keys.
Proof.
  rewrite ListFacts.filter_map. rewrite species_order_all. induction keys as [|a l IH]; [auto|]. cbn [filter flat_map]. destruct (Z.eqb_spec (num a) 0) as [E|E]; cbn [negb]; [rewrite E; auto|].
  cbn [flat_map]. rewrite IH. auto.
Qed.
Lemma combine_app_len {A B} (a a' : list A) (b b' : list B) : length a = length b -> combine (a ++ a') (b ++ b') = combine a b ++ combine a' b'.
Proof. revert b. induction a as [|x a IH]; intros [|y b] H; cbn in *; try lia; auto. f_equal. apply IH. lia. Qed.
Lemma combine_classes {A} (keys : list Z) (num : Z -> nat) (cls : Z -> list A) : (forall s, In s keys -> length (cls s) = num s) ->
  combine (flat_map (fun s => repeat s (num s)) keys) (flat_map cls keys) = flat_map (fun s => map (pair s) (cls s)) keys.
Proof.
  induction keys as [|a l IH]; intros H; [auto|]. cbn [flat_map]. rewrite combine_app_len by (rewrite repeat_length, H by (left; auto); auto). rewrite IH by (intros; apply H; right; auto). f_equal.
  rewrite <- (H a (or_introl eq_refl)). induction (cls a) as [|x r IHr]; [auto|]. cbn. f_equal. auto.
Qed.
Lemma map_flat_map {A B C} (g : B -> C) (f : A -> list B) l : map g (flat_map f l) = flat_map (fun x => map g (f x)) l.
Proof. induction l as [|a l IH]; [auto|]. cbn. rewrite map_app, IH. auto. Qed.
Lemma sorted_repeats (keys : list Z) (num : Z -> nat) : StronglySorted Z.le keys -> StronglySorted Z.le (flat_map (fun s => repeat s (num s)) keys).
Proof.
  induction keys as [|a l IH]; intros H; [constructor|]. apply StronglySorted_inv in H as [H1 H2]. cbn [flat_map]. specialize (IH H1). rewrite Forall_forall in H2.
  assert (forall x, In x (flat_map (fun s => repeat s (num s)) l) -> a <= x) as Hx by (intros x Hx; apply in_flat_map in Hx as [s [Hs Hx]]; apply repeat_spec in Hx; subst; auto).
  induction (num a) as [|m IHm]; [auto|]. cbn. constructor; auto. apply Forall_forall. intros x Hx'. apply in_app_or in Hx' as [Hx'|Hx']; [apply repeat_spec in Hx'; subst; lia|auto].
Qed.
Lemma sorted_range lo hi : StronglySorted Z.le (range_up lo hi).
Proof.
  remember (Z.to_nat (hi - lo)) as m. revert lo Heqm. induction m as [|m IH]; intros lo Hm; [rewrite range_up_empty by lia; constructor|].
  rewrite range_up_cons by lia. constructor; [apply IH; lia|]. apply Forall_forall. intros x Hx. apply in_range_up in Hx. lia.
Qed.
Lemma zsum_numbers labels keys : NoDup keys -> (forall l, In l labels -> In l keys) -> zsum (map (number_with labels) keys) = Z.of_nat (length labels).
Proof.
  intros Hk. induction labels as [|a l IH]; intros Hin.
  - clear. induction keys as [|s r IH]; [auto|]. cbn [map zsum fold_right]. fold (zsum (map (number_with []) r)). rewrite IH. unfold number_with. cbn. auto.
  - specialize (IH (fun x Hx => Hin x (or_intror Hx))). assert (zsum (map (number_with (a :: l)) keys) = 1 + zsum (map (number_with l) keys)) as ->; [|cbn [length]; lia].
    pose proof (Hin a (or_introl eq_refl)) as Ha. clear IH Hin. induction keys as [|s r IHr]; [destruct Ha|]. inversion Hk; subst. cbn [map zsum fold_right]. fold (zsum (map (number_with l) r)). fold (zsum (map (number_with (a :: l)) r)).
    rewrite number_with_cons. destruct Ha as [->|Ha].
    + rewrite Z.eqb_refl. assert (map (number_with (a :: l)) r = map (number_with l) r) as ->; [|lia]. apply map_ext_in. intros x Hx. rewrite number_with_cons. destruct (Z.eqb_spec x a) as [->|]; [contradiction|lia].
    + rewrite IHr by auto. destruct (Z.eqb_spec s a) as [->|]; [contradiction|lia].
Qed.
Lemma arrow_vectors_ok table arr (ds : list nat) : arr = fold_right (fun d s => String (digit_char (Z.of_nat d)) s) EmptyString ds -> (forall d, In d ds -> (d < length table)%nat /\ (d <= 9)%nat) ->
  arrow_vectors table arr = Ok (map (fun d => nth d table (0, 0, 0)) ds).
Proof.
  intros -> H. unfold arrow_vectors. induction ds as [|d ds IH]; [auto|]. cbn [fold_right list_ascii_of_string rmap map]. destruct (H d (or_introl eq_refl)) as [H1 H2].
  assert (zget table (Z.of_nat d) = Ok (nth d table (0, 0, 0))) as Ez.
  { unfold zget. destruct (Z.ltb_spec (Z.of_nat d) 0); [lia|]. destruct (Z.ltb_spec (Z.of_nat d) 0); [lia|]. rewrite Nat2Z.id. apply get_nth; auto. }
  rewrite <- str_digit by lia. rewrite int_str. cbn [rbind]. rewrite Ez. cbn [rbind].
  rewrite IH by (intros; apply H; right; auto). auto.
Qed.

Section Poscar.
Variables (P : Type) (k : Z) (N : nat) (lab arr : string) (gs labels : list Z) (ds : list nat) (bas : list P) (x0 : P).
Hypothesis Hk : 0 <= k <= 10.
Hypothesis Hgs : length gs = N.
Hypothesis Hlb : length labels = N.
Hypothesis Hrange : forall l, In l labels -> 0 <= l < k.
Hypothesis Hread : forall i, (i < N)%nat -> char_at lab (nth i gs 0) = Ok (digit_char (nth i labels 0)).
Hypothesis Hbas : length bas = N.
Hypothesis Harr : arr = fold_right (fun d s => String (digit_char (Z.of_nat d)) s) EmptyString ds.
Hypothesis Hds : length ds = N.
Hypothesis Hd6 : forall d, In d ds -> (d <= 6)%nat.
Hypothesis HN : (0 < N)%nat.
Notation dirs := (map (fun d => nth d poscar_directions (0, 0, 0)) ds).
Notation atom i := (nth i bas x0, nth i dirs (0, 0, 0)).

Lemma poscar_ok param sys_title n nD strN species rz : N = Z.to_nat (n * Z.of_nat nD) ->
  (forall es, species = Some es -> length es = Z.to_nat k /\ forall e, In e es -> known e) ->
  exists p, write_POSCAR param sys_title k n nD strN lab arr gs bas species rz = Ok p /\
    let removed := match species with Some _ => truthy rz | None => false end in
    let order := species_order (shown_species k (number_with labels) removed) (numbers p) in
    zsum (numbers p) = Z.of_nat N /\ length (atoms p) = N /\ length order = N /\ StronglySorted Z.le order /\
    Permutation (combine order (atoms p)) (map (fun i => (nth i labels 0, atom i)) (seq 0 N)) /\
    match species with
    | None => title p = (sys_title ++ " str #: " ++ str strN ++ String newline "")%string /\ (parameter p == 1)%Q
    | Some es => titled (map (fun s => nth (Z.to_nat s) es EmptyString) (shown_species k (number_with labels) removed)) (lstrip (rstrip (sys_title ++ " str #: " ++ str strN ++ String newline ""))) (title p) /\
        forall lo hi : Q, (forall s v, 0 <= s < k -> In s labels -> element_volume (nth (Z.to_nat s) es EmptyString) = Ok v -> (lo <= param v /\ param v <= hi)%Q) -> (lo <= parameter p /\ parameter p <= hi)%Q
    end.
Proof.
  intros HNn Hsp. set (concs := map (number_with labels) (range_up 0 k)). set (def := (sys_title ++ " str #: " ++ str strN ++ String newline "")%string).
  assert (zsum concs = Z.of_nat N) as Hsum.
  { unfold concs. rewrite zsum_numbers; [rewrite Hlb; auto|apply NoDup_range_up|]. intros l Hl. apply in_range_up. auto. }
  assert (forall c, In c concs -> 0 <= c) as Hc by (intros c Hin; apply in_map_iff in Hin as [s [<- _]]; unfold number_with; lia).
  assert (length concs = Z.to_nat k) as Hcl by (unfold concs; rewrite map_length, MapProofs.range_up_length; lia).
  assert (exists lp t, get_lattice_parameter param species concs def rz = Ok (lp, t) /\
    match species with
    | None => t = def /\ (lp == 1)%Q
    | Some es => titled (map (fun s => nth (Z.to_nat s) es EmptyString) (shown_species k (number_with labels) (truthy rz))) (lstrip (rstrip def)) t /\
        forall lo hi : Q, (forall s v, 0 <= s < k -> In s labels -> element_volume (nth (Z.to_nat s) es EmptyString) = Ok v -> (lo <= param v /\ param v <= hi)%Q) -> (lo <= lp /\ lp <= hi)%Q
    end) as [lp [t [Elp Ht]]].
  { destruct species as [es|].
    - destruct (Hsp es eq_refl) as [Hel Hkn]. destruct (lattice_parameter_ok param es concs def rz) as [q [t [E [Et Eq]]]]; auto; [lia|lia|].
      exists q, t. split; auto.
      assert (combine es concs = map (fun s => (nth (Z.to_nat s) es EmptyString, number_with labels s)) (range_up 0 k)) as Ecomb.
      { unfold concs. unfold range_up. rewrite !map_map. rewrite Z.sub_0_r, <- Hel. clear. 
        assert (forall o, combine es (map (fun x => number_with labels (0 + Z.of_nat x)) (seq o (length es))) =
                  map (fun x => (nth (Z.to_nat (0 + Z.of_nat x) - o) es EmptyString, number_with labels (0 + Z.of_nat x))) (seq o (length es))) as Hg.
        { induction es as [|e es IH]; intros o; [auto|]. cbn [length seq map combine]. f_equal.
          - replace (Z.to_nat (0 + Z.of_nat o) - o)%nat with 0%nat by lia. auto.
          - rewrite IH. apply map_ext_in. intros x Hx. apply in_seq in Hx. f_equal. replace (Z.to_nat (0 + Z.of_nat x) - o)%nat with (S (Z.to_nat (0 + Z.of_nat x) - S o)) by lia. auto. }
        rewrite (Hg 0%nat). apply map_ext. intros x. rewrite Nat.sub_0_r. auto. }
      split.
      + unfold titled in *. rewrite Et. do 3 f_equal. rewrite Ecomb. rewrite ListFacts.filter_map, map_map. cbn [fst]. unfold shown_species, shows. cbn [snd].
        destruct (truthy rz); cbn [negb].
        * f_equal. apply filter_ext. intros s. rewrite orb_false_r. unfold number_with. destruct (Z.eqb_spec (Z.of_nat (length (filter (Z.eqb s) labels))) 0); [apply Z.ltb_ge; lia|apply Z.ltb_lt; lia].
        * f_equal. apply ListFacts.filter_all. intros s _. apply orb_true_r.
      + intros lo hi Hb. apply (lattice_parameter_bounds param es concs q lo hi); auto; [lia|lia|].
        intros e c v Hin Hc0 Hv. rewrite Ecomb in Hin. apply in_map_iff in Hin as [s [E' Hs]]. inversion E'; subst e c. apply in_range_up in Hs. apply (Hb s v); auto.
        unfold number_with in Hc0. destruct (filter (Z.eqb s) labels) as [|y r] eqn:Ef; [cbn in Hc0; lia|]. assert (In y (filter (Z.eqb s) labels)) as Hy by (rewrite Ef; left; auto).
        apply filter_In in Hy as [Hy E2]. apply Z.eqb_eq in E2. subst. auto.
    - exists 1%Q, def. split; [reflexivity|]. split; reflexivity. }
  assert (arrow_vectors poscar_directions arr = Ok dirs) as Edirs by (apply arrow_vectors_ok; auto; intros d Hd; specialize (Hd6 d Hd); cbn; lia).
  assert (length dirs = N) as Hdl by (rewrite map_length; auto).
  pose proof (counts_all P k N lab gs labels bas Hk Hgs Hlb Hrange Hread Hbas dirs Hdl) as Ec. pose proof (gs_all P N gs labels bas Hgs Hlb Hbas dirs Hdl) as Eg.
  pose proof (atoms_all P k N lab gs labels bas x0 Hk Hgs Hlb Hrange Hread Hbas dirs Hdl) as Ea.
  set (removed := match species with Some _ => truthy rz | None => false end).
  set (nums := if removed then filter (fun c => negb (c =? 0)) concs else concs).
  exists {| title := t; parameter := lp; numbers := nums; atoms := concat (map (fun s => map (fun i => atom i) (filter (fun i => nth i labels 0 =? s) (seq 0 N))) (range_up 0 k)) |}.
  split.
  { unfold write_POSCAR. rewrite <- HNn, Eg. cbn [rbind]. rewrite Ec. cbn [rbind]. fold concs. fold def. rewrite Elp. cbn [rbind]. rewrite Edirs. cbn [rbind]. rewrite Ea. cbn [rbind].
    unfold nums, removed. destruct species; [|reflexivity]. destruct (truthy rz); reflexivity. }
  cbn [numbers atoms title parameter]. 
  assert (species_order (shown_species k (number_with labels) removed) nums = flat_map (fun s => repeat s (Z.to_nat (number_with labels s))) (range_up 0 k)) as Eo.
  { unfold nums, shown_species. destruct removed; unfold concs; [apply species_order_shown|apply species_order_all]. }
  rewrite Eo. assert (forall s, length (filter (fun i => nth i labels 0 =? s) (seq 0 N)) = Z.to_nat (number_with labels s)) as Ecls by (intros s; rewrite <- Hlb; apply filter_seq_labels).
  assert (Permutation (flat_map (fun s => filter (fun i => nth i labels 0 =? s) (seq 0 N)) (range_up 0 k)) (seq 0 N)) as Hperm.
  { apply classes_perm; [apply seq_NoDup|apply NoDup_range_up|]. intros i Hi. apply in_seq in Hi. apply in_range_up. apply Hrange. apply nth_In. lia. }
  rewrite <- flat_map_concat_map.
  assert (length (flat_map (fun s => map (fun i => atom i) (filter (fun i => nth i labels 0 =? s) (seq 0 N))) (range_up 0 k)) = N) as Hal.
  { rewrite <- (map_flat_map (fun i => atom i)). rewrite map_length, (Permutation_length Hperm), seq_length. auto. }
  split; [|split; [|split; [|split; [|split]]]].
  - unfold nums. destruct removed; auto. clear - Hsum. revert Hsum. generalize (Z.of_nat N). intros m <-. clear. induction concs as [|a l IH]; [auto|]. cbn [filter]. destruct (Z.eqb_spec a 0) as [->|]; cbn [negb zsum fold_right]; fold (zsum l); rewrite ?IH; try (unfold zsum in *; lia).
  - exact Hal.
  - rewrite <- Hal. clear - Ecls. induction (range_up 0 k) as [|s r IH]; [auto|]. cbn [flat_map]. rewrite !app_length, IH, repeat_length, map_length, Ecls. auto.
  - apply sorted_repeats. apply sorted_range.
  - rewrite (combine_classes (range_up 0 k) (fun s => Z.to_nat (number_with labels s))) by (intros; rewrite map_length; apply Ecls).
    eapply Permutation_trans; [|apply (Permutation_map (fun i => (nth i labels 0, atom i)) Hperm)].
    rewrite map_flat_map. apply Permutation_refl'. clear. induction (range_up 0 k) as [|s r IH]; [auto|]. cbn [flat_map]. rewrite IH. f_equal. rewrite map_map. apply map_ext_in. intros i Hi. apply filter_In in Hi as [_ Hi]. apply Z.eqb_eq in Hi. congruence.
  - unfold removed. destruct species; exact Ht.
Qed.
End Poscar.
