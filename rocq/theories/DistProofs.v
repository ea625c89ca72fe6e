(** Proofs about the distributions. *)
From Coq Require Import Permutation Sorted.
From Verif Require Import PyBase ListFacts TransFacts DistModel DistSpec.
Local Open Scope Z_scope.

(** ** Sums *)
Lemma total_app {A} (f : A -> Z) l m : total f (l ++ m) = total f l + total f m.
Proof. unfold total. rewrite map_app. induction (map f l); cbn; lia. Qed.
Lemma total_ext {A} (f g : A -> Z) l : (forall x, In x l -> f x = g x) -> total f l = total g l.
Proof. intros H. unfold total. f_equal. apply map_ext_in. auto. Qed.
Lemma total_nonneg {A} (f : A -> Z) l : (forall x, In x l -> 0 <= f x) -> 0 <= total f l.
Proof. intros H. induction l as [|a l IH]; cbn; [lia|]. specialize (H a) as Ha. cbn in *. assert (0 <= total f l) by (apply IH; auto). unfold total in *. assert (0 <= f a) by auto. lia. Qed.
Lemma total_plus {A} (f g : A -> Z) l : total (fun x => f x + g x) l = total f l + total g l.
Proof. unfold total. induction l; cbn; lia. Qed.
Lemma total_zero {A} (l : list A) : total (fun _ => 0) l = 0.
Proof. unfold total. induction l; cbn; lia. Qed.
Lemma total_swap {A B} (f : A -> B -> Z) l m : total (fun x => total (f x) m) l = total (fun y => total (fun x => f x y) l) m.
Proof.
  induction l as [|a l IH].
  - cbn. symmetry. apply total_zero.
  - change (total (fun x => total (f x) m) (a :: l)) with (total (f a) m + total (fun x => total (f x) m) l). rewrite IH.
    rewrite <- total_plus. apply total_ext. auto.
Qed.
Lemma total_filter {A} (f : A -> Z) (p : A -> bool) l : total f (filter p l) = total (fun x => if p x then f x else 0) l.
Proof. induction l as [|a l IH]; cbn; auto. destruct (p a); cbn; unfold total in *; lia. Qed.
Lemma total_map {A B} (f : B -> Z) (g : A -> B) l : total f (map g l) = total (fun x => f (g x)) l.
Proof. unfold total. rewrite map_map. auto. Qed.
Lemma total_flat_map {A B} (f : B -> Z) (g : A -> list B) l : total f (flat_map g l) = total (fun x => total f (g x)) l.
Proof. induction l as [|a l IH]; auto. cbn [flat_map]. rewrite total_app, IH. auto. Qed.
Lemma sum_Z_total l : sum_Z l = total (fun x => x) l.
Proof. unfold sum_Z, total. rewrite map_id. auto. Qed.

(** ** Dictionaries *)
Section Dict.
Context {K V : Type} (eqb : K -> K -> bool).
Hypothesis eqb_spec : forall a b, eqb a b = true <-> a = b.
Lemma eqb_false a b : eqb a b = false <-> a <> b.
Proof. destruct (eqb a b) eqn:E; split; intros H; try congruence; [apply eqb_spec in E; congruence|]. intros ->. assert (eqb b b = true) by (apply eqb_spec; auto). congruence. Qed.
Lemma dset_new (d : list (K * V)) k v : ~ In k (map fst d) -> dset eqb d k v = d ++ [(k, v)].
Proof.
  induction d as [|[k' v'] d IH]; cbn; intros H; auto. destruct (eqb k k') eqn:E; [apply eqb_spec in E; subst; tauto|]. rewrite IH by tauto. auto.
Qed.
Lemma dget_in (d : list (K * V)) k v : NoDup (map fst d) -> In (k, v) d -> dget eqb d k = Some v.
Proof.
  induction d as [|[k' v'] d IH]; cbn; intros Hn H; [destruct H|destruct H as [E|H]].
  - inversion E; subst. rewrite (proj2 (eqb_spec k k) eq_refl). auto.
  - inversion Hn; subst. destruct (eqb k k') eqn:E; [|auto]. apply eqb_spec in E. subst k'. exfalso. apply H2. apply in_map_iff. exists (k, v). auto.
Qed.
Lemma dget_none (d : list (K * V)) k : ~ In k (map fst d) -> dget eqb d k = None.
Proof. induction d as [|[k' v'] d IH]; cbn; intros H; auto. destruct (eqb k k') eqn:E; [apply eqb_spec in E; subst; tauto|]. apply IH; tauto. Qed.
Lemma fold_dset pairs : forall d : list (K * V), NoDup (map fst (d ++ pairs)) -> fold_left (fun d kv => dset eqb d (fst kv) (snd kv)) pairs d = d ++ pairs.
Proof.
  induction pairs as [|[k v] pairs IH]; intros d H; cbn; [rewrite app_nil_r; auto|].
  rewrite dset_new.
  - rewrite IH; rewrite <- app_assoc; auto.
  - rewrite map_app in H. cbn in H. apply NoDup_remove_2 in H. intros Hin. apply H. apply in_or_app. auto.
Qed.
Lemma dict_of_nodup (pairs : list (K * V)) : NoDup (map fst pairs) -> dict_of eqb pairs = pairs.
Proof. intros H. unfold dict_of. rewrite fold_dset; auto. Qed.
Lemma dset_old (a b : list (K * V)) k v v' : ~ In k (map fst a) -> dset eqb (a ++ (k, v) :: b) k v' = a ++ (k, v') :: b.
Proof.
  induction a as [|[k0 v0] a IH]; cbn; intros H.
  - rewrite (proj2 (eqb_spec k k) eq_refl). auto.
  - destruct (eqb k k0) eqn:E; [apply eqb_spec in E; subst; tauto|]. rewrite IH by tauto. auto.
Qed.
Lemma dget_old (a b : list (K * V)) k v : ~ In k (map fst a) -> dget eqb (a ++ (k, v) :: b) k = Some v.
Proof.
  induction a as [|[k0 v0] a IH]; cbn; intros H.
  - rewrite (proj2 (eqb_spec k k) eq_refl). auto.
  - destruct (eqb k k0) eqn:E; [apply eqb_spec in E; subst; tauto|]. apply IH; tauto.
Qed.
End Dict.
Lemma zlist_eqb_spec a b : zlist_eqb a b = true <-> a = b.
Proof.
  revert b. unfold zlist_eqb. induction a as [|x a IH]; intros [|y b]; cbn; split; intros H; try discriminate; auto.
  - apply andb_true_iff in H. destruct H as [H1 H2]. apply Z.eqb_eq in H1. apply IH in H2. congruence.
  - inversion H; subst. rewrite Z.eqb_refl. cbn. apply IH. auto.
Qed.
Lemma olist_eqb_spec a b : olist_eqb a b = true <-> a = b.
Proof. destruct a, b; cbn; try rewrite zlist_eqb_spec; split; intros H; congruence. Qed.
Lemma key_eqb_spec a b : key_eqb a b = true <-> a = b.
Proof. destruct a as [[s h] c], b as [[s' h'] c']. cbn. rewrite !andb_true_iff, Z.eqb_eq, !olist_eqb_spec. split; [intros [[-> ->] ->]; auto|]. intros E; inversion E; auto. Qed.
Lemma zl_in_spec x l : zl_in x l = true <-> In x l.
Proof. unfold zl_in. rewrite existsb_exists. split; [intros [y [Hy E]]; apply zlist_eqb_spec in E; subst; auto|]. intros H. exists x. split; auto. apply zlist_eqb_spec; auto. Qed.
Lemma requested_in (r : list (key * Z)) k v : NoDup (map fst r) -> In (k, v) r -> requested key_eqb r k = v.
Proof.
  unfold requested. induction r as [|[k' v'] r IH]; cbn; intros Hn H; [destruct H|destruct H as [E|H]].
  - inversion E; subst. rewrite (proj2 (key_eqb_spec k k) eq_refl). auto.
  - inversion Hn; subst. destruct (key_eqb k k') eqn:E; [|auto]. apply key_eqb_spec in E. subst k'. exfalso. apply H2. apply in_map_iff. exists (k, v). auto.
Qed.
Lemma requested_out (r : list (key * Z)) k : ~ In k (map fst r) -> requested key_eqb r k = 0.
Proof. unfold requested. induction r as [|[k' v'] r IH]; cbn; intros H; auto. destruct (key_eqb k k') eqn:E; [apply key_eqb_spec in E; subst; tauto|]. apply IH; tauto. Qed.

(** ** Everything wanted *)
Lemma assign_all_spec rel : forall r0 r, NoDup (map fst (r0 ++ rel)) -> (forall k v, In (k, v) rel -> 0 <= v) ->
  fold_left (fun st '(k, limit) => fst (vinsert k limit (r + total snd rel) st)) rel (r0, r) = (r0 ++ filter (fun kv => 0 <? snd kv) rel, r + total snd rel).
Proof.
  induction rel as [|[k v] rel IH]; intros r0 r Hn Hv.
  - cbn. rewrite app_nil_r. f_equal. unfold total. cbn. lia.
  - change (total snd ((k, v) :: rel)) with (v + total snd rel). assert (0 <= total snd rel) as Ht by (apply total_nonneg; intros [k' v'] Hin; cbn; apply (Hv k' v'); cbn; auto).
    pose proof (Hv k v ltac:(cbn; auto)) as H0. cbn [fold_left filter snd].
    assert (~ In k (map fst r0)) as Hk by (rewrite map_app in Hn; cbn in Hn; apply NoDup_remove_2 in Hn; intros Hin; apply Hn, in_or_app; auto).
    unfold vinsert at 2. destruct (Z.ltb_spec r (r + (v + total snd rel))) as [Hlt|Hge]; destruct (Z.ltb_spec 0 v); try lia.
    + cbn [fst]. unfold dadd. rewrite dget_none by (auto using key_eqb_spec). rewrite dset_new by (auto using key_eqb_spec).
      replace (r + (v + total snd rel)) with ((r + v) + total snd rel) by lia. rewrite IH.
      * rewrite <- app_assoc. auto.
      * rewrite <- app_assoc. auto.
      * intros k1 v1 Hkv; apply (Hv k1 v1); cbn; auto.
    + cbn [fst]. assert (v = 0) as -> by lia. rewrite Z.add_0_l. apply IH.
      * rewrite map_app in *. cbn in Hn. apply NoDup_remove_1 in Hn. auto.
      * intros k1 v1 Hkv; apply (Hv k1 v1); cbn; auto.
    + cbn [fst]. assert (v = 0) as -> by lia. rewrite Z.add_0_l. apply IH.
      * rewrite map_app in *. cbn in Hn. apply NoDup_remove_1 in Hn. auto.
      * intros k1 v1 Hkv; apply (Hv k1 v1); cbn; auto.
Qed.
Lemma assign_all_ok rel n : NoDup (map fst rel) -> (forall k v, In (k, v) rel -> 0 <= v) -> total snd rel = n ->
  assign_all rel n = (filter (fun kv => 0 <? snd kv) rel, n).
Proof. intros H1 H2 <-. unfold assign_all. apply (assign_all_spec rel [] 0); auto. Qed.
Lemma filter_pos rel : NoDup (map fst rel) -> (forall k v, In (k, v) rel -> 0 <= v) ->
  let r := filter (fun kv => 0 <? snd kv) rel in
  NoDup (map fst r) /\ (forall k v, In (k, v) rel -> requested key_eqb r k = v) /\ (forall k v, In (k, v) r -> In (k, v) rel /\ 0 < v) /\ total snd r = total snd rel.
Proof.
  intros Hn Hv r.
  assert (NoDup (map fst r)) as Hr.
  { unfold r. clear - Hn. induction rel as [|[k v] rel IH]; cbn in *; [constructor|]. inversion Hn; subst. destruct (0 <? v); auto. cbn. constructor; auto.
    intros Hin. apply H1. apply in_map_iff in Hin. destruct Hin as [[k' v'] [<- Hin]]. apply filter_In in Hin. apply in_map. tauto. }
  split; auto. split; [|split].
  - intros k v Hin. destruct (Z.ltb_spec 0 v).
    + apply requested_in; auto. apply filter_In. split; auto. cbn. apply Z.ltb_lt; auto.
    + assert (v = 0) as -> by (pose proof (Hv k v Hin); lia). apply requested_out. intros Hk. apply in_map_iff in Hk. destruct Hk as [[k' v'] [E Hk]]. cbn in E. subst k'.
      apply filter_In in Hk. destruct Hk as [Hk1 Hk2]. cbn in Hk2. apply Z.ltb_lt in Hk2.
      pose proof (dget_in key_eqb key_eqb_spec rel k v' Hn Hk1) as E1. pose proof (dget_in key_eqb key_eqb_spec rel k 0 Hn Hin) as E2. rewrite E1 in E2. inversion E2. lia.
  - intros k v Hin. apply filter_In in Hin. destruct Hin as [H1 H2]. cbn in H2. apply Z.ltb_lt in H2. auto.
  - unfold r. rewrite total_filter. apply total_ext. intros [k v] Hin. cbn. destruct (Z.ltb_spec 0 v); auto. pose proof (Hv k v Hin). lia.
Qed.
