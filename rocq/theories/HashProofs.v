(** The combinatorial number system of tree.py: [_hash], [_invhash], [_coefficients]. *)
From Verif Require Import PyBase Spec ListFacts NumericsModel NumericsProofs PhononsModel TreeModel.
Local Open Scope Z_scope.

Lemma sum_nat_cons c cs : sum_nat (c :: cs) = (c + sum_nat cs)%nat.
Proof. reflexivity. Qed.

Definition bits (v : list nat) : Prop := forall b, In b v -> b = 0%nat \/ b = 1%nat.

Definition pascal_pred (n k : nat) : Z := match k with O => 0 | S k' => pascal n k' end.

Lemma binomial_pred n k : binomial_coefficient (Z.of_nat n) (Z.of_nat k - 1) = pascal_pred n k.
Proof.
  destruct k as [|k]; cbn [pascal_pred].
  - apply binomial_out. lia.
  - replace (Z.of_nat (S k) - 1) with (Z.of_nat k) by lia. apply binomial_pascal.
Qed.

Fixpoint rank (v : list nat) : Z :=
  match v with
  | [] => 0
  | x :: r => if (x =? 1)%nat then rank r else pascal_pred (length r) (occ 1 r) + rank r
  end.

Lemma bits_cons x v : bits (x :: v) <-> (x = 0%nat \/ x = 1%nat) /\ bits v.
Proof.
  unfold bits. split.
  - intros H; split; [apply H; cbn; auto|intros b Hb; apply H; cbn; auto].
  - intros [H1 H2] b [<-|Hb]; auto.
Qed.
Lemma bits_nil : bits [].
Proof. intros b []. Qed.

Lemma pascal_S_pred n k : pascal (S n) k = pascal_pred n k + pascal n k.
Proof. destruct k; cbn; [rewrite pascal_0_r|]; lia. Qed.
Lemma pascal_pred_nonneg n k : 0 <= pascal_pred n k.
Proof. destruct k; cbn; [lia|apply pascal_nonneg]. Qed.

Lemma rank_range v : bits v -> 0 <= rank v < pascal (length v) (occ 1 v).
Proof.
  induction v as [|x v IH]; intros H.
  - cbn. lia.
  - apply bits_cons in H as [Hx Hv]. specialize (IH Hv). cbn [rank length].
    rewrite occ_cons. rewrite pascal_S_pred.
    destruct Hx as [->| ->]; cbn [Nat.eqb plus pascal_pred].
    + pose proof (pascal_pred_nonneg (length v) (occ 1 v)). lia.
    + pose proof (pascal_nonneg (length v) (S (occ 1 v))). lia.
Qed.

Definition paint (c : nat) (v : list nat) : list nat :=
  map (fun b => if (b =? 1)%nat then c else 0%nat) v.

Lemma inv_level_rank v c : bits v ->
  inv_level (length v) (Z.of_nat (occ 1 v)) (rank v) c = paint c v.
Proof.
  induction v as [|x v IH]; intros H; [reflexivity|].
  apply bits_cons in H as [Hx Hv]. cbn [length inv_level].
  rewrite binomial_pred, occ_cons. specialize (IH Hv).
  pose proof (rank_range v Hv) as Hr.
  destruct Hx as [->| ->]; cbn [rank Nat.eqb plus paint map]; fold (paint c v).
  - destruct (Z.leb_spec (pascal_pred (length v) (occ 1 v))
                         (pascal_pred (length v) (occ 1 v) + rank v)); [|lia].
    f_equal. rewrite <- IH. f_equal. lia.
  - cbn [pascal_pred]. destruct (Z.leb_spec (pascal (length v) (occ 1 v)) (rank v)); [lia|].
    f_equal. rewrite <- IH. f_equal. lia.
Qed.

Lemma unrank_exists l t I : 0 <= I < pascal l t ->
  exists v, bits v /\ length v = l /\ occ 1 v = t /\ rank v = I.
Proof.
  revert t I; induction l as [|l IH]; intros t I H.
  - destruct t; cbn in H; [|lia]. exists []. split; [apply bits_nil|]. cbn. repeat split; lia.
  - rewrite pascal_S_pred in H.
    destruct (Z.ltb_spec I (pascal_pred l t)).
    + destruct t as [|t]; cbn in *; [lia|].
      destruct (IH t I) as [v [Hb [Hl [Ho Hr]]]]; [lia|].
      exists (1%nat :: v). split; [apply bits_cons; auto|].
      rewrite occ_cons. cbn. repeat split; try lia; auto.
    + destruct (IH t (I - pascal_pred l t)) as [v [Hb [Hl [Ho Hr]]]]; [lia|].
      exists (0%nat :: v). split; [apply bits_cons; auto|].
      rewrite occ_cons. cbn. rewrite Hl, Ho. repeat split; try lia; auto.
Qed.

Lemma rank_inj v w : bits v -> bits w -> length v = length w -> occ 1 v = occ 1 w ->
  rank v = rank w -> v = w.
Proof.
  intros Hv Hw Hl Ho Hr.
  pose proof (inv_level_rank v 1 Hv) as E1. pose proof (inv_level_rank w 1 Hw) as E2.
  rewrite Hl, Ho, Hr, E2 in E1.
  assert (forall u, bits u -> paint 1 u = u) as Hp.
  { induction u as [|x u IH]; intros Hu; auto. apply bits_cons in Hu as [Hx Hu]. cbn.
    destruct Hx as [->| ->]; cbn; f_equal; auto. }
  rewrite !Hp in E1 by auto. auto.
Qed.

(** ** [_hash] computes [rank] *)

Fixpoint zeros_before_last1 (v : list nat) : nat :=
  match v with
  | [] => 0
  | x :: r => if (x =? 0)%nat then (if existsb (Nat.eqb 1) r then 1 else 0) + zeros_before_last1 r
              else zeros_before_last1 r
  end.

Lemma existsb_In v : existsb (Nat.eqb 1) v = true <-> In 1%nat v.
Proof.
  rewrite existsb_exists. split.
  - intros [x [Hx E]]. apply Nat.eqb_eq in E. subst; auto.
  - intros H. exists 1%nat; split; auto.
Qed.
Lemma existsb_occ v : existsb (Nat.eqb 1) v = negb (occ 1 v =? 0)%nat.
Proof.
  destruct (existsb (Nat.eqb 1) v) eqn:E.
  - apply existsb_In, occ_pos in E. destruct (Nat.eqb_spec (occ 1 v) 0); cbn; lia.
  - destruct (Nat.eqb_spec (occ 1 v) 0) as [|Hn]; auto.
    exfalso. assert (In 1%nat v) as H by (apply occ_pos; lia).
    apply existsb_In in H. congruence.
Qed.

Lemma zb_no1 v : occ 1 v = 0%nat -> zeros_before_last1 v = 0%nat.
Proof.
  induction v as [|x v IH]; auto. rewrite occ_cons. intros H. cbn [zeros_before_last1].
  rewrite existsb_occ, IH by lia. replace (occ 1 v) with 0%nat by lia. cbn.
  destruct (x =? 0)%nat; auto.
Qed.

Lemma py_index_from_app f l1 l2 k :
  py_index_from f (l1 ++ l2) k =
  match py_index_from f l1 k with Ok i => Ok i | Err _ => py_index_from f l2 (k + length l1) end.
Proof.
  revert k; induction l1 as [|x l IH]; intros k; cbn.
  - rewrite Nat.add_0_r. auto.
  - destruct (f x); auto. rewrite IH. destruct (py_index_from f l (S k)); auto. f_equal; lia.
Qed.

Lemma py_index_from_shift f l k :
  py_index_from f l k = match py_index_from f l 0 with Ok i => Ok (k + i)%nat | Err e => Err e end.
Proof.
  revert k; induction l as [|x l IH]; intros k; cbn; auto.
  destruct (f x); [f_equal; lia|]. rewrite IH, (IH 1%nat).
  destruct (py_index_from f l 0); auto. f_equal; lia.
Qed.

Lemma py_index_spec l x : 
  match py_index l x with
  | Ok i => (i < length l)%nat /\ nth i l (S x) = x /\ (forall j, j < i -> nth j l x <> x)%nat
  | Err e => e = ValueError /\ ~ In x l
  end.
Proof.
  unfold py_index. induction l as [|y l IH]; cbn [py_index_from]; [split; [reflexivity|intros []]|].
  destruct (Nat.eqb_spec x y) as [->|Hne].
  - cbn. repeat split; try lia. 
  - rewrite py_index_from_shift. destruct (py_index_from (Nat.eqb x) l 0) as [i|e].
    + destruct IH as [H1 [H2 H3]]. cbn. repeat split; [lia|auto|].
      intros [|j] Hj; [congruence|]. apply H3; lia.
    + destruct IH as [-> H]. split; [auto|]. cbn. intros [E|E]; [congruence|contradiction].
Qed.

Lemma rev_index_zb v : bits v -> In 1%nat v ->
  exists ix, py_index (rev v) 1 = Ok ix /\ (ix < length v)%nat /\
  py_count (firstn (length v - ix) v) 0 = zeros_before_last1 v.
Proof.
  induction v as [|x v IH]; intros Hb Hin; [destruct Hin|].
  apply bits_cons in Hb as [Hx Hv]. cbn [rev]. unfold py_index. rewrite py_index_from_app.
  destruct (in_dec Nat.eq_dec 1%nat v) as [Hi|Hi].
  - destruct (IH Hv Hi) as [ix [E [Hlt Hz]]]. unfold py_index in E. rewrite E.
    exists ix; split; [auto|]. cbn [length]. split; [lia|].
    replace (S (length v) - ix)%nat with (S (length v - ix)) by lia. cbn [firstn].
    unfold py_count in *. cbn [filter zeros_before_last1].
    rewrite (proj2 (existsb_In v) Hi).
    rewrite (Nat.eqb_sym 0 x). destruct (x =? 0)%nat; cbn [length]; rewrite Hz; auto.
  - destruct Hin as [->|Hin]; [|contradiction].
    pose proof (py_index_spec (rev v) 1) as Hs. unfold py_index in Hs.
    destruct (py_index_from (Nat.eqb 1) (rev v) 0) as [i|e] eqn:E.
    + destruct Hs as [H1 [H2 _]]. exfalso. apply Hi. apply in_rev. rewrite <- H2.
      apply nth_In; auto.
    + cbn [py_index_from Nat.eqb plus]. exists (length v). rewrite rev_length.
      split; [auto|]. cbn [length]. split; [lia|].
      replace (S (length v) - length v)%nat with 1%nat by lia.
      cbn. symmetry. apply zb_no1, occ_zero; auto.
Qed.

Lemma zb_split v : bits v ->
  (zeros_before_last1 v = 0%nat /\ rank v = 0) \/
  exists p r, v = repeat 1%nat p ++ 0%nat :: r /\ bits r /\ (0 < occ 1 r)%nat /\
              zeros_before_last1 v = S (zeros_before_last1 r) /\
              rank v = pascal_pred (length r) (occ 1 r) + rank r.
Proof.
  induction v as [|x v IH]; intros Hb.
  - left; auto.
  - apply bits_cons in Hb as [Hx Hv]. destruct Hx as [->| ->].
    + cbn [zeros_before_last1 Nat.eqb rank]. rewrite existsb_occ.
      destruct (Nat.eqb_spec (occ 1 v) 0) as [E|E]; cbn [negb].
      * left. rewrite zb_no1 by auto. split; [auto|]. rewrite E. cbn.
        pose proof (rank_range v Hv) as Hr. rewrite E, pascal_0_r in Hr. lia.
      * right. exists 0%nat, v. cbn. repeat split; auto; lia.
    + cbn [zeros_before_last1 Nat.eqb rank]. destruct (IH Hv) as [[H1 H2]|[p [r [E [H1 [H2 [H3 H4]]]]]]].
      * left; auto.
      * right. exists (S p), r. cbn. rewrite <- E. repeat split; auto.
Qed.

Lemma py_index_ones0 p r : py_index (repeat 1%nat p ++ 0%nat :: r) 0 = Ok p.
Proof.
  unfold py_index. induction p as [|p IH]; cbn [repeat app py_index_from]; [reflexivity|].
  change (0 =? 1)%nat with false. cbn [repeat]. rewrite py_index_from_shift, IH. auto.
Qed.

Lemma hash_loop_rank z : forall v y, bits v -> zeros_before_last1 v = z ->
  hash_loop z v (Z.of_nat (length v)) y = Ok (y + rank v).
Proof.
  induction z as [|z IH]; intros v y Hb Hz.
  - cbn. destruct (zb_split v Hb) as [[_ H2]|[p [r [_ [_ [_ [H3 _]]]]]]]; [|lia].
    f_equal; lia.
  - destruct (zb_split v Hb) as [[H1 _]|[p [r [E [H1 [H2 [H3 H4]]]]]]]; [lia|].
    cbn [hash_loop]. rewrite E at 1. rewrite py_index_ones0. cbn [rbind].
    assert (skipn p v = 0%nat :: r) as Es.
    { rewrite E, skipn_app, repeat_length, Nat.sub_diag.
      rewrite skipn_all2 by (rewrite repeat_length; lia). auto. }
    assert (skipn (p + 1) v = r) as Es1.
    { rewrite E, skipn_app, repeat_length. rewrite skipn_all2 by (rewrite repeat_length; lia).
      replace (p + 1 - p)%nat with 1%nat by lia. auto. }
    rewrite Es, Es1, py_count_occ, occ_cons. cbn [Nat.eqb plus].
    assert (Z.of_nat (length v) - (Z.of_nat p + 1) = Z.of_nat (length r)) as El.
    { rewrite E, app_length, repeat_length. cbn. lia. }
    rewrite El, binomial_pred, IH by (auto; lia). f_equal. lia.
Qed.

Lemma hash_rank v : bits v -> In 1%nat v -> hash v = Ok (rank v).
Proof.
  intros Hb Hin. unfold hash. destruct (rev_index_zb v Hb Hin) as [ix [E [Hlt Hz]]].
  rewrite E. cbn [rbind]. rewrite Hz, hash_loop_rank by auto. f_equal.
Qed.

Lemma hash_error v : ~ In 1%nat v -> hash v = Err ValueError.
Proof.
  intros H. unfold hash. pose proof (py_index_spec (rev v) 1) as Hs.
  destruct (py_index (rev v) 1) as [i|e].
  - destruct Hs as [H1 [H2 _]]. exfalso. apply H. apply in_rev. rewrite <- H2. apply nth_In; auto.
  - destruct Hs as [-> _]. auto.
Qed.

(** ** The levels of a labeling *)

(** Level [j]: drop the sites coloured 1..j, mark those coloured j+1. *)
Definition mask (j : nat) (x : list nat) : list nat :=
  map (fun a => if (a =? S j)%nat then 1%nat else 0%nat) (filter (fun a => (j <? a)%nat) x).

Definition encode (k : nat) (x : list nat) : list Z := map (fun j => rank (mask j x)) (seq 0 k).

(** Colours above [j] blanked. *)
Definition trunc (j : nat) (x : list nat) : list nat :=
  map (fun a => if (j <? a)%nat then 0%nat else a) x.

Lemma mask_bits j x : bits (mask j x).
Proof.
  intros b Hb. unfold mask in Hb. apply in_map_iff in Hb as [a [<- _]].
  destruct (a =? S j)%nat; auto.
Qed.
Lemma mask_length j x : length (mask j x) = length (filter (fun a => (j <? a)%nat) x).
Proof. unfold mask. apply map_length. Qed.
Lemma mask_occ j x : occ 1 (mask j x) = occ (S j) x.
Proof.
  unfold mask. induction x as [|a x IH]; auto. cbn [filter]. rewrite occ_cons.
  destruct (Nat.ltb_spec j a).
  - cbn [map]. rewrite occ_cons, IH.
    destruct (Nat.eqb_spec a (S j)); auto.
  - rewrite IH. destruct (Nat.eqb_spec a (S j)); [lia|auto].
Qed.

Lemma filter_gt_length j x : (forall a, In a x -> 1 <= a)%nat ->
  (length (filter (fun a => (S j <? a)%nat) x) + occ (S j) x)%nat
  = length (filter (fun a => (j <? a)%nat) x).
Proof.
  induction x as [|a x IH]; intros Hpos; auto.
  rewrite occ_cons. cbn [filter].
  assert (forall b, In b x -> 1 <= b)%nat as Hp by (intros; apply Hpos; cbn; auto).
  specialize (IH Hp).
  destruct (Nat.ltb_spec (S j) a), (Nat.ltb_spec j a), (Nat.eqb_spec a (S j)); cbn [length]; lia.
Qed.

Definition positive (x : list nat) : Prop := forall a, In a x -> (1 <= a)%nat.

Lemma mask_cons j a x : mask j (a :: x) =
  if (j <? a)%nat then (if (a =? S j)%nat then 1%nat else 0%nat) :: mask j x else mask j x.
Proof. unfold mask. cbn [filter]. destruct (j <? a)%nat; reflexivity. Qed.
Lemma trunc_cons j a x : trunc j (a :: x) = (if (j <? a)%nat then 0%nat else a) :: trunc j x.
Proof. reflexivity. Qed.
Lemma paint_cons c b v : paint c (b :: v) = (if (b =? 1)%nat then c else 0%nat) :: paint c v.
Proof. reflexivity. Qed.

Lemma fill_trunc j x : positive x ->
  fill (trunc j x) (paint (S j) (mask j x)) = Ok (trunc (S j) x).
Proof.
  induction x as [|a x IH]; intros Hp; [reflexivity|].
  assert (positive x) as Hpx by (intros b Hb; apply Hp; cbn; auto).
  assert (1 <= a)%nat as Ha by (apply Hp; cbn; auto).
  specialize (IH Hpx). rewrite !trunc_cons, mask_cons.
  destruct (Nat.ltb_spec j a) as [Hja|Hja].
  - rewrite paint_cons. cbn [fill]. rewrite IH. cbn [rbind].
    do 2 f_equal. destruct (Nat.eqb_spec a (S j)) as [->|Hn].
    + destruct (Nat.ltb_spec (S j) (S j)); [lia|auto].
    + destruct (Nat.ltb_spec (S j) a); [auto|lia].
  - destruct a as [|a]; [lia|]. cbn [fill]. rewrite IH. cbn [rbind].
    destruct (Nat.ltb_spec (S j) (S a)); [lia|auto].
Qed.

Lemma trunc_0 x : positive x -> trunc 0 x = repeat 0%nat (length x).
Proof.
  induction x as [|a x IH]; intros Hp; auto. unfold trunc in *. cbn.
  assert (1 <= a)%nat as Ha by (apply Hp; cbn; auto).
  destruct a; [lia|]. f_equal. apply IH. intros b Hb; apply Hp; cbn; auto.
Qed.
Lemma trunc_all k x : (forall a, In a x -> a <= k)%nat -> trunc k x = x.
Proof.
  intros H. unfold trunc. rewrite <- map_id. apply map_ext_in. intros a Ha.
  specialize (H a Ha). destruct (Nat.ltb_spec k a); [lia|auto].
Qed.

Lemma invhash_loop_encode cs : forall j x,
  positive x ->
  (forall i, (i < length cs)%nat -> occ (S (j + i)) x = nth i cs 0%nat) ->
  length (filter (fun a => (j <? a)%nat) x) = sum_nat cs ->
  invhash_loop (map (fun i => rank (mask i x)) (seq j (length cs))) cs (sum_nat cs) (S j) (trunc j x)
  = Ok (trunc (j + length cs) x).
Proof.
  induction cs as [|c cs IH]; intros j x Hp Ho Hl.
  - cbn. rewrite Nat.add_0_r. auto.
  - assert (occ (S j) x = c) as Hc.
    { specialize (Ho 0%nat). cbn in Ho. rewrite Nat.add_0_r in Ho. apply Ho. lia. }
    cbn [length seq map invhash_loop].
    replace (inv_level (sum_nat (c :: cs)) (Z.of_nat c) (rank (mask j x)) (S j))
      with (paint (S j) (mask j x)).
    2:{ rewrite <- inv_level_rank by apply mask_bits.
        rewrite mask_length, mask_occ, Hc, Hl. auto. }
    rewrite fill_trunc by auto. cbn [rbind].
    replace (sum_nat (c :: cs) - c)%nat with (sum_nat cs) by (rewrite sum_nat_cons; lia).
    rewrite IH; auto.
    + do 2 f_equal. lia.
    + intros i Hi. specialize (Ho (S i)). cbn in Ho. rewrite <- Ho by lia. do 2 f_equal. lia.
    + pose proof (filter_gt_length j x Hp). rewrite sum_nat_cons in Hl. lia.
Qed.

Lemma has_concs_positive c x : has_concs c x -> positive x.
Proof. intros H a Ha. apply (has_concs_range c x H a) in Ha. lia. Qed.

Lemma sum_nat_spec c : sum_nat c = fold_right Nat.add 0%nat c.
Proof. reflexivity. Qed.

Lemma filter_gt0 x : positive x -> filter (fun a => (0 <? a)%nat) x = x.
Proof. intros H. apply filter_all. intros a Ha. specialize (H a Ha). destruct a; [lia|auto]. Qed.

Lemma invhash_encode c x : has_concs c x -> invhash (encode (length c) x) c (sum_nat c) = Ok x.
Proof.
  intros H. pose proof (has_concs_positive c x H) as Hp.
  unfold invhash, encode. destruct H as [Hl Ho].
  replace (repeat 0%nat (sum_nat c)) with (trunc 0 x) by (rewrite trunc_0, Hl by auto; reflexivity).
  rewrite invhash_loop_encode; auto.
  - cbn. f_equal. apply trunc_all. intros a Ha.
    apply (has_concs_range c x (conj Hl Ho) a Ha).
  - rewrite filter_gt0 by auto. auto.
Qed.

(** ** Radices and valid numbers *)

Lemma coefficients_nat cs n : (sum_nat cs <= n)%nat ->
  coefficients cs (Z.of_nat n) =
  match cs with [] => [] | c :: cs' => pascal n c :: coefficients cs' (Z.of_nat (n - c)) end.
Proof.
  destruct cs as [|c cs]; intros H; auto. cbn [coefficients]. rewrite binomial_pascal.
  do 2 f_equal. cbn in H. unfold sum_nat in H. lia.
Qed.

Lemma coefficients_length cs n : length (coefficients cs n) = length cs.
Proof. revert n; induction cs as [|c cs IH]; intros n; cbn; auto. Qed.

(** a digit vector below the radices *)
Definition valid_code (C code : list Z) : Prop := Forall2 (fun d r => 0 <= d < r) code C.

Lemma encode_valid_aux cs : forall j x, positive x ->
  (forall i, (i < length cs)%nat -> occ (S (j + i)) x = nth i cs 0%nat) ->
  length (filter (fun a => (j <? a)%nat) x) = sum_nat cs ->
  valid_code (coefficients cs (Z.of_nat (sum_nat cs)))
             (map (fun i => rank (mask i x)) (seq j (length cs))).
Proof.
  induction cs as [|c cs IH]; intros j x Hp Ho Hl; [constructor|].
  assert (occ (S j) x = c) as Hc.
  { specialize (Ho 0%nat). cbn in Ho. rewrite Nat.add_0_r in Ho. apply Ho. lia. }
  rewrite coefficients_nat by lia.
  replace (sum_nat (c :: cs) - c)%nat with (sum_nat cs) by (rewrite sum_nat_cons; lia).
  cbn [length seq map]. constructor.
  - pose proof (rank_range (mask j x) (mask_bits j x)) as Hr.
    rewrite mask_length, mask_occ, Hc, Hl in Hr. auto.
  - apply IH; auto.
    + intros i Hi. specialize (Ho (S i)). cbn in Ho. rewrite <- Ho by lia. do 2 f_equal. lia.
    + pose proof (filter_gt_length j x Hp). rewrite sum_nat_cons in Hl. lia.
Qed.

Lemma encode_valid c x : has_concs c x ->
  valid_code (coefficients c (Z.of_nat (sum_nat c))) (encode (length c) x).
Proof.
  intros H. pose proof (has_concs_positive c x H) as Hp. destruct H as [Hl Ho].
  apply encode_valid_aux; auto. rewrite filter_gt0; auto.
Qed.

(** every valid number is the number of a labeling: weave the first colour into a labeling of the rest *)
Fixpoint weave (v y : list nat) : list nat :=
  match v with
  | [] => []
  | b :: v' => if (b =? 1)%nat then 1%nat :: weave v' y
               else match y with
                    | [] => []
                    | a :: y' => S a :: weave v' y'
                    end
  end.

Lemma weave_spec v : forall y, bits v -> positive y -> (length y + occ 1 v = length v)%nat ->
  length (weave v y) = length v /\ mask 0 (weave v y) = v /\ occ 1 (weave v y) = occ 1 v /\
  (forall j, mask (S j) (weave v y) = mask j y) /\
  (forall j, occ (S (S j)) (weave v y) = occ (S j) y).
Proof.
  induction v as [|b v IH]; intros y Hb Hp Hl.
  - cbn in Hl. destruct y; [|cbn in Hl; lia]. cbn. auto.
  - apply bits_cons in Hb as [Hb1 Hb2]. rewrite occ_cons in Hl. cbn in Hl.
    destruct Hb1 as [->| ->]; cbn [weave Nat.eqb] in *.
    + destruct y as [|a y]; [pose proof (occ_le 1 v); cbn in Hl; lia|].
      assert (positive y) as Hpy by (intros z Hz; apply Hp; cbn; auto).
      assert (1 <= a)%nat as Ha by (apply Hp; cbn; auto).
      destruct (IH y Hb2 Hpy ltac:(cbn in Hl; lia)) as [H1 [H2 [H3 [H4 H5]]]].
      rewrite !occ_cons, mask_cons. cbn [length].
      destruct a as [|a]; [lia|]. change (0 <? S (S a))%nat with true.
      change (S (S a) =? 1)%nat with false. cbn beta match.
      rewrite H1, H2, H3. repeat split; auto.
      * intros j. rewrite !mask_cons. rewrite H4. auto.
      * intros j. rewrite !occ_cons, H5. auto.
    + destruct (IH y Hb2 Hp ltac:(lia)) as [H1 [H2 [H3 [H4 H5]]]].
      rewrite !occ_cons, mask_cons. cbn [length]. change (0 <? 1)%nat with true.
      change (1 =? 1)%nat with true. cbn beta match.
      rewrite H1, H2, H3. repeat split; auto.
Qed.

Lemma encode_surj c : forall code, valid_code (coefficients c (Z.of_nat (sum_nat c))) code ->
  exists x, has_concs c x /\ encode (length c) x = code.
Proof.
  induction c as [|c cs IH]; intros code H.
  - inversion H; subst. exists []. split; [|reflexivity]. split; [reflexivity|]. cbn. intros; lia.
  - rewrite coefficients_nat in H by lia.
    replace (sum_nat (c :: cs) - c)%nat with (sum_nat cs) in H by (rewrite sum_nat_cons; lia).
    inversion H as [|d r code' C' Hd Hrest]; subst.
    destruct (IH _ Hrest) as [y [Hy Ey]].
    destruct (unrank_exists _ _ _ Hd) as [v [Hv [Hl [Ho Hr]]]].
    destruct Hy as [Hyl Hyo].
    destruct (weave_spec v y Hv (has_concs_positive cs y (conj Hyl Hyo))) as [H1 [H2 [H3 [H4 H5]]]].
    { rewrite Hl, Ho, Hyl. cbn. unfold sum_nat. lia. }
    exists (weave v y). split.
    + split; [rewrite H1, Hl; auto|]. intros [|i] Hi; cbn [nth]; [lia|].
      rewrite H5. apply Hyo. cbn in Hi; lia.
    + unfold encode in *. cbn [length seq map]. rewrite H2, Hr. f_equal.
      rewrite <- seq_shift, map_map. rewrite <- Ey. apply map_ext. intros j. rewrite H4; auto.
Qed.

Lemma encode_inj c x y : has_concs c x -> has_concs c y ->
  encode (length c) x = encode (length c) y -> x = y.
Proof.
  intros Hx Hy E. pose proof (invhash_encode c x Hx) as E1. pose proof (invhash_encode c y Hy) as E2.
  rewrite E, E2 in E1. congruence.
Qed.

Lemma invhash_valid c code : valid_code (coefficients c (Z.of_nat (sum_nat c))) code ->
  exists x, invhash code c (sum_nat c) = Ok x /\ has_concs c x /\ encode (length c) x = code.
Proof.
  intros H. destruct (encode_surj c code H) as [x [Hx E]]. exists x. split; [|auto].
  rewrite <- E. apply invhash_encode; auto.
Qed.
