(** Permutations acting on lists. *)
From Coq Require Import Permutation.
From Verif Require Import PyBase Spec ListFacts.

Lemma is_perm_permutation n p : is_perm n p <-> Permutation p (seq 0 n).
Proof.
  split.
  - intros [Hl [Hnd Hr]]. apply NoDup_Permutation_bis; auto.
    + rewrite seq_length; lia.
    + intros i Hi. apply in_seq. specialize (Hr i Hi). lia.
  - intros H. split; [|split].
    + rewrite (Permutation_length H), seq_length; auto.
    + eapply Permutation_NoDup; [symmetry; exact H|apply seq_NoDup].
    + intros i Hi. apply (Permutation_in i) in H; auto. apply in_seq in H. lia.
Qed.

Lemma idperm_is_perm n : is_perm n (idperm n).
Proof. apply is_perm_permutation. apply Permutation_refl. Qed.

Lemma act_length {A} (d : A) p x : length (act d p x) = length p.
Proof. apply map_length. Qed.

Lemma nth_act {A} (d : A) p x i : i < length p -> nth i (act d p x) d = nth (nth i p 0) x d.
Proof. intros H. unfold act. rewrite nth_map_lt with (d := 0); auto. Qed.

Lemma act_id {A} (d : A) x : act d (idperm (length x)) x = x.
Proof.
  apply nth_ext_len with (d := d).
  - rewrite act_length. unfold idperm. apply seq_length.
  - intros i Hi. rewrite nth_act by (rewrite act_length in Hi; auto).
    rewrite act_length in Hi. unfold idperm in *. rewrite seq_length in Hi.
    rewrite seq_nth by auto. auto.
Qed.

Lemma act_permutation {A} (d : A) n p x : is_perm n p -> length x = n -> Permutation (act d p x) x.
Proof.
  intros Hp Hl. apply is_perm_permutation in Hp. unfold act.
  etransitivity; [apply Permutation_map; exact Hp|]. subst n.
  pose proof (act_id d x) as E. unfold act, idperm in E. rewrite E. auto.
Qed.

Lemma act_In {A} (d : A) n p x a : is_perm n p -> length x = n -> In a (act d p x) <-> In a x.
Proof.
  intros. pose proof (act_permutation d n p x H H0) as P. split; apply Permutation_in; auto.
  apply Permutation_sym; auto.
Qed.

Lemma comp_length p q : length (comp p q) = length p.
Proof. apply map_length. Qed.

Lemma comp_perm n p q : is_perm n p -> is_perm n q -> is_perm n (comp p q).
Proof.
  intros Hp [Hql [Hq1 Hq2]]. apply is_perm_permutation.
  etransitivity; [apply (act_permutation 0 n p q Hp Hql)|].
  apply is_perm_permutation. split; auto.
Qed.

Lemma act_comp {A} (d : A) n p q x : is_perm n p -> is_perm n q ->
  act d (comp p q) x = act d p (act d q x).
Proof.
  intros [Hpl [_ Hpr]] [Hql _]. unfold act, comp. rewrite map_map. apply map_ext_in.
  intros j Hj. specialize (Hpr j Hj). rewrite nth_map_lt with (d := 0) by lia. auto.
Qed.

Lemma comp_assoc n p q r : is_perm n p -> is_perm n q -> comp (comp p q) r = comp p (comp q r).
Proof.
  intros [Hpl [_ Hpr]] [Hql [_ Hqr]]. unfold comp. rewrite map_map. apply map_ext_in.
  intros j Hj. specialize (Hpr j Hj). rewrite nth_map_lt with (d := 0) by lia. auto.
Qed.

Lemma comp_id_l n q : length q = n -> comp (idperm n) q = q.
Proof. intros <-. exact (act_id 0 q). Qed.

Lemma comp_id_r n p : is_perm n p -> comp p (idperm n) = p.
Proof.
  intros [Hl [_ Hr]]. unfold comp, idperm. rewrite <- map_id. apply map_ext_in.
  intros j Hj. rewrite seq_nth; auto.
Qed.

(** the inverse permutation *)
Fixpoint pos_of (x : nat) (l : list nat) : nat :=
  match l with
  | [] => 0
  | y :: l' => if y =? x then 0 else S (pos_of x l')
  end.
Definition invp (n : nat) (p : list nat) : list nat := map (fun i => pos_of i p) (seq 0 n).

Lemma pos_of_spec x l : In x l -> pos_of x l < length l /\ nth (pos_of x l) l 0 = x.
Proof.
  induction l as [|y l IH]; intros H; [destruct H|]. cbn.
  destruct (Nat.eqb_spec y x) as [->|Hn]; [split; [lia|auto]|].
  destruct H as [->|H]; [lia|]. destruct (IH H). split; [lia|auto].
Qed.
Lemma pos_of_nth l i : NoDup l -> i < length l -> pos_of (nth i l 0) l = i.
Proof.
  intros Hnd Hi. destruct (pos_of_spec (nth i l 0) l (nth_In l 0 Hi)) as [H1 H2].
  apply (proj1 (NoDup_nth l 0) Hnd); auto.
Qed.

Lemma perm_In n p i : is_perm n p -> i < n -> In i p.
Proof.
  intros H Hi. apply is_perm_permutation in H.
  apply (Permutation_in (l := seq 0 n)); [symmetry; auto|apply in_seq; lia].
Qed.

Lemma comp_invp_l n p : is_perm n p -> comp (invp n p) p = idperm n.
Proof.
  intros Hp. unfold comp, invp, idperm. rewrite map_map. rewrite <- map_id. apply map_ext_in.
  intros i Hi. apply in_seq in Hi. apply pos_of_spec. apply (perm_In n); auto. lia.
Qed.
Lemma comp_invp_r n p : is_perm n p -> comp p (invp n p) = idperm n.
Proof.
  intros [Hl [Hnd Hr]]. unfold comp, invp, idperm.
  apply nth_ext_len with (d := 0); [rewrite map_length, seq_length; auto|].
  rewrite map_length. intros i Hi. rewrite nth_map_lt with (d := 0) by auto.
  assert (nth i p 0 < n) by (apply Hr, nth_In; auto).
  rewrite nth_map_lt with (d := 0) by (rewrite seq_length; auto).
  rewrite !seq_nth by lia. cbn. apply pos_of_nth; auto.
Qed.
Lemma invp_perm n p : is_perm n p -> is_perm n (invp n p).
Proof.
  intros Hp. pose proof (comp_invp_l n p Hp) as E. split; [|split].
  - unfold invp. rewrite map_length, seq_length; auto.
  - apply NoDup_map_inv with (f := fun j => nth j p 0).
    change (map (fun j => nth j p 0) (invp n p)) with (comp (invp n p) p). rewrite E.
    apply seq_NoDup.
  - intros i Hi. unfold invp in Hi. apply in_map_iff in Hi as [j [<- Hj]]. apply in_seq in Hj.
    destruct Hp as [Hl Hp]. rewrite <- Hl. apply pos_of_spec.
    apply (perm_In n); [split; auto|lia].
Qed.

Lemma comp_cancel_r n p q r : is_perm n p -> is_perm n q -> is_perm n r ->
  comp p r = comp q r -> p = q.
Proof.
  intros Hp Hq Hr E. apply (f_equal (fun z => comp z (invp n r))) in E.
  rewrite !(comp_assoc n) in E by auto. rewrite comp_invp_r in E by auto.
  rewrite !comp_id_r in E by auto. auto.
Qed.
Lemma comp_cancel_l n p q r : is_perm n p -> is_perm n q -> is_perm n r ->
  comp r p = comp r q -> p = q.
Proof.
  intros Hp Hq Hr E. apply (f_equal (comp (invp n r))) in E.
  rewrite <- !(comp_assoc n) in E by (auto; apply invp_perm; auto).
  rewrite comp_invp_l in E by auto.
  rewrite !comp_id_l in E by (apply Hp || apply Hq). auto.
Qed.

Lemma act_inj {A} (d : A) n p x y : is_perm n p -> length x = n -> length y = n ->
  act d p x = act d p y -> x = y.
Proof.
  intros Hp Hx Hy E. apply (f_equal (act d (invp n p))) in E.
  rewrite <- !(act_comp d n) in E by (auto; apply invp_perm; auto).
  rewrite comp_invp_l in E by auto. rewrite <- Hx in E at 1. rewrite <- Hy in E.
  rewrite !act_id in E. auto.
Qed.

(** in a finite closed set of permutations every element has its inverse *)
Lemma group_inv n G p : perm_group n G -> In p G -> In (invp n p) G.
Proof.
  intros [Hp [Hid Hc]] Hin.
  set (G' := nodup (list_eq_dec Nat.eq_dec) G).
  assert (forall q, In q G' <-> In q G) as HG' by (intros; apply nodup_In).
  assert (incl G' (map (fun q => comp q p) G')) as Hincl.
  { apply NoDup_length_incl.
    - apply NoDup_map_inj; [|apply NoDup_nodup].
      intros a b Ha Hb E. apply HG' in Ha, Hb. apply (comp_cancel_r n a b p); auto.
    - rewrite map_length; auto.
    - intros q Hq. apply in_map_iff in Hq as [r [<- Hr]]. apply HG' in Hr. apply HG'. auto. }
  specialize (Hincl (idperm n)). rewrite HG' in Hincl.
  apply Hincl in Hid. apply in_map_iff in Hid as [q [Eq Hq]]. apply HG' in Hq.
  assert (q = invp n p) as ->; auto.
  apply (comp_cancel_r n q (invp n p) p); auto using invp_perm.
  rewrite comp_invp_l by auto. auto.
Qed.

Lemma act_map {A B} (f : A -> B) (d : A) (e : B) p x : (forall j, In j p -> j < length x) ->
  act e p (map f x) = map f (act d p x).
Proof.
  intros H. unfold act. rewrite map_map. apply map_ext_in. intros j Hj.
  rewrite nth_map_lt with (d := d); auto.
Qed.

Lemma occ_permutation a x y : Permutation x y -> occ a x = occ a y.
Proof. intros H. unfold occ. induction H; cbn; try congruence.
       - destruct (Nat.eq_dec x a); congruence.
       - destruct (Nat.eq_dec x a), (Nat.eq_dec y a); congruence. Qed.

Lemma act_has_concs n c p x : is_perm n p -> n = fold_right Nat.add 0 c -> has_concs c x ->
  has_concs c (act 0 p x).
Proof.
  intros Hp -> [Hl Ho]. split.
  - rewrite act_length. apply Hp.
  - intros i Hi. rewrite (occ_permutation _ _ x); auto.
    eapply act_permutation; eauto.
Qed.

Lemma rmap_get {A} (d : A) p x : (forall j, In j p -> j < length x) ->
  rmap (get x) p = Ok (act d p x).
Proof.
  induction p as [|j p IH]; intros H; [reflexivity|].
  cbn [rmap]. unfold get at 1. rewrite (nth_error_nth' x d) by (apply H; cbn; auto).
  cbn [rbind]. rewrite IH by (intros; apply H; cbn; auto). reflexivity.
Qed.
