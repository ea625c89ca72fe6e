(** The permutations effected by the translations of a supercell (C25). *)
From Coq Require Import Permutation.
From Verif Require Import PyBase Spec ListFacts PermFacts CanonProofs Mat3 LatSpec LatGroupModel LatFacts LatSites LatProofs LatMain.
Local Open Scope Z_scope.

Section Trans.
Variables (diag : vec) (n_d : nat).
Hypothesis Hpos : positive diag.
Hypothesis Hsmall : forall i, (i < 3)%nat -> vget diag i <= 10 ^ 5.
Notation n := (Z.to_nat (volume diag)).
Notation g := (make_member_list diag).
Notation N := (n_d * n)%nat.
Notation tperm := (translation_perm n n_d diag g).
Definition back (t : vec) (k : nat) : nat := Z.to_nat (rank diag (vmod (vsub (nth k g (0, 0, 0)) t) diag)).

Lemma vmod_red x : reduced diag x -> vmod x diag = x.
Proof. intros Hx. apply (reduced_unique diag); auto using vmod_reduced. apply congruent_sym, vmod_congruent; auto. Qed.
Lemma vmod_eq x y : congruent diag x y -> vmod x diag = vmod y diag.
Proof.
  intros E. apply (reduced_unique diag); auto using vmod_reduced. eapply congruent_trans; [apply congruent_sym, vmod_congruent; auto|].
  eapply congruent_trans; [exact E|]. apply vmod_congruent; auto.
Qed.
Lemma back_lt t k : (back t k < n)%nat.
Proof. unfold back. pose proof (rank_bound diag _ (vmod_reduced diag (vsub (nth k g (0, 0, 0)) t) Hpos)). lia. Qed.
Lemma nth_back t k : nth (back t k) g (0, 0, 0) = vmod (vsub (nth k g (0, 0, 0)) t) diag.
Proof. unfold back. apply member_nth_rank; auto using vmod_reduced. Qed.
Lemma member_inj i j : (i < n)%nat -> (j < n)%nat -> nth i g (0, 0, 0) = nth j g (0, 0, 0) -> i = j.
Proof. intros Hi Hj E. apply (proj1 (NoDup_nth g (0, 0, 0)) (member_nodup diag Hpos)); auto; rewrite member_length; auto. Qed.


Lemma tperm_shape t : exists p, is_perm n p /\ tperm t = concat (map (fun il => map (fun i => (il * n + i)%nat) p) (seq 0 n_d)) /\
  forall k, (k < n)%nat -> nth k p 0%nat = back t k.
Proof.
  destruct (match_members diag Hpos Hsmall (fun x => vmod (vadd x t) diag)) as [p [Hp [Hc Hn]]].
  { intros x. apply vmod_reduced; auto. }
  { intros x y Hx Hy E. apply (reduced_unique diag); auto.
    assert (congruent diag (vadd x t) (vadd y t)) as E'.
    { eapply congruent_trans; [apply vmod_congruent; auto|]. rewrite E. apply congruent_sym, vmod_congruent; auto. }
    pose proof (congruent_sub diag _ _ t t E' (congruent_refl _ _)) as E2. rewrite !vadd_vsub in E2. auto. }
  unfold translation_perm. assert (length g = n) as Hgl by (apply member_length; auto).
  assert (find_permutation_of_group g (map (fun x => vmod (vadd x t) diag) g) = p) as ->.
  { apply (match_lists_ok allclose (0, 0, 0)); rewrite ?Hgl; auto. rewrite map_length; auto. }
  exists p. split; auto. split; auto. intros k Hk.
  rewrite <- (Hn (back t k)) by apply back_lt. f_equal. rewrite nth_back.
  assert (vmod (vadd (vmod (vsub (nth k g (0, 0, 0)) t) diag) t) diag = nth k g (0, 0, 0)) as ->.
  { rewrite <- (vmod_red (nth k g (0, 0, 0))) at 2 by (apply member_in; auto; apply nth_In; lia).
    apply vmod_eq. rewrite <- (vsub_vadd (nth k g (0, 0, 0)) t) at 2. apply congruent_add; [|apply congruent_refl]. apply congruent_sym, vmod_congruent; auto. }
  rewrite member_nth by auto. rewrite rank_dig by (auto; lia). lia.
Qed.
Lemma tperm_blocks t : length (tperm t) = N /\
  forall iD k, (iD < n_d)%nat -> (k < n)%nat -> nth (iD * n + k) (tperm t) 0%nat = (iD * n + back t k)%nat.
Proof.
  destruct (tperm_shape t) as [p [Hp [-> Hn]]].
  destruct (concat_blocks 0%nat n_d n (map (fun il => map (fun i => (il * n + i)%nat) p) (seq 0 n_d))) as [C1 C2].
  { rewrite map_length, seq_length; auto. }
  { intros r Hr. apply in_map_iff in Hr. destruct Hr as [il [<- _]]. rewrite map_length. apply Hp. }
  split; auto. intros iD k Hi Hk. rewrite C2 by auto. rewrite nth_map_lt with (d := 0%nat) by (rewrite seq_length; auto).
  rewrite seq_nth by auto. rewrite nth_map_lt with (d := 0%nat) by (destruct Hp as [-> _]; auto). rewrite Hn by auto. auto.
Qed.
Lemma tperm_length t : length (tperm t) = N.
Proof. apply tperm_blocks. Qed.
Lemma tperm_nth t iD k : (iD < n_d)%nat -> (k < n)%nat -> nth (iD * n + k) (tperm t) 0%nat = (iD * n + back t k)%nat.
Proof. apply tperm_blocks. Qed.
Lemma split_index i : (i < N)%nat -> exists iD k, (iD < n_d)%nat /\ (k < n)%nat /\ i = (iD * n + k)%nat.
Proof.
  intros Hi. assert (n <> 0)%nat as Hn by lia. exists (i / n)%nat, (i mod n)%nat. split; [apply Nat.div_lt_upper_bound; lia|].
  split; [apply Nat.mod_upper_bound; auto|]. rewrite (Nat.div_mod i n) at 1 by auto. lia.
Qed.
Lemma tperm_ext t q : length q = N -> (forall iD k, (iD < n_d)%nat -> (k < n)%nat -> nth (iD * n + k) q 0%nat = (iD * n + back t k)%nat) -> q = tperm t.
Proof.
  intros Hl Hq. apply nth_ext_len with (d := 0%nat); [rewrite tperm_length; auto|]. rewrite Hl. intros i Hi.
  destruct (split_index i Hi) as [iD [k [H1 [H2 ->]]]]. rewrite Hq, tperm_nth; auto.
Qed.
Lemma tperm_bound t i : (i < N)%nat -> (nth i (tperm t) 0 < N)%nat.
Proof.
  intros Hi. destruct (split_index i Hi) as [iD [k [H1 [H2 ->]]]]. rewrite tperm_nth by auto. pose proof (back_lt t k). nia.
Qed.
Lemma tperm_comp t u : comp (tperm t) (tperm u) = tperm (vmod (vadd t u) diag).
Proof.
  apply tperm_ext; [rewrite comp_length; apply tperm_length|]. intros iD k Hi Hk. unfold comp.
  rewrite nth_map_lt with (d := 0%nat) by (rewrite tperm_length; nia). rewrite tperm_nth by auto. rewrite tperm_nth by (auto; apply back_lt). f_equal.
  apply member_inj; try apply back_lt. rewrite !nth_back. apply vmod_eq. set (x := nth k g (0, 0, 0)).
  eapply congruent_trans; [apply congruent_sub; [apply congruent_sym, vmod_congruent; auto|apply congruent_refl]|].
  replace (vsub (vsub x t) u) with (vsub x (vadd t u)) by vec_ring. apply congruent_sub; [apply congruent_refl|]. apply vmod_congruent; auto.
Qed.
Lemma tperm_id : tperm (0, 0, 0) = idperm N.
Proof.
  symmetry. apply tperm_ext; [apply seq_length|]. intros iD k Hi Hk. unfold idperm. rewrite seq_nth by nia. cbn [Nat.add]. f_equal.
  apply member_inj; auto using back_lt. rewrite nth_back. symmetry. replace (vsub (nth k g (0, 0, 0)) (0, 0, 0)) with (nth k g (0, 0, 0)) by vec_ring.
  apply vmod_red. apply member_in; auto. apply nth_In. rewrite member_length; auto.
Qed.
Lemma tperm_inj t u iD k : reduced diag t -> reduced diag u -> (iD < n_d)%nat -> (k < n)%nat ->
  nth (iD * n + k) (tperm t) 0%nat = nth (iD * n + k) (tperm u) 0%nat -> t = u.
Proof.
  intros Ht Hu Hi Hk E. rewrite !tperm_nth in E by auto. assert (back t k = back u k) as E2 by lia.
  apply (f_equal (fun j => nth j g (0, 0, 0))) in E2. rewrite !nth_back in E2. apply (reduced_unique diag); auto.
  set (x := nth k g (0, 0, 0)) in *. assert (congruent diag (vsub x t) (vsub x u)) as E3.
  { eapply congruent_trans; [apply vmod_congruent; auto|]. rewrite E2. apply congruent_sym, vmod_congruent; auto. }
  pose proof (congruent_sub diag x x _ _ (congruent_refl _ _) E3) as E4.
  replace (vsub x (vsub x t)) with t in E4 by vec_ring. replace (vsub x (vsub x u)) with u in E4 by vec_ring. auto.
Qed.
Lemma tperm_trans iD k l : (k < n)%nat -> (l < n)%nat -> (iD < n_d)%nat -> exists t, reduced diag t /\ nth (iD * n + k) (tperm t) 0%nat = (iD * n + l)%nat.
Proof.
  intros Hk Hl Hi. set (x := nth k g (0, 0, 0)). set (y := nth l g (0, 0, 0)). exists (vmod (vsub x y) diag). split; [apply vmod_reduced; auto|].
  rewrite tperm_nth by auto. f_equal. apply member_inj; auto using back_lt. rewrite nth_back. fold x y.
  assert (reduced diag y) as Hy by (apply member_in; auto; apply nth_In; rewrite member_length; auto).
  transitivity (vmod y diag); [|apply vmod_red; auto]. apply vmod_eq.
  eapply congruent_trans; [apply congruent_sub; [apply congruent_refl|apply congruent_sym, vmod_congruent; auto]|].
  replace (vsub x (vsub x y)) with y by vec_ring. apply congruent_refl.
Qed.
Lemma tperm_perm t : is_perm N (tperm t).
Proof.
  split; [apply tperm_length|]. split.
  - apply (proj2 (NoDup_nth (tperm t) 0%nat)). rewrite tperm_length. intros i j Hi Hj E.
    destruct (split_index i Hi) as [iD [k [H1 [H2 ->]]]]. destruct (split_index j Hj) as [jD [l [H3 [H4 ->]]]].
    rewrite !tperm_nth in E by auto. pose proof (back_lt t k). pose proof (back_lt t l).
    assert (iD = jD) by nia. subst jD. f_equal. assert (back t k = back t l) as E2 by lia.
    apply (f_equal (fun j => nth j g (0, 0, 0))) in E2. rewrite !nth_back in E2. apply member_inj; auto.
    apply (reduced_unique diag); try (apply member_in; auto; apply nth_In; rewrite member_length; auto).
    set (x := nth k g (0, 0, 0)) in *. set (y := nth l g (0, 0, 0)) in *. assert (congruent diag (vsub x t) (vsub y t)) as E3.
    { eapply congruent_trans; [apply vmod_congruent; auto|]. rewrite E2. apply congruent_sym, vmod_congruent; auto. }
    pose proof (congruent_add diag _ _ t t E3 (congruent_refl _ _)) as E4. rewrite !vsub_vadd in E4. auto.
  - intros i Hi. apply In_nth with (d := 0%nat) in Hi. destruct Hi as [j [Hj <-]]. rewrite tperm_length in Hj. apply tperm_bound; auto.
Qed.
End Trans.
