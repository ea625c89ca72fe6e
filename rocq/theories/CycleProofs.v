(** The cycle bookkeeping of polyaburnside.py finds the cycles. *)
From Coq Require Import Permutation.
From Verif Require Import PyBase Spec ListFacts PermFacts HashProofs PolyaModel PolyaSpec Burnside.

Definition vis (n : nat) (l : list nat) : list nat := map (fun i => b2n (existsb (Nat.eqb i) l)) (seq 0 n).
Lemma vis_length n l : length (vis n l) = n.
Proof. unfold vis. rewrite map_length, seq_length. auto. Qed.
Lemma vis_nth n l i : i < n -> nth i (vis n l) 0 = b2n (existsb (Nat.eqb i) l).
Proof. intros H. unfold vis. rewrite nth_map_lt with (d := 0) by (rewrite seq_length; auto). rewrite seq_nth; auto. Qed.
Lemma nth_upd {A} (l : list A) i j x d : i < length l -> nth j (upd l i x) d = if j =? i then x else nth j l d.
Proof. revert i j. induction l; intros [|i] [|j] H; cbn in *; auto; try lia. apply IHl. lia. Qed.
Lemma existsb_In i l : existsb (Nat.eqb i) l = true <-> In i l.
Proof. rewrite existsb_exists. split; [intros [x [H E]]; apply Nat.eqb_eq in E; subst; auto|]. intros H. exists i. split; auto. apply Nat.eqb_refl. Qed.
Lemma set_vis n l i : i < n -> set (vis n l) i 1 = Ok (vis n (l ++ [i])).
Proof.
  intros H. unfold set. rewrite vis_length. apply Nat.ltb_lt in H as H'. rewrite H'. f_equal.
  apply nth_ext with (d := 0) (d' := 0); [rewrite upd_length, !vis_length; auto|].
  rewrite upd_length, vis_length. intros j Hj. rewrite nth_upd by (rewrite vis_length; auto).
  rewrite !vis_nth by auto. rewrite existsb_app. cbn. rewrite orb_false_r.
  destruct (Nat.eqb_spec j i); subst; [rewrite orb_true_r|rewrite orb_false_r]; auto.
Qed.
Lemma get_nth {A} (l : list A) i d : i < length l -> get l i = Ok (nth i l d).
Proof. intros H. unfold get. rewrite (nth_error_nth' l d); auto. Qed.


Lemma vis_zero n l v : py_index (vis n l) 0 = Ok v -> v < n /\ ~ In v l.
Proof.
  intros H. pose proof (py_index_spec (vis n l) 0) as S. rewrite H in S. destruct S as [S1 [S2 _]].
  rewrite vis_length in S1. split; auto. rewrite nth_indep with (d' := 0) in S2 by (rewrite vis_length; auto).
  rewrite vis_nth in S2 by auto.
  intros Hin. apply existsb_In in Hin. rewrite Hin in S2. discriminate.
Qed.
Lemma vis_full n l e : py_index (vis n l) 0 = Err e -> forall i, i < n -> In i l.
Proof.
  intros H i Hi. pose proof (py_index_spec (vis n l) 0) as S. rewrite H in S. destruct S as [_ S].
  destruct (existsb (Nat.eqb i) l) eqn:E; [apply existsb_In; auto|]. exfalso. apply S.
  replace 0 with (nth i (vis n l) 0) by (rewrite vis_nth, E; auto). apply nth_In. rewrite vis_length. auto.
Qed.

Lemma cycle_pred p c x : is_cycle p c -> In x c -> exists z, In z c /\ nth z p 0 = x.
Proof.
  intros [Hne [Hnd Hc]] Hx. apply In_nth with (d := 0) in Hx. destruct Hx as [k [Hk <-]].
  destruct k as [|k].
  - exists (nth (length c - 1) c 0). split; [apply nth_In; lia|]. rewrite Hc by lia.
    replace (S (length c - 1)) with (length c) by lia. rewrite Nat.mod_same by lia. auto.
  - exists (nth k c 0). split; [apply nth_In; lia|]. rewrite Hc by lia. rewrite Nat.mod_small by lia. auto.
Qed.

Section Walk.
  Variables (n : nat) (p : list nat).
  Hypothesis Hp : is_perm n p.

  Lemma p_lt i : i < n -> nth i p 0 < n.
  Proof. destruct Hp as [Hl [_ Hr]]. intros. apply Hr. apply nth_In. lia. Qed.
  Lemma p_inj i j : i < n -> j < n -> nth i p 0 = nth j p 0 -> i = j.
  Proof. destruct Hp as [Hl [Hnd _]]. intros. apply (proj1 (NoDup_nth p 0) Hnd); lia. Qed.

  (** [t] is the start of a cycle: consecutive images. *)
  Definition chain (t : list nat) : Prop :=
    NoDup t /\ (forall i, In i t -> i < n) /\
    forall k, S k < length t -> nth (nth k t 0) p 0 = nth (S k) t 0.

  Lemma chain_length t : chain t -> length t <= n.
  Proof.
    intros [H1 [H2 _]]. rewrite <- (seq_length n 0). apply NoDup_incl_length; auto.
    intros i Hi. apply in_seq. specialize (H2 i Hi). lia.
  Qed.

  Lemma walk_spec v done : Forall (is_cycle p) done -> ~ In v (concat done) -> (forall i, In i (concat done) -> i < n) ->
    forall fuel t, hd 0 t = v -> t <> [] -> chain t -> (forall i, In i t -> ~ In i (concat done)) ->
    n + 1 <= fuel + length t ->
    exists c, is_cycle p c /\ (forall i, In i c -> i < n /\ ~ In i (concat done)) /\
      cycle_walk fuel p v (nth (last t 0) p 0) (vis n (concat done ++ t)) (length t) =
      Ok (vis n (concat done ++ c), length c).
  Proof.
    intros Hcyc Hv Hlt. induction fuel as [|f IH]; intros t Hhd Hne Hch Hdis Hf.
    - pose proof (chain_length t Hch). lia.
    - pose proof Hch as [Hnd [Htn Hst]].
      assert (Hlast : last t 0 = nth (length t - 1) t 0).
      { clear. induction t as [|a [|b t] IH]; auto. change (last (a :: b :: t) 0) with (last (b :: t) 0). rewrite IH.
        cbn [length]. replace (S (S (length t)) - 1) with (S (length (b :: t) - 1)) by (cbn; lia). auto. }
      assert (Hlen : 0 < length t) by (destruct t; [congruence|cbn; lia]).
      assert (Hl_in : In (last t 0) t) by (rewrite Hlast; apply nth_In; lia).
      set (cur := nth (last t 0) p 0) in *.
      assert (Hcur : cur < n) by (apply p_lt; auto).
      cbn [cycle_walk]. destruct (Nat.eqb_spec cur v) as [E|E].
      + exists t. split; [|split]; auto. split; [auto|split; [auto|]]. intros k Hk.
        destruct (Nat.eq_dec (S k) (length t)) as [Ek|Ek].
        * rewrite Ek, Nat.mod_same by lia. replace (nth 0 t 0) with v by (rewrite <- Hhd; destruct t; auto).
          rewrite <- E. unfold cur. rewrite Hlast. f_equal. f_equal. lia.
        * rewrite Nat.mod_small by lia. apply Hst. lia.
      + rewrite set_vis by auto. cbn [rbind]. rewrite (get_nth _ _ 0) by (destruct Hp as [-> _]; auto).
        cbn [rbind]. rewrite <- app_assoc.
        specialize (IH (t ++ [cur])). rewrite last_last in IH.
        replace (S (length t)) with (length (t ++ [cur])) by (rewrite app_length; cbn; lia). apply IH.
        * destruct t; auto; congruence.
        * destruct t; discriminate.
        * split; [|split].
          -- apply NoDup_app_intro; auto; [repeat constructor; auto|].
             intros x Hx [<-|[]]. apply In_nth with (d := 0) in Hx. destruct Hx as [[|k] [Hk Ek]].
             ++ apply E. rewrite <- Ek, <- Hhd. destruct t; auto.
             ++ rewrite <- Hst in Ek by auto. unfold cur in Ek. apply p_inj in Ek; auto.
                ** rewrite Hlast in Ek. apply (proj1 (NoDup_nth t 0) Hnd) in Ek; lia.
                ** apply Htn. apply nth_In. lia.
          -- intros i Hi. apply in_app_or in Hi. destruct Hi as [Hi|[<-|[]]]; auto.
          -- rewrite app_length. cbn. intros k Hk. rewrite (app_nth1 t) by lia.
             destruct (Nat.eq_dec (S k) (length t)) as [Ek|Ek].
             ++ rewrite app_nth2 by lia. rewrite Ek, Nat.sub_diag. cbn. unfold cur. rewrite Hlast. f_equal. f_equal. lia.
             ++ rewrite app_nth1 by lia. apply Hst. lia.
        * intros i Hi. apply in_app_or in Hi. destruct Hi as [Hi|[<-|[]]]; auto.
          intros Hin. apply in_concat in Hin. destruct Hin as [c [Hc Hin]].
          rewrite Forall_forall in Hcyc. destruct (cycle_pred p c cur (Hcyc c Hc) Hin) as [z [Hz Ez]].
          assert (In z (concat done)) as Hz' by (apply in_concat; exists c; auto).
          apply p_inj in Ez; auto. subst z. apply (Hdis (last t 0)); auto.
        * rewrite app_length. cbn. lia.
  Qed.

  Lemma lens_spec : forall fuel done, Forall (is_cycle p) done -> NoDup (concat done) ->
    (forall i, In i (concat done) -> i < n) -> n <= fuel + length done ->
    exists cs, Forall (is_cycle p) cs /\ NoDup (concat cs) /\ (forall i, In i (concat cs) <-> i < n) /\
      cycle_lens fuel p (vis n (concat done)) (map (@length nat) done) = Ok (map (@length nat) cs).
  Proof.
    induction fuel as [|f IH]; intros done Hc Hnd Hlt Hf; cbn [cycle_lens];
      destruct (py_index (vis n (concat done)) 0) as [v|e] eqn:Ev.
    2,4: exists done; repeat split; auto; eapply vis_full; eauto.
    - exfalso. apply vis_zero in Ev. destruct Ev as [Hv1 Hv2].
      assert (length done <= length (concat done)) as L.
      { clear - Hc. induction Hc as [|c cs [Hc _]]; cbn; [lia|]. rewrite app_length. destruct c; [congruence|cbn; lia]. }
      assert (S (length (concat done)) <= n); [|lia].
      rewrite <- (seq_length n 0). change (S (length (concat done))) with (length (v :: concat done)).
      apply NoDup_incl_length; [constructor; auto|]. intros i [<-|Hi]; apply in_seq; [lia|]. specialize (Hlt i Hi). lia.
    - apply vis_zero in Ev. destruct Ev as [Hv1 Hv2]. rewrite set_vis by auto. cbn [rbind].
      rewrite (get_nth _ _ 0) by (destruct Hp as [-> _]; auto). cbn [rbind].
      destruct (walk_spec v done Hc Hv2 Hlt (length p) [v]) as [c [Hcyc [Hcn E]]]; auto.
      + discriminate.
      + repeat split; [repeat constructor; auto|intros i [<-|[]]; auto|cbn; intros; lia].
      + intros i [<-|[]]; auto.
      + destruct Hp as [-> _]. cbn. lia.
      + cbn [last length] in E. rewrite E. cbn [rbind].
        specialize (IH (done ++ [c])). rewrite concat_app, map_app in IH. cbn in IH. rewrite app_nil_r in IH. apply IH.
        * apply Forall_app. auto.
        * apply NoDup_app_intro; auto; [apply Hcyc|]. intros i Hi Hi'. apply Hcn in Hi'. tauto.
        * intros i Hi. apply in_app_or in Hi. destruct Hi; auto. apply Hcn; auto.
        * rewrite app_length. cbn. lia.
  Qed.

  (** [_group_to_cyclic]'s walk finds the lengths of the cycles. *)
  Theorem cycle_lengths_spec : exists cs, cycle_decomposition p cs /\ cycle_lengths p = Ok (map (@length nat) cs).
  Proof.
    pose proof Hp as [Hl _]. destruct (lens_spec n []) as [cs [H1 [H2 [H3 H4]]]]; cbn; auto; try lia; try constructor.
    - exists cs. split.
      + split; auto. apply NoDup_Permutation; auto; [apply seq_NoDup|]. intros. rewrite H3, in_seq. lia.
      + unfold cycle_lengths. rewrite Hl. cbn in H4. rewrite <- H4. f_equal.
        unfold vis. cbn. clear. generalize 0 at 3. induction n as [|m IH]; intros k; cbn; auto. f_equal. auto.
  Qed.
End Walk.

(** ** Directions fixed by a power of a permutation *)
Lemma cycle_iter p c k j : is_cycle p c -> j < length c ->
  Nat.iter k (fun b => nth b p 0) (nth j c 0) = nth ((j + k) mod length c) c 0.
Proof.
  intros [Hne [Hnd Hc]] Hj. induction k as [|k IH]; cbn.
  - rewrite Nat.add_0_r, Nat.mod_small; auto.
  - unfold Nat.iter in IH. rewrite IH. rewrite Hc by (apply Nat.mod_upper_bound; lia). f_equal.
    rewrite Nat.add_succ_r. rewrite <- (Nat.add_1_r ((j + k) mod length c)), <- (Nat.add_1_r (j + k)).
    rewrite Nat.add_mod_idemp_l by lia. auto.
Qed.
Lemma cycle_fixed p c k j : is_cycle p c -> j < length c ->
  (Nat.iter k (fun b => nth b p 0) (nth j c 0) =? nth j c 0) = (k mod length c =? 0).
Proof.
  intros Hcy Hj. rewrite (cycle_iter p c k j Hcy Hj). destruct Hcy as [Hne [Hnd Hc]].
  apply eq_true_iff_eq. rewrite !Nat.eqb_eq. assert (length c <> 0) by lia.
  split.
  - intros E. apply (proj1 (NoDup_nth c 0) Hnd) in E; auto; [|apply Nat.mod_upper_bound; lia].
    rewrite <- Nat.add_mod_idemp_r in E by lia.
    pose proof (Nat.mod_upper_bound k (length c) H). set (r := k mod length c) in *.
    destruct (Nat.lt_ge_cases (j + r) (length c)).
    + rewrite Nat.mod_small in E; lia.
    + replace (j + r) with ((j + r - length c) + 1 * length c) in E by lia.
      rewrite Nat.mod_add in E by lia. rewrite Nat.mod_small in E by lia. lia.
  - intros E. rewrite <- Nat.add_mod_idemp_r, E, Nat.add_0_r, Nat.mod_small by lia. auto.
Qed.

Theorem fixed_directions_count sigma cs k : cycle_decomposition sigma cs ->
  length (fixed_directions sigma k) = arrow_coef (map (@length nat) cs) k.
Proof.
  intros [Hperm Hc]. unfold fixed_directions, arrow_coef. rewrite length_filter_sumf.
  rewrite <- (sumf_perm _ _ _ Hperm).
  clear Hperm. induction Hc as [|c cs Hcy Hcs IH]; auto. cbn [concat map]. rewrite sumf_app, IH. cbn [filter].
  assert (sumf (fun a => b2n (Nat.iter k (fun b => nth b sigma 0) a =? a)) c =
          if k mod length c =? 0 then length c else 0) as ->.
  { rewrite (sumf_ext _ (fun _ => b2n (k mod length c =? 0))).
    - rewrite sumf_const. destruct (k mod length c =? 0); cbn; lia.
    - intros a Ha. apply In_nth with (d := 0) in Ha. destruct Ha as [j [Hj <-]]. f_equal. apply cycle_fixed; auto. }
  destruct (k mod length c =? 0); cbn; auto.
Qed.
