(** [add_arrows] with [small=True]: sampled arrow arrangements (C51), and its failure to end. *)
From Coq Require Import Permutation.
From Verif Require Import PyBase Spec ListFacts PermFacts PhononsModel ColorProofs TreeSearch BranchRun ArrowProofs DecoFacts ArrowEnum.
Local Open Scope Z_scope.

Section Small.
  Variables (n m : nat) (dim : Z) (col : list site) (A : list op).
  Hypothesis Hm : Z.of_nat m = dim.
  Hypothesis Hdim : 0 < dim.
  Hypothesis Hn : length col = n.
  Hypothesis HAp : forall g, In g A -> is_perm n (fst g) /\ is_perm m (snd g).
  Notation mm := (length (filter arrowed col)).
  Notation wof := (wof dim col).
  Notation arr := (arr dim col).
  Notation maxp := (dim ^ Z.of_nat mm - 1).
  Variable draw : nat -> Z.
  Hypothesis Hdraw : forall k, 0 <= draw k < maxp.

  Lemma redraw_spec fuel : forall h visited k h' k', 0 <= h < maxp -> redraw draw fuel h visited k = Ok (h', k') ->
    ~ In h' visited /\ 0 <= h' < maxp.
  Proof.
    induction fuel as [|fuel IH]; intros h visited k h' k' Hh; cbn [redraw]; destruct (existsb (Z.eqb h) visited) eqn:E; intros H; try discriminate.
    - inversion H; subst. split; auto. intros Hin. assert (existsb (Z.eqb h') visited = true) by (apply existsb_exists; exists h'; split; auto; apply Z.eqb_refl). congruence.
    - eapply IH; [|exact H]. apply Hdraw.
    - inversion H; subst. split; auto. intros Hin. assert (existsb (Z.eqb h') visited = true) by (apply existsb_exists; exists h'; split; auto; apply Z.eqb_refl). congruence.
  Qed.
  Lemma unseen_spec w h visited : arr w -> forall A', incl A' A -> exists b,
    arrow_unseen A' w h dim visited = Ok b /\
    (b = true -> forall g, In g A' -> In (ahash (arrs (act_op g w)) dim) visited -> ahash (arrs (act_op g w)) dim = h).
  Proof.
    intros Hw. induction A' as [|g A' IH]; intros Hi; [exists true; split; auto; intros _ g []|]. cbn [arrow_unseen].
    destruct (HAp g) as [Hp1 Hp2]; [apply Hi; cbn; auto|].
    rewrite (permuted_arrows_spec n m dim) by (auto; try apply Hw; apply (arr_length n dim col); auto). cbn [rbind].
    destruct (existsb (Z.eqb (ahash (arrs (act_op g w)) dim)) visited && negb (ahash (arrs (act_op g w)) dim =? h)) eqn:E.
    - exists false. split; auto. discriminate.
    - destruct IH as [b [Eb Hb]]; [intros x Hx; apply Hi; cbn; auto|]. exists b. split; auto. intros Ht g' [<-|Hg']; auto.
      intros Hin. apply andb_false_iff in E. destruct E as [E|E].
      + assert (existsb (Z.eqb (ahash (arrs (act_op g w)) dim)) visited = true); [|congruence]. apply existsb_exists. eexists. split; eauto. apply Z.eqb_refl.
      + apply negb_false_iff, Z.eqb_eq in E. auto.
  Qed.

  Lemma range_bound (l : list Z) b : NoDup l -> (forall x, In x l -> 0 <= x < b) -> Z.of_nat (length l) <= Z.max b 0.
  Proof.
    intros Hnd Hl. assert (incl l (range_up 0 b)) as Hi by (intros x Hx; apply in_range_up; auto).
    apply NoDup_incl_length in Hi; auto. unfold range_up in Hi. rewrite map_length, seq_length in Hi. lia.
  Qed.

  (** What the loop maintains: everything drawn so far is in [visited]. *)
  Definition inv (visited : list Z) (ars : list (list site)) : Prop :=
    NoDup visited /\ (forall x, In x visited -> 0 <= x < maxp) /\ (length ars <= length visited)%nat /\
    (forall w, In w ars -> exists h, In h visited /\ w = wof h).
  Definition inv_sep (visited : list Z) (ars : list (list site)) : Prop :=
    inv visited ars /\ ForallOrdPairs (fun r s => ~ op_equiv A r s) ars.

  Lemma dim_pow : 0 < dim ^ Z.of_nat mm.
  Proof. apply Z.pow_pos_nonneg; lia. Qed.

  Lemma step_inv visited ars h b : inv visited ars -> ~ In h visited -> 0 <= h < maxp ->
    inv (visited ++ [h]) (if b : bool then ars ++ [wof h] else ars).
  Proof.
    intros [H1 [H2 [H3 H4]]] Hh Hr. split; [|split; [|split]].
    - apply (Permutation_NoDup (l := h :: visited)); [apply Permutation_cons_append|constructor; auto].
    - intros x Hx. apply in_app_or in Hx. destruct Hx as [Hx|[<-|[]]]; auto.
    - rewrite app_length. destruct b; rewrite ?app_length; cbn; lia.
    - intros w Hw. assert (In w ars \/ w = wof h) as [Hw'|Hw'].
      { destruct b; auto. apply in_app_or in Hw. destruct Hw as [Hw|[<-|[]]]; auto. }
      + destruct (H4 w Hw') as [h0 [Hh0 E]]. exists h0. split; auto. apply in_or_app; auto.
      + exists h. split; auto. apply in_or_app; cbn; auto.
  Qed.

  Lemma small_loop_inv (P : list Z -> list (list site) -> Prop) num_wanted :
    (forall visited ars h b, P visited ars -> ~ In h visited -> 0 <= h < maxp -> arrow_unseen A (wof h) h dim (visited ++ [h]) = Ok b ->
       P (visited ++ [h]) (if b then ars ++ [wof h] else ars)) ->
    forall fuel h visited ars k L k', P visited ars -> 0 <= h < maxp -> (length ars <= num_wanted)%nat ->
    add_arrows_small_loop draw fuel col A dim num_wanted h visited ars k = Ok (L, k') ->
    length L = num_wanted /\ exists visited', P visited' L.
  Proof.
    intros Hstep. induction fuel as [|fuel IH]; intros h visited ars k L k' HP Hh Hlen; cbn [add_arrows_small_loop];
      destruct (Nat.ltb_spec (length ars) num_wanted) as [Hlt|Hge]; intros E; try discriminate.
    - inversion E; subst. split; [lia|eauto].
    - destruct (redraw draw fuel h visited k) as [[h' k1]|e] eqn:Er; [|discriminate]. cbn [rbind] in E.
      destruct (redraw_spec fuel h visited k h' k1 Hh Er) as [Hnew Hr'].
      destruct (wof_spec n m dim col Hdim Hn h') as [E1 [E2 [E3 E4]]]; [lia|].
      rewrite E1 in E. cbn [rbind] in E. destruct (unseen_spec (wof h') h' (visited ++ [h']) E2 A (incl_refl _)) as [b [Eb Hb]].
      rewrite Eb in E. cbn [rbind] in E. apply (IH h' (visited ++ [h']) (if b then ars ++ [wof h'] else ars) k1 L k'); [apply Hstep; auto|exact Hr'|destruct b; rewrite ?app_length; cbn; lia|exact E].
    - inversion E; subst. split; [lia|eauto].
  Qed.

  (** Asking for more than can be drawn never succeeds. *)
  Theorem small_never num_wanted fuel k r : Z.max maxp 0 < Z.of_nat num_wanted -> add_arrows_small draw fuel col A dim num_wanted k <> Ok r.
  Proof.
    intros Hbig. unfold add_arrows_small. rewrite how_many_arrows_count, ahash_max by auto.
    destruct (maxp <=? 0); [discriminate|]. intros E. destruct r as [L k'].
    destruct (small_loop_inv inv num_wanted) with (fuel := fuel) (h := draw k) (visited := @nil Z) (ars := @nil (list site)) (k := S k) (L := L) (k' := k') as [Hl [vis Hv]]; auto.
    - intros. apply step_inv; auto.
    - split; [constructor|]. split; [intros x []|]. split; [cbn; lia|intros w []].
    - cbn. lia.
    - destruct Hv as [H1 [H2 [H3 _]]]. apply range_bound in H2; auto. lia.
  Qed.

  (** A result has the number wanted of arrangements, no two of them equivalent. *)
  Hypothesis HA : op_group n m A.
  Hypothesis Hfix : forall g, In g A -> act (-1, 0) (fst g) (map skeleton col) = map skeleton col.

  Theorem small_sound num_wanted fuel k L k' : add_arrows_small draw fuel col A dim num_wanted k = Ok (L, k') ->
    length L = num_wanted /\ (forall w, In w L -> arr w) /\ ForallOrdPairs (fun r s => ~ op_equiv A r s) L.
  Proof.
    unfold add_arrows_small. rewrite how_many_arrows_count, ahash_max by auto.
    destruct (maxp <=? 0); [discriminate|]. intros E.
    destruct (small_loop_inv inv_sep num_wanted) with (fuel := fuel) (h := draw k) (visited := @nil Z) (ars := @nil (list site)) (k := S k) (L := L) (k' := k') as [Hl [vis [Hv Hs]]]; auto.
    - intros visited ars h b [Hi Hsep] Hnew Hr Eb. split; [apply step_inv; auto|]. destruct b; auto.
      destruct (wof_spec n m dim col Hdim Hn h) as [E1 [E2 [E3 E4]]]; [lia|].
      destruct (unseen_spec (wof h) h (visited ++ [h]) E2 A (incl_refl _)) as [b' [Eb' Hb]]. rewrite Eb in Eb'. inversion Eb'; subst b'. specialize (Hb eq_refl).
      assert (forall w, In w ars -> ~ op_equiv A w (wof h)) as Hout.
      { intros w Hw Heq. destruct Hi as [_ [Hir [_ Hi]]]. destruct (Hi w Hw) as [h0 [Hh0 ->]]. specialize (Hir h0 Hh0).
        destruct (wof_spec n m dim col Hdim Hn h0) as [F1 [F2 [F3 F4]]]; [lia|].
        destruct (op_equiv_sym n m dim A Hm HA (wof h0) (wof h)) as [g [Hg Eg]]; auto; [eapply arr_okw; eauto|].
        specialize (Hb g Hg). rewrite <- Eg, F4 in Hb. rewrite Hb in Hh0; [contradiction|apply in_or_app; auto]. }
      clear - Hsep Hout. induction Hsep as [|a l Ha Hl IH]; cbn; [repeat constructor|]. constructor.
      + apply Forall_app. split; auto. constructor; auto. apply Hout. left; auto.
      + apply IH. intros w Hw. apply Hout. right; auto.
    - split; [|constructor]. split; [constructor|]. split; [intros x []|]. split; [cbn; lia|intros w []].
    - cbn. lia.
    - split; auto. split; auto. intros w Hw. destruct Hv as [_ [Hr [_ Hv]]]. destruct (Hv w Hw) as [h [Hh ->]]. apply (wof_spec n m); auto. specialize (Hr h Hh). lia.
  Qed.
End Small.
