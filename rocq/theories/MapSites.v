(** The points visited and the sites of the supercell (C35). *)
From Coq Require Import Permutation.
From Verif Require Import TextModel PyBase Spec ListFacts TransFacts TreeSearch HNFProofs Mat3 HNFModel LatSpec LatGroupModel LatFacts LatSites StructSpec StructProofs MapModel MapSpec MapProofs.
Local Open Scope Z_scope.

Section Map.
Variables (D : Z) (bas : list vec) (H L B : mat) (diag : vec).
Hypothesis HD : 0 < D.
Hypothesis Hred : forall d, In d bas -> reduced (D, D, D) d.
Hypothesis Hnd : NoDup bas.
Hypothesis HL : unimodular L.
Hypothesis HB : unimodular B.
Hypothesis Hsnf : mmul (mmul L H) B = diagonal diag.
Hypothesis Hpos : positive diag.
Hypothesis Hvol : volume diag = mdet H.
Hypothesis Hh : hnf_form H.
Variable lim : limits.
Hypothesis Hfull : full lim H.
Notation n := (Z.to_nat (volume diag)).
Notation N := (length bas * n)%nat.
Notation pts := (points lim (mget H 0 0) (length bas)).
Notation same_site := (fun x y => exists k, in_lattice H k /\ y = vadd x (vscale D k)).

Lemma in_points iD z : In (iD, z) pts <-> (iD < length bas)%nat /\ In z (cells lim (mget H 0 0)).
Proof.
  unfold points. rewrite in_flat_map. split.
  - intros [x [Hx Hp]]. apply in_seq in Hx. apply in_map_iff in Hp as [w [E Hw]]. inversion E; subst. split; auto. lia.
  - intros [H1 H2]. exists iD. split; [apply in_seq; lia|]. apply in_map. auto.
Qed.
Lemma points_NoDup : NoDup pts.
Proof.
  unfold points. apply NoDup_flat_map; [apply seq_NoDup| |].
  - intros. apply NoDup_map_inj; [intros x0 y _ _ E; congruence|apply cells_NoDup].
  - intros x y z _ _ Hx Hy. apply in_map_iff in Hx as [u [<- _]]. apply in_map_iff in Hy as [v [E _]]. congruence.
Qed.
Lemma g_index_si iD z : g_index L diag (iD, z) = Z.of_nat (si L diag iD z).
Proof.
  unfold si, cellnr. pose proof (rank_bound diag _ (vmod_reduced diag (mvec L z) Hpos)) as Hr. rewrite Nat2Z.inj_add, Nat2Z.inj_mul, !Z2Nat.id by lia.
  unfold g_index. cbn [fst snd]. destruct diag as [[a b] c], (mvec L z) as [[g0 g1] g2]. cbn [vmod rank volume]. ring.
Qed.
Lemma position_pt iD z : position D bas (iD, z) = pt D bas iD z.
Proof. reflexivity. Qed.
Lemma map_length_ok : length pts = N.
Proof. rewrite points_length. f_equal. pose proof (full_length lim H Hh Hfull). lia. Qed.
Lemma point_site p : In p pts -> is_site D bas L diag (position D bas p) (Z.to_nat (g_index L diag p)) /\ 0 <= g_index L diag p < Z.of_nat N.
Proof.
  destruct p as [iD z]. intros Hp. apply in_points in Hp as [Hi Hz]. rewrite g_index_si, Nat2Z.id. split.
  - apply (site_iff D bas L diag Hpos). exists iD, z. auto.
  - pose proof (si_lt bas L diag Hpos iD z Hi). lia.
Qed.
Lemma g_index_inj p q : In p pts -> In q pts -> g_index L diag p = g_index L diag q -> p = q.
Proof.
  destruct p as [iD z], q as [jD w]. intros Hp Hq. apply in_points in Hp as [Hi Hz]. apply in_points in Hq as [Hj Hw]. rewrite !g_index_si. intros E.
  apply Nat2Z.inj in E. apply (si_inj L diag Hpos) in E as [<- E]. apply (cellnr_eq H L B diag HL HB Hsnf Hpos) in E. f_equal. eapply cells_apart; eauto.
Qed.
Lemma g_permutation : Permutation (map (g_index L diag) pts) (map Z.of_nat (seq 0 N)).
Proof.
  apply NoDup_Permutation_bis.
  - apply NoDup_map_inj; [apply g_index_inj|apply points_NoDup].
  - rewrite !map_length, seq_length, map_length_ok. auto.
  - intros g Hg. apply in_map_iff in Hg as [p [<- Hp]]. destruct (point_site p Hp) as [_ Hr]. apply in_map_iff. exists (Z.to_nat (g_index L diag p)). split; [lia|apply in_seq; lia].
Qed.
Lemma points_transversal : transversal (crystal_point D bas) same_site (map (position D bas) pts).
Proof.
  split; [|split].
  - intros x Hx. apply in_map_iff in Hx as [p [<- Hp]]. apply (site_point D bas L diag Hpos) with (i := Z.to_nat (g_index L diag p)). apply point_site; auto.
  - intros x Hx. destruct (site_exists D bas L diag Hpos x Hx) as [i [Hi Hs]].
    assert (In (Z.of_nat i) (map (g_index L diag) pts)) as Hin.
    { apply (Permutation_in _ (Permutation_sym g_permutation)). apply in_map. apply in_seq. lia. }
    apply in_map_iff in Hin as [p [E Hp]]. exists (position D bas p). split; [apply in_map; auto|].
    apply (site_same D bas H L B diag HL HB Hsnf Hpos x _ i Hs). destruct (point_site p Hp) as [Hps _]. rewrite E, Nat2Z.id in Hps. auto.
  - pose proof points_NoDup as Hd. assert (forall p, In p pts -> In p pts) as Hsub by auto. revert Hd Hsub. generalize pts at 1 2 4. intros l. induction l as [|p l IH]; intros Hd Hsub; [constructor|]. cbn [map].
    inversion Hd; subst. constructor; [|apply IH; auto; intros; apply Hsub; right; auto]. apply Forall_forall. intros y Hy E. apply in_map_iff in Hy as [q [<- Hq]].
    destruct (point_site p (Hsub p (or_introl eq_refl))) as [S1 R1]. destruct (point_site q (Hsub q (or_intror Hq))) as [S2 R2].
    apply (site_same D bas H L B diag HL HB Hsnf Hpos _ _ _ S1) in E. pose proof (site_fun D bas L diag HD Hred Hnd Hpos _ _ _ E S2).
    assert (p = q) by (apply g_index_inj; [apply Hsub; left; auto|apply Hsub; right; auto|lia]). subst. contradiction.
Qed.
End Map.
