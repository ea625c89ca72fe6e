(** The first operations of the symmetry group of a supercell are its translations. *)
From Coq Require Import Permutation Sorted.
From Verif Require Import PyBase Spec ListFacts PermFacts CanonProofs Mat3 HNFModel LatSpec LatGroupModel LatFacts LatSites LatProofs LatMain LatTop LatGroupThm TransPerm LatNoDup.
Local Open Scope Z_scope.

Lemma lex_seq_min (l : list nat) a : NoDup l -> (forall x, In x l -> (a <= x)%nat) -> lex_leb (seq a (length l)) l = true.
Proof.
  revert a. induction l as [|x l IH]; intros a Hn Ha; auto. cbn [length seq lex_leb]. inversion Hn; subst.
  pose proof (Ha x ltac:(cbn; auto)). destruct (Nat.ltb_spec a x); auto. assert (x = a) as -> by lia. rewrite Nat.eqb_refl.
  apply IH; auto. intros y Hy. pose proof (Ha y ltac:(cbn; auto)). assert (y <> a) by (intros ->; auto). lia.
Qed.
Lemma group_runs_head x l : exists m, group_runs (x :: l) = x :: m.
Proof.
  revert x. induction l as [|y l IH]; intros x; [exists []; auto|]. cbn [group_runs].
  destruct (nlist_eqb x y) eqn:E.
  - apply nlist_eqb_spec in E. subst y. destruct (IH x) as [m Em]. exists m. exact Em.
  - eexists. reflexivity.
Qed.
Lemma sorted_first l N : (forall p, In p l -> is_perm N p) -> In (idperm N) l -> exists m, group_runs (lex_sort l) = idperm N :: m.
Proof.
  intros Hp Hid. pose proof (lex_sort_sorted l) as Hs. assert (In (idperm N) (lex_sort l)) as Hid' by (apply lex_sort_in; auto).
  destruct (lex_sort l) as [|h s] eqn:E; [destruct Hid'|]. enough (h = idperm N) as -> by apply group_runs_head.
  assert (In h l) as Hh by (apply lex_sort_in; rewrite E; cbn; auto). destruct (Hp h Hh) as [L1 [L2 L3]].
  assert (lex_leb (idperm N) h = true) as H1.
  { unfold idperm. rewrite <- L1. apply lex_seq_min; auto. intros; lia. }
  destruct Hid' as [E'|Hin]; [auto|]. apply lex_antisym; auto. inversion Hs as [|? ? _ Hf]; subst. rewrite Forall_forall in Hf. apply (Hf _ Hin).
Qed.
Lemma reduce_first rps aps N : length rps = length aps -> (forall p, In p rps -> is_perm N p) -> In (idperm N) rps ->
  exists a m, reduce_rotations false rps aps = (idperm N, a) :: m.
Proof.
  intros Hl Hp Hid. unfold reduce_rotations. destruct (Nat.leb_spec (length rps) 1) as [Hle|Hgt].
  - destruct rps as [|r [|r' rps]]; cbn in Hle; try lia; [destruct Hid|]. destruct Hid as [->|[]]. destruct aps as [|a aps]; [discriminate|]. cbn. eauto.
  - destruct (sorted_first rps N Hp Hid) as [m Em]. rewrite Em. cbn [length firstn]. destruct aps as [|a aps]; [cbn in Hl; lia|]. cbn [combine]. eauto.
Qed.

Section First.
Variables (pg : list (mat * mat)) (D : Z) (bas : list vec) (H L B : mat) (diag : vec).
Hypothesis HD : 0 < D.
Hypothesis Hne : bas <> [].
Hypothesis Hred : forall d, In d bas -> reduced (D, D, D) d.
Hypothesis Hnd : NoDup bas.
Hypothesis Hpg : forall C R, In (C, R) pg -> unimodular C /\ orthogonal R.
Hypothesis Hid : In (mid, mid) pg.
Hypothesis HL : unimodular L.
Hypothesis HB : unimodular B.
Hypothesis Hsnf : mmul (mmul L H) B = diagonal diag.
Hypothesis Hpos : positive diag.
Hypothesis Hsmall : forall i, (i < 3)%nat -> vget diag i <= 10 ^ 5.
Hypothesis Hself : self_inverse_on_basis pg D bas H.
Notation n := (Z.to_nat (volume diag)).
Notation N := (length bas * n)%nat.
Notation g := (make_member_list diag).

Lemma first_operations G : get_sym_group pg D bas H L diag false = Ok G ->
  firstn n G = map (fun t => (t, idperm 6)) (translation_perms n (length bas) diag g) /\ (n <= length G)%nat.
Proof.
  intros E. assert (forall C R, In (C, R) pg -> unimodular C) as Huni by (intros C R Hin; apply (Hpg C R); auto).
  assert (forall C R, In (C, R) pg -> orthogonal R) as Horth by (intros C R Hin; apply (Hpg C R); auto).
  destruct (sym_group_shape pg D bas HD Hred Hnd Hne Huni H L B diag HL HB Hsnf Hpos Hsmall Hself false Horth) as [pairs [E' [Hp HF]]].
  rewrite E in E'. inversion E' as [EG]. clear E E'. cbv zeta in Hp.
  assert (In (idperm N) (map fst pairs)) as Hin.
  { apply in_map_iff. exists (idperm N, idperm 6). split; auto. apply Hp. exists {| rot := mid; cart := mid; shift := (0, 0, 0) |}. cbn [rot cart shift].
    split; [|split; [apply fixes_id|split; [apply (induces_id D bas L diag HD Hred Hnd Hpos)|apply turns_id]]].
    apply (spaceGroup_in pg D bas HD Hred Hnd Hne Huni). cbn [rot cart shift]. split; auto. split; [|apply symmetry_id].
    intros i Hi. destruct i as [|[|[|]]]; cbn; lia. }
  destruct (reduce_first (map fst pairs) (map snd pairs) N) as [a [m Em]]; auto.
  { rewrite !map_length. auto. }
  { intros p Hpin. apply in_map_iff in Hpin. destruct Hpin as [[p' a] [E1 Hpa]]. cbn in E1. subst p'. apply Hp in Hpa. destruct Hpa as [o [Ho [Hf [Hi _]]]].
    apply (spaceGroup_in pg D bas HD Hred Hnd Hne Huni) in Ho. destruct Ho as [Ho1 [_ Ho2]].
    apply (induces_perm D bas H L B diag HD Hred Hnd HL HB Hsnf Hpos (rot o) (shift o) p); auto. apply (Huni _ _ Ho1). }
  rewrite Em. cbn [flat_map]. set (F := map _ (translation_perms n (length bas) diag g)).
  assert (F = map (fun t => (t, idperm 6)) (translation_perms n (length bas) diag g)) as EF.
  { unfold F. apply map_ext_in. intros t Ht. f_equal. apply in_map_iff in Ht. destruct Ht as [u [<- _]].
    change (comp (idperm N) (translation_perm n (length bas) diag g u) = translation_perm n (length bas) diag g u).
    apply comp_id_l. apply (tperm_length diag (length bas) Hpos Hsmall). }
  rewrite EF. clear F EF Em. set (F := map _ _).
  assert (length F = n) as HFl by (unfold F, translation_perms; rewrite !map_length; apply member_length; auto).
  split.
  - rewrite firstn_app, HFl, Nat.sub_diag, firstn_O, app_nil_r. apply firstn_all2. lia.
  - rewrite app_length. lia.
Qed.
End First.
