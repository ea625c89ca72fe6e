(** Proofs for C44: lattice parameter and title. *)
From Coq Require Import QArith Lqa.
From Verif Require Import TextModel TextProofs PyBase Mat3 MapModel PoscarModel PoscarSpec PoscarProofs.
Local Open Scope Z_scope.

Lemma fold_left_zsum l : forall a, fold_left Z.add l a = a + zsum l.
Proof. induction l as [|x l IH]; intros a; cbn [fold_left zsum fold_right]; [lia|]. rewrite IH. cbn [zsum]. fold (zsum l). lia. Qed.
Definition shows (rz : flag) (p : string * Z) : bool := (0 <? snd p) || negb (truthy rz).
Lemma lattice_loop param rz l : (forall e c, In (e, c) l -> known e) -> forall tot tl, exists tot',
  rfold (fun '(total, title) '(e, c) =>
           do p <- lat_param_element param e;
           Ok ((total + inject_Z c * p)%Q, if (0 <? c) || negb (truthy rz) then (title ++ " " ++ e ++ " ")%string else title)) l (tot, tl) =
  Ok (tot', (tl ++ fold_right (fun e s => " " ++ e ++ " " ++ s) EmptyString (map fst (filter (shows rz) l)))%string) /\ (tot' == tot + weighted param l)%Q.
Proof.
  induction l as [|[e c] l IH]; intros Hk tot tl.
  - exists tot. cbn. rewrite app_nil_s. split; auto. ring.
  - destruct (Hk e c (or_introl eq_refl)) as [v Hv]. cbn [rfold]. unfold lat_param_element. rewrite Hv. cbn [rbind filter]. unfold shows at 1. cbn [snd].
    destruct (IH (fun e' c' H => Hk e' c' (or_intror H)) (tot + inject_Z c * param v)%Q (if (0 <? c) || negb (truthy rz) then (tl ++ " " ++ e ++ " ")%string else tl)) as [tot' [E Ht]].
    exists tot'. split.
    + unfold lat_param_element in E. etransitivity; [exact E|]. f_equal. f_equal. destruct ((0 <? c) || negb (truthy rz)); cbn [map fold_right fst]; auto. rewrite !app_assoc_s. reflexivity.
    + rewrite Ht. cbn [weighted fold_right fst snd]. fold (weighted param l). rewrite Hv. ring.
Qed.
Lemma weighted_bounds param l (lo hi : Q) : (forall e c, In (e, c) l -> known e /\ 0 <= c) ->
  (forall e c v, In (e, c) l -> 0 < c -> element_volume e = Ok v -> (lo <= param v /\ param v <= hi)%Q) ->
  (lo * inject_Z (zsum (map snd l)) <= weighted param l /\ weighted param l <= hi * inject_Z (zsum (map snd l)))%Q.
Proof.
  induction l as [|[e c] l IH]; intros Hk Hb; [cbn [map zsum fold_right weighted]; change (inject_Z 0) with 0%Q; split; lra|]. destruct (Hk e c (or_introl eq_refl)) as [[v Hv] Hc].
  destruct IH as [I1 I2]; [intros; apply Hk; right; auto|intros e' c' v' H; apply Hb with (e := e'); right; auto|].
  cbn [map snd zsum fold_right weighted fst]. fold (zsum (map snd l)). fold (weighted param l). rewrite Hv, inject_Z_plus.
  assert (0 <= inject_Z c)%Q as Hc' by (change 0%Q with (inject_Z 0); rewrite <- Zle_Qle; auto).
  destruct (Z.eq_dec c 0) as [->|Hne]; [change (inject_Z 0) with 0%Q; split; lra|].
  destruct (Hb e c v (or_introl eq_refl) ltac:(lia) Hv) as [B1 B2]. generalize dependent (inject_Z c). generalize dependent (param v). clear - I1 I2. intros p B1 B2 q Hq. split; nra.
Qed.
Lemma lattice_parameter_ok param es concs def rz : length es = length concs -> (forall e, In e es -> known e) -> (forall c, In c concs -> 0 <= c) -> 0 < zsum concs ->
  exists q t, get_lattice_parameter param (Some es) concs def rz = Ok (q, t) /\
    titled (map fst (filter (shows rz) (combine es concs))) (lstrip (rstrip def)) t /\ (q == weighted param (combine es concs) / inject_Z (zsum concs))%Q.
Proof.
  intros Hl Hk Hc Hs. unfold get_lattice_parameter. rewrite Hl, Nat.eqb_refl. cbn [negb].
  destruct (lattice_loop param rz (combine es concs) (fun e c H => Hk e (in_combine_l _ _ _ _ H)) 0%Q EmptyString) as [tot [E Ht]]. rewrite E. cbn [rbind].
  rewrite fold_left_zsum. rewrite Z.add_0_l. destruct (Z.eqb_spec (zsum concs) 0); [lia|]. eexists _, _. split; [reflexivity|]. split; [reflexivity|].
  rewrite Ht. rewrite Qplus_0_l. reflexivity.
Qed.
Lemma map_snd_combine {A B} (l : list A) (m : list B) : length l = length m -> map snd (combine l m) = m.
Proof. revert m. induction l as [|a l IH]; intros [|b m] H; cbn in *; try lia; auto. f_equal. apply IH. lia. Qed.
Lemma lattice_parameter_bounds param es concs (q lo hi : Q) : length es = length concs -> (forall e, In e es -> known e) -> (forall c, In c concs -> 0 <= c) -> 0 < zsum concs ->
  (q == weighted param (combine es concs) / inject_Z (zsum concs))%Q ->
  (forall e c v, In (e, c) (combine es concs) -> 0 < c -> element_volume e = Ok v -> (lo <= param v /\ param v <= hi)%Q) -> (lo <= q /\ q <= hi)%Q.
Proof.
  intros Hl Hk Hc Hs Eq Hb. destruct (weighted_bounds param (combine es concs) lo hi) as [B1 B2]; auto.
  { intros e c H. split; [apply Hk; eapply in_combine_l; eauto|apply Hc; eapply in_combine_r; eauto]. }
  rewrite map_snd_combine in B1, B2 by auto. assert (0 < inject_Z (zsum concs))%Q as Hp by (change 0%Q with (inject_Z 0); rewrite <- Zlt_Qlt; auto).
  rewrite Eq. split; [apply Qle_shift_div_l; auto|apply Qle_shift_div_r; auto].
Qed.
