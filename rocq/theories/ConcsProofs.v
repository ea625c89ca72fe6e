(** Proofs about get_concs_for_size. *)
From Verif Require Import PyBase Spec ListFacts TreeSearch HashProofs ConcsModel.
Local Open Scope Z_scope.

(** ** Unrestricted *)
Lemma in_product_repeat {A} (l : list A) n w :
  In w (product_repeat l n) <-> length w = n /\ forall a, In a w -> In a l.
Proof. exact (in_words l n w). Qed.
Lemma NoDup_product_repeat {A} (l : list A) n : NoDup l -> NoDup (product_repeat l n).
Proof. exact (NoDup_words l n). Qed.
Lemma sum_Z_ge l : (forall a, In a l -> 0 <= a) -> 0 <= sum_Z l /\ forall a, In a l -> a <= sum_Z l.
Proof.
  induction l as [|x l IH]; intros H; cbn; [split; [lia|tauto]|]. fold (sum_Z l).
  destruct IH as [H1 H2]; [intros; apply H; cbn; auto|]. pose proof (H x ltac:(cbn; auto)).
  split; [lia|]. intros a [<-|Ha]; [lia|]. specialize (H2 a Ha). lia.
Qed.
Lemma in_unrestricted size nB k w : In w (concs_unrestricted size nB k) <->
  length w = k /\ (forall a, In a w -> 0 <= a) /\ sum_Z w = size * nB.
Proof.
  unfold concs_unrestricted. rewrite filter_In, in_product_repeat, Z.eqb_eq. split.
  - intros [[H1 H2] H3]. repeat split; auto. intros a Ha. specialize (H2 a Ha). apply in_range_up in H2. lia.
  - intros [H1 [H2 H3]]. repeat split; auto. intros a Ha. apply in_range_up.
    destruct (sum_Z_ge w H2) as [_ H4]. specialize (H4 a Ha). specialize (H2 a Ha). lia.
Qed.
Lemma NoDup_unrestricted size nB k : NoDup (concs_unrestricted size nB k).
Proof. apply NoDup_filter, NoDup_product_repeat, NoDup_range_up. Qed.

(** ** The odometer *)
Lemma skipn_skipn {A} (l : list A) m n : skipn m (skipn n l) = skipn (m + n) l.
Proof. revert l; induction n as [|n IH]; intros l; rewrite ?Nat.add_0_r, ?Nat.add_succ_r; auto.
       destruct l; cbn; rewrite ?skipn_nil; auto. Qed.
Lemma nth_skipn_plus {A} (l : list A) m i d : nth i (skipn m l) d = nth (m + i) l d.
Proof. revert l; induction m as [|m IH]; intros [|x l]; cbn; auto. destruct i; auto. Qed.
Section Odo.
  Variables (lo digit : list Z).
  Let k := length lo.
  Hypothesis dlen : length digit = k.
  Definition vals (d : list Z) : list Z := map (fun p => fst p + snd p) (combine lo d).
  Definition radix : list Z := map (fun m => m + 1) digit.

  Lemma vals_length d : length d = k -> length (vals d) = k.
  Proof. intros H. unfold vals. rewrite map_length, combine_length, H. fold k. lia. Qed.
  Lemma vals_nth d j : length d = k -> (j < k)%nat -> nth j (vals d) 0 = nth j lo 0 + nth j d 0.
  Proof.
    intros Hd Hj. unfold vals. rewrite (nth_map_lt _ _ _ (0, 0)) by (rewrite combine_length, Hd; fold k; lia).
    rewrite combine_nth by auto. auto.
  Qed.
  Lemma vals_upd d j x : length d = k -> (j < k)%nat -> upd (vals d) j (nth j lo 0 + x) = vals (upd d j x).
  Proof.
    intros Hd Hj. apply (nth_ext_len _ _ 0).
    - rewrite upd_length, !vals_length; rewrite ?upd_length; auto.
    - intros i Hi. rewrite upd_length, vals_length in Hi by auto.
      rewrite (vals_nth (upd d j x)) by (rewrite ?upd_length; auto).
      destruct (Nat.eq_dec i j) as [->|Hne].
      + rewrite !nth_upd_eq by (rewrite ?vals_length; lia). auto.
      + rewrite !nth_upd_neq by auto. apply vals_nth; auto.
  Qed.

  (** one step from p ++ v :: (maximal digits), v not maximal *)
  Lemma upd_app_here {A} (p : list A) v s x : upd (p ++ v :: s) (length p) x = p ++ x :: s.
  Proof. induction p as [|y p IH]; cbn; auto. rewrite IH; auto. Qed.

  Lemma odo_carry q : forall p r, length (p ++ q ++ r) = k -> (forall i, (i < length q)%nat -> nth i q 0 = nth (length p + i) digit 0) ->
    odometer lo digit (length p + length q) (vals (p ++ q ++ r)) (p ++ q ++ r) =
    odometer lo digit (length p) (vals (p ++ repeat 0 (length q) ++ r)) (p ++ repeat 0 (length q) ++ r).
  Proof.
    induction q as [|x q IH] using rev_ind; intros p r Hl Hq.
    - cbn. rewrite Nat.add_0_r. auto.
    - rewrite app_length in *. cbn [length] in *.
      replace (length p + (length q + 1))%nat with (S (length p + length q)) by lia. cbn [odometer].
      assert (length (p ++ q) = length p + length q)%nat as Hpq by apply app_length.
      rewrite !app_length in Hl. cbn [length] in Hl.
      assert (nth (length p + length q) (p ++ (q ++ [x]) ++ r) 0 = x) as Hn.
      { rewrite <- app_assoc, app_assoc, <- Hpq. cbn [app]. rewrite nth_middle. auto. }
      rewrite Hn. specialize (Hq (length q) ltac:(lia)) as Hx. rewrite nth_middle in Hx. rewrite <- Hx, Z.eqb_refl. cbn [negb].
      rewrite <- (Z.add_0_r (nth (length p + length q) lo 0)).
      rewrite vals_upd by (rewrite ?app_length; cbn [length]; lia).
      assert (upd (p ++ (q ++ [x]) ++ r) (length p + length q) 0 = p ++ q ++ 0 :: r) as Hu.
      { rewrite <- app_assoc, !app_assoc, <- Hpq. cbn [app]. rewrite <- !app_assoc. cbn [app]. rewrite app_assoc.
        rewrite upd_app_here. rewrite <- app_assoc. auto. }
      rewrite Hu. rewrite IH.
      + f_equal; [f_equal|]; f_equal; rewrite repeat_app, <- app_assoc; auto.
      + rewrite !app_length. cbn [length]. lia.
      + intros i Hi. rewrite <- (Hq i) by lia. rewrite app_nth1 by auto. auto.
  Qed.

  Definition maxes (cs : list Z) : list Z := map (fun r => r - 1) cs.
  Definition zeros (cs : list Z) : list Z := map (fun _ => 0) cs.

  Lemma skipn_radix_nth m i : (m + i < k)%nat -> nth i (maxes (skipn m radix)) 0 = nth (m + i) digit 0.
  Proof.
    intros H. unfold maxes, radix. rewrite skipn_map, map_map.
    rewrite (nth_map_lt _ _ _ 0) by (rewrite skipn_length; lia).
    rewrite nth_skipn_plus. lia.
  Qed.
  Lemma zeros_repeat cs : zeros cs = repeat 0 (length cs).
  Proof. induction cs as [|c cs IH]; auto. cbn. unfold zeros in *. rewrite IH. auto. Qed.

  Lemma odo_next p v cs : skipn (length p) radix = (nth (length p) digit 0 + 1) :: cs -> (length p + S (length cs) = k)%nat ->
    v <> nth (length p) digit 0 ->
    odometer lo digit k (vals (p ++ v :: maxes cs)) (p ++ v :: maxes cs) =
    Some (vals (p ++ (v + 1) :: zeros cs), p ++ (v + 1) :: zeros cs).
  Proof.
    intros Hs Hl Hv.
    assert (length (maxes cs) = length cs) as Hm by apply map_length.
    pose proof (odo_carry (maxes cs) (p ++ [v]) []) as H.
    rewrite !app_nil_r in H. rewrite <- !app_assoc in H. cbn [app] in H.
    assert (length (p ++ [v]) = S (length p)) as Hpv by (rewrite app_length; cbn; lia).
    rewrite Hpv, Hm in H. replace (S (length p) + length cs)%nat with k in H by lia.
    rewrite H; clear H.
    - cbn [odometer]. rewrite nth_middle.
      destruct (Z.eqb_spec v (nth (length p) digit 0)); [tauto|]. cbn [negb].
      rewrite <- zeros_repeat.
      assert (length (zeros cs) = length cs) as Hz by apply map_length.
      rewrite vals_upd by (rewrite ?app_length; cbn; rewrite ?Hz; lia).
      rewrite upd_app_here. auto.
    - rewrite app_length. cbn. rewrite Hm. lia.
    - intros i Hi. rewrite <- (skipn_radix_nth (S (length p))) by lia.
      replace (skipn (S (length p)) radix) with cs; auto.
      change (S (length p)) with (1 + length p)%nat. rewrite <- skipn_skipn, Hs. auto.
  Qed.
  Lemma odo_end : odometer lo digit k (vals (maxes radix)) (maxes radix) = None.
  Proof.
    pose proof (odo_carry (maxes radix) [] []) as H. cbn [app length plus] in H. rewrite !app_nil_r in H.
    assert (length (maxes radix) = k) as Hm by (unfold maxes, radix; rewrite !map_length; auto).
    rewrite Hm in H. rewrite H; auto. intros i Hi. pose proof (skipn_radix_nth 0 i) as Hs. cbn in Hs. apply Hs. lia.
  Qed.

  (** paths of the odometer *)
  Inductive path : list Z -> list (list Z) -> list Z -> Prop :=
  | path_one s : path s [s] s
  | path_step s s1 l s' : odometer lo digit k (vals s) s = Some (vals s1, s1) -> path s1 l s' -> path s (s :: l) s'.
  Lemma path_app s l s1 s2 m s3 : path s l s1 -> odometer lo digit k (vals s1) s1 = Some (vals s2, s2) -> path s2 m s3 ->
    path s (l ++ m) s3.
  Proof. induction 1; intros E H2; cbn; eapply path_step; eauto. Qed.

  Lemma path_codes cs : forall p, skipn (length p) radix = cs -> (length p + length cs = k)%nat ->
    Forall (fun r => 0 < r) cs ->
    path (p ++ zeros cs) (map (app p) (all_codes cs)) (p ++ maxes cs).
  Proof.
    induction cs as [|r cs IH]; intros p Hs Hl Hp.
    - cbn. rewrite app_nil_r. constructor.
    - inversion Hp as [|? ? Hr Hp']; subst. cbn [length] in Hl.
      assert (nth (length p) radix 0 = r) as Hn.
      { pose proof (nth_skipn_plus radix (length p) 0 0) as E. rewrite Hs, Nat.add_0_r in E. auto. }
      assert (nth (length p) digit 0 + 1 = r) as Hd.
      { rewrite <- Hn. unfold radix. rewrite (nth_map_lt _ _ _ 0) by lia. auto. }
      assert (forall v, path ((p ++ [v]) ++ zeros cs) (map (app (p ++ [v])) (all_codes cs)) ((p ++ [v]) ++ maxes cs)) as Hv.
      { intros v. apply IH; auto.
        - rewrite app_length. cbn [length]. rewrite Nat.add_comm, <- skipn_skipn, Hs. auto.
        - rewrite app_length. cbn. lia. }
      cbn [all_codes zeros maxes map].
      enough (forall m v, 0 <= v -> v + Z.of_nat m = r - 1 ->
        path (p ++ v :: zeros cs) (map (app p) (flat_map (fun v => map (cons v) (all_codes cs)) (range_up v r)))
             (p ++ (r - 1) :: maxes cs)) as Hall.
      { apply (Hall (Z.to_nat (r - 1)) 0); lia. }
      induction m as [|m IHm]; intros v H0 Hm.
      + assert (v = r - 1) by lia. subst v. rewrite range_up_cons, range_up_empty by lia. cbn [flat_map].
        rewrite app_nil_r, map_map. specialize (Hv (r - 1)). rewrite <- !app_assoc in Hv. cbn [app] in Hv.
        erewrite map_ext; [exact Hv|]. intros a. cbn. rewrite <- app_assoc. auto.
      + rewrite range_up_cons by lia. cbn [flat_map]. rewrite map_app, map_map.
        eapply path_app.
        * specialize (Hv v). rewrite <- !app_assoc in Hv. cbn [app] in Hv.
          erewrite map_ext; [exact Hv|]. intros a. cbn. rewrite <- app_assoc. auto.
        * apply odo_next; [rewrite Hs, Hd; auto|lia|lia].
        * apply IHm; lia.
  Qed.

  Section Loop.
    Variables (n : Z) (cs : list conc).
    Hypothesis klen : length cs = k.
    Definition keepb (a : list Z) : bool := (sum_Z a =? n) && fractions_ok n a cs.
    Lemma loop_path s l s' : path s l s' -> odometer lo digit k (vals s') s' = None ->
      forall fuel acc, (length l <= fuel)%nat ->
      concs_loop fuel n cs lo digit (vals s) s acc = Ok (acc ++ filter keepb (map vals l)).
    Proof.
      induction 1 as [s|s s1 l s' E Hp IH]; intros Hend fuel acc Hf; destruct fuel as [|fuel]; cbn in Hf; try lia;
        cbn [concs_loop]; rewrite klen.
      - rewrite Hend. cbn [map filter]. fold (keepb (vals s)). destruct (keepb (vals s)); cbn; rewrite ?app_nil_r; auto.
      - rewrite E. rewrite IH by (auto; lia). cbn [map filter]. fold (keepb (vals s)).
        destruct (keepb (vals s)); cbn; auto. rewrite <- app_assoc. auto.
    Qed.
  End Loop.
End Odo.

(** ** Restricted *)
Lemma fractions_ok_spec n a cs : length a = length cs ->
  fractions_ok n a cs = true <-> Forall2 (fraction_within n) cs a.
Proof.
  revert cs; induction a as [|x a IH]; intros [|c cs] H; try discriminate; cbn.
  - split; auto.
  - injection H as H. rewrite andb_true_iff, IH by auto.
    assert (fraction_ok n x c = true <-> fraction_within n c x) as E.
    { destruct c as [[u v] d]. unfold fraction_ok, fraction_within, c_min, c_max, c_den.
      rewrite andb_true_iff, !negb_true_iff, Z.ltb_ge, Z.gtb_ltb, Z.ltb_ge. tauto. }
    rewrite E. split; [intros [? ?]; constructor; auto|intros K; inversion K; auto].
Qed.

Section Restricted.
  Variables (size nB : Z) (cs : list conc) (c0 : conc) (cs' : list conc).
  Hypothesis Ecs : cs = c0 :: cs'.
  Let n := size * nB.
  Hypothesis npos : 0 < n.
  Hypothesis dpos : Forall (fun c => 0 < c_den c) cs.
  Let D := c_den c0.
  Let lo := map (vol_lo D size nB) cs.
  Let hi := map (vol_hi D size nB) cs.
  Let digit := map (fun p => snd p - fst p) (combine lo hi).

  Lemma D_pos : 0 < D.
  Proof. rewrite Ecs in dpos. inversion dpos; auto. Qed.
  Lemma lo_length : length lo = length cs.
  Proof. apply map_length. Qed.
  Lemma digit_length : length digit = length lo.
  Proof. unfold digit. rewrite map_length, combine_length. unfold lo, hi. rewrite !map_length. lia. Qed.
  Lemma lo_le_hi c : vol_lo D size nB c <= vol_hi D size nB c.
  Proof.
    pose proof D_pos. unfold vol_lo, vol_hi. fold n. destruct c as [[x y] d]. unfold c_min, c_max.
    set (u := Z.min x y * n). set (v := Z.max x y * n).
    assert (u <= v) by (unfold u, v; nia).
    pose proof (Z.mul_div_le u D ltac:(lia)). pose proof (Z.mul_div_le (- v) D ltac:(lia)).
    pose proof (Z.mul_succ_div_gt u D ltac:(lia)). pose proof (Z.mul_succ_div_gt (- v) D ltac:(lia)). nia.
  Qed.
  Lemma radix_pos : Forall (fun r => 0 < r) (radix digit).
  Proof.
    apply Forall_forall. intros r Hr. apply in_map_iff in Hr. destruct Hr as [m [<- Hm]].
    apply in_map_iff in Hm. destruct Hm as [[l h] [<- Hp]]. cbn [fst snd].
    unfold lo, hi in Hp. rewrite <- (map_id cs) in Hp.
    clear - Hp npos dpos Ecs. assert (exists c, l = vol_lo D size nB c /\ h = vol_hi D size nB c) as [c [-> ->]].
    { clear - Hp. rewrite map_id in Hp. induction cs as [|c l' IH]; [destruct Hp|].
      cbn in Hp. destruct Hp as [E|Hp]; auto. injection E as <- <-. eauto. }
    pose proof (lo_le_hi c). lia.
  Qed.

  Definition restricted_list : list (list Z) :=
    filter (keepb n cs) (map (vals lo) (all_codes (radix digit))).

  Lemma restricted_run : exists fuel0, forall fuel, (fuel0 <= fuel)%nat ->
    concs_restricted fuel size nB cs = Ok restricted_list.
  Proof.
    exists (length (all_codes (radix digit))). intros fuel Hf. 
    transitivity (if existsb (fun c => c_den c =? 0) cs || (size * nB =? 0) then Err ZeroDivisionError
                  else concs_loop fuel (size * nB) cs lo digit lo (map (fun _ => 0) cs) []).
    { unfold digit, lo, hi, D. rewrite Ecs. reflexivity. }
    destruct (existsb (fun c => c_den c =? 0) cs) eqn:E1.
    { apply existsb_exists in E1. destruct E1 as [c [Hc E1]]. rewrite Forall_forall in dpos. specialize (dpos c Hc). lia. }
    fold n. destruct (Z.eqb_spec n 0); [lia|]. cbn [orb].
    assert (map (fun _ => 0) cs = zeros (radix digit)) as ->.
    { rewrite zeros_repeat. unfold radix. rewrite map_length, digit_length, lo_length.
      clear. induction cs; cbn; congruence. }
    assert (lo = vals lo (zeros (radix digit))) as Elo.
    { apply (nth_ext_len _ _ 0).
      - rewrite (vals_length lo digit digit_length); auto. unfold zeros, radix. rewrite !map_length. apply digit_length.
      - intros i Hi. rewrite (vals_nth lo digit digit_length); auto.
        + rewrite zeros_repeat, nth_repeat. lia.
        + unfold zeros, radix. rewrite !map_length. apply digit_length. }
    rewrite Elo at 2.
    pose proof (path_codes lo digit digit_length (radix digit) []) as Hp. cbn [app length plus] in Hp.
    rewrite map_id in Hp.
    rewrite (loop_path lo digit digit_length n cs) with (l := all_codes (radix digit)) (s' := maxes (radix digit)); auto.
    - symmetry. apply lo_length.
    - apply Hp; auto; [|apply radix_pos]. unfold radix. rewrite map_length. apply digit_length.
    - apply odo_end. apply digit_length.
  Qed.

  Lemma in_vals d : valid_code (radix digit) d -> Forall2 (fun c a => vol_lo D size nB c <= a <= vol_hi D size nB c) cs (vals lo d).
  Proof.
    unfold valid_code, radix, digit, lo, hi, vals. clear. revert d.
    induction cs as [|c l IH]; intros d H; cbn in *; inversion H; subst; cbn; constructor; auto. lia.
  Qed.
  Lemma vals_in a : Forall2 (fun c a => vol_lo D size nB c <= a <= vol_hi D size nB c) cs a ->
    exists d, valid_code (radix digit) d /\ vals lo d = a.
  Proof.
    unfold valid_code, radix, digit, lo, hi, vals. clear. revert a.
    induction cs as [|c l IH]; intros a H; inversion H; subst; cbn.
    - exists []. auto.
    - destruct (IH _ H4) as [d [Hd <-]]. exists (y - vol_lo D size nB c :: d). split.
      + constructor; auto. lia.
      + cbn. f_equal. lia.
  Qed.
  Lemma vals_inj d d' : length d = length lo -> length d' = length lo -> vals lo d = vals lo d' -> d = d'.
  Proof.
    intros H H' E. apply (nth_ext_len _ _ 0); [congruence|]. intros i Hi.
    apply (f_equal (fun l => nth i l 0)) in E. rewrite !(vals_nth lo digit digit_length) in E by (auto; lia). lia.
  Qed.

  Lemma restricted_NoDup : NoDup restricted_list.
  Proof.
    apply NoDup_filter, NoDup_map_inj; [|apply NoDup_all_codes].
    intros d d' Hd Hd'. apply in_all_codes in Hd. apply in_all_codes in Hd'.
    apply Forall2_length in Hd. apply Forall2_length in Hd'. unfold radix in *. rewrite map_length, digit_length in *.
    apply vals_inj; auto.
  Qed.
  Lemma restricted_sound a : In a restricted_list -> sum_Z a = n /\ Forall2 (fraction_within n) cs a.
  Proof.
    unfold restricted_list. rewrite filter_In, in_map_iff. intros [[d [<- Hd]] Hk].
    apply in_all_codes, in_vals in Hd. apply Forall2_length in Hd.
    unfold keepb in Hk. rewrite andb_true_iff, Z.eqb_eq in Hk. destruct Hk as [H1 H2]. split; auto.
    apply fractions_ok_spec; auto.
  Qed.
  Lemma restricted_complete a : Forall (fun c => c_den c = D) cs ->
    sum_Z a = n -> Forall2 (fraction_within n) cs a -> In a restricted_list.
  Proof.
    intros HD Hs Hf. unfold restricted_list. rewrite filter_In, in_map_iff. split.
    - destruct (vals_in a) as [d [Hd E]].
      + pose proof D_pos as HDp. clear - HD Hf HDp npos. revert HD. induction Hf as [|c x cs' a H Hf IH]; intros HD; constructor.
        * inversion HD as [|? ? Hc _]; subst. destruct c as [[u v] d]. unfold fraction_within, vol_lo, vol_hi, c_min, c_max, c_den in *. fold n.
          rewrite Hc in H. set (p := Z.min u v * n) in *. set (q := Z.max u v * n) in *.
          pose proof (Z.mul_div_le p D HDp). pose proof (Z.mul_div_le (- q) D HDp).
          pose proof (Z.mul_succ_div_gt p D HDp). pose proof (Z.mul_succ_div_gt (- q) D HDp). nia.
        * apply IH. inversion HD; auto.
      + exists d. split; auto. apply in_all_codes; auto.
    - unfold keepb. rewrite andb_true_iff, Z.eqb_eq. split; auto. apply fractions_ok_spec; auto.
      symmetry. eapply Forall2_length; eauto.
  Qed.
End Restricted.
