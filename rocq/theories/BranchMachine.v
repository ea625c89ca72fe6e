(** The main loop of [brancher]: the navigation is independent of what is kept. *)
From Coq Require Import Permutation.
From Verif Require Import PyBase Spec ListFacts PermFacts NumericsModel NumericsProofs PhononsModel
  TreeModel HashProofs CanonProofs TreeSearch PermSpec.
Local Open Scope Z_scope.

Record nav : Type := Nav {
  nbr : list Z; nlvl : nat; nb0 : bool; nstab : list (list op); nord : order_t }.
Record ost : Type := Ost {
  osurv : list (list site); ocnt : Z; osub : subset_t; odraws : nat }.
Definition join (v : nav) (o : ost) : bstate :=
  BState (nbr v) (nlvl v) (nb0 v) (nstab v) (nord v) (osurv o) (ocnt o) (osub o) (odraws o).
Definition oof (st : bstate) : ost := Ost (survivors st) (count st) (subset st) (draws st).
Definition navof (st : bstate) : nav :=
  Nav (branch st) (lvl st) (b0 st) (stabalizer st) (order st).
Definition nav0 (d : list Z) : nav := Nav d 0 false [] (0, []).

Lemma join_eta st : join (navof st) (oof st) = st.
Proof. destruct st; reflexivity. Qed.
Lemma oof_join v o : oof (join v o) = o.
Proof. destruct o; reflexivity. Qed.

Inductive event : Type := EvOut (d : list Z) (ast : list op) | EvSup (d : list Z).
Definition outs (evs : list event) : list (list Z) :=
  flat_map (fun e => match e with EvOut d _ => [d] | EvSup _ => [] end) evs.

Section Machine.
  Variable c : list nat.
  Variable G : list op.
  Variable cwa : list site.
  Variable dim : Z.
  Variable supers : bool.
  Variable cellsize : nat.
  Variable accept : bool.
  Variable rnd : nat -> bool.
  Notation n := (sum_nat c).
  Notation k := (length c).
  Notation C := (radices c).
  Notation dec := (dec c).
  Notation padz := (padz c).
  Notation validp := (validp c).
  Notation Keep := (keep accept rnd).
  Notation Emit := (emit c G cwa dim supers cellsize accept rnd).
  Notation Bump := (bump_subset c).
  Notation Step := (step c G cwa dim supers cellsize accept rnd).
  Notation Loop := (br_loop c G cwa dim supers cellsize accept rnd).
  Notation Continue := (continue c accept).
  Notation Backtrack := (backtrack c).
  Notation IsSuper := (is_super G cellsize).

  Definition okeep (us : bool) (o : ost) (z : list site) : ost := oof (Keep us (join (nav0 []) o) z).
  Lemma keep_join us v o z : Keep us (join v o) z = join v (okeep us o z).
  Proof.
    unfold okeep, keep, join, oof; cbn.
    destruct (if us then _ else _) as [b m]. reflexivity.
  Qed.
  Lemma fold_keep_join us v l : forall o, fold_left (Keep us) l (join v o) = join v (fold_left (okeep us) l o).
  Proof. induction l as [|z l IH]; intros o; cbn [fold_left]; auto. rewrite keep_join. apply IH. Qed.

  Definition apply_ev (us : bool) (o : ost) (e : event) : res ost :=
    match e with
    | EvOut d ast => do st <- Emit us (join (nav0 d) o) ast; Ok (oof st)
    | EvSup _ => if us then do s' <- Bump (osub o) (ocnt o); Ok (Ost (osurv o) (ocnt o + 1) s' (odraws o))
                 else Ok o
    end.

  Lemma emit_join us v o ast :
    Emit us (join v o) ast = do o' <- apply_ev us o (EvOut (nbr v) ast); Ok (join v o').
  Proof.
    unfold apply_ev, emit. cbn [join branch nav0 nbr].
    destruct (invhash (nbr v) c (length cwa)) as [x|e]; cbn [rbind]; auto.
    destruct (0 <? br_narrows cwa)%nat.
    - destruct (out_deco cwa x) as [bt|e]; cbn [rbind]; auto.
      destruct (add_arrows rnd bt ast dim (firstn cellsize G) accept None supers (draws (join v o)))
        as [[ars m]|e] eqn:E;
        cbn [draws join odraws] in E |- *; rewrite E; cbn [rbind]; auto. f_equal.
      change (fold_left (Keep us) ars (join v (Ost (osurv o) (ocnt o) (osub o) m)) =
        join v (oof (fold_left (Keep us) ars (join (nav0 (nbr v)) (Ost (osurv o) (ocnt o) (osub o) m))))).
      rewrite !fold_keep_join, oof_join. auto.
    - destruct (out_plain cwa x) as [z|e]; cbn [rbind]; auto. f_equal.
      rewrite !keep_join, oof_join. auto.
  Qed.

  (** tail of the pass: go back, increment, skip *)
  Definition advance (i : nat) (br : list Z) (b : bool) (stb : list (list op)) (ord : order_t) : res nav :=
    do (br5, i5, b5, stb5) <- Backtrack i br b stb;
    let br6 := if b5 then upd br5 i5 (nth i5 br5 0 + 1) else br5 in
    do br7 <- (if (i5 =? 0)%nat then
                 do b' <- skip_seen (S (length (snd ord))) (nth 0 br6 0) ord;
                 Ok (upd br6 0 b')
               else Ok br6);
    Ok (Nav br7 i5 b5 stb5 ord).

  Definition nav_step (v : nav) : res (nav * list event) :=
    let i := nlvl v in
    let len := length (nbr v) in
    do stab_i <- get (nstab v) i;
    do (unique, sti, ord', ast) <- perm (nbr v) c n i G stab_i (nord v);
    do stb <- set (nstab v) (i + 1) sti;
    do sp <- (if negb supers && (br_narrows cwa =? 0)%nat && (unique =? 0)%nat && (nb0 v || (i =? 0)%nat)
              then do bt <- invhash (nbr v) c (length cwa); IsSuper (seq 1 (cellsize - 1)) bt
              else Ok false);
    let emits := (unique =? 0)%nat && negb sp in
    let evs := if sp then [EvSup (nbr v)]
               else if (unique =? 0)%nat && (nb0 v || (i =? 0)%nat) then [EvOut (nbr v) ast] else [] in
    let b3 := if emits && (Z.of_nat i <? Z.of_nat len - 2) then false else nb0 v in
    let '(i4, b4) :=
      if b3 then (i, true)
      else let i' := if (Z.of_nat i <? Z.of_nat len - 1) then S i else i in
           (i', Z.of_nat len - 2 <=? Z.of_nat i') in
    do v' <- advance i4 (nbr v) b4 stb ord';
    Ok (v', evs).

  Lemma rbind_advance i br b stb ord sv cnt sub dr :
    (do (br5, i5, b5, stb5) <- Backtrack i br b stb;
     let br6 := if b5 then upd br5 i5 (nth i5 br5 0 + 1) else br5 in
     do br7 <- (if (i5 =? 0)%nat then
                 do b' <- skip_seen (S (length (snd ord))) (nth 0 br6 0) ord;
                 Ok (upd br6 0 b')
                else Ok br6);
     Ok (BState br7 i5 b5 stb5 ord sv cnt sub dr)) =
    do v <- advance i br b stb ord; Ok (join v (Ost sv cnt sub dr)).
  Proof.
    unfold advance. destruct (Backtrack i br b stb) as [[[[br5 i5] b5] stb5]|e]; cbn [rbind]; auto.
    destruct (i5 =? 0)%nat; cbn [rbind]; auto.
    destruct (skip_seen (S (length (snd ord))) (nth 0 (if b5 then upd br5 i5 (nth i5 br5 0 + 1) else br5) 0) ord);
      cbn [rbind]; auto.
  Qed.

  Definition apply_all (us : bool) (evs : list event) (o : ost) : res ost := rfold (apply_ev us) evs o.

  Lemma step_split us v o v' evs : nav_step v = Ok (v', evs) ->
    Step us (join v o) = do o' <- apply_all us evs o; Ok (join v' o').
  Proof.
    unfold nav_step, step. intros H. cbn [join lvl branch stabalizer order b0 survivors count subset draws].
    destruct (get (nstab v) (nlvl v)) as [stab_i|e]; cbn [rbind] in *; [|discriminate].
    destruct (perm (nbr v) c n (nlvl v) G stab_i (nord v)) as [[[[u sti] ord'] ast]|e] eqn:Ep;
      unfold br_n; rewrite Ep; cbn [rbind] in *; [|discriminate].
    destruct (set (nstab v) (nlvl v + 1) sti) as [stb|e]; cbn [rbind] in *; [|discriminate].
    destruct (negb supers && (br_narrows cwa =? 0)%nat && (u =? 0)%nat && (nb0 v || (nlvl v =? 0)%nat)) eqn:Ec.
    - destruct (invhash (nbr v) c (length cwa)) as [bt|e] eqn:Ebt; cbn [rbind] in *; [|discriminate].
      destruct (IsSuper (seq 1 (cellsize - 1)) bt) as [sp|e]; cbn [rbind] in *; [|discriminate].
      apply andb_true_iff in Ec as [Ec1 Ec2]. apply andb_true_iff in Ec1 as [Ec1 Eu]. 
      destruct sp.
      + rewrite Eu in H. cbn [negb andb] in H.
        unfold apply_all. destruct us.
        * destruct (Bump (osub o) (ocnt o)) as [s'|e] eqn:Eb; cbn [rbind]; [|].
          2:{ destruct (if nb0 v then _ else _) as [i4 b4]. 
              destruct (advance i4 (nbr v) b4 stb ord') as [v1|e1]; [|discriminate].
              cbn [rbind] in H. injection H as <- <-. cbn [rfold apply_ev]. rewrite Eb. reflexivity. }
          cbn [Nat.eqb rbind b0 branch stabalizer order].
          destruct (if nb0 v then _ else _) as [i4 b4].
          unfold set_nav. cbn [order survivors count subset draws join nbr nlvl nb0 nstab nord osurv ocnt osub odraws].
          rewrite rbind_advance.
          destruct (advance i4 (nbr v) b4 stb ord') as [v1|e1]; [|discriminate].
          cbn [rbind] in *. injection H as <- <-. cbn [rfold apply_ev]. rewrite Eb. reflexivity.
        * cbn [Nat.eqb rbind b0 branch stabalizer order].
          destruct (if nb0 v then _ else _) as [i4 b4].
          unfold set_nav. cbn [order survivors count subset draws join nbr nlvl nb0 nstab nord osurv ocnt osub odraws].
          rewrite rbind_advance.
          destruct (advance i4 (nbr v) b4 stb ord') as [v1|e1]; [|discriminate].
          cbn [rbind] in *. injection H as <- <-. cbn [rfold apply_ev]. destruct o; reflexivity.
      + cbn [rbind]. rewrite Eu in H |- *. rewrite Ec2 in H. cbn [negb andb] in H. cbn [b0]. rewrite Ec2.
        change (BState (nbr v) (nlvl v) (nb0 v) stb ord' (osurv o) (ocnt o) (osub o) (odraws o))
          with (join (Nav (nbr v) (nlvl v) (nb0 v) stb ord') o).
        rewrite emit_join. cbn [nbr].
        assert (evs = [EvOut (nbr v) ast]) as ->.
        { destruct (if (if Z.of_nat (nlvl v) <? _ then false else nb0 v) then _ else _) as [i4 b4].
          destruct (advance i4 (nbr v) b4 stb ord'); [|discriminate]. cbn [rbind] in H. congruence. }
        unfold apply_all. cbn [rfold].
        destruct (apply_ev us o (EvOut (nbr v) ast)) as [o'|e]; cbn [rbind]; auto.
        cbn [join branch stabalizer nstab nbr].
        destruct (Z.of_nat (nlvl v) <? Z.of_nat (length (nbr v)) - 2); 
          cbn [b0 set_nav join branch stabalizer nstab nbr order nord nb0].
        * destruct (if Z.of_nat (nlvl v) <? Z.of_nat (length (nbr v)) - 1 then S (nlvl v) else nlvl v) as [|i4'] eqn:Ei;
          unfold set_nav; cbn [order survivors count subset draws join nbr nlvl nb0 nstab nord osurv ocnt osub odraws];
          rewrite rbind_advance;
          (destruct (advance _ (nbr v) _ stb ord') as [v1|e1]; [|discriminate]);
          cbn [rbind] in *; injection H as <-; destruct o'; reflexivity.
        * destruct (if nb0 v then _ else _) as [i4 b4]; unfold set_nav; cbn [order survivors count subset draws join nbr nlvl nb0 nstab nord osurv ocnt osub odraws];
          rewrite rbind_advance;
          (destruct (advance _ (nbr v) _ stb ord') as [v1|e1]; [|discriminate]);
          cbn [rbind] in *; injection H as <-; destruct o'; reflexivity.
    - cbn [rbind] in *. cbn [negb] in H. rewrite andb_true_r in H.
      destruct (u =? 0)%nat eqn:Eu; cbn [andb] in H.
      + cbn [b0].
        destruct (nb0 v || (nlvl v =? 0)%nat) eqn:Eb.
        * change (BState (nbr v) (nlvl v) (nb0 v) stb ord' (osurv o) (ocnt o) (osub o) (odraws o))
            with (join (Nav (nbr v) (nlvl v) (nb0 v) stb ord') o).
          rewrite emit_join. cbn [nbr].
          assert (evs = [EvOut (nbr v) ast]) as ->.
          { destruct (if (if Z.of_nat (nlvl v) <? _ then false else nb0 v) then _ else _) as [i4 b4].
            destruct (advance i4 (nbr v) b4 stb ord'); [|discriminate]. cbn [rbind] in H. congruence. }
          unfold apply_all. cbn [rfold].
          destruct (apply_ev us o (EvOut (nbr v) ast)) as [o'|e]; cbn [rbind]; auto.
          cbn [join branch stabalizer nstab nbr].
          destruct (Z.of_nat (nlvl v) <? Z.of_nat (length (nbr v)) - 2);
            cbn [b0 set_nav join branch stabalizer nstab nbr order nord nb0].
          -- destruct (if Z.of_nat (nlvl v) <? Z.of_nat (length (nbr v)) - 1 then S (nlvl v) else nlvl v) as [|i4'] eqn:Ei;
             unfold set_nav; cbn [order survivors count subset draws join nbr nlvl nb0 nstab nord osurv ocnt osub odraws];
             rewrite rbind_advance;
             (destruct (advance _ (nbr v) _ stb ord') as [v1|e1]; [|discriminate]);
             cbn [rbind] in *; injection H as <-; destruct o'; reflexivity.
          -- destruct (if nb0 v then _ else _) as [i4 b4]; unfold set_nav; cbn [order survivors count subset draws join nbr nlvl nb0 nstab nord osurv ocnt osub odraws];
             rewrite rbind_advance;
             (destruct (advance _ (nbr v) _ stb ord') as [v1|e1]; [|discriminate]);
             cbn [rbind] in *; injection H as <-; destruct o'; reflexivity.
        * cbn [rbind branch stabalizer].
          destruct (Z.of_nat (nlvl v) <? Z.of_nat (length (nbr v)) - 2);
            cbn [b0 set_nav join branch stabalizer nstab nbr order nord nb0].
          -- destruct (if Z.of_nat (nlvl v) <? Z.of_nat (length (nbr v)) - 1 then S (nlvl v) else nlvl v) as [|i4'] eqn:Ei;
             unfold set_nav; cbn [order survivors count subset draws join nbr nlvl nb0 nstab nord osurv ocnt osub odraws];
             rewrite rbind_advance;
             (destruct (advance _ (nbr v) _ stb ord') as [v1|e1]; [|discriminate]);
             cbn [rbind] in *; injection H as <- <-; destruct o; reflexivity.
          -- destruct (if nb0 v then _ else _) as [i4 b4]; unfold set_nav; cbn [order survivors count subset draws join nbr nlvl nb0 nstab nord osurv ocnt osub odraws];
             rewrite rbind_advance;
             (destruct (advance _ (nbr v) _ stb ord') as [v1|e1]; [|discriminate]);
             cbn [rbind] in *; injection H as <- <-; destruct o; reflexivity.
      + cbn [rbind b0 branch stabalizer order].
        destruct (if nb0 v then _ else _) as [i4 b4]; unfold set_nav; cbn [order survivors count subset draws join nbr nlvl nb0 nstab nord osurv ocnt osub odraws];
          rewrite rbind_advance;
          (destruct (advance _ (nbr v) _ stb ord') as [v1|e1]; [|discriminate]);
          cbn [rbind] in *; injection H as <- <-; destruct o; reflexivity.
  Qed.
End Machine.
