(** The closure loops of [_group] and [group] compute the group generated (C22), and [a_group] (C23). *)
From Coq Require Import Permutation.
From Verif Require Import PyBase Spec GroupSpec ListFacts PermFacts CanonProofs PhononsModel GroupModel Decide.
Local Open Scope nat_scope.

(** ** Generic facts *)
Lemma nodup_dec {X} (dec : forall a b : X, {a = b} + {a <> b}) (l : list X) : NoDup l \/ exists i j, i < j < length l /\ nth_error l i = nth_error l j.
Proof.
  induction l as [|x l [IH|[i [j [Hij E]]]]].
  - left. constructor.
  - destruct (in_dec dec x l) as [Hin|Hn].
    + right. apply In_nth_error in Hin. destruct Hin as [k Hk]. exists 0, (S k). cbn. rewrite Hk.
      assert (k < length l) by (apply nth_error_Some; congruence). split; [lia|auto].
    + left. constructor; auto.
  - right. exists (S i), (S j). cbn. split; [lia|auto].
Qed.

Lemma iter_plus {X} (f : X -> X) a b x : Nat.iter (a + b) f x = Nat.iter a f (Nat.iter b f x).
Proof. induction a as [|a IH]; cbn; [auto|]. f_equal. exact IH. Qed.
Lemma iter_succ {X} (f : X -> X) k x : Nat.iter (S k) f x = Nat.iter k f (f x).
Proof. induction k as [|k IH]; [auto|]. change (f (Nat.iter (S k) f x) = f (Nat.iter k f (f x))). rewrite IH. auto. Qed.

Section ClosureProofs.
Context {X : Type} (eqb : X -> X -> bool) (app : X -> X -> res X).
Hypothesis eqb_spec : forall a b, eqb a b = true <-> a = b.
Variable mul : X -> X -> X.
Variable P : X -> Prop.
Hypothesis P_mul : forall a b, P a -> P b -> P (mul a b).
Hypothesis app_mul : forall a b, P a -> P b -> app a b = Ok (mul a b).
Hypothesis mul_inj : forall a b c, P a -> P b -> P c -> mul a b = mul a c -> b = c.
Variable univ : list X.
Hypothesis univ_all : forall a, P a -> In a univ.

Lemma eqb_false a b : eqb a b = false <-> a <> b.
Proof. rewrite <- eqb_spec. destruct (eqb a b); split; congruence. Qed.
Lemma Xdec (a b : X) : {a = b} + {a <> b}.
Proof. destruct (eqb a b) eqn:E; [left; apply eqb_spec; auto|right; apply eqb_false; auto]. Qed.
Lemma cl_in_spec a l : cl_in eqb a l = true <-> In a l.
Proof.
  unfold cl_in. rewrite existsb_exists. split; [intros [x [H E]]; apply eqb_spec in E; subst; auto|].
  intros H. exists a. split; auto. apply eqb_spec. auto.
Qed.

Lemma iter_P i d k : P i -> P d -> P (Nat.iter k (mul i) d).
Proof. intros Hi Hd. induction k; cbn; auto. Qed.
Lemma iter_inj i a b k : P i -> P a -> P b -> Nat.iter k (mul i) a = Nat.iter k (mul i) b -> a = b.
Proof.
  intros Hi Ha Hb. induction k; cbn; auto. intros E. apply IHk. apply (mul_inj i); auto using iter_P.
Qed.
(** Left multiplication is periodic. *)
Lemma period i c : P i -> P c -> exists k, k <= length univ /\ Nat.iter (S k) (mul i) c = c.
Proof.
  intros Hi Hc. set (l := map (fun k => Nat.iter k (mul i) c) (seq 0 (S (length univ)))).
  destruct (nodup_dec Xdec l) as [H|[a [b [Hab E]]]].
  - exfalso. apply NoDup_incl_length with (l' := univ) in H.
    + unfold l in H. rewrite map_length, seq_length in H. lia.
    + intros x Hx. apply in_map_iff in Hx. destruct Hx as [k [<- _]]. apply univ_all. apply iter_P; auto.
  - unfold l in Hab, E. rewrite map_length, seq_length in Hab.
    rewrite !nth_error_map, !nth_error_nth' with (d := 0) in E by (rewrite seq_length; lia).
    rewrite !seq_nth in E by lia. cbn [option_map] in E. assert (Nat.iter a (mul i) c = Nat.iter b (mul i) c) as E' by (inversion E; auto).
    exists (b - a - 1). split; [lia|]. replace (S (b - a - 1)) with (b - a) by lia.
    apply (iter_inj i _ _ a); auto using iter_P. rewrite E'.
    rewrite <- iter_plus. f_equal. lia.
Qed.

(** What the list being built satisfies throughout. *)
Variable gen : list X.
Hypothesis gen_P : forall g, In g gen -> P g.
Variable Q : X -> Prop.
Hypothesis Q_P : forall a, Q a -> P a.
Hypothesis Q_mul : forall g a, In g gen -> Q a -> Q (mul g a).
Definition good (l : list X) : Prop := NoDup l /\ forall x, In x l -> Q x.
Lemma add_good l a : good l -> Q a -> good (cl_add eqb l a) /\ incl l (cl_add eqb l a) /\ In a (cl_add eqb l a).
Proof.
  intros [H1 H2] Ha. unfold cl_add. destruct (cl_in eqb a l) eqn:E.
  - split; [split; auto|]. split; [intros x; auto|]. apply cl_in_spec. auto.
  - assert (~ In a l) as Hn by (rewrite <- cl_in_spec; congruence). split; [split|split].
    + apply NoDup_app_intro; auto. { repeat constructor; auto. } intros x Hx [<-|[]]. auto.
    + intros x Hx. apply in_app_iff in Hx. destruct Hx as [Hx|[<-|[]]]; auto.
    + intros x Hx. apply in_app_iff. auto.
    + apply in_app_iff. cbn. auto.
Qed.

Lemma cycle_ok i c : In i gen -> P c -> forall k d l, Q d -> good l -> Nat.iter k (mul i) d = c ->
  exists l', good l' /\ incl l l' /\ forall fuel, k <= fuel -> cl_cycle eqb app fuel i c d l = Ok l'.
Proof.
  intros Hi Hc. induction k as [|k IH]; intros d l Hd Hl E.
  - cbn in E. subst d. exists l. split; auto. split; [intros x; auto|]. intros fuel _.
    destruct fuel; cbn; rewrite (proj2 (eqb_spec c c) eq_refl); auto.
  - destruct (eqb d c) eqn:Edc.
    + exists l. split; auto. split; [intros x; auto|]. intros fuel _. destruct fuel; cbn; rewrite Edc; auto.
    + assert (Q (mul i d)) as Hq by auto. destruct (add_good l (mul i d) Hl Hq) as [G1 [G2 _]].
      destruct (IH (mul i d) (cl_add eqb l (mul i d))) as [l' [H1 [H2 H3]]]; auto.
      { rewrite <- E. rewrite <- iter_succ. auto. }
      exists l'. split; auto. split; [intros x Hx; auto|]. intros [|fuel] Hf; [lia|]. cbn. rewrite Edc.
      rewrite app_mul by auto. cbn [rbind]. apply H3. lia.
Qed.

(** The first pass. *)
Definition first_body (fuel : nat) (i : X) (groupi : list X) (j : X) : res (list X) :=
  do c <- app i j; let g1 := cl_add eqb groupi c in do d <- app i c; let g2 := cl_add eqb g1 d in cl_cycle eqb app fuel i c d g2.
Lemma first_body_ok i j l : In i gen -> Q (mul i j) -> P j -> good l ->
  exists l', good l' /\ incl l l' /\ In (mul i j) l' /\ forall fuel, length univ <= fuel -> first_body fuel i l j = Ok l'.
Proof.
  intros Hi Hq Hj Hl. set (c := mul i j) in *. assert (P i) as Pi by auto. assert (P c) as Pc by auto.
  destruct (add_good l c Hl Hq) as [A1 [A2 A3]]. assert (Q (mul i c)) as Hqd by auto.
  destruct (add_good _ (mul i c) A1 Hqd) as [B1 [B2 B3]].
  destruct (period i c Pi Pc) as [k [Hk E]]. rewrite iter_succ in E.
  destruct (cycle_ok i c Hi Pc k (mul i c) _ Hqd B1 E) as [l' [H1 [H2 H3]]].
  exists l'. split; auto. split; [intros x Hx; auto|]. split; [auto|]. intros fuel Hf. unfold first_body.
  rewrite app_mul by auto. cbn [rbind]. fold c. cbn zeta. rewrite app_mul by auto. cbn [rbind]. apply H3. lia.
Qed.
Lemma first_inner_ok i js : In i gen -> (forall j, In j js -> P j /\ Q (mul i j)) -> forall l, good l ->
  exists l', good l' /\ incl l l' /\ (js <> [] -> l' <> []) /\
    forall fuel, length univ <= fuel -> rfold (first_body fuel i) js l = Ok l'.
Proof.
  intros Hi. induction js as [|j js IH]; intros Hj l Hl.
  - exists l. split; auto. split; [intros x; auto|]. split; [congruence|]. auto.
  - destruct (Hj j (or_introl eq_refl)) as [J1 J2]. destruct (first_body_ok i j l Hi J2 J1 Hl) as [l1 [G1 [G2 [G3 G4]]]].
    destruct (IH (fun j' Hj' => Hj j' (or_intror Hj')) l1 G1) as [l' [H1 [H2 [_ H4]]]].
    exists l'. split; auto. split; [intros x Hx; auto|]. split.
    + intros _ ->. apply H2 in G3. destruct G3.
    + intros fuel Hf. cbn [rfold]. rewrite G4 by auto. cbn [rbind]. auto.
Qed.
Lemma first_ok sel : (forall i j, In i gen -> In j (sel i) -> P j /\ Q (mul i j)) ->
  exists l, good l /\ ((exists i, In i gen /\ sel i <> []) -> l <> []) /\
    forall fuel, length univ <= fuel -> cl_first eqb app fuel sel gen = Ok l.
Proof.
  intros Hsel. unfold cl_first.
  assert (forall gs l, incl gs gen -> good l -> exists l', good l' /\ incl l l' /\
            ((exists i, In i gs /\ sel i <> []) -> l' <> []) /\
            forall fuel, length univ <= fuel -> rfold (fun groupi i => rfold (first_body fuel i) (sel i) groupi) gs l = Ok l') as H.
  { induction gs as [|i gs IH]; intros l Hi Hl.
    - exists l. split; auto. split; [intros x; auto|]. split; [intros [i [[] _]]|auto].
    - assert (In i gen) as Hig by (apply Hi; cbn; auto).
      destruct (first_inner_ok i (sel i) Hig (fun j Hj => Hsel i j Hig Hj) l Hl) as [l1 [G1 [G2 [G3 G4]]]].
      destruct (IH l1 (fun x Hx => Hi x (or_intror Hx)) G1) as [l' [H1 [H2 [H3 H4]]]].
      exists l'. split; auto. split; [intros x Hx; auto|]. split.
      + intros [i' [[<-|Hi'] Hne]]; [|apply H3; eauto]. specialize (G3 Hne). destruct l1 as [|y l1]; [congruence|].
        intros ->. apply (H2 y). cbn. auto.
      + intros fuel Hf. cbn [rfold]. rewrite G4 by auto. cbn [rbind]. auto. }
  destruct (H gen [] (fun x Hx => Hx)) as [l [H1 [_ [H3 H4]]]].
  { split; [constructor|]. intros x []. }
  exists l. split; auto.
Qed.

(** One round. *)
Definition round_body (groupi : list X) (i : X) (group2 : list X) (h : X) : res (list X) :=
  do d <- app i h; Ok (if negb (cl_in eqb d groupi) && negb (cl_in eqb d group2) then group2 ++ [d] else group2).
Lemma round_inner l i hs : In i gen -> good l -> incl hs l -> forall l2, good (l ++ l2) ->
  exists l2', rfold (round_body l i) hs l2 = Ok l2' /\ good (l ++ l2') /\ incl l2 l2' /\ forall h, In h hs -> In (mul i h) (l ++ l2').
Proof.
  intros Hi Hl. induction hs as [|h hs IH]; intros Hin l2 H2.
  - exists l2. split; auto. split; auto. split; [intros x; auto|]. intros h [].
  - assert (In h l) as Hh by (apply Hin; cbn; auto). assert (Q h) as Qh by (apply Hl; auto).
    assert (incl hs l) as Hin' by (intros x Hx; apply Hin; cbn; auto).
    cbn [rfold]. unfold round_body at 1. rewrite app_mul by auto. cbn [rbind].
    destruct (cl_in eqb (mul i h) l) eqn:E1; [|destruct (cl_in eqb (mul i h) l2) eqn:E2]; cbn [negb andb].
    + destruct (IH Hin' l2 H2) as [l2' [A [B [C D]]]]. exists l2'. split; auto. split; auto. split; auto.
      intros h' [<-|Hh']; auto. apply in_app_iff. left. apply cl_in_spec. auto.
    + destruct (IH Hin' l2 H2) as [l2' [A [B [C D]]]]. exists l2'. split; auto. split; auto. split; auto.
      intros h' [<-|Hh']; auto. apply in_app_iff. right. apply C. apply cl_in_spec. auto.
    + destruct (IH Hin' (l2 ++ [mul i h])) as [l2' [A [B [C D]]]].
      * rewrite app_assoc. destruct H2 as [N2 Q2]. split.
        -- apply NoDup_app_intro; auto; [repeat constructor; auto|]. intros x Hx [<-|[]]. apply in_app_iff in Hx.
           rewrite <- !cl_in_spec in Hx. destruct Hx; congruence.
        -- intros x Hx. apply in_app_iff in Hx. destruct Hx as [Hx|[<-|[]]]; auto.
      * exists l2'. split; auto. split; auto. split; [intros x Hx; apply C; apply in_app_iff; auto|].
        intros h' [<-|Hh']; auto. apply in_app_iff. right. apply C. apply in_app_iff. cbn. auto.
Qed.
Lemma round_ok l : good l -> exists l2, cl_round eqb app gen l = Ok l2 /\ good (l ++ l2) /\ forall i h, In i gen -> In h l -> In (mul i h) (l ++ l2).
Proof.
  intros Hl. unfold cl_round.
  assert (forall gs l2, incl gs gen -> good (l ++ l2) -> exists l2',
     rfold (fun group2 i => rfold (round_body l i) l group2) gs l2 = Ok l2' /\ good (l ++ l2') /\ incl l2 l2' /\
     forall i h, In i gs -> In h l -> In (mul i h) (l ++ l2')) as H.
  { induction gs as [|i gs IH]; intros l2 Hg H2.
    - exists l2. split; auto. split; auto. split; [intros x; auto|]. intros i h [].
    - destruct (round_inner l i l (Hg i (or_introl eq_refl)) Hl (fun x Hx => Hx) l2 H2) as [l3 [A [B [C D]]]].
      destruct (IH l3 (fun x Hx => Hg x (or_intror Hx)) B) as [l4 [A' [B' [C' D']]]].
      exists l4. cbn [rfold]. rewrite A. cbn [rbind]. split; auto. split; auto. split; [intros x Hx; auto|].
      intros i' h [<-|Hi'] Hh; auto. specialize (D h Hh). apply in_app_iff in D. apply in_app_iff. destruct D; auto. }
  destruct (H gen [] (fun x Hx => Hx)) as [l2 [A [B [_ D]]]]; [rewrite app_nil_r; auto|]. eauto.
Qed.
Lemma good_length l : good l -> length l <= length univ.
Proof. intros [H1 H2]. apply NoDup_incl_length; auto. intros x Hx. auto. Qed.
Lemma rounds_ok : forall k l, good l -> length univ - length l <= k ->
  exists l', good l' /\ incl l l' /\ (forall i h, In i gen -> In h l' -> In (mul i h) l') /\
    forall fuel, k <= fuel -> cl_rounds eqb app fuel gen l = Ok l'.
Proof.
  induction k as [|k IH]; intros l Hl Hk; destruct (round_ok l Hl) as [l2 [A [B D]]]; pose proof (good_length _ B) as Hlen; rewrite app_length in Hlen.
  - destruct l2 as [|x l2]; [|cbn in Hlen; lia]. rewrite app_nil_r in *. exists l. split; auto. split; [intros x; auto|]. split; auto.
    intros [|fuel] _; cbn; rewrite A; auto.
  - destruct l2 as [|x l2].
    + rewrite app_nil_r in *. exists l. split; auto. split; [intros x; auto|]. split; auto. intros [|fuel] _; cbn; rewrite A; auto.
    + destruct (IH (l ++ x :: l2)) as [l' [H1 [H2 [H3 H4]]]]; auto.
      { rewrite app_length. cbn in *. lia. }
      exists l'. split; auto. split; [intros y Hy; apply H2; apply in_app_iff; auto|]. split; auto.
      intros [|fuel] Hf; [lia|]. cbn [cl_rounds]. rewrite A. cbn [rbind]. apply H4. lia.
Qed.
Lemma group_ok sel : (forall i j, In i gen -> In j (sel i) -> P j /\ Q (mul i j)) ->
  exists l fuel0, good l /\ (forall i h, In i gen -> In h l -> In (mul i h) l) /\ ((exists i, In i gen /\ sel i <> []) -> l <> []) /\
    forall fuel, fuel0 <= fuel -> cl_group eqb app fuel sel gen = Ok l.
Proof.
  intros Hsel. destruct (first_ok sel Hsel) as [l1 [G1 [G2 G3]]].
  destruct (rounds_ok (length univ) l1 G1) as [l [H1 [H2 [H3 H4]]]]; [lia|].
  exists l, (length univ). split; auto. split; auto. split.
  - intros Hne. specialize (G2 Hne). destruct l1 as [|y l1]; [congruence|]. intros ->. apply (H2 y). cbn. auto.
  - intros fuel Hf. unfold cl_group. rewrite G3 by auto. cbn [rbind]. auto.
Qed.
End ClosureProofs.

(** ** The list computed is the set of products of generators *)
Section GeneratedProofs.
Context {X : Type} (eqb : X -> X -> bool) (app : X -> X -> res X).
Hypothesis eqb_spec : forall a b, eqb a b = true <-> a = b.
Variables (one : X) (mul : X -> X -> X) (P : X -> Prop).
Hypothesis P_one : P one.
Hypothesis P_mul : forall a b, P a -> P b -> P (mul a b).
Hypothesis app_mul : forall a b, P a -> P b -> app a b = Ok (mul a b).
Hypothesis mul_inj : forall a b c, P a -> P b -> P c -> mul a b = mul a c -> b = c.
Hypothesis mul_assoc : forall a b c, P a -> P b -> P c -> mul (mul a b) c = mul a (mul b c).
Hypothesis mul_one_r : forall a, P a -> mul a one = a.
Hypothesis mul_one_l : forall a, P a -> mul one a = a.
Variable univ : list X.
Hypothesis univ_all : forall a, P a -> In a univ.
Variable gen : list X.
Hypothesis gen_P : forall g, In g gen -> P g.
Notation G := (generated one mul gen).

Lemma generated_P x : G x -> P x.
Proof. induction 1; auto. Qed.
Lemma generated_mul x y : G x -> G y -> G (mul x y).
Proof.
  intros Hx Hy. induction Hx as [|g x Hg Hx IH]; [rewrite mul_one_l; auto; apply generated_P; auto|].
  rewrite mul_assoc; auto using generated_P. constructor; auto.
Qed.
Lemma generated_gen g : In g gen -> G g.
Proof. intros Hg. rewrite <- (mul_one_r g) by auto. constructor; auto. constructor. Qed.
Lemma generated_iter x y k : G x -> G y -> G (Nat.iter k (mul x) y).
Proof. intros Hx Hy. induction k; cbn; auto using generated_mul. Qed.
(** Inverses are products of generators, too. *)
Lemma generated_inv x : G x -> exists y, G y /\ mul x y = one /\ mul y x = one.
Proof.
  intros Hx. destruct (period eqb eqb_spec mul P P_mul mul_inj univ univ_all x one) as [k [_ E]]; auto using generated_P.
  exists (Nat.iter k (mul x) one). assert (G one) as H1 by constructor. assert (G (Nat.iter k (mul x) one)) as Hk by (apply generated_iter; auto).
  assert (mul x (Nat.iter k (mul x) one) = one) as E1 by exact E.
  split; auto. split; auto.
  apply (mul_inj x); auto using generated_P, generated_mul. rewrite <- mul_assoc by auto using generated_P.
  rewrite E1, mul_one_l, mul_one_r; auto using generated_P.
Qed.
Lemma generated_closed l : l <> [] -> (forall x, In x l -> G x) -> (forall i h, In i gen -> In h l -> In (mul i h) l) ->
  forall x, In x l <-> G x.
Proof.
  intros Hne Hl Hcl x. split; auto. intros Hx.
  assert (forall a b, G a -> In b l -> In (mul a b) l) as Hall.
  { intros a b Ha Hb. induction Ha as [|g a Hg Ha IH]; [rewrite mul_one_l; auto using generated_P|].
    rewrite mul_assoc; auto using generated_P. }
  destruct l as [|y l]; [congruence|]. assert (In y (y :: l)) as Hy by (cbn; auto).
  destruct (generated_inv y (Hl y Hy)) as [z [Hz [_ E]]].
  replace x with (mul (mul x z) y); [apply Hall; auto using generated_mul|].
  rewrite mul_assoc, E, mul_one_r; auto using generated_P.
Qed.
Lemma group_generates sel : (forall i j, In i gen -> In j (sel i) -> In j gen) -> (exists i, In i gen /\ sel i <> []) ->
  exists l fuel0, NoDup l /\ (forall x, In x l <-> G x) /\ forall fuel, fuel0 <= fuel -> cl_group eqb app fuel sel gen = Ok l.
Proof.
  intros Hsel Hne.
  destruct (group_ok eqb app eqb_spec mul P P_mul app_mul mul_inj univ univ_all gen gen_P G generated_P (fun g a Hg Ha => gen_mul _ _ _ g a Hg Ha) sel)
    as [l [f [[H1 H2] [H3 [H4 H5]]]]].
  - intros i j Hi Hj. assert (In j gen) as Hjg by eauto. split; auto. apply generated_mul; apply generated_gen; auto.
  - exists l, f. split; auto. split; auto. apply generated_closed; auto.
Qed.
End GeneratedProofs.

(** ** Permutations and pairs of permutations *)
Lemma compose_ok n p q : is_perm n p -> is_perm n q -> compose p q = Ok (comp p q).
Proof. intros [_ [_ Hp]] [Hq _]. unfold compose. rewrite (rmap_get 0); auto. intros j Hj. rewrite Hq. auto. Qed.
Lemma perm_in_words n p : is_perm n p -> In p (words (seq 0 n) n).
Proof. intros [H1 [_ H2]]. apply in_words. split; auto. intros a Ha. apply in_seq. specialize (H2 a Ha). lia. Qed.
Definition is_pair (n m : nat) (a : list nat * list nat) : Prop := is_perm n (fst a) /\ is_perm m (snd a).
Definition all_pairs (n m : nat) := list_prod (words (seq 0 n) n) (words (seq 0 m) m).

Lemma pair_generates n m gen sel : (forall g, In g gen -> is_pair n m g) ->
  (forall i j, In i gen -> In j (sel i) -> In j gen) -> (exists i, In i gen /\ sel i <> []) ->
  exists l fuel0, NoDup l /\ (forall x, In x l <-> generated (idperm n, idperm m) pair_mul gen x) /\
    forall fuel, fuel0 <= fuel -> cl_group op_eqb op_apply fuel sel gen = Ok l.
Proof.
  intros Hg. apply (group_generates op_eqb op_apply op_eqb_spec (idperm n, idperm m) pair_mul (is_pair n m)) with (univ := all_pairs n m); auto.
  - split; apply idperm_is_perm.
  - intros a b [A1 A2] [B1 B2]. split; apply comp_perm; auto.
  - intros a b [A1 A2] [B1 B2]. unfold op_apply. rewrite (compose_ok n), (compose_ok m) by auto. reflexivity.
  - intros a b c [A1 A2] [B1 B2] [C1 C2] E. unfold pair_mul in E. inversion E as [[E1 E2]].
    apply (comp_cancel_l n) in E1; auto. apply (comp_cancel_l m) in E2; auto. destruct b, c; cbn in *; congruence.
  - intros a b c [A1 A2] [B1 B2] [C1 C2]. unfold pair_mul. cbn [fst snd]. rewrite (comp_assoc n), (comp_assoc m); auto.
  - intros [a1 a2] [A1 A2]. unfold pair_mul. cbn [fst snd] in *. rewrite (comp_id_r n), (comp_id_r m); auto.
  - intros [a1 a2] [[A1 _] [A2 _]]. unfold pair_mul. cbn [fst snd] in *. rewrite (comp_id_l n), (comp_id_l m); auto.
  - intros [a b] [H1 H2]. apply in_prod; apply perm_in_words; auto.
Qed.
Lemma perm_generates n gen : 2 <= n -> gen <> [] -> (forall g, In g gen -> is_perm n g) ->
  exists l fuel0, NoDup l /\ (forall x, In x l <-> generated (idperm n) comp gen x) /\
    forall fuel, fuel0 <= fuel -> cl_group nlist_eqb g_apply fuel (fun _ => gen) gen = Ok l.
Proof.
  intros Hn Hne Hg. apply (group_generates nlist_eqb g_apply nlist_eqb_spec (idperm n) comp (is_perm n)) with (univ := words (seq 0 n) n); auto.
  - apply idperm_is_perm.
  - intros; apply comp_perm; auto.
  - intros a b Ha Hb. pose proof (compose_ok n a b Ha Hb) as E. destruct Ha as [Hl _]. unfold g_apply. destruct a as [|x [|y a]]; cbn in Hl; auto; lia.
  - intros a b c Ha Hb Hc E. apply (comp_cancel_l n) in E; auto.
  - intros a b c Ha Hb Hc. apply (comp_assoc n); auto.
  - intros a Ha. apply comp_id_r; auto.
  - intros a [Ha _]. apply comp_id_l; auto.
  - intros a Ha. apply perm_in_words; auto.
  - destruct gen as [|g gen]; [congruence|]. exists g. split; cbn; auto.
Qed.
