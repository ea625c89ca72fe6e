(** Property theorems C22-C26, C47, C48 (see /verif/properties.jsonl). *)
From Coq Require Import Permutation.
From Verif Require Import Decide PyBase Spec ListFacts PermFacts CanonProofs PhononsModel GroupModel GroupSpec GroupProofs.
From Verif Require Import Mat3 HNFModel HNFProofs LatSpec LatGroupModel LatFacts LatSites LatProofs LatMain LatTop LatGroupThm TransPerm LatNoDup LatBasis.

(** ** C22: [_group] *)
(** With at least two different generators the closure loop ends and returns the generated group, each element once. *)
Theorem C22_group_partial : forall n m (gen : list op),
  (forall g, In g gen -> is_perm n (fst g) /\ is_perm m (snd g)) ->
  (exists g h, In g gen /\ In h gen /\ g <> h) ->
  exists l fuel0, NoDup l /\
    (forall x, In x l <-> generated (idperm n, idperm m) pair_mul gen x) /\
    forall fuel, fuel0 <= fuel -> group_gen fuel gen = Ok l.
Proof.
  intros n m gen Hg [g [h [H1 [H2 Hne]]]]. apply pair_generates; auto.
  - intros i j _ Hj. apply filter_In in Hj. apply Hj.
  - exists g. split; auto. assert (In h (filter (fun k => negb (op_eqb k g)) gen)) as Hin.
    { apply filter_In. split; auto. destruct (op_eqb h g) eqn:E; auto. apply op_eqb_spec in E. congruence. }
    intros E. rewrite E in Hin. destruct Hin.
Qed.
Example C22_example : exists l, group_gen 10 [([1; 2; 0], [0; 1]); ([1; 0; 2], [1; 0])] = Ok l /\ length l = 6.
Proof. eexists. split; [vm_compute; reflexivity|reflexivity]. Qed.
(** A single generator: the first pass has nothing to combine it with, and the empty list is returned. *)
Theorem C22_single_generator_refuted : forall fuel (g : op),
  group_gen fuel [g] = Ok [] /\
  exists x, generated (idperm (length (fst g)), idperm (length (snd g))) pair_mul [g] x.
Proof.
  intros fuel g. split.
  - unfold group_gen, cl_group, cl_first. cbn [rfold filter rbind]. assert (op_eqb g g = true) as -> by (apply op_eqb_spec; auto).
    cbn [negb rfold rbind]. destruct fuel; reflexivity.
  - eexists. constructor.
Qed.

(** ** C23: [a_group] *)
Lemma add_new_spec l a : NoDup l -> NoDup (add_new l a) /\ forall x, In x (add_new l a) <-> In x l \/ x = a.
Proof.
  intros Hl. unfold add_new, op_in. destruct (existsb (op_eqb a) l) eqn:E.
  - apply existsb_exists in E. destruct E as [b [Hb E]]. apply op_eqb_spec in E. subst b. split; auto. intros x. split; auto. intros [H| ->]; auto.
  - assert (~ In a l) as Hn.
    { intros Hin. apply Bool.not_true_iff_false in E. apply E. apply existsb_exists. exists a. split; auto. apply op_eqb_spec. auto. }
    split.
    + apply NoDup_app_intro; auto; [repeat constructor; auto|]. intros x Hx [<-|[]]. auto.
    + intros x. rewrite in_app_iff. cbn. intuition.
Qed.
Theorem C23_compositions : forall n m trans rots,
  (forall t, In t trans -> is_perm n t) -> (forall r, In r rots -> is_perm n (fst r) /\ is_perm m (snd r)) ->
  exists l, a_group trans rots = Ok l /\ NoDup l /\
    forall p a, In (p, a) l <-> exists t r, In t trans /\ In (r, a) rots /\ p = comp t r.
Proof.
  intros n m trans rots Ht Hr.
  assert (forall t rs l, is_perm n t -> (forall r, In r rs -> is_perm n (fst r) /\ is_perm m (snd r)) -> NoDup l ->
    exists l', rfold (fun groupi j => do c <- compose t (fst j); Ok (add_new groupi (c, snd j))) rs l = Ok l' /\ NoDup l' /\
      forall p a, In (p, a) l' <-> In (p, a) l \/ exists r, In (r, a) rs /\ p = comp t r) as Hin.
  { intros t rs. induction rs as [|[r a] rs IH]; intros l Pt Prs Hl.
    - exists l. split; auto. split; auto. intros p a. split; auto. intros [H|[r [[] _]]]; auto.
    - cbn [rfold fst snd]. rewrite (compose_ok n) by (auto; apply (Prs (r, a)); cbn; auto). cbn [rbind].
      destruct (add_new_spec l (comp t r, a) Hl) as [N1 N2].
      destruct (IH (add_new l (comp t r, a)) Pt) as [l' [E [N3 N4]]]; [intros; apply Prs; cbn; auto|auto|].
      exists l'. split; auto. split; auto. intros p b. rewrite N4, N2. split.
      + intros [[H|H]|[r' [H ->]]]; auto.
        * right. exists r. inversion H; subst. cbn. auto.
        * right. exists r'. cbn. auto.
      + intros [H|[r' [[H|H] ->]]]; auto.
        * inversion H; subst. auto.
        * right. eauto. }
  unfold a_group.
  assert (forall ts l, (forall t, In t ts -> is_perm n t) -> NoDup l ->
    exists l', rfold (fun groupi i => rfold (fun groupi j => do c <- compose i (fst j); Ok (add_new groupi (c, snd j))) rots groupi) ts l = Ok l' /\ NoDup l' /\
      forall p a, In (p, a) l' <-> In (p, a) l \/ exists t r, In t ts /\ In (r, a) rots /\ p = comp t r) as Hout.
  { induction ts as [|t ts IH]; intros l Pt Hl.
    - exists l. split; auto. split; auto. intros p a. split; auto. intros [H|[t [r [[] _]]]]; auto.
    - cbn [rfold]. destruct (Hin t rots l) as [l1 [E1 [N1 M1]]]; auto; [apply Pt; cbn; auto|]. rewrite E1. cbn [rbind].
      destruct (IH l1) as [l2 [E2 [N2 M2]]]; auto; [intros; apply Pt; cbn; auto|]. exists l2. split; auto. split; auto.
      intros p a. rewrite M2, M1. split.
      + intros [[H|[r [H ->]]]|[t' [r [H1 [H2 ->]]]]]; auto; right; [exists t, r|exists t', r]; cbn; auto.
      + intros [H|[t' [r [[<-|H1] [H2 ->]]]]]; auto; [left; right; eauto|right; eauto]. }
  destruct (Hout trans []) as [l [E [N1 M]]]; auto; [constructor|]. exists l. split; auto. split; auto.
  intros p a. rewrite M. split; [intros [[]|H]; auto|auto].
Qed.
(** It is a group when both parts are and the translations are normalised by the rotations. *)
Theorem C23_group : forall n m trans rots l, perm_group n trans -> op_group n m rots ->
  (forall r a t, In (r, a) rots -> In t trans -> exists t', In t' trans /\ comp r t = comp t' r) ->
  a_group trans rots = Ok l -> op_group n m l.
Proof.
  intros n m trans rots l [T1 [T2 T3]] [R1 [R2 R3]] Hn El.
  destruct (C23_compositions n m trans rots T1 R1) as [l' [E [_ M]]]. rewrite El in E. inversion E; subst l'. clear E. split; [|split].
  - intros [p a] H. apply M in H. destruct H as [t [r [H1 [H2 ->]]]]. specialize (R1 _ H2). cbn in *. split; [apply comp_perm; auto|apply R1]. apply R1.
  - apply M. exists (idperm n), (idperm n). split; auto. split; auto. rewrite (comp_id_l n); auto. apply seq_length.
  - intros [p a] [q b] Hp Hq. apply M in Hp, Hq. destruct Hp as [t [r [H1 [H2 ->]]]], Hq as [u [s [H3 [H4 ->]]]]. cbn [fst snd]. apply M.
    destruct (Hn r a u H2 H3) as [t' [Ht' Ec]]. exists (comp t t'), (comp r s). split; [apply T3; auto|]. split; [apply (R3 (r, a) (s, b)); auto|].
    destruct (R1 _ H2) as [Pr _], (R1 _ H4) as [Ps _]. cbn in Pr, Ps. pose proof (T1 _ H1) as Pt. pose proof (T1 _ H3) as Pu. pose proof (T1 _ Ht') as Pt'.
    rewrite (comp_assoc n t r), <- (comp_assoc n r u), Ec, (comp_assoc n t' r), <- (comp_assoc n t t'); auto using comp_perm.
Qed.
(** [a_group_gen] (C22) closes these compositions. *)
Theorem C22_a_group_gen_partial : forall n m trans rots,
  (forall t, In t trans -> is_perm n t) -> (forall r, In r rots -> is_perm n (fst r) /\ is_perm m (snd r)) ->
  (exists t r a u s b, In t trans /\ In (r, a) rots /\ In u trans /\ In (s, b) rots /\ (comp t r, a) <> (comp u s, b)) ->
  exists l0 l fuel0, (forall p a, In (p, a) l0 <-> exists t r, In t trans /\ In (r, a) rots /\ p = comp t r) /\
    NoDup l /\ (forall x, In x l <-> generated (idperm n, idperm m) pair_mul l0 x) /\
    forall fuel, fuel0 <= fuel -> a_group_gen fuel trans rots = Ok l.
Proof.
  intros n m trans rots Ht Hr [t [r [a [u [s [b [H1 [H2 [H3 [H4 Hne]]]]]]]]]].
  destruct (C23_compositions n m trans rots Ht Hr) as [l0 [E [_ Hl0]]].
  destruct (C22_group_partial n m l0) as [l [f [N1 [N2 N3]]]].
  - intros [p c] Hin. apply Hl0 in Hin. destruct Hin as [t' [r' [A1 [A2 ->]]]]. destruct (Hr _ A2). cbn in *. split; auto. apply comp_perm; auto.
  - exists (comp t r, a), (comp u s, b). split; [apply Hl0; eauto|]. split; [apply Hl0; eauto|auto].
  - exists l0, l, f. split; auto. split; auto. split; auto. intros fuel Hf. unfold a_group_gen. rewrite E. cbn [rbind]. auto.
Qed.
(** It composes the arrow parts in the same order as the site parts, whereas operations on decorated structures compose
    them in opposite order: for a non-abelian rotation group operations are added to what is already a group. *)
Theorem C22_composition_order_refuted : exists trans rots l0 l, perm_group 3 trans /\ op_group 3 3 rots /\
  a_group trans rots = Ok l0 /\ op_group 3 3 l0 /\ a_group_gen 100 trans rots = Ok l /\ In ([0; 1; 2], [1; 2; 0]) l /\ ~ In ([0; 1; 2], [1; 2; 0]) l0.
Proof.
  exists [[0; 1; 2]], [([0; 1; 2], [0; 1; 2]); ([1; 2; 0], [2; 0; 1]); ([2; 0; 1], [1; 2; 0]); ([1; 0; 2], [1; 0; 2]); ([0; 2; 1], [0; 2; 1]); ([2; 1; 0], [2; 1; 0])].
  eexists. eexists. split; [apply perm_groupb_spec; reflexivity|]. split; [apply op_groupb_spec; reflexivity|]. split; [vm_compute; reflexivity|].
  split; [apply op_groupb_spec; reflexivity|]. split; [vm_compute; reflexivity|]. split; [cbn; tauto|]. cbn. intuition discriminate.
Qed.
Example C23_example : perm_group 4 [[0; 1; 2; 3]; [2; 3; 0; 1]] /\ op_group 4 2 [([0; 1; 2; 3], [0; 1]); ([1; 0; 3; 2], [1; 0])] /\
  (forall r a t, In (r, a) [([0; 1; 2; 3], [0; 1]); ([1; 0; 3; 2], [1; 0])] -> In t [[0; 1; 2; 3]; [2; 3; 0; 1]] ->
     exists t', In t' [[0; 1; 2; 3]; [2; 3; 0; 1]] /\ comp r t = comp t' r) /\
  a_group [[0; 1; 2; 3]; [2; 3; 0; 1]] [([0; 1; 2; 3], [0; 1]); ([1; 0; 3; 2], [1; 0])] =
    Ok [([0; 1; 2; 3], [0; 1]); ([1; 0; 3; 2], [1; 0]); ([2; 3; 0; 1], [0; 1]); ([3; 2; 1; 0], [1; 0])].
Proof.
  split; [apply perm_groupb_spec; reflexivity|]. split; [apply op_groupb_spec; reflexivity|]. split; [|reflexivity].
  intros r a t Hr Ht. exists t. split; auto. cbn in Hr, Ht. destruct Hr as [E|[E|[]]]; inversion E; subst; destruct Ht as [<-|[<-|[]]]; reflexivity.
Qed.

(** ** C24: [_make_member_list] *)
Theorem C24_members : forall a b c : Z, (0 < a -> 0 < b -> 0 < c ->
  NoDup (make_member_list (a, b, c)) /\ length (make_member_list (a, b, c)) = Z.to_nat (a * b * c) /\
  (forall i j k, In (i, j, k) (make_member_list (a, b, c)) <-> 0 <= i < a /\ 0 <= j < b /\ 0 <= k < c) /\
  forall i j k, 0 <= i < a -> 0 <= j < b -> 0 <= k < c ->
    nth (Z.to_nat (i * (b * c) + j * c + k)) (make_member_list (a, b, c)) (0, 0, 0) = (i, j, k))%Z.
Proof.
  intros a b c Ha Hb Hc. assert (LatSpec.positive (a, b, c)) as Hpos by (cbn; auto). split; [apply member_nodup; auto|].
  split; [apply (member_length (a, b, c)); auto|]. split; [intros; rewrite member_in by auto; apply reduced_triple|].
  intros i j k Hi Hj Hk. apply (member_nth_rank (a, b, c) (i, j, k)); auto. apply reduced_triple. auto.
Qed.
Example C24_example : nth 17 (make_member_list (2, 3, 4)%Z) (0, 0, 0)%Z = (1, 1, 1)%Z /\ length (make_member_list (2, 3, 4)%Z) = 24.
Proof. split; reflexivity. Qed.

(** ** C25: the translation permutations *)
Theorem C25_translations : forall (diag : vec) (n_d : nat), (LatSpec.positive diag ->
  (forall i, (i < 3)%nat -> vget diag i <= 10 ^ 5) -> (0 < n_d)%nat ->
  let n := Z.to_nat (volume diag) in
  let T := translation_perms n n_d diag (make_member_list diag) in
  length T = n /\ NoDup T /\ nth 0 T [] = idperm (n_d * n) /\
  (forall p, In p T -> is_perm (n_d * n) p /\ forall b k, b < n_d -> k < n -> exists l, l < n /\ nth (b * n + k) p 0 = b * n + l)%nat /\
  (forall p q, In p T -> In q T -> In (comp p q) T /\ comp p q = comp q p) /\
  (forall b k l, b < n_d -> k < n -> l < n -> exists! p, In p T /\ nth (b * n + k) p 0 = b * n + l)%nat)%Z.
Proof.
  intros diag n_d Hpos Hsmall Hd n T.
  assert (forall p, In p T <-> exists t, reduced diag t /\ p = translation_perm n n_d diag (make_member_list diag) t) as HT.
  { intros p. unfold T, translation_perms. rewrite in_map_iff. split; intros [t [H1 H2]]; exists t; [split; [apply member_in; auto|auto]|split; [auto|apply member_in; auto]]. }
  split; [unfold T, translation_perms; rewrite map_length; apply member_length; auto|].
  split; [apply tperms_nodup; auto|].
  split.
  { unfold T, translation_perms. assert (length (make_member_list diag) = n) as Hl by (apply member_length; auto). pose proof (n_pos diag Hpos) as Hn.
    rewrite nth_map_lt with (d := (0, 0, 0)%Z) by (eapply Nat.lt_le_trans; [exact Hn|]; apply Nat.eq_le_incl; symmetry; exact Hl). rewrite member_nth by auto.
    replace (dig diag (Z.of_nat 0)) with (0, 0, 0)%Z; [apply tperm_id; auto|]. destruct diag as [[a b] c]. unfold dig. cbn [Z.of_nat]. rewrite ?Zdiv_0_l, ?Zmod_0_l. reflexivity. }
  split.
  { intros p Hp. apply HT in Hp. destruct Hp as [t [Ht ->]]. split; [apply tperm_perm; auto|]. intros b k Hb Hk. exists (back diag t k).
    split; [apply back_lt; auto|apply tperm_nth; auto]. }
  split.
  { intros p q Hp Hq. apply HT in Hp, Hq. destruct Hp as [t [Ht ->]], Hq as [u [Hu ->]]. split.
    - apply HT. exists (vmod (vadd t u) diag). split; [apply vmod_reduced; auto|apply tperm_comp; auto].
    - unfold n. rewrite !tperm_comp by auto. rewrite vadd_comm. auto. }
  intros b k l Hb Hk Hl. destruct (tperm_trans diag n_d Hpos Hsmall b k l Hk Hl Hb) as [t [Ht E]].
  exists (translation_perm n n_d diag (make_member_list diag) t). split; [split; [apply HT; eauto|auto]|].
  intros q [Hq E2]. apply HT in Hq. destruct Hq as [u [Hu ->]]. f_equal. apply (tperm_inj diag n_d Hpos Hsmall t u b k); auto. unfold n in *. congruence.
Qed.
Example C25_example : translation_perms 4 2 (1, 2, 2)%Z (make_member_list (1, 2, 2)%Z) =
  [[0; 1; 2; 3; 4; 5; 6; 7]; [1; 0; 3; 2; 5; 4; 7; 6]; [2; 3; 0; 1; 6; 7; 4; 5]; [3; 2; 1; 0; 7; 6; 5; 4]].
Proof. reflexivity. Qed.

(** ** C26: matching lists *)
(** Entry i of the result is the place in the second list of the i-th entry of the first. *)
Theorem C26_find_permutation : forall g gp : list vec, NoDup g -> Permutation g gp ->
  (forall x i, In x g -> (i < 3)%nat -> (0 <= vget x i <= 10 ^ 5 - 1)%Z) ->
  let p := find_permutation_of_group g gp in
  is_perm (length g) p /\ forall i, i < length g -> nth (nth i p 0) gp (0, 0, 0)%Z = nth i g (0, 0, 0)%Z.
Proof.
  intros g gp Hn HP Hs p. destruct (same_lists_perm vec_eqb (0, 0, 0)%Z g gp vec_eqb_spec Hn HP) as [q [Hq Hc]].
  assert (p = q) as ->.
  { apply (match_lists_ok allclose (0, 0, 0)%Z); auto.
    - symmetry. apply Permutation_length; auto.
    - intros i j Hi Hj. rewrite allclose_exact; auto. assert (In (nth i g (0, 0, 0)%Z) g) as Hin by (apply nth_In; auto).
      destruct (nth i g (0, 0, 0)%Z) as [[a b] c]. pose proof (Hs _ 0 Hin ltac:(lia)). pose proof (Hs _ 1 Hin ltac:(lia)). pose proof (Hs _ 2 Hin ltac:(lia)).
      cbn [vget] in *. unfold small. lia. }
  split; auto. intros i Hi. apply Hc; auto. apply Hq, nth_In. destruct Hq as [-> _]; auto.
Qed.
Theorem C26_map_dvector : forall {A} (eqb : A -> A -> bool) (x0 : A) (rd d : list A), (forall a b, eqb a b = true <-> a = b) ->
  NoDup rd -> Permutation rd d ->
  exists p, map_dvector_permutation eqb rd d = Ok p /\ is_perm (length d) p /\ forall i, i < length d -> nth (nth i p 0) d x0 = nth i rd x0.
Proof.
  intros A eqb x0 rd d He Hn HP. pose proof (Permutation_length HP) as Hl. destruct (same_lists_perm eqb x0 rd d He Hn HP) as [q [Hq Hc]].
  exists q. unfold map_dvector_permutation. assert (match_lists (fun y x => eqb x y) rd d = q) as ->.
  { apply (match_lists_ok (fun y x => eqb x y) x0); auto. intros i j Hi Hj. rewrite He, <- Hc by auto. split; auto. }
  rewrite Hl in *. pose proof (proj1 Hq) as ->. rewrite Nat.eqb_refl. cbn. split; auto. split; auto. intros i Hi. apply Hc; auto.
  apply Hq, nth_In. rewrite (proj1 Hq). auto.
Qed.
(** When the lists do not contain the same vectors, the second routine ends the program. *)
Theorem C26_no_match_exits : forall rd d : list vec, length rd = length d ->
  (exists x, In x rd /\ ~ In x d) -> map_dvector_permutation vec_eqb rd d = Err SystemExit.
Proof.
  intros rd d Hl [x [Hx Hn]]. unfold map_dvector_permutation.
  assert (forall l acc, length (fold_left (fun perm x => match find (fun '(jm, y) => negb (existsb (Nat.eqb jm) perm) && vec_eqb x y)
              (combine (seq 0 (length rd)) d) with Some (jm, _) => perm ++ [jm] | None => perm end) l acc) <= length acc + length l /\
            (In x l -> length (fold_left (fun perm x => match find (fun '(jm, y) => negb (existsb (Nat.eqb jm) perm) && vec_eqb x y)
              (combine (seq 0 (length rd)) d) with Some (jm, _) => perm ++ [jm] | None => perm end) l acc) < length acc + length l)) as Hlen.
  { induction l as [|y l IH]; intros acc; cbn [fold_left length]; [split; [lia|intros []]|].
    destruct (find _ _) as [[jm z]|] eqn:Ef.
    - destruct (IH (acc ++ [jm])) as [A1 A2]. rewrite app_length in A1, A2. cbn in A1, A2. split; [lia|]. intros [->|Hin]; [|specialize (A2 Hin); lia].
      exfalso. apply find_some in Ef. destruct Ef as [Hin E]. apply andb_prop in E. destruct E as [_ E]. apply vec_eqb_spec in E. subst z.
      apply in_combine_r in Hin. auto.
    - destruct (IH acc) as [A1 A2]. split; [lia|]. intros [->|Hin]; [lia|]. specialize (A2 Hin). lia. }
  unfold match_lists. destruct (Hlen rd []) as [_ H]. specialize (H Hx). cbn [length Nat.add] in H.
  destruct (Nat.eqb_spec (length (fold_left (fun perm x => match find (fun '(jm, y) => negb (existsb (Nat.eqb jm) perm) && vec_eqb x y)
              (combine (seq 0 (length rd)) d) with Some (jm, _) => perm ++ [jm] | None => perm end) rd [])) (length d)) as [E|E]; auto.
  exfalso. lia.
Qed.
Example C26_example : find_permutation_of_group [(0, 0, 0); (0, 0, 1); (0, 0, 2)]%Z [(0, 0, 2); (0, 0, 0); (0, 0, 1)]%Z = [1; 2; 0].
Proof. reflexivity. Qed.
(** The default tolerance of [np.allclose] is relative: beyond 10^5 neighbouring members are confused. *)
Theorem C26_large_refuted : exists g gp : list vec, NoDup g /\ Permutation g gp /\
  find_permutation_of_group g gp = [0; 1] /\ nth 0 gp (0, 0, 0)%Z <> nth 0 g (0, 0, 0)%Z.
Proof.
  exists [(0, 0, 100000); (0, 0, 100001)]%Z, [(0, 0, 100001); (0, 0, 100000)]%Z.
  split; [repeat constructor; cbn; intuition discriminate|]. split; [constructor|]. split; [reflexivity|discriminate].
Qed.

(** ** C47: [polyaburnside.group] *)
Theorem C47_generated_group : forall n (gen : list (list nat)), 2 <= n -> gen <> [] -> (forall g, In g gen -> is_perm n g) ->
  exists l fuel0, NoDup l /\ (forall x, In x l <-> generated (idperm n) comp gen x) /\
    (forall fuel, fuel0 <= fuel -> polya_group fuel gen = Ok l) /\
    (forall fuel, fuel0 <= fuel -> polya_group fuel (map (map S) gen) = Ok l).
Proof.
  intros n gen Hn Hne Hg. destruct (perm_generates n gen Hn Hne Hg) as [l [f [H1 [H2 H3]]]]. exists l, f. split; auto. split; auto.
  destruct gen as [|g0 gen]; [congruence|]. assert (is_perm n g0) as H0 by (apply Hg; cbn; auto). split; intros fuel Hf; unfold polya_group; cbn [get nth_error rbind map].
  - assert (existsb (Nat.eqb 0) g0 = true) as ->.
    { apply existsb_exists. exists 0. split; auto. apply (perm_In n); auto. lia. }
    apply H3; auto.
  - assert (existsb (Nat.eqb 0) (map S g0) = false) as ->.
    { clear. induction g0 as [|x l IH]; auto. }
    assert (forall l : list (list nat), map (map (fun e => e - 1)) (map (map S) l) = l) as E.
    { intros k. rewrite map_map. rewrite <- (map_id k) at 2. apply map_ext. intros a. rewrite map_map. rewrite <- (map_id a) at 2. apply map_ext. intros; lia. }
    specialize (E (g0 :: gen)). cbn [map] in E. rewrite E. apply H3; auto.
Qed.
Example C47_example : exists l, polya_group 30 [[2; 3; 4; 1]; [2; 1; 4; 3]] = Ok l /\ length l = 8.
Proof. eexists. split; [vm_compute; reflexivity|reflexivity]. Qed.

(** ** C48: [get_sym_group] *)
Local Open Scope Z_scope.
(** The operations returned (with arrows) are exactly the pairs (site permutation, arrow permutation) of the symmetry
    operations of the crystal that keep the superlattice, provided rotations and their inverses act alike on the basis. *)
Theorem C48_symmetry_group_partial : forall (pg : list (mat * mat)) (D : Z) (bas : list vec) (H L B : mat) (diag : vec),
  0 < D -> bas <> [] -> NoDup bas -> (forall d, In d bas -> reduced (D, D, D) d) ->
  (forall C R, In (C, R) pg -> unimodular C /\ orthogonal R) ->
  unimodular L -> unimodular B -> mmul (mmul L H) B = diagonal diag -> positive diag ->
  (forall i, (i < 3)%nat -> vget diag i <= 10 ^ 5) ->
  self_inverse_on_basis pg D bas H ->
  exists G, get_sym_group pg D bas H L diag true = Ok G /\
    forall p a, In (p, a) G <-> exists C R s, supercell_symmetry pg D bas H C R s /\
      induces D bas L diag (affine C s) p /\ turns R a.
Proof.
  intros pg D bas H L B diag HD Hne Hnd Hred Hpg HL HB Hs Hp Hsm Hself.
  apply (sym_group_arrows pg D bas HD Hred Hnd Hne) with (B := B); auto; intros C R Hin; apply (Hpg C R); auto.
Qed.
(** Without arrows: the site permutations, with the identity on the six directions. *)
Theorem C48_symmetry_group_plain_partial : forall (pg : list (mat * mat)) (D : Z) (bas : list vec) (H L B : mat) (diag : vec),
  0 < D -> bas <> [] -> NoDup bas -> (forall d, In d bas -> reduced (D, D, D) d) ->
  (forall C R, In (C, R) pg -> unimodular C /\ orthogonal R) ->
  unimodular L -> unimodular B -> mmul (mmul L H) B = diagonal diag -> positive diag ->
  (forall i, (i < 3)%nat -> vget diag i <= 10 ^ 5) ->
  self_inverse_on_basis pg D bas H ->
  exists G, get_sym_group pg D bas H L diag false = Ok G /\
    forall p a, In (p, a) G <-> a = idperm 6 /\ exists C R s, supercell_symmetry pg D bas H C R s /\
      induces D bas L diag (affine C s) p.
Proof.
  intros pg D bas H L B diag HD Hne Hnd Hred Hpg HL HB Hs Hp Hsm Hself.
  apply (sym_group_plain pg D bas HD Hred Hnd Hne) with (B := B); auto; intros C R Hin; apply (Hpg C R); auto.
Qed.
(** It is a group of operations, as the enumeration needs. *)
Theorem C48_is_group_partial : forall (pg : list (mat * mat)) (D : Z) (bas : list vec) (H L B : mat) (diag : vec) (arrows : bool),
  0 < D -> bas <> [] -> NoDup bas -> (forall d, In d bas -> reduced (D, D, D) d) ->
  (forall C R, In (C, R) pg -> unimodular C /\ orthogonal R) -> rotation_group pg ->
  unimodular L -> unimodular B -> mmul (mmul L H) B = diagonal diag -> positive diag ->
  (forall i, (i < 3)%nat -> vget diag i <= 10 ^ 5) ->
  self_inverse_on_basis pg D bas H ->
  exists G, get_sym_group pg D bas H L diag arrows = Ok G /\ op_group (length bas * Z.to_nat (volume diag)) 6 G.
Proof.
  intros pg D bas H L B diag arrows HD Hne Hnd Hred Hpg Hgr HL HB Hs Hp Hsm Hself. destruct arrows.
  - destruct (C48_symmetry_group_partial pg D bas H L B diag) as [G [E HG]]; auto. exists G. split; auto.
    apply (arrows_group pg D bas H L B diag); auto. intros C R Hin; apply (Hpg C R); auto.
  - destruct (C48_symmetry_group_plain_partial pg D bas H L B diag) as [G [E HG]]; auto. exists G. split; auto.
    apply (plain_group pg D bas H L B diag); auto. intros C R Hin; apply (Hpg C R); auto.
Qed.
(** One atom per cell, at the origin: always, and every operation is listed once. *)
Theorem C48_one_atom : forall (pg : list (mat * mat)) (D : Z) (H L B : mat) (diag : vec) (arrows : bool),
  0 < D -> (forall C R, In (C, R) pg -> unimodular C /\ orthogonal R) -> rotation_group pg -> NoDup (map snd pg) ->
  unimodular L -> unimodular B -> mmul (mmul L H) B = diagonal diag -> positive diag ->
  (forall i, (i < 3)%nat -> vget diag i <= 10 ^ 5) ->
  exists G, get_sym_group pg D [(0, 0, 0)] H L diag arrows = Ok G /\ NoDup G /\ op_group (Z.to_nat (volume diag)) 6 G.
Proof.
  intros pg D H L B diag arrows HD Hpg Hgr Hd HL HB Hs Hp Hsm.
  destruct (C48_is_group_partial pg D [(0, 0, 0)] H L B diag arrows) as [G [E HG]]; auto; [discriminate|apply origin_nd|apply origin_red; auto|apply self_inverse_origin|].
  destruct (origin_nodup pg D H L B diag HD) with (arrows := arrows) as [G' [E' HN]]; auto; try (intros C R Hin; apply (Hpg C R); auto).
  rewrite E in E'. inversion E'; subst G'. exists G. split; auto. split; auto. cbn [length] in HG. rewrite Nat.mul_1_l in HG. auto.
Qed.

(** An atom at the origin and any others: every operation is listed once. *)
Theorem C48_with_origin_partial : forall (pg : list (mat * mat)) (D : Z) (bas : list vec) (H L B : mat) (diag : vec) (arrows : bool),
  0 < D -> In (0, 0, 0) bas -> NoDup bas -> (forall d, In d bas -> reduced (D, D, D) d) ->
  (forall C R, In (C, R) pg -> unimodular C /\ orthogonal R) -> rotation_group pg -> NoDup (map snd pg) ->
  unimodular L -> unimodular B -> mmul (mmul L H) B = diagonal diag -> positive diag ->
  (forall i, (i < 3)%nat -> vget diag i <= 10 ^ 5) ->
  self_inverse_on_basis pg D bas H ->
  exists G, get_sym_group pg D bas H L diag arrows = Ok G /\ NoDup G /\ op_group (length bas * Z.to_nat (volume diag)) 6 G /\
    (length G <= length pg * length bas * Z.to_nat (volume diag))%nat.
Proof.
  intros pg D bas H L B diag arrows HD Hz Hnd Hred Hpg Hgr Hd HL HB Hs Hp Hsm Hself. assert (bas <> []) as Hne by (intros E; rewrite E in Hz; destruct Hz).
  destruct (C48_is_group_partial pg D bas H L B diag arrows) as [G [E HG]]; auto.
  destruct (basis_nodup pg D bas H L B diag HD) with (arrows := arrows) as [G' [E' [HN Hl]]]; auto; try (intros C R Hin; apply (Hpg C R); auto).
  rewrite E in E'. inversion E'; subst G'. exists G. auto.
Qed.

(** The point group of a cubic lattice: the signed permutation matrices. *)
Definition signed_perms : list mat :=
  flat_map (fun '(x, y, z) => flat_map (fun s1 => flat_map (fun s2 => map (fun s3 => (vscale s1 x, vscale s2 y, vscale s3 z)) [1; -1]) [1; -1]) [1; -1])
    (let a := (1, 0, 0) in let b := (0, 1, 0) in let c := (0, 0, 1) in [(a, b, c); (a, c, b); (b, a, c); (b, c, a); (c, a, b); (c, b, a)]).
Definition cubic : list (mat * mat) := map (fun M => (M, M)) signed_perms.
Definition mat_eqb (M N : mat) : bool := let '(a, b, c) := M in let '(x, y, z) := N in vec_eqb a x && vec_eqb b y && vec_eqb c z.
Lemma mat_eqb_spec M N : mat_eqb M N = true <-> M = N.
Proof.
  destruct M as [[a b] c], N as [[x y] z]. unfold mat_eqb. rewrite !andb_true_iff, !vec_eqb_spec. split; [intros [[-> ->] ->]; auto|]. intros E; inversion E; auto.
Qed.
Lemma cubic_ok : (forall C R, In (C, R) cubic -> unimodular C /\ orthogonal R) /\ rotation_group cubic /\ NoDup (map snd cubic).
Proof.
  split; [|split].
  - assert (forallb (fun '(C, R) => ((mdet C =? 1) || (mdet C =? -1)) && mat_eqb (mmul R (transpose R)) mid && mat_eqb (mmul (transpose R) R) mid) cubic = true) as E by (vm_compute; reflexivity).
    rewrite forallb_forall in E. intros C R Hin. apply E in Hin. rewrite !andb_true_iff, orb_true_iff, !Z.eqb_eq, !mat_eqb_spec in Hin. unfold unimodular, orthogonal. tauto.
  - split; [left; reflexivity|].
    assert (forallb (fun M => forallb (fun N => existsb (mat_eqb (mmul M N)) signed_perms) signed_perms) signed_perms = true) as E by (vm_compute; reflexivity).
    intros C R C' R' H H'. apply in_map_iff in H, H'. destruct H as [M [E1 H]], H' as [M' [E2 H']]. inversion E1; subst. inversion E2; subst.
    rewrite forallb_forall in E. apply E in H. rewrite forallb_forall in H. apply H in H'. apply existsb_exists in H'. destruct H' as [N [HN E3]]. apply mat_eqb_spec in E3.
    apply in_map_iff. exists N. subst N. auto.
  - unfold cubic. rewrite map_map. cbn [snd]. rewrite map_id.
    assert (forallb (fun i => forallb (fun j => (i =? j)%nat || negb (mat_eqb (nth i signed_perms mid) (nth j signed_perms mid))) (seq 0 48)) (seq 0 48) = true) as E by (vm_compute; reflexivity).
    apply (proj2 (NoDup_nth signed_perms mid)). change (length signed_perms) with 48%nat. intros i j Hi Hj Eij.
    rewrite forallb_forall in E. specialize (E i). rewrite in_seq in E. specialize (E ltac:(lia)). rewrite forallb_forall in E. specialize (E j). rewrite in_seq in E. specialize (E ltac:(lia)).
    apply orb_true_iff in E. destruct E as [E|E]; [apply Nat.eqb_eq; auto|]. rewrite Eij, (proj2 (mat_eqb_spec _ _) eq_refl) in E. discriminate.
Qed.
Example C48_example : let H := ((1, 0, 0), (0, 1, 0), (1, 0, 3)) in let L := ((1, 0, 0), (0, 1, 0), (-1, 0, 1)) in
  unimodular L /\ mmul (mmul L H) mid = diagonal (1, 1, 3) /\ positive (1, 1, 3) /\
  exists G, get_sym_group cubic 1 [(0, 0, 0)] H L (1, 1, 3) true = Ok G /\ length G = 24%nat.
Proof. split; [left; reflexivity|]. split; [reflexivity|]. split; [cbn; lia|]. eexists. split; [vm_compute; reflexivity|reflexivity]. Qed.

(** Two atoms, at the origin and at (1/2, 1/4, 1/4), in an orthorhombic lattice, whose rotations are their own inverses. *)
Definition diagonal_signs : list (mat * mat) := flat_map (fun a => flat_map (fun b => map (fun c => let M := ((a, 0, 0), (0, b, 0), (0, 0, c)) in (M, M)) [1; -1]) [1; -1]) [1; -1].
Lemma involutions_self_inverse pg D bas H : (forall C R, In (C, R) pg -> unimodular C /\ mmul C C = mid) -> self_inverse_on_basis pg D bas H.
Proof.
  intros Hi C R s d Hin _ _. destruct (Hi C R Hin) as [Hu E]. exists (0, 0, 0). split; [|intros _; apply lattice_0]. rewrite vscale_0, vadd_0_r.
  rewrite <- (minv_vec_l C (mvec C d) Hu), <- (mvec_mmul C C), E, mvec_id. auto.
Qed.
Example C48_example_two : (forall H, self_inverse_on_basis diagonal_signs 4 [(0, 0, 0); (2, 1, 1)] H) /\ rotation_group diagonal_signs /\
  exists G, get_sym_group diagonal_signs 4 [(0, 0, 0); (2, 1, 1)] ((1, 0, 0), (0, 1, 0), (0, 0, 3)) mid (1, 1, 3) true = Ok G /\ length G = 12%nat.
Proof.
  split; [|split].
  - intros H. apply involutions_self_inverse. intros C R Hin. unfold diagonal_signs in Hin. cbn in Hin. decompose [or] Hin; try contradiction; match goal with E : (_, _) = (C, R) |- _ => injection E as <- <- end; (split; [vm_compute; tauto|reflexivity]).
  - split; [left; reflexivity|]. intros C R C' R' H1 H2. unfold diagonal_signs in *. cbn in H1, H2. decompose [or] H1; try contradiction; match goal with E : (_, _) = (C, R) |- _ => injection E as <- <- end;
      decompose [or] H2; try contradiction; match goal with E : (_, _) = (C', R') |- _ => injection E as <- <- end; cbn; tauto.
  - eexists. split; [vm_compute; reflexivity|reflexivity].
Qed.

(** The hypothesis on the basis cannot be dropped: for atoms on the face centres of the cubic cell the result is not
    closed, and for one atom at (0, 0, 3/4) the program exits. *)
Theorem C48_face_centres_refuted : exists G p a q b, get_sym_group cubic 2 [(1, 1, 0); (1, 0, 1); (0, 1, 1)] mid mid (1, 1, 1) true = Ok G /\
  In (p, a) G /\ In (q, b) G /\ ~ In (comp p q, comp b a) G.
Proof.
  eexists. exists [0; 2; 1]%nat, [2; 3; 0; 1; 4; 5]%nat, [1; 0; 2]%nat, [0; 1; 4; 5; 2; 3]%nat. split; [vm_compute; reflexivity|].
  split; [apply existsb_op; vm_compute; reflexivity|]. split; [apply existsb_op; vm_compute; reflexivity|].
  intros Hin. assert (forall G g, In g G -> existsb (Decide.op_eqb g) G = true) as E.
  { intros G g HG. apply existsb_exists. exists g. split; auto. apply Decide.op_eqb_spec. auto. }
  apply E in Hin. vm_compute in Hin. discriminate.
Qed.
Theorem C48_off_centre_refuted : get_sym_group cubic 4 [(0, 0, 3)] mid mid (1, 1, 1) true = Err SystemExit.
Proof. vm_compute. reflexivity. Qed.
(** One atom away from the origin: operations are listed repeatedly. *)
Theorem C48_repetition_refuted : get_sym_group cubic 2 [(1, 1, 1)] ((1, 0, 0), (0, 1, 0), (0, 0, 2)) mid (1, 1, 2) false =
  Ok [([0; 1], [0; 1; 2; 3; 4; 5]); ([1; 0], [0; 1; 2; 3; 4; 5]); ([1; 0], [0; 1; 2; 3; 4; 5]); ([0; 1], [0; 1; 2; 3; 4; 5])]%nat.
Proof. vm_compute. reflexivity. Qed.

Print Assumptions C22_group_partial.
Print Assumptions C22_a_group_gen_partial.
Print Assumptions C22_single_generator_refuted.
Print Assumptions C22_composition_order_refuted.
Print Assumptions C23_compositions.
Print Assumptions C23_group.
Print Assumptions C24_members.
Print Assumptions C25_translations.
Print Assumptions C26_find_permutation.
Print Assumptions C26_map_dvector.
Print Assumptions C26_no_match_exits.
Print Assumptions C26_large_refuted.
Print Assumptions C47_generated_group.
Print Assumptions C48_symmetry_group_partial.
Print Assumptions C48_symmetry_group_plain_partial.
Print Assumptions C48_is_group_partial.
Print Assumptions C48_one_atom.
Print Assumptions C48_with_origin_partial.
Print Assumptions C48_face_centres_refuted.
Print Assumptions C48_off_centre_refuted.
Print Assumptions C48_repetition_refuted.
