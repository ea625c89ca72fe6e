(** Groups read from files (C70): the properties. *)
From Coq Require Import Permutation QArith.
From Verif Require Import TextModel TextProofs PyBase Spec ListFacts NumericsModel PhononsModel TreeModel PolyaModel PolyaSpec BranchTheorems DecoFacts Decide PropertiesCount EnumSysModel EnumSysProofs EnumSysMore PropertiesEnumSys LatticeInSpec FilesModel GroupFileModel GroupFileProofs.
Local Open Scope Z_scope.

(** Whatever permutations a group file lists, in lines broken anywhere, they are what is read, counted from 0. *)
Theorem C70_read : forall text ps, group_file text ps -> (forall p q, In p ps -> In q ps -> length p = length q) ->
  read_group text = Ok (map (map Z.of_nat) ps).
Proof. exact read_file. Qed.
(** Lists of different lengths are refused. *)
Theorem C70_ragged : forall text ps p q, group_file text ps -> In p ps -> In q ps -> length p <> length q -> exists e, read_group text = Err e.
Proof.
  intros text ps p q [pre [blocks [H6 [Hn [-> Hb]]]]] Hp Hq Hne. unfold read_group. rewrite lines_text by auto.
  assert (forall l, group_lines 0 (pre ++ l) [] = group_lines 6 l []) as Hpre by (intros l; destruct pre as [|a [|b [|c [|d [|e [|f [|]]]]]]]; try discriminate; reflexivity).
  rewrite Hpre, (read_entries _ _ Hb) by lia. cbn [rbind app]. destruct (forallb _ _) eqn:E; [|eauto]. exfalso. rewrite forallb_forall in E.
  assert (forall r, In r ps -> length r = length (nth 0 (map (map (fun i => Z.of_nat (S i))) ps) [])) as H.
  { intros r Hr. specialize (E (map (fun i => Z.of_nat (S i)) r) (in_map _ _ _ Hr)). apply Nat.eqb_eq in E. rewrite map_length in E. auto. }
  apply Hne. rewrite (H p), (H q); auto.
Qed.

(** Two colourings of the sites are equivalent when a permutation of the list takes one to the other. *)
Definition equivalent_by (ps : list (list nat)) (v w : list (Z * Z)) : Prop := exists p, In p ps /\ w = act (-1, 0) p v.
Lemma file_group text ps n : group_file text ps -> perm_group n ps -> group_of_file text = Ok (map (fun p => (p, [0%nat])) ps).
Proof.
  intros Hf [Hp _]. unfold group_of_file. rewrite (read_file text ps Hf); [|intros p q Ip Iq; apply Hp in Ip, Iq; destruct Ip as [-> _], Iq as [-> _]; auto]. cbn [rbind].
  replace (forallb _ _) with true.
  - f_equal. rewrite map_map. apply map_ext. intros p. f_equal. rewrite map_map. rewrite <- (map_id p) at 2. apply map_ext. intros i. apply Nat2Z.id.
  - symmetry. apply forallb_forall. intros r Hr. apply in_map_iff in Hr. destruct Hr as [p [<- _]]. apply forallb_forall. intros x Hx. apply in_map_iff in Hx. destruct Hx as [i [<- _]]. apply Z.leb_le. lia.
Qed.
Lemma plain_ops n ps : perm_group n ps -> op_group n 1 (map (fun p => (p, [0%nat])) ps).
Proof.
  intros [Hp [Hid Hc]]. split; [|split].
  - intros g Hg. apply in_map_iff in Hg. destruct Hg as [p [<- Ip]]. split; [apply Hp; auto|]. split; [reflexivity|]. split; [repeat constructor; intros []|]. intros i [<-|[]]. lia.
  - apply in_map_iff. exists (idperm n). auto.
  - intros g h Hg Hh. apply in_map_iff in Hg, Hh. destruct Hg as [p [<- Ip]], Hh as [q [<- Iq]]. cbn [fst snd]. apply in_map_iff. exists (comp p q). split; [reflexivity|auto].
Qed.
Lemma equivalent_site ps v w : equivalent_by ps v w <-> site_equiv (map (fun p => (p, [0%nat])) ps) v w.
Proof.
  split; [intros [p [Hp E]]; exists (p, [0%nat]); split; auto; apply in_map_iff; eauto|]. intros [g [Hg E]]. apply in_map_iff in Hg. destruct Hg as [p [<- Hp]]. exists p. auto.
Qed.
(** Enumeration with the group of a file, two species or more without displacements: all classes when at least as many are
    wanted, otherwise as many as are wanted.  The bounds keep the counts within doubles and off guess-and-check. *)
Theorem C70_enumerate_partial : forall v draw rnd shuffled text ps n nbasis concs num reps,
  group_file text ps -> perm_group n ps -> NoDup ps -> n = fold_right Nat.add 0%nat concs -> (0 < n)%nat -> (0 < nbasis)%nat -> (2 <= length concs)%nat ->
  (forall l, Permutation (shuffled l) l) -> (100 < num)%nat \/ Z.of_nat (length (labelings concs)) <= 100000 ->
  Z.of_nat (max n (length ps)) * Z.of_nat (length (labelings concs)) < 2 ^ 53 ->
  transversal (fun w => Permutation w (plain_sites concs)) (equivalent_by ps) reps -> (1 <= num)%nat -> Z.of_nat (length reps) < 1000000 ->
  exists L fuel0, (forall fuel, (fuel0 <= fuel)%nat -> enum_sys_file v draw rnd shuffled fuel text nbasis concs (map (fun _ => 0) concs) num true false = Ok L) /\
    length L = min num (length reps) /\ (forall w, In w L -> Permutation w (plain_sites concs)) /\ ForallOrdPairs (fun r s => ~ equivalent_by ps r s) L.
Proof.
  intros v draw rnd shuffled text ps n nbasis concs num reps Hf HG Hnd En Hn0 Hnb Hlen Hsh Hskip HB Hreps Hnum Hmil.
  set (G := map (fun p => (p, [0%nat])) ps). set (na := map (fun _ => 0) concs).
  assert (length na = length concs) as Hl by apply map_length.
  assert (forall i, (i < length concs)%nat -> 0 <= nth i na 0 <= Z.of_nat (nth i concs 0%nat)) as Hle.
  { intros i Hi. replace (nth i na 0) with 0; [lia|]. unfold na. symmetry. apply (map_nth (fun _ : nat => 0) concs 0%nat i). }
  destruct (C42_decorations concs na Hl Hle) as [D [ED [LD _]]].
  assert (fold_right Z.add 0 na = 0) as Hz by (unfold na; clear; induction concs as [|c l IH]; [auto|]; cbn; lia).
  assert (Permutation D (plain_sites concs)) as HP by (apply (D_plain concs na D); auto; split; auto).
  assert (NumericsModel.multinomial (map Z.of_nat concs) = Ok (Z.of_nat (length (labelings concs)))) as Em.
  { apply C02_multinomial_partial; [intros ->; cbn in Hlen; lia|]. rewrite <- En. eapply Z.le_lt_trans; [|eapply Z.lt_trans; [exact HB|reflexivity]]. apply Z.mul_le_mono_nonneg_r; lia. }
  assert (length D = n) as LDn by congruence.
  assert (op_group (length D) 1 G) as HGo by (rewrite LDn; apply plain_ops; auto).
  assert (NoDup G) as HGn by (unfold G; apply FinFun.Injective_map_NoDup; auto; intros a b E; injection E; auto).
  assert (length G = length ps) as LG by apply map_length.
  assert (D <> []) as HDne by (intros ->; cbn in LDn; lia).
  assert (transversal (fun w => Permutation w D) (site_equiv G) reps) as Hreps'.
  { destruct Hreps as [T1 [T2 T3]]. split; [|split].
    - intros w Hw. rewrite HP. auto.
    - intros w Hw. rewrite HP in Hw. destruct (T2 w Hw) as [r [Hr E]]. exists r. split; auto. apply equivalent_site. auto.
    - eapply TransFacts.FOP_impl; [|exact T3]. cbv beta. intros a b _ _ H E. apply H. apply equivalent_site. auto. }
  assert (forall fuel, enum_sys_file v draw rnd shuffled fuel text nbasis concs na num true false = enum_sys v draw rnd shuffled fuel G nbasis concs na num true false) as Efile.
  { intros fuel. unfold enum_sys_file. replace (nbasis =? 0)%nat with false by (symmetry; apply Nat.eqb_neq; lia). rewrite ED. cbn [rbind]. rewrite (file_group text ps n) by auto. reflexivity. }
  assert (forall L, ForallOrdPairs (fun r s => ~ site_equiv G r s) L -> ForallOrdPairs (fun r s => ~ equivalent_by ps r s) L) as Hfop.
  { intros L H. eapply TransFacts.FOP_impl; [|exact H]. cbv beta. intros a b _ _ K E. apply K. apply equivalent_site. auto. }
  destruct (le_lt_dec (length reps) num) as [Hc|Hc].
  - destruct (C40_wrong_length_refuted v draw rnd shuffled G nbasis concs na num D (Z.of_nat (length (labelings concs))) 1 reps) as [L [f0 [H1 [H2 [H3 [H4 H5]]]]]]; auto; [rewrite LDn, LG; auto|].
    exists L, f0. split; [intros fuel Hfu; rewrite Efile; auto|]. split; [lia|]. split; [intros w Hw; rewrite <- HP; auto|auto].
  - destruct (C40_sample_plain_partial v draw rnd shuffled G nbasis concs na num D (Z.of_nat (length (labelings concs))) 1 reps) as [L [f0 [H1 [H2 [H3 H4]]]]]; auto; [rewrite LDn, LG; auto|lia|].
    exists L, f0. split; [intros fuel Hfu; rewrite Efile; auto|]. split; [lia|]. split; [intros w Hw; rewrite <- HP; auto|auto].
Qed.

(** The files of the project's tests of enum_sys. *)
Definition test_group_1 : list string := [
  "The integer vectors in the final columns of each";
  "permutation listing describe how a list 1, 2, ...";
  "gets permuted. So ""2 1"" implies that element 2 is";
  "mapped to position 1, and the first one ends up in ";
  "second position.";
  "Number of permutations:    6";
  "Perm #:     1 Perm:    1    2    3";
  "Perm #:     2 Perm:    3    1    2";
  "Perm #:     3 Perm:    2    3    1";
  "Perm #:     4 Perm:    1    3    2";
  "Perm #:     5 Perm:    3    2    1";
  "Perm #:     6 Perm:    2    1    3"]%string.
Definition test_group_4 : list string := [
  "The integer vectors in the final columns of each";
  "permutation listing describe how a list 1, 2, ...";
  "gets permuted. So ""2 1"" implies that element 2 is";
  "mapped to position 1, and the first one ends up in ";
  "second position.";
  "Number of permutations:   42";
  "Perm #:     1 Perm:    1    2    3    4    5    6    7";
  "Perm #:     2 Perm:    7    1    2    3    4    5    6";
  "Perm #:     3 Perm:    6    7    1    2    3    4    5";
  "Perm #:     4 Perm:    5    6    7    1    2    3    4";
  "Perm #:     5 Perm:    4    5    6    7    1    2    3";
  "Perm #:     6 Perm:    3    4    5    6    7    1    2";
  "Perm #:     7 Perm:    2    3    4    5    6    7    1";
  "Perm #:     8 Perm:    1    3    5    7    2    4    6";
  "Perm #:     9 Perm:    7    2    4    6    1    3    5";
  "Perm #:    10 Perm:    6    1    3    5    7    2    4";
  "Perm #:    11 Perm:    5    7    2    4    6    1    3";
  "Perm #:    12 Perm:    4    6    1    3    5    7    2";
  "Perm #:    13 Perm:    3    5    7    2    4    6    1";
  "Perm #:    14 Perm:    2    4    6    1    3    5    7";
  "Perm #:    15 Perm:    1    4    7    3    6    2    5";
  "Perm #:    16 Perm:    7    3    6    2    5    1    4";
  "Perm #:    17 Perm:    6    2    5    1    4    7    3";
  "Perm #:    18 Perm:    5    1    4    7    3    6    2";
  "Perm #:    19 Perm:    4    7    3    6    2    5    1";
  "Perm #:    20 Perm:    3    6    2    5    1    4    7";
  "Perm #:    21 Perm:    2    5    1    4    7    3    6";
  "Perm #:    22 Perm:    1    5    2    6    3    7    4";
  "Perm #:    23 Perm:    7    4    1    5    2    6    3";
  "Perm #:    24 Perm:    6    3    7    4    1    5    2";
  "Perm #:    25 Perm:    5    2    6    3    7    4    1";
  "Perm #:    26 Perm:    4    1    5    2    6    3    7";
  "Perm #:    27 Perm:    3    7    4    1    5    2    6";
  "Perm #:    28 Perm:    2    6    3    7    4    1    5";
  "Perm #:    29 Perm:    1    6    4    2    7    5    3";
  "Perm #:    30 Perm:    7    5    3    1    6    4    2";
  "Perm #:    31 Perm:    6    4    2    7    5    3    1";
  "Perm #:    32 Perm:    5    3    1    6    4    2    7";
  "Perm #:    33 Perm:    4    2    7    5    3    1    6";
  "Perm #:    34 Perm:    3    1    6    4    2    7    5";
  "Perm #:    35 Perm:    2    7    5    3    1    6    4";
  "Perm #:    36 Perm:    1    7    6    5    4    3    2";
  "Perm #:    37 Perm:    7    6    5    4    3    2    1";
  "Perm #:    38 Perm:    6    5    4    3    2    1    7";
  "Perm #:    39 Perm:    5    4    3    2    1    7    6";
  "Perm #:    40 Perm:    4    3    2    1    7    6    5";
  "Perm #:    41 Perm:    3    2    1    7    6    5    4";
  "Perm #:    42 Perm:    2    1    7    6    5    4    3"]%string.
Definition test_group_5 : list string := [
  "The integer vectors in the final columns of each";
  "permutation listing describe how a list 1, 2, ...";
  "gets permuted. So ""2 1"" implies that element 2 is";
  "mapped to position 1, and the first one ends up in ";
  "second position.";
  "Number of permutations:   16";
  "Perm #:     1 Perm:    1    2    3    4    5    6    7    8";
  "Perm #:     2 Perm:    4    1    2    3    8    5    6    7";
  "Perm #:     3 Perm:    3    4    1    2    7    8    5    6";
  "Perm #:     4 Perm:    2    3    4    1    6    7    8    5";
  "Perm #:     5 Perm:    5    6    7    8    1    2    3    4";
  "Perm #:     6 Perm:    8    5    6    7    4    1    2    3";
  "Perm #:     7 Perm:    7    8    5    6    3    4    1    2";
  "Perm #:     8 Perm:    6    7    8    5    2    3    4    1";
  "Perm #:     9 Perm:    1    4    3    2    5    8    7    6";
  "Perm #:    10 Perm:    4    3    2    1    8    7    6    5";
  "Perm #:    11 Perm:    3    2    1    4    7    6    5    8";
  "Perm #:    12 Perm:    2    1    4    3    6    5    8    7";
  "Perm #:    13 Perm:    5    8    7    6    1    4    3    2";
  "Perm #:    14 Perm:    8    7    6    5    4    3    2    1";
  "Perm #:    15 Perm:    7    6    5    8    3    2    1    4";
  "Perm #:    16 Perm:    6    5    8    7    2    1    4    3"]%string.
Lemma test_group_1_says : group_file (text_lines test_group_1) [[0; 1; 2]; [2; 0; 1]; [1; 2; 0]; [0; 2; 1]; [2; 1; 0]; [1; 0; 2]]%nat.
Proof.
  exists (firstn 6 test_group_1), (map (fun l => [l]) (skipn 6 test_group_1)). split; [reflexivity|]. split; [repeat constructor|]. split; [reflexivity|].
  cbn [map skipn test_group_1].
    apply Forall2_cons; [exists "     "%string, "1"%string, " "%string, "    1    2    3"%string, [], [0; 1; 2]%nat, []; split; [reflexivity|]; split; [repeat split|]; split; [discriminate|]; split; [split; [discriminate|repeat split]|]; split; [repeat split|]; split; [discriminate|]; split; [right; eexists _, _; split; reflexivity|]; split; [apply (numbers_more "    " 0 "    2    3"); [repeat split|right; eexists _, _; split; reflexivity|]; apply (numbers_more "    " 1 "    3"); [repeat split|right; eexists _, _; split; reflexivity|]; apply (numbers_more "    " 2 ""); [repeat split|left; reflexivity|]; apply numbers_end; exact Logic.I|]; split; [constructor|reflexivity]|].
    apply Forall2_cons; [exists "     "%string, "2"%string, " "%string, "    3    1    2"%string, [], [2; 0; 1]%nat, []; split; [reflexivity|]; split; [repeat split|]; split; [discriminate|]; split; [split; [discriminate|repeat split]|]; split; [repeat split|]; split; [discriminate|]; split; [right; eexists _, _; split; reflexivity|]; split; [apply (numbers_more "    " 2 "    1    2"); [repeat split|right; eexists _, _; split; reflexivity|]; apply (numbers_more "    " 0 "    2"); [repeat split|right; eexists _, _; split; reflexivity|]; apply (numbers_more "    " 1 ""); [repeat split|left; reflexivity|]; apply numbers_end; exact Logic.I|]; split; [constructor|reflexivity]|].
    apply Forall2_cons; [exists "     "%string, "3"%string, " "%string, "    2    3    1"%string, [], [1; 2; 0]%nat, []; split; [reflexivity|]; split; [repeat split|]; split; [discriminate|]; split; [split; [discriminate|repeat split]|]; split; [repeat split|]; split; [discriminate|]; split; [right; eexists _, _; split; reflexivity|]; split; [apply (numbers_more "    " 1 "    3    1"); [repeat split|right; eexists _, _; split; reflexivity|]; apply (numbers_more "    " 2 "    1"); [repeat split|right; eexists _, _; split; reflexivity|]; apply (numbers_more "    " 0 ""); [repeat split|left; reflexivity|]; apply numbers_end; exact Logic.I|]; split; [constructor|reflexivity]|].
    apply Forall2_cons; [exists "     "%string, "4"%string, " "%string, "    1    3    2"%string, [], [0; 2; 1]%nat, []; split; [reflexivity|]; split; [repeat split|]; split; [discriminate|]; split; [split; [discriminate|repeat split]|]; split; [repeat split|]; split; [discriminate|]; split; [right; eexists _, _; split; reflexivity|]; split; [apply (numbers_more "    " 0 "    3    2"); [repeat split|right; eexists _, _; split; reflexivity|]; apply (numbers_more "    " 2 "    2"); [repeat split|right; eexists _, _; split; reflexivity|]; apply (numbers_more "    " 1 ""); [repeat split|left; reflexivity|]; apply numbers_end; exact Logic.I|]; split; [constructor|reflexivity]|].
    apply Forall2_cons; [exists "     "%string, "5"%string, " "%string, "    3    2    1"%string, [], [2; 1; 0]%nat, []; split; [reflexivity|]; split; [repeat split|]; split; [discriminate|]; split; [split; [discriminate|repeat split]|]; split; [repeat split|]; split; [discriminate|]; split; [right; eexists _, _; split; reflexivity|]; split; [apply (numbers_more "    " 2 "    2    1"); [repeat split|right; eexists _, _; split; reflexivity|]; apply (numbers_more "    " 1 "    1"); [repeat split|right; eexists _, _; split; reflexivity|]; apply (numbers_more "    " 0 ""); [repeat split|left; reflexivity|]; apply numbers_end; exact Logic.I|]; split; [constructor|reflexivity]|].
    apply Forall2_cons; [exists "     "%string, "6"%string, " "%string, "    2    1    3"%string, [], [1; 0; 2]%nat, []; split; [reflexivity|]; split; [repeat split|]; split; [discriminate|]; split; [split; [discriminate|repeat split]|]; split; [repeat split|]; split; [discriminate|]; split; [right; eexists _, _; split; reflexivity|]; split; [apply (numbers_more "    " 1 "    1    3"); [repeat split|right; eexists _, _; split; reflexivity|]; apply (numbers_more "    " 0 "    3"); [repeat split|right; eexists _, _; split; reflexivity|]; apply (numbers_more "    " 2 ""); [repeat split|left; reflexivity|]; apply numbers_end; exact Logic.I|]; split; [constructor|reflexivity]|].
    apply Forall2_nil.
Qed.
Example C70_example : let ps := [[0; 1; 2]; [2; 0; 1]; [1; 2; 0]; [0; 2; 1]; [2; 1; 0]; [1; 0; 2]]%nat in
  group_file (text_lines test_group_1) ps /\ perm_group 3 ps /\ NoDup ps /\
  enum_sys_file Py3 (fun _ _ => 0) (fun _ => true) (fun l => l) 100 (text_lines test_group_1) 1 [1; 2]%nat [0; 0] 1 true false = Ok [[(-1, 1); (-1, 2); (-1, 2)]].
Proof.
  cbn zeta. split; [exact test_group_1_says|]. split; [apply perm_groupb_spec; vm_compute; reflexivity|]. split; [repeat constructor; cbn; intuition discriminate|]. vm_compute. reflexivity.
Qed.
(** /repo/tests/test_phonons.py, TestEnumSys.test_4 and test_5. *)
Example C70_fixtures :
  enum_sys_file Py3 (fun _ _ => 0) (fun _ => true) (fun l => l) 1000 (text_lines test_group_4) 1 [3; 4]%nat [0; 0] 2 true false =
    Ok [[(-1, 1); (-1, 1); (-1, 1); (-1, 2); (-1, 2); (-1, 2); (-1, 2)]; [(-1, 1); (-1, 1); (-1, 2); (-1, 1); (-1, 2); (-1, 2); (-1, 2)]] /\
  enum_sys_file Py3 (fun _ _ => 0) (fun _ => true) (fun l => l) 1000 (text_lines test_group_5) 1 [4; 4]%nat [0; 0] 10 true false =
    Ok [[(-1, 1); (-1, 1); (-1, 1); (-1, 1); (-1, 2); (-1, 2); (-1, 2); (-1, 2)]; [(-1, 1); (-1, 1); (-1, 1); (-1, 2); (-1, 1); (-1, 2); (-1, 2); (-1, 2)]; [(-1, 1); (-1, 1); (-1, 1); (-1, 2); (-1, 2); (-1, 1); (-1, 2); (-1, 2)]; [(-1, 1); (-1, 1); (-1, 1); (-1, 2); (-1, 2); (-1, 2); (-1, 2); (-1, 1)]; [(-1, 1); (-1, 1); (-1, 2); (-1, 2); (-1, 1); (-1, 1); (-1, 2); (-1, 2)]; [(-1, 1); (-1, 1); (-1, 2); (-1, 2); (-1, 1); (-1, 2); (-1, 1); (-1, 2)]; [(-1, 1); (-1, 1); (-1, 2); (-1, 2); (-1, 1); (-1, 2); (-1, 2); (-1, 1)]; [(-1, 1); (-1, 1); (-1, 2); (-1, 2); (-1, 2); (-1, 2); (-1, 1); (-1, 1)]; [(-1, 1); (-1, 2); (-1, 1); (-1, 2); (-1, 1); (-1, 2); (-1, 1); (-1, 2)]; [(-1, 1); (-1, 2); (-1, 1); (-1, 2); (-1, 2); (-1, 1); (-1, 2); (-1, 1)]].
Proof. split; vm_compute; reflexivity. Qed.
(** With displaced atoms the group of a file is of no use: its directions are those of one arrow. *)
Theorem C70_displaced_refuted : exists text ps, group_file text ps /\ perm_group 3 ps /\
  forall fuel, (0 < fuel)%nat -> enum_sys_file Py3 (fun _ _ => 0) (fun _ => true) (fun l => l) fuel text 1 [2; 1]%nat [0; 1] 1 true false = Err IndexError.
Proof.
  exists (text_lines test_group_1), [[0; 1; 2]; [2; 0; 1]; [1; 2; 0]; [0; 2; 1]; [2; 1; 0]; [1; 0; 2]]%nat. split; [exact test_group_1_says|]. split; [apply perm_groupb_spec; vm_compute; reflexivity|].
  intros fuel Hf. destruct fuel as [|fuel]; [lia|]. vm_compute. reflexivity.
Qed.
Print Assumptions C70_read.
Print Assumptions C70_ragged.
Print Assumptions C70_enumerate_partial.
Print Assumptions C70_displaced_refuted.
