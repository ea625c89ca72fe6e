(** Surfaces (C72): the properties. *)
From Coq Require Import Permutation QArith.
From Verif Require Import TextModel TextProofs PyBase Spec PhononsModel TreeModel EnumSysModel Mat3 HNFModel HNFProofs PolyaModel LatSpec LatGroupModel LatFacts LatSites LatProofs LatMain LatTop LatGroupThm SNFModel SuperModel StructSpec StructAll PropertiesLattice.
From Verif Require Import FilesModel EnumOutModel EnumOutSpec PropertiesEnumOut PointGroupModel PointGroupSpec PointGroupProofs PointGroupMain PropertiesPoint RunModel RunSpec RunProofs RunMain RunTop.
From Verif Require Import LatticeInModel LatticeInSpec LatticeInProofs PropertiesLatticeIn RunText PropertiesRun PropertiesRunText ReduceSpec OrientProofs SurfaceModel.
Local Open Scope Z_scope.

(** The surface normal is the x axis; an operation of the surface keeps it up to sign. *)
Definition keeps_normal (R : mat) : Prop := exists s, (s = 1 \/ s = -1) /\ mvec R (1, 0, 0) = (s, 0, 0).
Theorem C72_flat : forall R, orthogonal R -> (flat R = true <-> keeps_normal R).
Proof.
  intros [[[[a b] c] [[d e] f]] [[g h] i]] [O1 O2]. unfold flat, keeps_normal. cbn [mget vget fst snd nth]. mat_unfold. rewrite !andb_true_iff, !Z.eqb_eq. injection O1 as E1 _ _ _ _ _ _ _ _. 
  split.
  - intros [[[[Hb Hc] Hd] Hg] Ha]. exists a. split; [lia|]. f_equal; [f_equal|]; lia.
  - intros [s [Hs E]]. assert (a = s /\ d = 0 /\ g = 0) as [-> [-> ->]] by (injection E; intros; lia). assert (b * b + c * c = 0) by nia. assert (b = 0 /\ c = 0) as [-> ->] by nia. lia.
Qed.

(** ** When every symmetry of the lattice keeps the normal *)
Lemma filter_all {A} (p : A -> bool) l : (forall x, In x l -> p x = true) -> filter p l = l.
Proof. induction l as [|x l IH]; intros H; [auto|]. cbn. rewrite H by (left; auto). f_equal. apply IH. intros y Hy. apply H. right. auto. Qed.
Lemma rmap_length {A B} (f : A -> res B) l r : rmap f l = Ok r -> length r = length l.
Proof. revert r. induction l as [|x l IH]; intros r E; cbn [rmap] in E; [injection E as <-; auto|]. destruct (f x); [|discriminate]. cbn [rbind] in E. destruct (rmap f l); [|discriminate]. injection E as <-. cbn. f_equal. auto. Qed.
Lemma rmap_gets {A} (l : list A) idx : (forall i, In i idx -> (i < length l)%nat) -> exists r, rmap (fun i => get l i) idx = Ok r.
Proof.
  induction idx as [|i idx IH]; intros H; [exists []; reflexivity|]. cbn [rmap]. assert (exists a, get l i = Ok a) as [a ->] by (unfold get; destruct (nth_error l i) eqn:E; [eauto|apply nth_error_None in E; specialize (H i ltac:(left; auto)); lia]). cbn [rbind].
  destruct IH as [r ->]; [intros j Hj; apply H; right; auto|]. cbn [rbind]. eauto.
Qed.
Lemma ops_rot pg D bas o : In o (get_spaceGroup pg D bas) -> In (rot o, cart o) pg.
Proof.
  unfold get_spaceGroup. intros H. apply in_flat_map in H. destruct H as [[C R] [Hp H]]. apply in_flat_map in H. destruct H as [a [_ H]]. destruct (forallb _ _); [|destruct H]. destruct H as [<-|[]]. exact Hp.
Qed.
Theorem C72_all_flat : forall A pg D bas H arrows G, surface_vectors A = true -> mdet H <> 0 ->
  (forall C R, In (C, R) pg -> unimodular C /\ orthogonal R /\ keeps_normal R) ->
  (get_sym_group2 A pg D bas H arrows = Ok G <-> sym_group pg D bas H arrows = Ok G).
Proof.
  intros A pg D bas H arrows G HA Hd Hpg. unfold get_sym_group2, sym_group, get_dvector_permutations2, rm_3D_operations. rewrite HA. cbn [negb rbind].
  set (ops := get_spaceGroup pg D (map (into_cell D) bas)). rewrite filter_all.
  2: { intros o Ho. apply ops_rot in Ho. destruct (Hpg _ _ Ho) as [_ [O K]]. apply C72_flat; auto. }
  unfold get_sym_group. fold ops.
  destruct (get_dvector_permutations D (map (into_cell D) bas) ops) as [vps|e] eqn:Ev; cbn [rbind].
  - unfold fixing_operations2. destruct (rmap_gets vps (fst (get_sLV_fixing_operations H (map rot ops)))) as [r Er].
    { intros i Hi. apply fixing_indices in Hi; auto; [|intros C HC; apply in_map_iff in HC; destruct HC as [o [<- Ho]]; apply ops_rot in Ho; apply (Hpg _ _ Ho)]. rewrite (rmap_length _ _ _ Ev). destruct Hi as [Hi _]. rewrite map_length in Hi. auto. }
    rewrite Er. cbn [rbind]. destruct (SmithNormalForm H) as [[[M L] B]|]; cbn [rbind]; tauto.
  - destruct (SmithNormalForm H) as [[[M L] B]|]; cbn [rbind]; split; discriminate.
Qed.
Lemma unique_incl rots hnfs h : In h (unique_HNFs rots hnfs) -> In h hnfs.
Proof.
  unfold unique_HNFs. destruct (_ =? _)%nat; [auto|].
  assert (forall l acc, (forall x, In x acc -> In x hnfs) -> (forall x, In x l -> In x hnfs) -> forall x, In x (fold_left (fun uhnfs h => if is_duplicate rots uhnfs h then uhnfs else uhnfs ++ [h]) l acc) -> In x hnfs) as K; [|apply (K hnfs []); auto; intros x []].
  induction l as [|a l IH]; intros acc Ha Hl; [auto|]. cbn [fold_left]. apply IH; [|intros x Hx; apply Hl; right; auto].
  destruct (is_duplicate rots acc a); auto. intros x Hx. apply in_app_or in Hx. destruct Hx as [Hx|[<-|[]]]; auto. apply Hl. left. auto.
Qed.
Lemma hnf_det n H : 1 <= n -> In H (find_all_HNFs n) -> mdet H <> 0.
Proof. intros Hn Hi. apply C16_all_HNFs in Hi. destruct Hi as [a [b [c [d [e [f [-> [Ha [Hc [_ [_ E]]]]]]]]]]]. mat_unfold. nia. Qed.
Theorem C72_all_flat_lattices : forall A pg D bas n hs, surface_vectors A = true -> 1 <= n ->
  (forall C R, In (C, R) pg -> unimodular C /\ orthogonal R /\ keeps_normal R) ->
  (get_HNFs2 A pg D bas n = Ok hs <-> get_HNFs pg D bas n = Ok hs).
Proof.
  intros A pg D bas n hs HA Hn Hpg. unfold get_HNFs2, get_HNFs, get_dvector_permutations2, rm_3D_operations. rewrite HA. cbn [negb rbind].
  set (ops := get_spaceGroup pg D (map (into_cell D) bas)). rewrite filter_all.
  2: { intros o Ho. apply ops_rot in Ho. destruct (Hpg _ _ Ho) as [_ [O K]]. apply C72_flat; auto. }
  destruct (get_dvector_permutations D (map (into_cell D) bas) ops) as [vps|e] eqn:Ev; cbn [rbind]; [|tauto].
  assert (exists r, rmap (fun H => fixing_operations2 H ops vps) (fst (fst (remove_duplicate_lattices (map rot ops) (find_all_HNFs n)))) = Ok r) as [r ->]; [|cbn [rbind]; tauto].
  cbn [remove_duplicate_lattices fst]. assert (forall H, In H (unique_HNFs (map rot ops) (find_all_HNFs n)) -> mdet H <> 0) as Hd by (intros H Hi; apply (hnf_det n); auto; apply (unique_incl (map rot ops)); auto).
  unfold remove_duplicate_lattices. cbn [fst]. induction (unique_HNFs (map rot ops) (find_all_HNFs n)) as [|H l IH]; [exists []; reflexivity|]. cbn [rmap]. unfold fixing_operations2 at 1.
  destruct (rmap_gets vps (fst (get_sLV_fixing_operations H (map rot ops)))) as [r Er].
  { intros i Hi. apply fixing_indices in Hi; [| |apply Hd; left; auto]; [|intros C HC; apply in_map_iff in HC; destruct HC as [o [<- Ho]]; apply ops_rot in Ho; apply (Hpg _ _ Ho)]. rewrite (rmap_length _ _ _ Ev). destruct Hi as [Hi _]. rewrite map_length in Hi. auto. }
  rewrite Er. cbn [rbind]. destruct IH as [r' ->]; [intros K HK; apply Hd; right; auto|]. cbn [rbind]. eauto.
Qed.

(** ** When one does not *)
Lemma filter_less {A} (p : A -> bool) l x : In x l -> p x = false -> (length (filter p l) < length l)%nat.
Proof.
  induction l as [|y l IH]; intros Hx Hp; [destruct Hx|]. cbn [filter length]. destruct Hx as [->|Hx].
  - rewrite Hp. clear. induction l as [|y l IH]; [cbn; lia|]. cbn. destruct (p y); cbn in *; lia.
  - destruct (p y); cbn; specialize (IH Hx Hp); lia.
Qed.
Lemma rmap_failed {A B} (f : A -> res B) l : (exists x, In x l /\ exists e, f x = Err e) -> exists e, rmap f l = Err e.
Proof.
  induction l as [|y l IH]; intros [x [Hx [e E]]]; [destruct Hx|]. cbn [rmap]. destruct Hx as [->|Hx].
  - rewrite E. cbn. eauto.
  - destruct (f y) as [b|e']; cbn [rbind]; [|eauto]. destruct IH as [e' ->]; [eauto|]. cbn. eauto.
Qed.
Lemma fixing_fails pg D bas (ops := get_spaceGroup pg D bas) H vps : (forall C R, In (C, R) pg -> unimodular C /\ orthogonal R) ->
  mdet H <> 0 -> (length vps < length ops)%nat -> same_lattice (mmul (rot (last ops {| rot := mid; cart := mid; shift := (0, 0, 0) |})) H) H ->
  exists e, fixing_operations2 H ops vps = Err e.
Proof.
  intros Hpg Hd Hl Hs. unfold fixing_operations2. destruct (rmap_failed (fun i => get vps i) (fst (get_sLV_fixing_operations H (map rot ops)))) as [e ->]; [|cbn; eauto].
  exists (length ops - 1)%nat. split.
  - apply fixing_indices; auto; [intros C HC; apply in_map_iff in HC; destruct HC as [o [<- Ho]]; apply ops_rot in Ho; apply (Hpg _ _ Ho)|]. rewrite map_length. split; [lia|].
    change mid with (rot {| rot := mid; cart := mid; shift := (0, 0, 0) |}) at 1. rewrite map_nth.
    replace (nth (length ops - 1) ops {| rot := mid; cart := mid; shift := (0, 0, 0) |}) with (last ops {| rot := mid; cart := mid; shift := (0, 0, 0) |}); auto.
    generalize {| rot := mid; cart := mid; shift := (0, 0, 0) |}. clear. intros d. induction ops as [|o l IH]; [auto|]. destruct l as [|o' l]; [auto|]. cbn [last length] in *. replace (S (S (length l)) - 1)%nat with (S (S (length l) - 1)) by lia. cbn [nth]. auto.
  - unfold get. destruct (nth_error vps (length ops - 1)) eqn:E; [|eauto]. assert (length ops - 1 < length vps)%nat by (apply nth_error_Some; congruence). lia.
Qed.
(** If a symmetry of the crystal does not keep the normal, supercells with the full symmetry of the lattice are refused. *)
Theorem C72_one_cell_refuted : forall A pg D bas H arrows C R s, 0 < D -> bas <> [] -> NoDup bas -> (forall d, In d bas -> reduced (D, D, D) d) ->
  (forall C R, In (C, R) pg -> unimodular C /\ orthogonal R) -> In (C, R) pg -> crystal_symmetry D bas C s -> ~ keeps_normal R ->
  mdet H <> 0 -> (forall C R, In (C, R) pg -> same_lattice (mmul C H) H) ->
  exists e, get_sym_group2 A pg D bas H arrows = Err e.
Proof.
  intros A pg D bas H arrows C R s HD Hne Hnd Hred Hpg Hin Hs Hk Hd Hall.
  assert (forall C R, In (C, R) pg -> unimodular C) as Huni by (intros C' R' H'; apply (Hpg C' R' H')).
  assert (exists o, In o (get_spaceGroup pg D bas) /\ flat (cart o) = false) as [o [Ho Hf]].
  { exists {| rot := C; cart := R; shift := into_cell D s |}. split.
    - apply spaceGroup_in; auto. cbn [rot cart shift]. split; auto. split; [apply into_cell_reduced; auto|].
      destruct (proj1 (into_cell_eq D s (into_cell D s) HD)) as [z Ez]; [symmetry; apply into_cell_id; auto using into_cell_reduced|].
      replace (into_cell D s) with (vadd s (vscale D (mvec C (mvec (minv C) (vsub (0, 0, 0) z))))); [apply symmetry_shift; auto|].
      rewrite minv_vec_r by eauto. symmetry. transitivity (vadd (vadd (into_cell D s) (vscale D z)) (vscale D (vsub (0, 0, 0) z))); [generalize (into_cell D s); vec_ring|rewrite <- Ez; auto].
    - cbn [cart]. destruct (flat R) eqn:E; [|auto]. exfalso. apply Hk. apply C72_flat; auto. apply (Hpg C R Hin). }
  unfold get_sym_group2. rewrite (cell_bas D bas) by auto. set (ops := get_spaceGroup pg D bas) in *. unfold get_dvector_permutations2, rm_3D_operations.
  destruct (negb (surface_vectors A)); [eexists; reflexivity|]. cbn [rbind].
  destruct (get_dvector_permutations D bas (filter (fun o => flat (cart o)) ops)) as [vps|e] eqn:Ev; [|eexists; reflexivity]. cbn [rbind].
  destruct (fixing_fails pg D bas H vps) as [e E]; auto.
  - rewrite (rmap_length _ _ _ Ev). apply (filter_less _ ops o Ho Hf).
  - fold ops. assert (In (last ops {| rot := mid; cart := mid; shift := (0, 0, 0) |}) ops) as Hl.
    { clear - Ho. destruct ops as [|a l]; [destruct Ho|]. apply exists_last in Ho || clear Ho. destruct (exists_last (l := a :: l)) as [l' [b E]]; [discriminate|]. rewrite E, last_last. apply in_or_app. right. left. auto. }
    apply ops_rot in Hl. eapply Hall; eauto.
  - fold ops in E. rewrite E. eexists. reflexivity.
Qed.
(** Simple cubic: refused for every supercell, whatever its symmetry. *)
Theorem C72_cubic_refuted : forall H arrows, mdet H <> 0 -> get_sym_group2 mid cubic_rotations 1 [(0, 0, 0)] H arrows = Err IndexError.
Proof.
  intros H arrows Hd. unfold get_sym_group2. change (map (into_cell 1) [(0, 0, 0)]) with [(0, 0, 0)].
  set (ops := get_spaceGroup cubic_rotations 1 [(0, 0, 0)]). assert (exists vps, get_dvector_permutations2 mid 1 [(0, 0, 0)] ops = Ok vps /\ length vps = 16%nat) as [vps [-> Hl]] by (eexists; split; vm_compute; reflexivity).
  cbn [rbind]. unfold fixing_operations2. assert (In 47%nat (fst (get_sLV_fixing_operations H (map rot ops)))) as Hi.
  { apply fixing_indices; auto.
    - intros r Hr. assert (forallb (fun r => Z.abs (mdet r) =? 1) (map rot ops) = true) as E by (vm_compute; reflexivity). rewrite forallb_forall in E. specialize (E r Hr). apply Z.eqb_eq in E. unfold unimodular. lia.
    - split; [vm_compute; lia|]. replace (nth 47 (map rot ops) mid) with mid by (vm_compute; reflexivity). rewrite mmul_id_l. apply same_lattice_refl. }
  rewrite (OrientProofs.rmap_err _ IndexError _ 47%nat Hi); [reflexivity| |].
  - clear Hi. unfold get. destruct (nth_error vps 47) eqn:E; [|reflexivity]. assert (47 < length vps)%nat by (apply nth_error_Some; congruence). lia.
  - clear. intros y _. unfold get. destruct (nth_error vps y); eauto.
Qed.
(** The lattice vectors that are accepted are those of the form x00, xxx, 00x. *)
Theorem C72_vectors : forall A pg D bas H arrows n, ~ (exists a b c d e, A = ((a, 0, 0), (b, c, d), (0, 0, e))) ->
  get_sym_group2 A pg D bas H arrows = Err ValueError /\ get_HNFs2 A pg D bas n = Err ValueError.
Proof.
  intros A pg D bas H arrows n Hn. assert (surface_vectors A = false) as E.
  { destruct (surface_vectors A) eqn:E; [|auto]. exfalso. apply Hn. destruct A as [[[[a1 a2] a3] [[b1 b2] b3]] [[c1 c2] c3]]. unfold surface_vectors in E. change (((a2 =? 0) && (a3 =? 0) && (c1 =? 0) && (c2 =? 0)) = true) in E. rewrite !andb_true_iff, !Z.eqb_eq in E. destruct E as [[[-> ->] ->] ->]. eauto 10. }
  unfold get_sym_group2, get_HNFs2, get_dvector_permutations2, rm_3D_operations. rewrite E. cbn [negb rbind]. auto.
Qed.
Theorem C72_vectors_accepted : forall a b c d e ops, exists kept, rm_3D_operations ((a, 0, 0), (b, c, d), (0, 0, e)) ops = Ok kept /\ forall o, In o kept <-> In o ops /\ flat (cart o) = true.
Proof. intros. eexists. split; [reflexivity|]. intros o. apply filter_In. Qed.
(** A lattice of the form that the message asks for, x00, 0xx, 0xx, is refused; one that is not of that form is accepted. *)
Theorem C72_vectors_refuted : surface_vectors ((1, 0, 0), (0, 2, 1), (0, 1, 3)) = false /\ surface_vectors ((1, 0, 0), (1, 2, 0), (0, 0, 3)) = true.
Proof. split; reflexivity. Qed.

(** ** Runs *)
(** Symmetries of the surface: those that keep the x component of every position, up to sign. *)
Definition keeps_height (A C : mat) : Prop := exists s, (s = 1 \/ s = -1) /\ forall x, fst (fst (mvec (transpose A) (mvec C x))) = s * fst (fst (mvec (transpose A) x)).
Definition congruent_surfaces (A : mat) (D : Z) (bas : list vec) (f g : decoration) : Prop :=
  exists C t, keeps_lengths A C /\ keeps_height A C /\ crystal_symmetry D bas C t /\ forall x, crystal_point D bas x -> g (affine C t x) = f x.
(** Simple cubic, two species, one or two cells: the surface problem, and the files for both problems. *)
Definition surface_lines (word : string) : list string := ["1 2"; word; "1 0 0"; "0 1 0"; "0 0 1"; "2"; "1"; "0 0 0"; "F"; "F"]%string.
Lemma surface_says (bulk : bool) : file_says (text_lines (surface_lines (if bulk then "bulk" else "surface")%string)) [1; 2] bulk [[1; 0; 0]; [0; 1; 0]; [0; 0; 1]]%Q 2 [[0; 0; 0]]%Q false false [].
Proof.
  destruct numerals_more as [_ [_ [_ [_ [N1 _]]]]].
  exists (surface_lines (if bulk then "bulk" else "surface")%string). eexists. exists ["1 2"; (if bulk then "bulk" else "surface"); "1 0 0"; "0 1 0"; "0 0 1"; "2"; "1"; "0 0 0"]%string, ["F"; "F"]%string.
  split; [destruct bulk; repeat constructor|]. split; [reflexivity|]. split; [|split; [reflexivity|]].
  - unfold surface_lines. repeat first [apply commented_end | apply commented_line].
  - split; [|split; [reflexivity|]; split; [reflexivity|]].
    + exists "1 2"%string, (if bulk then "bulk" else "surface")%string, (if bulk then "b" else "s")%char, (if bulk then "ulk" else "urface")%string, ["1 0 0"; "0 1 0"; "0 0 1"]%string, "2"%string, "1"%string, ["0 0 0"]%string.
      split; [reflexivity|]. split; [discriminate|]. split; [destruct bulk; reflexivity|]. split; [destruct bulk; plain_word|]. split; [destruct bulk; discriminate|]. split; [destruct bulk; [tauto|split; [discriminate|intros [E|E]; discriminate]]|]. split; [reflexivity|].
      split; [repeat (apply Forall2_cons; [split; [discriminate|repeat (apply Forall2_cons; [first [exact numeral_0|exact N1]|]); apply Forall2_nil]|]); apply Forall2_nil|].
      split; [plain_word|]. split; [plain_word|].
      repeat (apply Forall2_cons; [split; [discriminate|repeat (apply Forall2_cons; [first [exact numeral_0|exact N1]|]); apply Forall2_nil]|]); apply Forall2_nil.
    + exists "F"%string, ["F"]%string. split; [reflexivity|]. split; [plain_word|].
      repeat (apply Forall_cons; [split; [intros Hb; cbn in Hb; intuition discriminate|intros [b [r [Hb E]]]; destruct b as [|x b]; [discriminate|]; injection E as <- _; destruct Hb; discriminate]|]); apply Forall_nil.
Qed.

Lemma every_point x : crystal_point 1 [(0, 0, 0)] x.
Proof. exists (0, 0, 0), x. split; [left; auto|]. destruct x as [[a b] c]. mat_unfold. repeat apply (f_equal2 pair); lia. Qed.
Definition layers_x (v : vec) : Z * Z := (-1, 1 + fst (fst v) mod 2).
Definition layers_y (v : vec) : Z * Z := (-1, 1 + snd (fst v) mod 2).
Lemma in_range_up_two z : 1 <= 1 + z mod 2 <= 2.
Proof. pose proof (Z.mod_pos_bound z 2). lia. Qed.
Lemma layers_x_in : run_structures 1 [(0, 0, 0)] 2 1 2 None layers_x.
Proof.
  split; [intros [[x y] z] _; cbn; split; auto; apply in_range_up_two|]. exists ((2, 0, 0), (0, 1, 0), (0, 0, 1)). split; [vm_compute; split; discriminate|]. split; [|exact Logic.I].
  intros [[x y] z]. split.
  - intros [[[a b] c] E]. assert (mvec ((2, 0, 0), (0, 1, 0), (0, 0, 1)) (a, b, c) = (2 * a, b, c)) as M by (mat_unfold; repeat apply (f_equal2 pair); ring). rewrite M in E. apply pair_equal_spec in E. destruct E as [E ->]. apply pair_equal_spec in E. destruct E as [-> ->].
    intros [[u v] w] _. unfold layers_x, vadd, vscale. cbn [fst snd]. do 2 f_equal. replace (u + 1 * (2 * a)) with (u + a * 2) by lia. apply Z.mod_add. lia.
  - intros Hp. specialize (Hp (0, 0, 0) (every_point _)). unfold layers_x, vadd, vscale in Hp. cbn [fst snd] in Hp. apply pair_equal_spec in Hp. destruct Hp as [_ Hp]. rewrite Z.add_0_l, Z.mul_1_l in Hp. change (0 mod 2) with 0 in Hp.
    exists (x / 2, y, z). unfold mvec, vdot. pose proof (Z.div_mod x 2). repeat apply (f_equal2 pair); lia.
Qed.
Lemma layers_y_in : run_structures 1 [(0, 0, 0)] 2 1 2 None layers_y.
Proof.
  split; [intros [[x y] z] _; cbn; split; auto; apply in_range_up_two|]. exists ((1, 0, 0), (0, 2, 0), (0, 0, 1)). split; [vm_compute; split; discriminate|]. split; [|exact Logic.I].
  intros [[x y] z]. split.
  - intros [[[a b] c] E]. assert (mvec ((1, 0, 0), (0, 2, 0), (0, 0, 1)) (a, b, c) = (a, 2 * b, c)) as M by (mat_unfold; repeat apply (f_equal2 pair); ring). rewrite M in E. apply pair_equal_spec in E. destruct E as [E ->]. apply pair_equal_spec in E. destruct E as [-> ->].
    intros [[u v] w] _. unfold layers_y, vadd, vscale. cbn [fst snd]. do 2 f_equal. replace (v + 1 * (2 * b)) with (v + b * 2) by lia. apply Z.mod_add. lia.
  - intros Hp. specialize (Hp (0, 0, 0) (every_point _)). unfold layers_y, vadd, vscale in Hp. cbn [fst snd] in Hp. apply pair_equal_spec in Hp. destruct Hp as [_ Hp]. rewrite Z.add_0_l, Z.mul_1_l in Hp. change (0 mod 2) with 0 in Hp.
    exists (x, y / 2, z). unfold mvec, vdot. pose proof (Z.div_mod y 2). repeat apply (f_equal2 pair); lia.
Qed.
Lemma layers_congruent : congruent_crystals mid 1 [(0, 0, 0)] layers_x layers_y.
Proof.
  exists ((0, 1, 0), (1, 0, 0), (0, 0, 1)), (0, 0, 0). split; [intros [[x y] z]; unfold len2; mat_unfold; ring|]. split; [intros x; split; intros _; apply every_point|].
  intros [[x y] z] _. unfold layers_x, layers_y, affine. mat_unfold. cbn [fst snd]. do 3 f_equal. lia.
Qed.
Lemma layers_different : ~ congruent_surfaces mid 1 [(0, 0, 0)] layers_x layers_y.
Proof.
  intros [C [t [HC [[s [Hs Hh]] [_ Hf]]]]]. destruct C as [[[[a b] c] [[d e] f]] [[g h] i]]. unfold keeps_lengths in HC. change (transpose mid) with mid in *.
  pose proof (Hh (1, 0, 0)) as H1. pose proof (Hh (0, 1, 0)) as H2. pose proof (Hh (0, 0, 1)) as H3. pose proof (HC (1, 0, 0)) as H4. rewrite !mvec_id in *. unfold mvec, vdot, len2 in H1, H2, H3, H4. cbn [fst snd] in *. clear Hh HC.
  assert (a = s) as -> by lia. assert (b = 0) as -> by lia. assert (c = 0) as -> by lia. assert (s * s = 1) as Hss by nia. unfold vdot in H4.
  assert (d = 0) as -> by nia. assert (g = 0) as -> by nia. destruct t as [[t1 t2] t3].
  pose proof (Hf (0, 0, 0) (every_point _)) as K1. pose proof (Hf (1, 0, 0) (every_point _)) as K2. unfold layers_x, layers_y, affine, mvec, vdot, vadd in K1, K2. cbn [fst snd] in *.
  apply pair_equal_spec in K1, K2. destruct K1 as [_ K1], K2 as [_ K2]. replace (0 * 0 + e * 0 + f * 0 + t2) with t2 in K1 by lia. replace (0 * 1 + e * 0 + f * 0 + t2) with t2 in K2 by lia. change (0 mod 2) with 0 in K1. change (1 mod 2) with 1 in K2. lia.
Qed.
Lemma surface_bulk A D bas f g : congruent_surfaces A D bas f g -> congruent_crystals A D bas f g.
Proof. intros [C [t [H1 [_ [H2 H3]]]]]. exists C, t. auto. Qed.
Lemma surface_sym A D bas f g : mdet A <> 0 -> congruent_surfaces A D bas f g -> congruent_surfaces A D bas g f.
Proof.
  intros Hd [C [s [HC [[e [He Hh]] [Hs Hf]]]]]. pose proof (keeps_unimodular A C Hd HC) as U. set (t := mvec (minv C) (vscale (-1) s)).
  assert (forall x, affine C s (affine (minv C) t x) = x) as Ei.
  { intros x. unfold affine, t. rewrite !mvec_vadd, <- !mvec_mmul, minv_r, !mvec_id by auto. generalize (s : vec). vec_ring. }
  exists (minv C), t. split; [apply keeps_inverse; auto|]. split.
  { exists e. split; auto. intros x. specialize (Hh (mvec (minv C) x)). rewrite <- (mvec_mmul C (minv C)), minv_r, mvec_id in Hh by auto. destruct He as [-> | ->]; lia. }
  split; [intros x; rewrite (Hs (affine (minv C) t x)), Ei; tauto|].
  intros x Hx. rewrite <- (Hf (affine (minv C) t x)); [rewrite Ei; auto|]. apply Hs. rewrite Ei. auto.
Qed.
Lemma surface_trans A D bas f g h : congruent_surfaces A D bas f g -> congruent_surfaces A D bas g h -> congruent_surfaces A D bas f h.
Proof.
  intros [C [s [HC [[e [He Hh]] [Hs Hf]]]]] [C' [s' [HC' [[e' [He' Hh']] [Hs' Hg]]]]]. exists (mmul C' C), (affine C' s' s). split; [apply keeps_comp; auto|].
  split; [exists (e' * e); split; [destruct He as [-> | ->], He' as [-> | ->]; auto|intros x; rewrite mvec_mmul, Hh', Hh; lia]|]. split; [apply symmetry_comp; auto|].
  intros x Hx. replace (affine (mmul C' C) (affine C' s' s) x) with (affine C' s' (affine C s x)).
  - rewrite Hg; [apply Hf; exact Hx|]. apply (proj1 (Hs x)). exact Hx.
  - unfold affine. rewrite mvec_mmul, mvec_vadd. generalize (mvec C' (mvec C x)) (mvec C' s). vec_ring.
Qed.
Lemma surface_agree A D bas f g h : (forall x, crystal_point D bas x -> g x = h x) -> congruent_surfaces A D bas f g -> congruent_surfaces A D bas f h.
Proof. intros E [C [t [H1 [H2 [H3 H4]]]]]. exists C, t. split; auto. split; auto. split; auto. intros x Hx. rewrite <- E; [apply H4; auto|]. apply (proj1 (H3 x)). auto. Qed.
Lemma two_in {A} (R : A -> A -> Prop) l v w : ForallOrdPairs R l -> In v l -> In w l -> v = w \/ R v w \/ R w v.
Proof.
  induction 1 as [|a l Ha _ IH]; intros Hv Hw; [destruct Hv|]. rewrite Forall_forall in Ha. destruct Hv as [->|Hv], Hw as [->|Hw]; auto.
Qed.
(** A listing without repetition for the bulk, that is complete for the surface, makes no difference between the two. *)
Lemma one_of_each A D bas k lo hi ranges structs f g : mdet A <> 0 -> catalogue (run_structures D bas k lo hi ranges) (congruent_crystals A D bas) (row_says D bas) structs ->
  (forall f, run_structures D bas k lo hi ranges f -> exists w f', In w structs /\ row_says D bas w f' /\ congruent_surfaces A D bas f f') ->
  run_structures D bas k lo hi ranges f -> run_structures D bas k lo hi ranges g -> congruent_crystals A D bas f g -> congruent_surfaces A D bas f g.
Proof.
  intros Hd [C1 [C2 [C3 C4]]] Hs Hf Hg Hfg. destruct (Hs f Hf) as [w [f' [Hw [Wf Sf]]]]. destruct (Hs g Hg) as [u [g' [Hu [Wg Sg]]]].
  assert (congruent_crystals A D bas f' g') as Hc.
  { apply (congruent_crystals_trans A D bas f' f g'); [apply congruent_crystals_sym; auto; apply surface_bulk; auto|]. apply (congruent_crystals_trans A D bas f g g'); auto. apply surface_bulk; auto. }
  destruct (two_in _ _ _ _ C4 Hw Hu) as [<-|[N|N]].
  - apply (surface_trans A D bas f f' g); auto. apply surface_sym; auto. apply (surface_agree A D bas g g' f'); auto.
    intros x Hx. apply (describes_fun D bas (sL w) (sdiag w) (row_sites (labeling w) (directions_of w)) (run_structures D bas k lo hi ranges)); auto.
    + intros h Hh. apply (C2 w h Hw Hh).
    + intros h y Hh Hy. apply (proj1 Hh y Hy).
  - destruct (N f' g' Wf Wg Hc).
  - destruct (N g' f' Wg Wf). apply congruent_crystals_sym; auto.
Qed.
(** A lattice.in that says surface is enumerated like bulk: the listing misses structures of the surface. *)
Theorem C72_surface_refuted : forall v rnd0 draw rnd shuffled, exists par su file fuel0 structs,
  read_lattice (text_lines (surface_lines "surface")) = Ok par /\ l_bulk par = false /\ setup_of par = Ok su /\
  (forall fuel, (fuel0 <= fuel)%nat -> run_from_scratch v ["lattice.in"%string] (fun l => l) rnd0 draw rnd shuffled fuel cubic_params su false false = Ok file) /\
  read_enum_out file None = Ok (system_of cubic_params, structs) /\
  ~ catalogue (run_structures 1 [(0, 0, 0)] 2 1 2 None) (congruent_surfaces mid 1 [(0, 0, 0)]) (row_says 1 [(0, 0, 0)]) structs.
Proof.
  intros v rnd0 draw rnd shuffled.
  destruct (C60_from_text_partial (text_lines (surface_lines "surface")) false [[1; 0; 0]; [0; 1; 0]; [0; 0; 1]]%Q 1 mid 2 2 1 2 None [] v ["lattice.in"%string] (fun l => l) rnd0 draw rnd shuffled cubic_params)
    as [par [su [file [fuel0 [structs [H1 [H2 [H3 [H4 [H5 _]]]]]]]]]].
  - exact (surface_says false).
  - repeat (apply Forall2_cons; [repeat (apply Forall2_cons; [reflexivity|]); apply Forall2_nil|]); apply Forall2_nil.
  - reflexivity.
  - exact Logic.I.
  - exact Logic.I.
  - reflexivity.
  - discriminate.
  - split; [intros i Hi; destruct i as [|[|[|i]]]; try lia; vm_compute; discriminate|split; [discriminate|reflexivity]].
  - reflexivity.
  - apply (C56_cubic 1). discriminate.
  - lia.
  - lia.
  - auto.
  - repeat constructor. intros [].
  - intros f [<-|[]]. left. reflexivity.
  - apply cubic_good.
  - exists par, su, file, fuel0, structs. split; auto. split; [destruct (C59_read _ _ _ _ _ _ _ _ _ (surface_says false)) as [par' [E [_ [E2 _]]]]; change (if false then "bulk"%string else "surface"%string) with "surface"%string in E; rewrite H1 in E; injection E as ->; exact E2|].
    repeat (split; auto). intros [_ [_ [Hs _]]]. apply layers_different.
    apply (one_of_each mid 1 [(0, 0, 0)] 2 1 2 None structs); auto; [discriminate|apply layers_x_in|apply layers_y_in|apply layers_congruent].
Qed.
(** A box with three different edges meets the conditions of C72_all_flat; the cubic lattice those of C72_one_cell_refuted. *)
Example C72_box : surface_vectors (box_lattice 1 2 3) = true /\ (forall C R, In (C, R) box_rotations -> unimodular C /\ orthogonal R /\ keeps_normal R) /\
  exists G, get_sym_group2 (box_lattice 1 2 3) box_rotations 1 [(0, 0, 0)] ((1, 0, 0), (0, 1, 0), (1, 0, 2)) true = Ok G /\ length G = 16%nat.
Proof.
  split; [reflexivity|]. assert (forall C R, In (C, R) box_rotations -> unimodular C /\ orthogonal R /\ keeps_normal R) as Hb.
  { assert (forallb (fun '(C, R) => ((Z.abs (mdet C) =? 1) && mat_eqb (mmul R (transpose R)) mid && mat_eqb (mmul (transpose R) R) mid && flat R)) box_rotations = true) as E by (vm_compute; reflexivity).
    intros C R Hin. rewrite forallb_forall in E. specialize (E (C, R) Hin). cbv beta iota in E. rewrite !andb_true_iff, Z.eqb_eq in E. destruct E as [[[E1 E2] E3] E4]. apply mat_eqb_eq in E2, E3.
    assert (orthogonal R) as O by (split; auto). split; [unfold unimodular; lia|]. split; auto. apply C72_flat; auto. }
  split; auto. eexists. split; [vm_compute; reflexivity|reflexivity].
Qed.
Example C72_one_cell : exists C R s, In (C, R) cubic_rotations /\ crystal_symmetry 1 [(0, 0, 0)] C s /\ ~ keeps_normal R.
Proof.
  exists ((0, 1, 0), (1, 0, 0), (0, 0, 1)), ((0, 1, 0), (1, 0, 0), (0, 0, 1)), (0, 0, 0). split; [|split].
  - assert (existsb (fun '(C, R) => mat_eqb C ((0, 1, 0), (1, 0, 0), (0, 0, 1)) && mat_eqb R ((0, 1, 0), (1, 0, 0), (0, 0, 1))) cubic_rotations = true) as E by (vm_compute; reflexivity).
    apply existsb_exists in E. destruct E as [[C R] [Hin E]]. rewrite andb_true_iff in E. destruct E as [E1 E2]. apply mat_eqb_eq in E1, E2. subst. exact Hin.
  - intros x. split; intros _; apply every_point.
  - intros [s [Hs E]]. cbn in E. injection E as E1 E2. lia.
Qed.
Print Assumptions C72_flat.
Print Assumptions C72_all_flat.
Print Assumptions C72_all_flat_lattices.
Print Assumptions C72_one_cell_refuted.
Print Assumptions C72_cubic_refuted.
Print Assumptions C72_vectors.
Print Assumptions C72_vectors_accepted.
Print Assumptions C72_vectors_refuted.
Print Assumptions C72_surface_refuted.
