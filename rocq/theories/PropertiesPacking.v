(** The symmetry groups of the commonest crystals with two atoms per cell (C48, C49): hexagonal close packing and diamond. *)
From Coq Require Import Permutation QArith.
From Verif Require Import PyBase Spec PhononsModel TreeModel EnumSysModel PolyaModel Mat3 LatSpec LatGroupModel LatFacts LatSites LatProofs LatMain SuperModel StructSpec StructProofs StructThm LatGroupThm Decide SNFModel PropertiesGroup PropertiesStruct PointGroupModel.
Local Open Scope Z_scope.

(** Is [y] a point of the crystal? *)
Definition on_crystal (D : Z) (bas : list vec) (y : vec) : bool :=
  existsb (fun d => vec_eqb (vscale D (vdiv (vsub y d) D)) (vsub y d)) bas.
Lemma on_crystal_ok D bas y : 0 < D -> crystal_point D bas y -> on_crystal D bas y = true.
Proof.
  intros HD [d [z [Hd ->]]]. apply existsb_exists. exists d. split; auto. apply vec_eqb_spec.
  replace (vsub (vadd d (vscale D z)) d) with (vscale D z) by vec_ring. rewrite vdiv_vscale by lia. auto.
Qed.
(** A check that no symmetry operation of the supercell makes [g] of [f]: up to periods of [g] there are finitely many. *)
Definition moved_apart (pg : list (mat * mat)) (D : Z) (bas reps pts : list vec) (f g : decoration) : bool :=
  forallb (fun CR => forallb (fun d => forallb (fun h =>
    existsb (fun x => let y := affine (fst CR) (vadd d (vscale D h)) x in negb (on_crystal D bas y) || negb (snd (g y) =? snd (f x))) pts) reps) bas) pg.
Lemma moved_apart_ok pg D bas H reps pts f g : 0 < D -> In (0, 0, 0) bas -> (forall z, exists h k, In h reps /\ z = vadd h (mvec H k)) ->
  (forall x, In x pts -> crystal_point D bas x) -> periodic D bas H g -> moved_apart pg D bas reps pts f g = true -> ~ same_in_supercell pg D bas H f g.
Proof.
  intros HD Hz Hreps Hpts Hg Hb [C [R [s [[HC [_ Hs]] Hc]]]].
  assert (crystal_point D bas (0, 0, 0)) as H0 by (exists (0, 0, 0), (0, 0, 0); split; auto; vec_ring).
  apply Hs in H0. unfold affine in H0. rewrite mvec_0 in H0. destruct H0 as [d [z [Hd E]]]. rewrite vadd_0_l in E. subst s.
  destruct (Hreps z) as [h [k [Hh ->]]].
  unfold moved_apart in Hb. rewrite forallb_forall in Hb. specialize (Hb _ HC). rewrite forallb_forall in Hb. specialize (Hb _ Hd). rewrite forallb_forall in Hb. specialize (Hb _ Hh).
  apply existsb_exists in Hb. destruct Hb as [x [Hx Hb]]. cbn [fst] in Hb. cbv zeta in Hb.
  assert (affine C (vadd d (vscale D (vadd h (mvec H k)))) x = vadd (affine C (vadd d (vscale D h)) x) (vscale D (mvec H k))) as E by (unfold affine; rewrite vscale_vadd; vec_ring).
  assert (crystal_point D bas (affine C (vadd d (vscale D h)) x)) as Hy.
  { pose proof (proj1 (Hs x) (Hpts x Hx)) as [d' [z' [Hd' E']]]. rewrite E in E'. exists d', (vsub z' (mvec H k)). split; auto.
    rewrite vscale_vsub. apply (f_equal (fun v => vsub v (vscale D (mvec H k)))) in E'. rewrite vadd_vsub in E'. rewrite E'. vec_ring. }
  rewrite (on_crystal_ok D bas _ HD Hy) in Hb. cbn [negb orb] in Hb. apply negb_true_iff, Z.eqb_neq in Hb. apply Hb. clear Hb.
  pose proof (Hc x (Hpts x Hx)) as [Hr _]. rewrite <- Hr. f_equal. rewrite E. symmetry. apply Hg; [exists k; auto|exact Hy].
Qed.
(** A list of labels whose crystal none of the listed ones is moved onto. *)
Lemma lost_structure pg D bas H L B diag reps cwa lost l :
  0 < D -> In (0, 0, 0) bas -> NoDup bas -> (forall d, In d bas -> reduced (D, D, D) d) -> unimodular L -> unimodular B ->
  mmul (mmul L H) B = diagonal diag -> positive diag ->
  (forall z, exists h k, In h reps /\ z = vadd h (mvec H k)) ->
  length lost = (length bas * Z.to_nat (volume diag))%nat -> Permutation lost cwa ->
  let points := flat_map (fun d => map (fun h => vadd d (vscale D h)) reps) bas in
  (forall w, In w l -> moved_apart pg D bas reps points (decode D bas L diag lost) (decode D bas L diag w) = true) ->
  ~ catalogue (plain_structures D bas H cwa) (same_in_supercell pg D bas H) (describes D bas L diag) l.
Proof.
  intros HD Hz Hn Hr HL HB Hs Hp Hreps Hlen Hperm points Hmv [_ [_ [Hcov _]]].
  assert (forall w, describes D bas L diag w (decode D bas L diag w)) as Hdec by (intros w; apply describes_decode; auto; lia).
  set (f := decode D bas L diag lost) in *.
  assert (plain_structures D bas H cwa f) as Hf.
  { split; [eapply describes_periodic with (L := L) (B := B); eauto; lia|].
    assert (contents D bas H f lost) as [p [Tp Pp]] by (eapply describes_contents with (L := L) (B := B); eauto; lia).
    exists p. split; auto. rewrite Pp. auto. }
  destruct (Hcov f Hf) as [w [g [Hw [Hg Hsame]]]].
  apply (moved_apart_ok pg D bas H reps points f (decode D bas L diag w)); auto.
  - intros x Hx. unfold points in Hx. apply in_flat_map in Hx. destruct Hx as [d [Hd Hx]]. apply in_map_iff in Hx. destruct Hx as [h [<- _]]. exists d, h. auto.
  - eapply describes_periodic with (L := L) (B := B); eauto; lia.
  - destruct Hsame as [C [R [s [HC Hc]]]]. exists C, R, s. split; auto. intros x Hx. pose proof (Hc x Hx) as Hx'.
    assert (g (affine C s x) = decode D bas L diag w (affine C s x)) as <-; auto.
    destruct HC as [_ [_ Hsy]]. destruct (site_exists D bas L diag Hp _ (proj1 (Hsy x) Hx)) as [i [_ Hi]]. rewrite (Hg _ i Hi), (Hdec w _ i Hi). reflexivity.
Qed.

(** ** Hexagonal close packing *)
(** The symmetries of a hexagonal lattice, in lattice coordinates: a1 and a2 at 120 degrees, a3 along the axis.  (No
    displacements are considered, so the second components are not used.) *)
Definition hexagonal : list (mat * mat) :=
  flat_map (fun P => flat_map (fun s => map (fun c => (mmul ((s, 0, 0), (0, s, 0), (0, 0, c)) P, mid)) [1; -1]) [1; -1])
    [mid; ((0, -1, 0), (1, -1, 0), (0, 0, 1)); ((-1, 1, 0), (-1, 0, 0), (0, 0, 1));
     ((0, 1, 0), (1, 0, 0), (0, 0, 1)); ((1, -1, 0), (0, -1, 0), (0, 0, 1)); ((-1, 0, 0), (-1, 1, 0), (0, 0, 1))].
(** They are the matrices that preserve the metric of every hexagonal lattice, in units in which a1.a2 = -1. *)
Lemma hexagonal_metric : forall C R, In (C, R) hexagonal -> forall c, mmul (mmul (transpose C) ((2, -1, 0), (-1, 2, 0), (0, 0, c))) C = ((2, -1, 0), (-1, 2, 0), (0, 0, c)).
Proof.
  intros C R Hin c. unfold hexagonal in Hin. cbn in Hin. decompose [or] Hin; try contradiction; match goal with E : (_, _) = (C, R) |- _ => injection E as <- <- end; unfold transpose, mmul, vdot; cbn - [Z.mul Z.add]; repeat f_equal; ring.
Qed.
Lemma hexagonal_ok : (forall C R, In (C, R) hexagonal -> unimodular C /\ orthogonal R) /\ rotation_group hexagonal.
Proof.
  split.
  - intros C R Hin. unfold hexagonal in Hin. cbn in Hin. decompose [or] Hin; try contradiction; match goal with E : (_, _) = (C, R) |- _ => injection E as <- <- end; (split; [vm_compute; tauto|split; reflexivity]).
  - split; [left; reflexivity|]. intros C R C' R' H1 H2.
    assert (forallb (fun p => forallb (fun q => existsb (fun r => mat_eqb (fst r) (mmul (fst p) (fst q)) && mat_eqb (snd r) (mmul (snd p) (snd q))) hexagonal) hexagonal) hexagonal = true) as E by (vm_compute; reflexivity).
    rewrite forallb_forall in E. specialize (E _ H1). rewrite forallb_forall in E. specialize (E _ H2). apply existsb_exists in E. destruct E as [[a b] [Hr E]].
    apply andb_true_iff in E. cbn [fst snd] in E. destruct E as [E1 E2]. apply mat_eqb_spec in E1, E2. subst. auto.
Qed.
(** Atoms at (0, 0, 0) and (1/3, 2/3, 1/2). *)
Definition hcp_basis : list vec := [(0, 0, 0); (2, 4, 3)].
(** Two cells along each of a1 and a2. *)
Definition two_by_two : mat := ((2, 0, 0), (0, 2, 0), (0, 0, 1)).
Definition hcp_group : list op := Eval vm_compute in match sym_group hexagonal 6 hcp_basis two_by_two false with Ok G => G | Err _ => [] end.
Lemma hcp_group_ok : sym_group hexagonal 6 hcp_basis two_by_two false = Ok hcp_group.
Proof. vm_compute. reflexivity. Qed.

(** In this supercell, of eight atoms, the operations are not a group. *)
Theorem C48_hcp_refuted : exists G p q a, sym_group hexagonal 6 hcp_basis two_by_two false = Ok G /\
  In (p, a) G /\ In (q, a) G /\ forall b, ~ In (comp p q, b) G.
Proof.
  exists hcp_group, [0; 1; 3; 2; 4; 5; 7; 6]%nat, [0; 2; 1; 3; 7; 5; 6; 4]%nat, [0; 1; 2; 3; 4; 5]%nat. split; [exact hcp_group_ok|].
  assert (forall (G : list op) p b, In (p, b) G -> existsb (fun o => Bool.eqb (if list_eq_dec Nat.eq_dec (fst o) p then true else false) true) G = true) as E.
  { intros G p b HG. apply existsb_exists. exists (p, b). split; auto. cbn [fst]. destruct (list_eq_dec _ p p); auto. }
  split; [|split].
  - vm_compute. tauto.
  - vm_compute. tauto.
  - intros b Hb. apply E in Hb. vm_compute in Hb. discriminate.
Qed.

(** Two atoms of one species and six of another. *)
Definition two_and_six : list site := [(-1, 1); (-1, 1); (-1, 2); (-1, 2); (-1, 2); (-1, 2); (-1, 2); (-1, 2)].
Definition hcp_listed : list (list site) :=
  [[(-1, 1); (-1, 1); (-1, 2); (-1, 2); (-1, 2); (-1, 2); (-1, 2); (-1, 2)];
   [(-1, 1); (-1, 2); (-1, 2); (-1, 2); (-1, 1); (-1, 2); (-1, 2); (-1, 2)]].
Definition hcp_lost : list site := [(-1, 1); (-1, 2); (-1, 2); (-1, 2); (-1, 2); (-1, 1); (-1, 2); (-1, 2)].
Definition hcp_left : mat := ((1, 0, 1), (0, 1, 0), (-1, 0, 0)).
Definition hcp_right : mat := ((0, 0, -1), (0, 1, 0), (1, 0, 2)).
Definition hcp_cells : list vec := [(0, 0, 0); (1, 0, 0); (0, 1, 0); (1, 1, 0)].
(** Three structures up to the symmetries of the supercell, which is what the program counts, and it lists two of them
    (superperiodic ones included): it loses the pairs of atoms, one in each layer, that are not nearest neighbours. *)
Theorem C49_hcp_refuted : (forall C R, In (C, R) hexagonal -> unimodular C /\ orthogonal R) /\ rotation_group hexagonal /\
  NoDup hcp_basis /\ (forall d, In d hcp_basis -> reduced (6, 6, 6) d) /\ mdet two_by_two = 4 /\
  exists M L B G l, SmithNormalForm two_by_two = Ok (M, L, B) /\ sym_group hexagonal 6 hcp_basis two_by_two false = Ok G /\
    (forall v, exists G', polya v [2; 6]%nat G 0 = Ok (3, G')) /\
    (forall rnd, brancher (map (multiplicity site_eqb two_and_six) (first_occurrences site_eqb two_and_six)) G two_and_six 6 true 4 false rnd 100 SNone = Ok l) /\
    length l = 2%nat /\
    ~ catalogue (plain_structures 6 hcp_basis two_by_two two_and_six) (same_in_supercell hexagonal 6 hcp_basis two_by_two) (describes 6 hcp_basis L (diag_of M)) l.
Proof.
  assert (NoDup hcp_basis) as Hn. { repeat constructor; cbn; try tauto. intros [E|[]]; discriminate. }
  assert (forall d, In d hcp_basis -> reduced (6, 6, 6) d) as Hr. { intros d [<-|[<-|[]]] i Hi; destruct i as [|[|[|i]]]; cbn; lia. }
  split; [apply hexagonal_ok|]. split; [apply hexagonal_ok|]. split; [exact Hn|]. split; [exact Hr|]. split; [reflexivity|].
  exists (diagonal (1, 2, 2)), hcp_left, hcp_right, hcp_group, hcp_listed.
  split; [reflexivity|]. split; [exact hcp_group_ok|].
  split; [intros v; eexists; destruct v; vm_compute; reflexivity|].
  split; [intros rnd; vm_compute; reflexivity|]. split; [reflexivity|].
  change (diag_of (diagonal (1, 2, 2))) with (1, 2, 2).
  apply (lost_structure hexagonal 6 hcp_basis two_by_two hcp_left hcp_right (1, 2, 2) hcp_cells two_and_six hcp_lost); auto; try reflexivity; try lia; try (vm_compute; tauto).
  - intros [[a b] c]. exists (a mod 2, b mod 2, 0), (a / 2, b / 2, c). split.
    + pose proof (Z.mod_pos_bound a 2 ltac:(lia)). pose proof (Z.mod_pos_bound b 2 ltac:(lia)).
      assert (a mod 2 = 0 \/ a mod 2 = 1) as [-> | ->] by lia; assert (b mod 2 = 0 \/ b mod 2 = 1) as [-> | ->] by lia; cbn; tauto.
    + pose proof (Z.div_mod a 2 ltac:(lia)). pose proof (Z.div_mod b 2 ltac:(lia)). unfold mvec, two_by_two, vadd, vdot. cbn [fst snd]. f_equal; [f_equal|]; lia.
  - apply perm_skip. symmetry. apply (Permutation_middle [(-1, 2); (-1, 2); (-1, 2); (-1, 2)] [(-1, 2); (-1, 2)] (-1, 1)).
  - intros w [<-|[<-|[]]]; vm_compute; reflexivity.
Qed.

(** ** Diamond *)
(** The face-centred cubic lattice, atoms at 0 and a quarter of the body diagonal, cells stacked in a supercell of four. *)
Definition fcc_rotations : list (mat * mat) := Eval vm_compute in match point_group (1 # 10000000000) 1 ((0, 1, 1), (1, 0, 1), (1, 1, 0)) with Ok pg => pg | Err _ => [] end.
Lemma fcc_rotations_ok : point_group (1 # 10000000000) 1 ((0, 1, 1), (1, 0, 1), (1, 1, 0)) = Ok fcc_rotations.
Proof. vm_compute. reflexivity. Qed.
Definition diamond_supercell : mat := ((1, 0, 0), (0, 1, 0), (1, 2, 4)).
Definition diamond_group : list op := Eval vm_compute in match sym_group fcc_rotations 4 [(0, 0, 0); (1, 1, 1)] diamond_supercell true with Ok G => G | Err _ => [] end.
Lemma diamond_group_ok : sym_group fcc_rotations 4 [(0, 0, 0); (1, 1, 1)] diamond_supercell true = Ok diamond_group.
Proof. vm_compute. reflexivity. Qed.
(** With displacements, the operations are not a group. *)
Theorem C48_diamond_refuted : exists pg G p a q b, point_group (1 # 10000000000) 1 ((0, 1, 1), (1, 0, 1), (1, 1, 0)) = Ok pg /\
  sym_group pg 4 [(0, 0, 0); (1, 1, 1)] diamond_supercell true = Ok G /\ In (p, a) G /\ In (q, b) G /\ ~ In (comp p q, comp b a) G.
Proof.
  exists fcc_rotations, diamond_group, [0; 1; 2; 3; 5; 6; 7; 4]%nat, [5; 4; 3; 2; 0; 1]%nat, [0; 3; 2; 1; 4; 7; 6; 5]%nat, [4; 5; 2; 3; 0; 1]%nat.
  split; [exact fcc_rotations_ok|]. split; [exact diamond_group_ok|].
  split; [apply existsb_op; vm_compute; reflexivity|]. split; [apply existsb_op; vm_compute; reflexivity|].
  intros Hin. assert (forall G g, In g G -> existsb (Decide.op_eqb g) G = true) as E.
  { intros G g HG. apply existsb_exists. exists g. split; auto. apply Decide.op_eqb_spec. auto. }
  apply E in Hin. vm_compute in Hin. discriminate.
Qed.

(** Eight cells, two along each of the vectors: sixteen atoms, two of one species. *)
Definition doubled : mat := ((2, 0, 0), (0, 2, 0), (0, 0, 2)).
Definition diamond_sixteen : list op := Eval vm_compute in match sym_group fcc_rotations 4 [(0, 0, 0); (1, 1, 1)] doubled false with Ok G => G | Err _ => [] end.
Lemma diamond_sixteen_ok : sym_group fcc_rotations 4 [(0, 0, 0); (1, 1, 1)] doubled false = Ok diamond_sixteen.
Proof. vm_compute. reflexivity. Qed.
Definition two_of_sixteen (j : nat) : list site := (-1, 1) :: map (fun k => (-1, if Nat.eqb k j then 1 else 2)) (seq 1 15).
Definition diamond_listed : list (list site) := [two_of_sixteen 1; two_of_sixteen 7; two_of_sixteen 8].
(** Four structures up to the symmetries of the supercell, which is what the program counts, and it lists three of them: it
    loses the pairs of atoms on the two sublattices that are not nearest neighbours. *)
Theorem C49_diamond_refuted : exists pg M L B G l, point_group (1 # 10000000000) 1 ((0, 1, 1), (1, 0, 1), (1, 1, 0)) = Ok pg /\
    SmithNormalForm doubled = Ok (M, L, B) /\ sym_group pg 4 [(0, 0, 0); (1, 1, 1)] doubled false = Ok G /\
    (forall v, exists G', polya v [2; 14]%nat G 0 = Ok (4, G')) /\
    (forall rnd, brancher (map (multiplicity site_eqb (two_of_sixteen 1)) (first_occurrences site_eqb (two_of_sixteen 1))) G (two_of_sixteen 1) 6 true 8 false rnd 100 SNone = Ok l) /\
    length l = 3%nat /\
    ~ catalogue (plain_structures 4 [(0, 0, 0); (1, 1, 1)] doubled (two_of_sixteen 1)) (same_in_supercell pg 4 [(0, 0, 0); (1, 1, 1)] doubled) (describes 4 [(0, 0, 0); (1, 1, 1)] L (diag_of M)) l.
Proof.
  exists fcc_rotations, doubled, mid, mid, diamond_sixteen, diamond_listed.
  split; [exact fcc_rotations_ok|]. split; [reflexivity|]. split; [exact diamond_sixteen_ok|].
  split; [intros v; eexists; destruct v; vm_compute; reflexivity|].
  split; [intros rnd; vm_compute; reflexivity|]. split; [reflexivity|].
  change (diag_of doubled) with (2, 2, 2).
  apply (lost_structure fcc_rotations 4 [(0, 0, 0); (1, 1, 1)] doubled mid mid (2, 2, 2) (make_member_list (2, 2, 2)) (two_of_sixteen 1) (two_of_sixteen 11)); auto; try reflexivity; try lia; try (vm_compute; tauto).
  - repeat constructor; cbn; try tauto. intros [E|[]]; discriminate.
  - intros d [<-|[<-|[]]] i Hi; destruct i as [|[|[|i]]]; cbn; lia.
  - intros [[a b] c]. exists (a mod 2, b mod 2, c mod 2), (a / 2, b / 2, c / 2). split.
    + pose proof (Z.mod_pos_bound a 2 ltac:(lia)). pose proof (Z.mod_pos_bound b 2 ltac:(lia)). pose proof (Z.mod_pos_bound c 2 ltac:(lia)).
      assert (a mod 2 = 0 \/ a mod 2 = 1) as [-> | ->] by lia; assert (b mod 2 = 0 \/ b mod 2 = 1) as [-> | ->] by lia; assert (c mod 2 = 0 \/ c mod 2 = 1) as [-> | ->] by lia; vm_compute; tauto.
    + pose proof (Z.div_mod a 2 ltac:(lia)). pose proof (Z.div_mod b 2 ltac:(lia)). pose proof (Z.div_mod c 2 ltac:(lia)). unfold mvec, doubled, vadd, vdot. cbn [fst snd]. f_equal; [f_equal|]; lia.
  - unfold two_of_sixteen. cbn [seq map Nat.eqb]. apply perm_skip. symmetry.
    apply (Permutation_middle (repeat (-1, 2) 10) (repeat (-1, 2) 4) (-1, 1)).
  - intros w [<-|[<-|[<-|[]]]]; vm_compute; reflexivity.
Qed.

Print Assumptions C48_hcp_refuted.
Print Assumptions C49_hcp_refuted.
Print Assumptions C48_diamond_refuted.
Print Assumptions C49_diamond_refuted.
