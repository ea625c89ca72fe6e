(** Property theorems C35-C38, C44, C53-C55 (see /verif/properties.jsonl). *)
From Coq Require Import Permutation Sorted QArith.
From Verif Require Import TextModel TextProofs PyBase Spec ListFacts TreeSearch Mat3 HNFModel HNFProofs SNFModel SuperModel LatSpec LatFacts LatSites StructSpec StructThm EnumOutModel EnumOutSpec PropertiesEnumOut.
From Verif Require Import MapModel MapSpec MapProofs MapSites MapDoubles PoscarModel PoscarSpec PoscarProofs ElementProofs PoscarMain MakeStrModel MakeStrSpec MakeStrProofs ConfigProofs.
Local Open Scope Z_scope.

(** ** C35: the sites of a structure *)
(** Whatever the limits of the loops, if every column of points has its full length: as many points as the supercell has
    sites, no two the same modulo the supercell, each with its own site number. *)
Definition maps_all_sites (D : Z) (bas : list vec) (H L : mat) (diag : vec) (pts : list (nat * vec)) (gs : list Z) : Prop :=
  length gs = length pts /\ Z.of_nat (length pts) = mdet H * Z.of_nat (length bas) /\
  transversal (crystal_point D bas) (fun x y => exists z, in_lattice H z /\ y = vadd x (vscale D z)) (map (position D bas) pts) /\
  Permutation gs (map Z.of_nat (seq 0 (length bas * Z.to_nat (mdet H)))) /\
  forall i p g, nth_error pts i = Some p -> nth_error gs i = Some g -> is_site D bas L diag (position D bas p) (Z.to_nat g).
Theorem C35_full_columns_partial : forall D bas H M L R lim,
  0 < D -> NoDup bas -> (forall d, In d bas -> reduced (D, D, D) d) -> hnf_form H -> mdet H <= 10 ^ 5 ->
  SmithNormalForm H = Ok (M, L, R) -> full lim H ->
  exists pts gs, real_space lim (mdet H) (length bas) H L (diag_of M) = Ok (pts, gs) /\ maps_all_sites D bas H L (diag_of M) pts gs.
Proof.
  intros D bas H M L R lim HD Hnd Hred Hh Hdet Esnf Hf.
  assert (1 <= mdet H) as Hd1. { destruct Hh as [a [b [c0 [d [e [f [-> [Ha [Hb [Hd He]]]]]]]]]]. assert (0 < a * c0) by nia. assert (0 < a * c0 * f) by nia. mat_unfold. nia. }
  destruct (snf_facts H ltac:(lia)) as [M' [L' [B [E [HL [HB [HS [HP [_ HV]]]]]]]]]. rewrite Esnf in E. injection E as <- <- ->.
  pose proof (map_length_ok bas H (diag_of M) HV Hh lim Hf) as Hl.
  exists (points lim (mget H 0 0) (length bas)), (map (g_index L (diag_of M)) (points lim (mget H 0 0) (length bas))). split.
  - unfold real_space. rewrite Hl, HV. assert (Z.of_nat (length bas * Z.to_nat (mdet H)) =? mdet H * Z.of_nat (length bas) = true) as -> by (apply Z.eqb_eq; nia). auto.
  - split; [apply map_length|]. split; [rewrite Hl, HV; nia|]. split; [|split].
    + apply (points_transversal D bas H L B (diag_of M)); auto.
    + pose proof (g_permutation D bas H L B (diag_of M) HL HB HS HP HV Hh lim Hf) as Hp. rewrite HV in Hp. exact Hp.
    + intros i p g Hp Hg. rewrite nth_error_map, Hp in Hg. cbn in Hg. inversion Hg; subst g. apply (point_site D bas H L B (diag_of M) HS HP HV lim p). eapply nth_error_In; eauto.
Qed.
(** With exact quotients: the function stops with [exit()] exactly for the HNFs of which the loops miss a point; for all
    others it maps every site once. *)
Theorem C35_exact_partial : forall D bas H M L R,
  0 < D -> bas <> [] -> NoDup bas -> (forall d, In d bas -> reduced (D, D, D) d) -> hnf_form H -> mdet H <= 10 ^ 5 ->
  SmithNormalForm H = Ok (M, L, R) ->
  (loses_a_point H -> real_space (exact_limits H) (mdet H) (length bas) H L (diag_of M) = Err SystemExit) /\
  (~ loses_a_point H -> exists pts gs, real_space (exact_limits H) (mdet H) (length bas) H L (diag_of M) = Ok (pts, gs) /\
     maps_all_sites D bas H L (diag_of M) pts gs).
Proof.
  intros D bas H M L R HD Hne Hnd Hred Hh Hdet E. split.
  - intros Hlose. unfold real_space. destruct (Z.eqb_spec (Z.of_nat (length (points (exact_limits H) (mget H 0 0) (length bas)))) (mdet H * Z.of_nat (length bas))) as [Hl|]; auto.
    exfalso. assert (~ loses_a_point H) as Hn; [|auto]. apply exact_succeeds; auto. rewrite points_length in Hl. assert (0 < length bas)%nat by (destruct bas; [congruence|cbn; lia]). nia.
  - intros Hn. eapply C35_full_columns_partial; eauto. apply exact_full; auto.
Qed.
(** Supercells with one cell along the first axis, or with e*b <= c*d: never short of a point. *)
Theorem C35_no_loss_partial : forall a b c d e f, hnf_form ((a, 0, 0), (b, c, 0), (d, e, f)) -> a = 1 \/ e * b <= c * d ->
  ~ loses_a_point ((a, 0, 0), (b, c, 0), (d, e, f)).
Proof. intros a b c d e f Hh Hs. apply no_loss; auto. Qed.
(** With doubles, up to 12 cells, the same. *)
Theorem C35_doubles_partial : forall D bas H M L R,
  0 < D -> bas <> [] -> NoDup bas -> (forall d, In d bas -> reduced (D, D, D) d) -> hnf_form H -> mdet H <= 12 ->
  SmithNormalForm H = Ok (M, L, R) ->
  (loses_a_point H -> real_space (double_limits H) (mdet H) (length bas) H L (diag_of M) = Err SystemExit) /\
  (~ loses_a_point H -> exists pts gs, real_space (double_limits H) (mdet H) (length bas) H L (diag_of M) = Ok (pts, gs) /\
     maps_all_sites D bas H L (diag_of M) pts gs).
Proof.
  intros D bas H M L R HD Hne Hnd Hred Hh Hdet E. 
  assert (real_space (double_limits H) (mdet H) (length bas) H L (diag_of M) = real_space (exact_limits H) (mdet H) (length bas) H L (diag_of M)) as ->.
  { unfold real_space. replace (points (double_limits H) (mget H 0 0) (length bas)) with (points (exact_limits H) (mget H 0 0) (length bas)); auto. unfold points. rewrite doubles_exact; auto. }
  eapply C35_exact_partial; eauto. lia.
Qed.
Example C35_example : let H := ((2, 0, 0), (1, 2, 0), (1, 0, 2)) in
  hnf_form H /\ ~ loses_a_point H /\
  exists M L R, SmithNormalForm H = Ok (M, L, R) /\ real_space (double_limits H) 8 1 H L (diag_of M) =
    Ok ([(0%nat, (0, 0, 0)); (0%nat, (0, 0, 1)); (0%nat, (0, 1, 0)); (0%nat, (0, 1, 1)); (0%nat, (1, 0, 0)); (0%nat, (1, 0, 1)); (0%nat, (1, 1, 0)); (0%nat, (1, 1, 1))], [0; 6; 4; 2; 1; 7; 5; 3]).
Proof.
  assert (hnf_form ((2, 0, 0), (1, 2, 0), (1, 0, 2))) as Hh by (exists 2, 1, 2, 1, 0, 2; repeat split; lia).
  split; auto. split; [apply C35_no_loss_partial; auto; right; lia|]. eexists _, _, _. split; [vm_compute; reflexivity|vm_compute; reflexivity].
Qed.
(** The property fails: an HNF (of 8 cells) for which makeStr stops. *)
Theorem C35_refuted : exists H M L R, hnf_form H /\ mdet H = 8 /\ SmithNormalForm H = Ok (M, L, R) /\
  real_space (exact_limits H) (mdet H) 1 H L (diag_of M) = Err SystemExit /\ real_space (double_limits H) (mdet H) 1 H L (diag_of M) = Err SystemExit.
Proof.
  exists ((2, 0, 0), (1, 2, 0), (0, 1, 2)). eexists _, _, _. split; [exists 2, 1, 2, 0, 1, 2; repeat split; lia|]. split; [reflexivity|]. split; [vm_compute; reflexivity|]. split; vm_compute; reflexivity.
Qed.
(** ... one (of 36 cells) for which it stops because of rounding; *)
Theorem C35_rounding_refuted : exists H M L R, hnf_form H /\ mdet H = 36 /\ ~ loses_a_point H /\ SmithNormalForm H = Ok (M, L, R) /\
  real_space (double_limits H) (mdet H) 1 H L (diag_of M) = Err SystemExit.
Proof.
  exists ((2, 0, 0), (5, 6, 0), (1, 2, 3)). assert (hnf_form ((2, 0, 0), (5, 6, 0), (1, 2, 3))) as Hh by (exists 2, 5, 6, 1, 2, 3; repeat split; lia).
  eexists _, _, _. split; auto. split; [reflexivity|]. split; [apply exact_succeeds; auto; vm_compute; reflexivity|]. split; vm_compute; reflexivity.
Qed.
(** ... and one (of 42 cells) for which it returns, without any message, the same site twice and another one never. *)
Theorem C35_silent_refuted : exists H M L R pts gs, hnf_form H /\ mdet H = 42 /\ SmithNormalForm H = Ok (M, L, R) /\
  real_space (double_limits H) (mdet H) 1 H L (diag_of M) = Ok (pts, gs) /\ ~ NoDup gs /\ ~ In 15 gs.
Proof.
  exists ((2, 0, 0), (5, 7, 0), (0, 2, 3)). eexists _, _, _, _, _. split; [exists 2, 5, 7, 0, 2, 3; repeat split; lia|]. split; [reflexivity|]. split; [vm_compute; reflexivity|]. split; [vm_compute; reflexivity|].
  split.
  - intros Hn. apply (NoDup_count_occ Z.eq_dec) with (x := 35) in Hn. revert Hn. vm_compute. lia.
  - intros Hin. repeat (destruct Hin as [E|Hin]; [discriminate E|]). exact Hin.
Qed.
(** Occupants: the numbers of atoms are those of the labels of the row, site by site, and so are the spins. *)
Theorem C35_occupants_partial : forall D bas k H c s lim,
  0 < D -> bas <> [] -> NoDup bas -> (forall d, In d bas -> reduced (D, D, D) d) -> 1 <= k <= 10 ->
  hnf_form H -> mdet H <= 10 ^ 5 -> full lim H -> row_for (length bas) k H c s ->
  exists sp, map_enumStr lim D bas k (mdet H) H (sL s) (sdiag s) (labeling s) = Ok sp /\
    counts sp = map (number_with (species_of c)) (range_up 0 k) /\
    Permutation (gIndx sp) (map Z.of_nat (seq 0 (length bas * Z.to_nat (mdet H)))) /\
    forall i g, nth_error (gIndx sp) i = Some g -> nth_error (spin sp) i = Some (spin_of k (nth (Z.to_nat g) (species_of c) 0)).
Proof.
  intros D bas k H c s lim HD Hne Hnd Hred Hk Hh Hdet Hf Hrow.
  destruct (space_ok D bas k H c s (fun _ => lim)) as [sp [E [Eb [Eg [Es Ec]]]]]; auto. exists sp. split; auto.
  pose proof (facts bas k H c s (fun _ => lim) Hh Hdet Hf Hrow) as [B [HL [HB [HS [HP HV]]]]].
  split; [|split].
  - rewrite Ec. apply map_ext. intros x. apply number_perm. apply (labels_perm D bas k H c s (fun _ => lim)); auto.
  - rewrite Eg. pose proof (g_permutation D bas H (sL s) B (sdiag s) HL HB HS HP HV Hh lim Hf) as Hp. rewrite HV in Hp. exact Hp.
  - intros i g Hg. rewrite Es. rewrite Eg in Hg. rewrite !nth_error_map. rewrite nth_error_map in Hg. destruct (nth_error _ i) as [p|]; [|discriminate]. cbn in *. inversion Hg; subst. auto.
Qed.
Theorem C35_spins_distinct : forall k i j, 0 < k -> 0 <= i < k -> 0 <= j < k ->
  (spin_of k i = spin_of k j -> i = j) /\ Z.abs (spin_of k i) <= k / 2 /\ (k mod 2 = 0 -> spin_of k i <> 0).
Proof.
  intros k i j Hk Hi Hj. unfold spin_of. pose proof (Z.div_mod k 2 ltac:(lia)) as E. pose proof (Z.mod_pos_bound k 2 ltac:(lia)).
  destruct (Z.eqb_spec (k mod 2) 0); [destruct (Z.ltb_spec (i - k / 2) 0), (Z.ltb_spec (j - k / 2) 0); lia|lia].
Qed.

(** ** C36: counts, order and atoms of a POSCAR *)
(** Whatever the flags: the numbers add up to the number of atoms; they are the numbers of the species shown (all of them,
    or those present); the atoms come in groups in the order of the species, and every site of the supercell is there once
    with its own species. *)
Theorem C36_counts_partial : forall lim param D bas k sys_title H c s species remove_zeros,
  0 < D -> bas <> [] -> NoDup bas -> (forall d, In d bas -> reduced (D, D, D) d) -> 1 <= k <= 10 ->
  hnf_form H -> mdet H <= 10 ^ 5 -> full (lim H) H -> row_for (length bas) k H c s ->
  (forall es, species = Some es -> length es = Z.to_nat k /\ forall e, In e es -> known e) ->
  let removed := match species with Some _ => truthy remove_zeros | None => false end in
  let shown := shown_species k (number_with (species_of c)) removed in
  exists p, make_poscar lim param D bas k sys_title s species remove_zeros = Ok p /\
    zsum (numbers p) = mdet H * Z.of_nat (length bas) /\ Z.of_nat (length (atoms p)) = mdet H * Z.of_nat (length bas) /\
    numbers p = map (number_with (species_of c)) shown /\
    length (species_order shown (numbers p)) = length (atoms p) /\ StronglySorted Z.le (species_order shown (numbers p)).
Proof.
  intros lim param D bas k sys_title H c s species rz HD Hne Hnd Hred Hk Hh Hdet Hf Hrow Hsp removed shown.
  assert (1 <= mdet H) by (apply (det_pos bas k H c s lim); auto).
  destruct (make_ok D bas k H c s lim) with (param := param) (sys_title := sys_title) (species := species) (rz := rz) as [p [E [H1 [H2 [H3 [H4 [H5 _]]]]]]]; auto.
  exists p. split; auto. cbv zeta in *. fold removed in H3, H4, H5. fold shown in H3, H4, H5. rewrite H1, H2, H3. split; [nia|]. split; [nia|]. auto.
Qed.
(** What C32 says about a row is what these theorems ask for. *)
Theorem C36_rows_of_enum_out : forall l i s k nD h c, is_row l i s -> nth_error l i = Some (h, c) ->
  length (decorated c) = (nD * Z.to_nat (mdet (full_HNF h)))%nat -> (forall a x, In (a, x) (decorated c) -> -1 <= a <= 5 /\ 1 <= x <= k) ->
  row_for nD k (full_HNF h) c s.
Proof.
  intros l i s k nD h c [h' [c' [E H]]] E' Hl Hr. rewrite E in E'. inversion E'; subst. destruct H as [_ [_ [H1 [_ [_ [_ [_ [_ [H2 [H3 H4]]]]]]]]]].
  unfold row_for. auto 10.
Qed.
(** Two cells along z, two atoms per cell, three species of which the second is missing. *)
Definition example_bas : list vec := [(0, 0, 0); (1, 1, 1)].
Definition example_H : mat := ((1, 0, 0), (0, 1, 0), (0, 0, 2)).
Definition example_c : config := Plain [1; 3; 3; 3].
Definition example_row (H : mat) (c : config) : structure :=
  match SmithNormalForm H, create_labeling c with
  | Ok (M, L, _), Ok (lab, arr) => {| strN := 1; hnfN := 1; hnf_degen := 1; lab_degen := 1; tot_degen := 1; sizeN := 1; EnumOutModel.cells := mdet H; pgOps := 1;
      sdiag := diag_of M; sHNF := H; sL := L; labeling := lab; directions_of := arr |}
  | _, _ => {| strN := 0; hnfN := 0; hnf_degen := 0; lab_degen := 0; tot_degen := 0; sizeN := 0; EnumOutModel.cells := 0; pgOps := 0;
      sdiag := (0, 0, 0); sHNF := mid; sL := mid; labeling := ""; directions_of := "" |}
  end.
Lemma example_row_for nD k H c M L R lab arr : SmithNormalForm H = Ok (M, L, R) -> create_labeling c = Ok (lab, arr) ->
  length (decorated c) = (nD * Z.to_nat (mdet H))%nat -> (forall a l, In (a, l) (decorated c) -> -1 <= a <= 5 /\ 1 <= l <= k) -> row_for nD k H c (example_row H c).
Proof.
  intros E1 E2 Hl Hr. unfold example_row. rewrite E1, E2. unfold row_for. cbn [EnumOutModel.cells sHNF sL sdiag labeling directions_of]. repeat (split; auto). exists M, R. auto.
Qed.
Example C36_example : hnf_form example_H /\ full (double_limits example_H) example_H /\ (forall d, In d example_bas -> reduced (2, 2, 2) d) /\
  row_for (length example_bas) 3 example_H example_c (example_row example_H example_c) /\ known "Al" /\ known "Cu" /\ known "Ni" /\
  forall param, exists p, make_poscar double_limits param 2 example_bas 3 "example" (example_row example_H example_c) (Some ["Al"; "Cu"; "Ni"]%string) (Bool true) = Ok p /\
    numbers p = [1; 3] /\ atoms p = [((0, 0, 0), (0, 0, 0)); ((0, 0, 2), (0, 0, 0)); ((1, 1, 1), (0, 0, 0)); ((1, 1, 3), (0, 0, 0))] /\ title p = (" Al  Ni  example str #: 1" ++ String newline "")%string.
Proof.
  split; [exists 1, 0, 1, 0, 0, 2; repeat split; lia|].
  split. { intros z1 Hz. cbn in Hz. assert (z1 = 0) by lia. subst. split; [vm_compute; auto|]. intros z2 Hz2. change (0 <= z2 < 1) in Hz2. assert (z2 = 0) by lia. subst. vm_compute. auto. }
  split. { intros d [<-|[<-|[]]] i Hi; destruct i as [|[|[|i]]]; cbn; lia. }
  split. { eapply example_row_for; [vm_compute; reflexivity|vm_compute; reflexivity|reflexivity|]. intros a l Hin. cbn in Hin. repeat (destruct Hin as [E|Hin]; [inversion E; subst; lia|]); destruct Hin. }
  split; [eexists; reflexivity|]. split; [eexists; reflexivity|]. split; [eexists; reflexivity|].
  intros param. eexists. split; [vm_compute; reflexivity|]. split; [reflexivity|]. split; [reflexivity|]. reflexivity.
Qed.

(** ** C53: the POSCAR shows the crystal that was enumerated *)
(** [f] is the decorated crystal that the row stands for in the enumeration (C49): the POSCAR lists one atom for every site
    of the supercell, with the species [f] gives it.  Ten species at most; HNFs whose columns the loops fill (C35); basis
    vectors in the cell. *)
Theorem C53_same_crystal_partial : forall lim param D bas k sys_title H c s species remove_zeros f,
  0 < D -> bas <> [] -> NoDup bas -> (forall d, In d bas -> reduced (D, D, D) d) -> 1 <= k <= 10 ->
  hnf_form H -> mdet H <= 10 ^ 5 -> full (lim H) H -> row_for (length bas) k H c s ->
  (forall es, species = Some es -> length es = Z.to_nat k /\ forall e, In e es -> known e) ->
  describes D bas (sL s) (sdiag s) (decorated c) f ->
  exists p, make_poscar lim param D bas k sys_title s species remove_zeros = Ok p /\
    shows_crystal D bas H f (listed_atoms k (species_of c) (match species with Some _ => truthy remove_zeros | None => false end) p).
Proof. intros. apply make_shows; auto. Qed.
(** Basis vectors outside the cell: the enumeration numbers the sites after moving them into the cell, makeStr before.  In
    the crystal with atoms at 0 and at (1, 0, 1/2), doubled along x, the enumeration means sheets of the two species by the
    labels 1212 and the POSCAR shows a chessboard. *)
Definition raw_bas : list vec := [(0, 0, 0); (2, 0, 1)].
Definition cell_bas : list vec := [(0, 0, 0); (0, 0, 1)].
Theorem C53_outside_cell_refuted : exists k H c s p f, hnf_form H /\
  (forall x, crystal_point 2 raw_bas x <-> crystal_point 2 cell_bas x) /\ row_for (length raw_bas) k H c s /\
  describes 2 cell_bas (sL s) (sdiag s) (decorated c) f /\
  make_poscar double_limits (fun _ => 1%Q) 2 raw_bas k "example" s None (Bool true) = Ok p /\
  ~ shows_crystal 2 raw_bas H f (listed_atoms k (species_of c) false p).
Proof.
  exists 2, ((2, 0, 0), (0, 1, 0), (0, 0, 1)), (Plain [1; 2; 1; 2]), (example_row ((2, 0, 0), (0, 1, 0), (0, 0, 1)) (Plain [1; 2; 1; 2])).
  eexists. exists (fun x => (-1, vget x 0 / 2 mod 2 + 1)).
  split; [exists 2, 0, 1, 0, 0, 1; repeat split; lia|].
  split. { intros [[x y] z]. unfold crystal_point, raw_bas, cell_bas. split; intros [d [[[u v] w] [[<-|[<-|[]]] E]]]; revert E; mat_unfold; intros E; apply pair_equal_spec in E as [E E3]; apply pair_equal_spec in E as [E1 E2].
    - exists (0, 0, 0), (u, v, w). split; [left; auto|]. mat_unfold. subst. auto.
    - exists (0, 0, 1), (u + 1, v, w). split; [right; left; auto|]. mat_unfold. subst. apply f_equal2; [apply f_equal2|]; ring.
    - exists (0, 0, 0), (u, v, w). split; [left; auto|]. mat_unfold. subst. auto.
    - exists (2, 0, 1), (u - 1, v, w). split; [right; left; auto|]. mat_unfold. subst. apply f_equal2; [apply f_equal2|]; ring. }
  split. { eapply example_row_for; [vm_compute; reflexivity|vm_compute; reflexivity|reflexivity|]. intros a l Hin. cbn in Hin. repeat (destruct Hin as [E|Hin]; [inversion E; subst; lia|]); destruct Hin. }
  split.
  { set (L := sL _). set (dg := sdiag _). vm_compute in L. vm_compute in dg. subst L dg. intros x i [iD [[[u v] w] [[[g0 g1] g2] [Hi [-> [Hg [Hc ->]]]]]]].
    pose proof (Hg 0%nat ltac:(lia)) as G0. pose proof (Hg 1%nat ltac:(lia)) as G1. pose proof (Hg 2%nat ltac:(lia)) as G2. cbn in G0, G1, G2.
    pose proof (Hc 2%nat ltac:(lia)) as C2. cbn [vget] in C2. revert C2. mat_unfold. intros C2.
    assert (g0 = 0) by lia. assert (g1 = 0) by lia. subst g0 g1. 
    assert (g2 = u mod 2) as ->.
    { pose proof (Z.mod_pos_bound u 2 ltac:(lia)). pose proof (Z.div_mod u 2 ltac:(lia)). destruct C2 as [q C2]. lia. }
    pose proof (Z.mod_pos_bound u 2 ltac:(lia)) as Hm.
    assert (forall e, (e + 2 * u) / 2 mod 2 = (e / 2 + u) mod 2) as Hdiv by (intros e; rewrite (Z.mul_comm 2 u), Z.div_add by lia; auto).
    cbn [length cell_bas] in Hi. destruct iD as [|[|iD]]; [| |lia]; cbn [nth cell_bas]; mat_unfold; rewrite Hdiv; cbn [Z.div Z.add]; change (0 / 2) with 0; rewrite Z.add_0_l;
      assert (u mod 2 = 0 \/ u mod 2 = 1) as [->| ->] by lia; vm_compute; auto. }
  split; [vm_compute; reflexivity|].
  intros [_ Hs]. specialize (Hs 0 (2, 0, 1) (0, 0, 0)). 
  assert (snd ((-1), vget (2, 0, 1) 0 / 2 mod 2 + 1) = 0 + 1) as Hx; [|vm_compute in Hx; discriminate]. apply Hs. vm_compute. auto.
Qed.

(** ** C54: the title names the elements in the order of the numbers *)
Theorem C54_title_partial : forall lim param D bas k sys_title H c s es remove_zeros,
  0 < D -> bas <> [] -> NoDup bas -> (forall d, In d bas -> reduced (D, D, D) d) -> 1 <= k <= 10 ->
  hnf_form H -> mdet H <= 10 ^ 5 -> full (lim H) H -> row_for (length bas) k H c s ->
  length es = Z.to_nat k -> (forall e, In e es -> known e) ->
  let shown := shown_species k (number_with (species_of c)) (truthy remove_zeros) in
  exists p, make_poscar lim param D bas k sys_title s (Some es) remove_zeros = Ok p /\
    length shown = length (numbers p) /\
    titled (map (fun x => nth (Z.to_nat x) es EmptyString) shown) (lstrip (rstrip (sys_title ++ " str #: " ++ str (strN s) ++ String newline ""))) (title p).
Proof.
  intros lim param D bas k sys_title H c s es rz HD Hne Hnd Hred Hk Hh Hdet Hf Hrow Hl Hkn shown.
  destruct (make_ok D bas k H c s lim) with (param := param) (sys_title := sys_title) (species := Some es) (rz := rz) as [p [E [H1 [H2 [H3 [H4 [H5 [_ [H6 _]]]]]]]]]; auto.
  { intros es' E. inversion E; subst. auto. }
  exists p. split; auto. cbv zeta in *. rewrite H5. rewrite map_length. auto.
Qed.

(** ** C37: displacements *)
(** Without arrows no atom of a POSCAR is displaced. *)
Theorem C37_no_arrows_partial : forall lim param D bas k sys_title H c s species remove_zeros p,
  0 < D -> bas <> [] -> NoDup bas -> (forall d, In d bas -> reduced (D, D, D) d) -> 1 <= k <= 10 ->
  hnf_form H -> mdet H <= 10 ^ 5 -> full (lim H) H -> row_for (length bas) k H c s ->
  (forall es, species = Some es -> length es = Z.to_nat k /\ forall e, In e es -> known e) ->
  (forall a l, In (a, l) (decorated c) -> a = -1) ->
  make_poscar lim param D bas k sys_title s species remove_zeros = Ok p -> forall x v, In (x, v) (atoms p) -> v = (0, 0, 0).
Proof.
  intros lim param D bas k sys_title H c s species rz p HD Hne Hnd Hred Hk Hh Hdet Hf Hrow Hsp Hno E x v Hin.
  destruct (make_ok D bas k H c s lim) with (param := param) (sys_title := sys_title) (species := species) (rz := rz) as [p' [E' [_ [H2 [H3 [_ [_ [Hp _]]]]]]]]; auto.
  rewrite E in E'. injection E' as E'. subst p'. cbv zeta in *.
  match type of H3 with length ?o = _ => set (order := o) in * end.
  destruct (In_nth _ _ (0, 0, 0, (0, 0, 0)) Hin) as [i [Hi Ei]].
  assert (In (nth i order 0, (x, v)) (combine order (atoms p))) as Hc.
  { rewrite <- Ei. rewrite <- combine_nth by (unfold vec in *; lia). apply nth_In. rewrite combine_length. unfold vec in *. lia. }
  apply (Permutation_in _ Hp) in Hc. apply in_map_iff in Hc as [j [Ej Hj]]. apply in_seq in Hj. apply pair_equal_spec in Ej as [_ Ej]. apply pair_equal_spec in Ej as [_ <-].
  pose proof (w_len bas k H c s Hrow) as Hw. 
  assert (forall a, In a (map (fun d => nth d poscar_directions (0, 0, 0)) (map (fun x : Z * Z => Z.to_nat (fst x + 1)) (decorated c))) -> a = (0, 0, 0)) as Hz.
  { intros a Ha. apply in_map_iff in Ha as [d [<- Hd]]. apply in_map_iff in Hd as [[a0 l0] [<- Hd]]. rewrite (Hno a0 l0 Hd). reflexivity. }
  apply Hz. apply nth_In. rewrite !map_length. lia.
Qed.
(** One atom per cell, displaced along +x: the POSCAR moves it along -z. *)
Theorem C37_direction_refuted : exists H c s p f, hnf_form H /\ full (double_limits H) H /\ row_for 1 1 H c s /\ describes 1 [(0, 0, 0)] (sL s) (sdiag s) (decorated c) f /\
  make_poscar double_limits (fun _ => 1%Q) 1 [(0, 0, 0)] 1 "example" s None (Bool true) = Ok p /\
  shows_crystal 1 [(0, 0, 0)] H f (listed_atoms 1 (species_of c) false p) /\ ~ shows_arrows f (listed_atoms 1 (species_of c) false p).
Proof.
  exists mid, (Arrowed [(0, 1)]), (example_row mid (Arrowed [(0, 1)])). eexists. exists (fun _ => (0, 1)).
  assert (hnf_form mid) as Hh by (exists 1, 0, 1, 0, 0, 1; repeat split; lia).
  assert (full (double_limits mid) mid) as Hf. { intros z1 Hz. cbn in Hz. assert (z1 = 0) by lia. subst. split; [vm_compute; auto|]. intros z2 Hz2. change (0 <= z2 < 1) in Hz2. assert (z2 = 0) by lia. subst. vm_compute. auto. }
  assert (row_for 1 1 mid (Arrowed [(0, 1)]) (example_row mid (Arrowed [(0, 1)]))) as Hr.
  { eapply example_row_for; [vm_compute; reflexivity|vm_compute; reflexivity|reflexivity|]. intros a l [E|[]]. inversion E; subst; lia. }
  assert (describes 1 [(0, 0, 0)] (sL (example_row mid (Arrowed [(0, 1)]))) (sdiag (example_row mid (Arrowed [(0, 1)]))) [(0, 1)] (fun _ => (0, 1))) as Hd.
  { intros x i [iD [z [g [Hi [_ [Hg [_ ->]]]]]]]. cbn in Hi. assert (iD = 0%nat) by lia. subst. destruct g as [[g0 g1] g2]. pose proof (Hg 0%nat ltac:(lia)) as G0. pose proof (Hg 1%nat ltac:(lia)) as G1. pose proof (Hg 2%nat ltac:(lia)) as G2. 
    change (0 <= g0 < 1) in G0. change (0 <= g1 < 1) in G1. change (0 <= g2 < 1) in G2. assert (g0 = 0) by lia. assert (g1 = 0) by lia. assert (g2 = 0) by lia. subst. vm_compute. auto. }
  split; auto. split; auto. split; auto. split; auto. split; [vm_compute; reflexivity|]. split.
  - destruct (C53_same_crystal_partial double_limits (fun _ => 1%Q) 1 [(0, 0, 0)] 1 "example" mid (Arrowed [(0, 1)]) (example_row mid (Arrowed [(0, 1)])) None (Bool true) (fun _ => (0, 1))) as [p [E Hs]]; auto; try lia; try discriminate.
    + constructor; [intros []|constructor].
    + intros d [<-|[]] i Hi. destruct i as [|[|[|i]]]; cbn; lia.
    + assert (p = {| title := ("example str #: 1" ++ String newline "")%string; parameter := 1%Q; numbers := [1]; atoms := [((0, 0, 0), (0, 0, -1))] |}) as ->; [|exact Hs].
      revert E. vm_compute. intros E. inversion E. auto.
  - intros Ha. specialize (Ha 0 (0, 0, 0) (0, 0, -1)). cbn in Ha. assert ((0, 0, -1) = (1, 0, 0)) as Hx by (apply Ha; vm_compute; auto). discriminate.
Qed.
(** Three cells along y, the atom of the third one displaced along -x: the POSCAR moves the atom of the second one (and
    along -y). *)
Theorem C37_atom_refuted : exists H c s p f, hnf_form H /\ row_for 1 1 H c s /\ describes 1 [(0, 0, 0)] (sL s) (sdiag s) (decorated c) f /\
  make_poscar double_limits (fun _ => 1%Q) 1 [(0, 0, 0)] 1 "example" s None (Bool true) = Ok p /\
  (forall x, has_arrow (f x) = true <-> vget x 1 mod 3 = 2) /\
  listed_atoms 1 (species_of c) false p = [(0, ((0, 0, 0), (0, 0, 0))); (0, ((0, 1, 0), (0, -1, 0))); (0, ((0, 2, 0), (0, 0, 0)))] /\
  ~ shows_arrows f (listed_atoms 1 (species_of c) false p).
Proof.
  set (H := ((1, 0, 0), (0, 3, 0), (0, 0, 1))). set (c := Arrowed [(-1, 1); (1, 1); (-1, 1)]).
  exists H, c, (example_row H c). eexists. exists (fun x => (if vget x 1 mod 3 =? 2 then 1 else -1, 1)).
  split; [exists 1, 0, 3, 0, 0, 1; repeat split; lia|].
  split. { eapply example_row_for; [vm_compute; reflexivity|vm_compute; reflexivity|reflexivity|]. intros a l Hin. cbn in Hin. repeat (destruct Hin as [E|Hin]; [inversion E; subst; lia|]); destruct Hin. }
  split.
  { set (L := sL _). set (dg := sdiag _). vm_compute in L. vm_compute in dg. subst L dg. intros x i [iD [[[u v] w] [[[g0 g1] g2] [Hi [-> [Hg [Hc ->]]]]]]].
    pose proof (Hg 0%nat ltac:(lia)) as G0. pose proof (Hg 1%nat ltac:(lia)) as G1. pose proof (Hg 2%nat ltac:(lia)) as G2. cbn in G0, G1, G2.
    pose proof (Hc 2%nat ltac:(lia)) as C2. cbn [vget] in C2. revert C2. mat_unfold. intros C2.
    assert (g0 = 0) by lia. assert (g1 = 0) by lia. subst g0 g1. cbn in Hi. assert (iD = 0%nat) by lia. subst iD. cbn [nth]. mat_unfold. rewrite Z.add_0_l, Z.mul_1_l.
    pose proof (Z.mod_pos_bound v 3 ltac:(lia)) as Hm. pose proof (Z.div_mod v 3 ltac:(lia)) as Ev. destruct C2 as [q C2].
    assert (g2 = 0 /\ v mod 3 = 0 \/ g2 = 1 /\ v mod 3 = 2 \/ g2 = 2 /\ v mod 3 = 1) as Hcase by lia.
    destruct Hcase as [[-> ->]|[[-> ->]|[-> ->]]]; vm_compute; auto. }
  split; [vm_compute; reflexivity|].
  split. { intros x. unfold has_arrow. cbn [fst]. destruct (Z.eqb_spec (vget x 1 mod 3) 2); split; intros; auto; try discriminate; contradiction. }
  split; [vm_compute; reflexivity|].
  intros Ha. specialize (Ha 0 (0, 1, 0) (0, -1, 0)). assert ((0, -1, 0) = (0, 0, 0)) as Hx; [|discriminate]. apply Ha. vm_compute. auto.
Qed.
(** MTP files: an atom without arrow is moved along +x, one with an arrow along -z makes the program stop. *)
Theorem C37_config_refuted :
  (exists lp, make_config double_limits (fun _ => 1%Q) 1 [(0, 0, 0)] 1 "example" (example_row mid (Arrowed [(-1, 1)])) None None = Ok (lp, [(1, 0, (0, 0, 0), (1, 0, 0))])) /\
  make_config double_limits (fun _ => 1%Q) 1 [(0, 0, 0)] 1 "example" (example_row mid (Arrowed [(5, 1)])) None None = Err IndexError /\
  (forall a, -1 <= a <= 5 -> row_for 1 1 mid (Arrowed [(a, 1)]) (example_row mid (Arrowed [(a, 1)]))).
Proof.
  split; [eexists; vm_compute; reflexivity|]. split; [vm_compute; reflexivity|].
  intros a Ha. eapply example_row_for; [vm_compute; reflexivity|reflexivity|reflexivity|]. intros x l [E|[]]. inversion E; subst; lia.
Qed.

(** ** C38: the flags of makeStr *)
(** "-mink f" reduces the supercell as "-mink t" does; "-remove_zeros f" writes the file that "-remove_zeros t" writes. *)
Theorem C38_refuted : forall reduce H lim param D bas k sys_title s species,
  supercell_vectors reduce (passed_mink "f") H = reduce H /\
  make_poscar lim param D bas k sys_title s species (passed_remove_zeros "f") = make_poscar lim param D bas k sys_title s species (passed_remove_zeros "t").
Proof.
  intros. split; [reflexivity|]. unfold make_poscar. destruct (map_enumStr _ _ _ _ _ _ _ _ _) as [sp|]; cbn [rbind]; [|auto]. unfold write_POSCAR. cbn [truthy passed_remove_zeros String.eqb negb Ascii.eqb Bool.eqb].
  reflexivity.
Qed.
(** With the flags the functions themselves take, both matter. *)
Example C38_example : supercell_vectors (fun _ => mid) (Bool false) example_H = example_H /\ supercell_vectors (fun _ => mid) (Bool true) example_H = mid /\
  exists p q, make_poscar double_limits (fun _ => 1%Q) 2 example_bas 3 "example" (example_row example_H example_c) (Some ["Al"; "Cu"; "Ni"]%string) (Bool false) = Ok p /\
    make_poscar double_limits (fun _ => 1%Q) 2 example_bas 3 "example" (example_row example_H example_c) (Some ["Al"; "Cu"; "Ni"]%string) (passed_remove_zeros "f") = Ok q /\
    numbers p = [1; 0; 3] /\ numbers q = [1; 3].
Proof. split; [reflexivity|]. split; [reflexivity|]. eexists _, _. split; [vm_compute; reflexivity|]. split; [vm_compute; reflexivity|]. split; reflexivity. Qed.

(** ** C44: the lattice parameter *)
(** The mean of the parameters of the elements, weighted with the numbers of atoms, so between the smallest and the
    largest of those present. *)
Theorem C44_weighted_mean_partial : forall param es concs def remove_zeros,
  length es = length concs -> (forall e, In e es -> known e) -> (forall c, In c concs -> 0 <= c) -> 0 < zsum concs ->
  exists q t, get_lattice_parameter param (Some es) concs def remove_zeros = Ok (q, t) /\
    (q == weighted param (combine es concs) / inject_Z (zsum concs))%Q /\
    forall lo hi : Q, (forall e c v, In (e, c) (combine es concs) -> 0 < c -> element_volume e = Ok v -> (lo <= param v /\ param v <= hi)%Q) -> (lo <= q /\ q <= hi)%Q.
Proof.
  intros param es concs def rz Hl Hk Hc Hs. destruct (lattice_parameter_ok param es concs def rz Hl Hk Hc Hs) as [q [t [E [_ Eq]]]].
  exists q, t. split; auto. split; auto. intros lo hi Hb. eapply lattice_parameter_bounds; eauto.
Qed.
(** One element per concentration is required; without elements the parameter is 1. *)
Theorem C44_lengths : forall param es concs def remove_zeros,
  (length es <> length concs -> get_lattice_parameter param (Some es) concs def remove_zeros = Err ValueError) /\
  get_lattice_parameter param None concs def remove_zeros = Ok (1%Q, def).
Proof. intros. split; [|reflexivity]. intros H. unfold get_lattice_parameter. destruct (Nat.eqb_spec (length es) (length concs)); [contradiction|]. reflexivity. Qed.
(** An unknown element is reported. *)
Theorem C44_unknown : forall param es concs def remove_zeros e, length es = length concs -> In e es -> ~ known e ->
  get_lattice_parameter param (Some es) concs def remove_zeros = Err KeyError.
Proof.
  intros param es concs def rz e Hl Hin Hu. unfold get_lattice_parameter. rewrite Hl, Nat.eqb_refl. cbn [negb].
  assert (forall l st, (exists c, In (e, c) l) -> rfold (fun '(total, title) '(e, c) =>
                  do p <- lat_param_element param e;
                  Ok ((total + inject_Z c * p)%Q, if (0 <? c) || negb (truthy rz) then (title ++ " " ++ e ++ " ")%string else title)) l st = Err KeyError) as Hg.
  { induction l as [|[e' c'] l IH]; intros [tot tl] [c Hc]; [destruct Hc|]. cbn [rfold]. unfold lat_param_element.
    assert (forall err, element_volume e' = Err err -> err = KeyError) as Herr by (intros err; unfold element_volume; destruct (find _ _); intros E; inversion E; auto).
    destruct (element_volume e') as [v|err] eqn:Ev; cbn [rbind]; [|rewrite (Herr err eq_refl); auto].
    destruct Hc as [E|Hc]; [inversion E; subst; exfalso; apply Hu; exists v; auto|]. apply IH. eauto. }
  rewrite Hg; [reflexivity|]. clear - Hl Hin. revert concs Hl. induction es as [|a es IH]; intros [|c concs] Hl; cbn in *; try lia; try contradiction. destruct Hin as [->|Hin]; [exists c; left; auto|].
  destruct (IH Hin concs ltac:(lia)) as [c' Hc']. exists c'. right. auto.
Qed.
(** Lead is missing from the table, and palladium has lead's volume. *)
Theorem C44_lead_refuted : ~ known "Pb" /\ element_volume "Pd" = Ok 3032180 /\ In ("Pd"%string, 1471600) element_entries.
Proof. split; [intros [v E]; discriminate E|]. split; [reflexivity|]. unfold element_entries. repeat (try (left; reflexivity); right). Qed.
Example C44_example : exists q t, get_lattice_parameter (fun v => inject_Z v) (Some ["Al"; "Cu"]%string) [1; 3] "title" (Bool true) = Ok (q, t) /\ (q == 1297300)%Q /\
  element_volume "Al" = Ok 1660750 /\ element_volume "Cu" = Ok 1176150.
Proof. eexists _, _. split; [vm_compute; reflexivity|]. repeat split. Qed.

(** ** C55: MTP configuration files *)
(** Every site once, numbered from 1, with its species or what the species is mapped to.  Directions above +z (the sixth
    arrow) excluded: see C37_config_refuted. *)
Theorem C55_config_partial : forall lim param D bas k sys_title H c s species mapping f,
  0 < D -> bas <> [] -> NoDup bas -> (forall d, In d bas -> reduced (D, D, D) d) -> 1 <= k <= 10 ->
  hnf_form H -> mdet H <= 10 ^ 5 -> full (lim H) H -> row_for (length bas) k H c s ->
  (forall a l, In (a, l) (decorated c) -> a <= 4) ->
  (forall m, mapping = Some m -> length m = Z.to_nat k /\ exists es, species = Some es /\ forall i, In i m -> 0 <= i < Z.of_nat (length es)) ->
  (forall es, species = Some es -> (mapping = None -> length es = Z.to_nat k) /\ forall e, In e es -> known e) ->
  describes D bas (sL s) (sdiag s) (decorated c) f ->
  exists lp l, make_config lim param D bas k sys_title s species mapping = Ok (lp, l) /\
    map (fun '(i, _, _, _) => i) l = map (fun i => Z.of_nat i + 1) (seq 0 (length bas * Z.to_nat (mdet H))) /\
    transversal (crystal_point D bas) (fun x y => exists z, in_lattice H z /\ y = vadd x (vscale D z)) (map (fun '(_, _, x, _) => x) l) /\
    forall i t x v, In (i, t, x, v) l -> t = match mapping with None => snd (f x) - 1 | Some m => nth (Z.to_nat (snd (f x) - 1)) m 0 end.
Proof.
  intros lim param D bas k sys_title H c s species mapping f HD Hne Hnd Hred Hk Hh Hdet Hf Hrow Ha4 Hm Hsp Hd.
  destruct (config_ok D bas k H c s lim) with (param := param) (sys_title := sys_title) (species := species) (mapping := mapping) as [lp E]; auto.
  eexists lp, _. split; [exact E|]. split; [|split].
  - rewrite map_map. apply map_ext. auto.
  - rewrite map_map. cbn [fst snd]. pose proof (pts_length bas k H c s lim Hh Hdet Hf Hrow) as Hpl.
    set (P := map (position D bas) (points (lim H) (mget H 0 0) (length bas))).
    assert (length P = (length bas * Z.to_nat (mdet H))%nat) as Hl by (unfold P; rewrite map_length; exact Hpl). rewrite <- Hl. rewrite map_nth_all.
    destruct (facts bas k H c s lim) as [B [HL [HB [HS [HP HV]]]]]; auto. apply (points_transversal D bas H (sL s) B (sdiag s)); auto.
  - intros i t x v Hin. apply in_map_iff in Hin as [j [Ej Hj]]. apply in_seq in Hj. apply pair_equal_spec in Ej as [Ej _]. apply pair_equal_spec in Ej as [Ej E2]. apply pair_equal_spec in Ej as [_ E1].
    destruct (atoms_sites D bas k H c s lim) with (i := j) as [Hsite Hlab]; auto; try lia. rewrite E2 in Hsite. rewrite <- E1, Hlab. rewrite (Hd x _ Hsite).
    assert (nth (Z.to_nat (nth j (map (g_index (sL s) (sdiag s)) (points (lim H) (mget H 0 0) (length bas))) 0)) (species_of c) 0 =
            snd (nth (Z.to_nat (nth j (map (g_index (sL s) (sdiag s)) (points (lim H) (mget H 0 0) (length bas))) 0)) (decorated c) (-1, 0)) - 1) as Es.
    { pose proof (gs_range D bas k H c s lim Hh Hdet Hf Hrow (nth j (map (g_index (sL s) (sdiag s)) (points (lim H) (mget H 0 0) (length bas))) 0)) as Hg. 
      specialize (Hg ltac:(apply nth_In; rewrite map_length, (pts_length bas k H c s lim Hh Hdet Hf Hrow); lia)).
      unfold species_of. rewrite (nth_indep (map (fun x : Z * Z => snd x - 1) (decorated c)) 0%Z ((fun x : Z * Z => snd x - 1) (-1, 0))) by (rewrite map_length, (w_len bas k H c s Hrow); lia). apply (map_nth (fun x : Z * Z => snd x - 1)). }
    rewrite Es. unfold type_of. destruct mapping; auto.
Qed.
(** With as many elements as mapped species the elements are not permuted: copper atoms (type 1) with aluminium's
    parameter. *)
Theorem C55_mapping_refuted : exists lp l, 
  make_config double_limits (fun v => inject_Z v) 1 [(0, 0, 0)] 2 "example" (example_row mid (Plain [1])) (Some ["Al"; "Cu"]%string) (Some [1; 0]) = Ok (lp, l) /\
  row_for 1 2 mid (Plain [1]) (example_row mid (Plain [1])) /\
  map (fun '(_, t, _, _) => t) l = [1] /\ (exists v, element_volume "Al" = Ok v /\ lp == inject_Z v)%Q /\ ~ (exists v, element_volume "Cu" = Ok v /\ lp == inject_Z v)%Q.
Proof.
  eexists _, _. split; [vm_compute; reflexivity|]. split. { eapply example_row_for; [vm_compute; reflexivity|reflexivity|reflexivity|]. intros x l [E|[]]. inversion E; subst; lia. }
  split; [reflexivity|]. split; [eexists; split; [reflexivity|]; vm_compute; auto|]. intros [v [E1 E2]]. revert E1 E2. vm_compute. intros E1. inversion E1; subst. discriminate.
Qed.
Example C55_example : exists lp, make_config double_limits (fun _ => 1%Q) 2 example_bas 3 "example" (example_row example_H example_c) (Some ["Al"; "Cu"; "Ni"; "Pt"]%string) (Some [3; 1; 0]) =
  Ok (lp, [(1, 3, (0, 0, 0), (1, 0, 0)); (2, 0, (0, 0, 2), (1, 0, 0)); (3, 0, (1, 1, 1), (1, 0, 0)); (4, 0, (1, 1, 3), (1, 0, 0))]).
Proof. eexists. vm_compute. reflexivity. Qed.

Print Assumptions C35_full_columns_partial.
Print Assumptions C35_exact_partial.
Print Assumptions C35_no_loss_partial.
Print Assumptions C35_doubles_partial.
Print Assumptions C35_refuted.
Print Assumptions C35_rounding_refuted.
Print Assumptions C35_silent_refuted.
Print Assumptions C35_occupants_partial.
Print Assumptions C35_spins_distinct.
Print Assumptions C36_counts_partial.
Print Assumptions C36_rows_of_enum_out.
Print Assumptions C37_no_arrows_partial.
Print Assumptions C37_direction_refuted.
Print Assumptions C37_atom_refuted.
Print Assumptions C37_config_refuted.
Print Assumptions C38_refuted.
Print Assumptions C44_weighted_mean_partial.
Print Assumptions C44_lengths.
Print Assumptions C44_unknown.
Print Assumptions C44_lead_refuted.
Print Assumptions C53_same_crystal_partial.
Print Assumptions C53_outside_cell_refuted.
Print Assumptions C54_title_partial.
Print Assumptions C55_config_partial.
Print Assumptions C55_mapping_refuted.
