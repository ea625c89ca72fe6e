(** C65: the space group of a crystal ([get_spaceGroup]). *)
From Coq Require Import QArith Qabs Lqa.
From Verif Require Import PyBase Mat3 CellModel CellProofs LatSpec ReduceSpec PointGroupModel PointGroupSpec PointGroupProofs PropertiesPoint.
From Verif Require Import LatGroupModel SpaceModel SpaceSpec SpaceProofs SpaceMain SpaceTop SpaceLink.
Local Open Scope Q_scope.

(** The given positions are within [delta] of the positions [ideal] of a crystal. *)
Definition positions_near (L : qmat) (lattcoords : bool) (delta : Q) (atoms ideal : list (Z * pt)) : Prop :=
  Forall2 (fun a b => fst a = fst b /\ within delta (if lattcoords then let '(x, y, z) := snd a in combo L x y z else snd a) (snd b)) atoms ideal.
(** The tolerance lies between the errors of the positions and the spacing of their fractions; [c] bounds the lattice
    coordinates of the unit cube. *)
Definition resolves (L : qmat) (N : Z) (eps delta c : Q) : Prop :=
  (0 < N)%Z /\ 1 <= c /\ coordinates_bound L c /\ 0 <= delta /\ 8 * c * delta < eps /\ 2 * c * eps * inject_Z N < 1.
Definition good_crystal (L : qmat) (N : Z) (ideal : list (Z * pt)) : Prop :=
  ideal <> [] /\ (forall a, In a ideal -> fractional L N (snd a)) /\ distinct_sites L ideal.

(** The result lists, up to the errors of the positions, exactly the rigid motions that take the lattice and the crystal
    to themselves, each once up to lattice translations. *)
Theorem C65_space_group : forall eps D A m atoms lattcoords ideal N delta c,
  (0 < D)%Z -> mdet A <> 0%Z -> tolerable eps D A m -> fine eps A ->
  resolves (qmof D A) N eps delta c -> good_crystal (qmof D A) N ideal -> positions_near (qmof D A) lattcoords delta atoms ideal ->
  exists out sym, SpaceModel.get_spaceGroup eps D A atoms lattcoords = Ok out /\
    Forall2 (fun o s => fst o = fst s /\ within (4 * delta) (snd o) (snd s)) out sym /\
    (forall s, In s sym -> rigid (fst s) /\ keeps_lattice (qmof D A) (fst s) /\ keeps_crystal (qmof D A) ideal (fst s) (snd s)) /\
    (forall R t, rigid R -> keeps_lattice (qmof D A) R -> keeps_crystal (qmof D A) ideal R t -> exists s, In s sym /\ same_motion (qmof D A) s (R, t)) /\
    (forall i j s s', nth_error sym i = Some s -> nth_error sym j = Some s' -> same_motion (qmof D A) s s' -> i = j).
Proof.
  intros eps D A m atoms latt ideal N delta c HD Hd Ht Hf [HN [C1 [Hcb [D0 [S1 S2]]]]] [Hne [Hfr Hdi]] Hat.
  pose proof (tolerable_box _ _ _ _ HD Ht) as Hb.
  destruct (choose_cells (qmof D A) N ideal HN Hfr) as [zs [HZ HZr]].
  destruct (space_group_ok eps D A atoms ideal latt N delta c HD Hd Hf HN C1 D0 S1 S2 Hcb Hne Hat Hfr Hdi zs HZ HZr) as [out [O1 O2]].
  exists out, (map (motion D A N) (keys eps D A N zs)). split; [exact O1|]. split; [exact O2|]. split; [|split].
  - intros s. exact (motions_sound eps D A atoms ideal latt N delta HD Hd Hf HN Hne Hat Hfr Hdi zs HZ HZr s).
  - intros R t. exact (motions_complete eps D A atoms ideal latt N delta HD Hd Hb Hf HN Hne Hat Hfr Hdi zs HZ HZr R t).
  - intros i j s s'. exact (motions_distinct eps D A atoms ideal latt N delta HD Hd HN Hne Hat Hfr Hdi zs HZ HZr i j s s').
Qed.

(** If the cell is primitive these are all the rigid motions that take the crystal to itself. *)
Theorem C65_primitive : forall eps D A m atoms lattcoords ideal N delta c,
  (0 < D)%Z -> mdet A <> 0%Z -> tolerable eps D A m -> fine eps A ->
  resolves (qmof D A) N eps delta c -> good_crystal (qmof D A) N ideal -> positions_near (qmof D A) lattcoords delta atoms ideal ->
  primitive (qmof D A) ideal ->
  exists out sym, SpaceModel.get_spaceGroup eps D A atoms lattcoords = Ok out /\
    Forall2 (fun o s => fst o = fst s /\ within (4 * delta) (snd o) (snd s)) out sym /\
    (forall s, In s sym -> rigid (fst s) /\ keeps_crystal (qmof D A) ideal (fst s) (snd s)) /\
    (forall R t, rigid R -> keeps_crystal (qmof D A) ideal R t -> exists s, In s sym /\ same_motion (qmof D A) s (R, t)) /\
    (forall i j s s', nth_error sym i = Some s -> nth_error sym j = Some s' -> same_motion (qmof D A) s s' -> i = j).
Proof.
  intros eps D A m atoms latt ideal N delta c HD Hd Ht Hf Hr Hg Hp Hprim.
  destruct (C65_space_group eps D A m atoms latt ideal N delta c HD Hd Ht Hf Hr Hg Hp) as [out [sym [H1 [H2 [H3 [H4 H5]]]]]].
  exists out, sym. split; auto. split; auto. split; [intros s Hs; destruct (H3 s Hs) as [X [_ Y]]; auto|]. split; auto.
  intros R t HR Hk. apply H4; auto. eapply primitive_keeps; eauto.
Qed.
(** Singular lattice vectors and an empty basis are errors. *)
Theorem C65_singular : forall eps D A atoms lattcoords, mdet A = 0%Z -> SpaceModel.get_spaceGroup eps D A atoms lattcoords = Err ValueError.
Proof. intros eps D A atoms l H. unfold SpaceModel.get_spaceGroup. rewrite H. reflexivity. Qed.
Theorem C65_empty : forall eps D A m lattcoords, (0 < D)%Z -> mdet A <> 0%Z -> tolerable eps D A m -> SpaceModel.get_spaceGroup eps D A [] lattcoords = Err IndexError.
Proof.
  intros eps D A m l HD Hd Ht. unfold SpaceModel.get_spaceGroup. rewrite (proj2 (Z.eqb_neq _ _) Hd). unfold get_transformations. cbn [map rmap rbind].
  destruct (C56_complete eps D A m HD Hd Ht) as [ops [E [_ H]]]. rewrite E. cbn [rbind].
  destruct (H (fun v => v)) as [R [HR _]]; [split; [reflexivity|split; auto]|]. destruct ops as [|R0 ops]; [destruct HR|]. reflexivity.
Qed.

(** The integer form of the function from which C48-C50 and C60 start (one type, reduced positions b/N) lists the same
    operations in the same order: it is this function, on positions near the fractions b/N of the lattice vectors. *)
Theorem C65_integer_form : forall eps D A m atoms lattcoords bas N delta c,
  (0 < D)%Z -> mdet A <> 0%Z -> tolerable eps D A m -> fine eps A ->
  resolves (qmof D A) N eps delta c -> bas <> [] -> NoDup bas -> (forall b, In b bas -> reduced (N, N, N)%Z b) ->
  let site b := let '(x, y, z) := b in combo (qmof D A) (inject_Z x / inject_Z N) (inject_Z y / inject_Z N) (inject_Z z / inject_Z N) in
  positions_near (qmof D A) lattcoords delta atoms (map (fun b => (1%Z, site b)) bas) ->
  exists out pg, SpaceModel.get_spaceGroup eps D A atoms lattcoords = Ok out /\ point_group eps D A = Ok pg /\
    Forall2 (fun o g => within (4 * delta) (snd o) (site (shift g)) /\
       exists R, fst o = qmof (mdet A) R /\ rot g = on_coordinates A R /\ cart g = mround R (mdet A)) out (LatGroupModel.get_spaceGroup pg N bas).
Proof.
  intros eps D A m atoms latt bas N delta c HD Hd Ht Hf [HN [C1 [Hcb [D0 [S1 S2]]]]] Hne Hnd Hr site Hat.
  assert (Hs : forall b, qeq (site b) (grid (qtrans (qmof D A)) N b)) by (intros [[x y] z]; apply combo_qmvec).
  set (ideal := map (fun b => (1%Z, site b)) bas) in *.
  assert (HZ : Forall2 (fun a b => fst a = fst b /\ exists k, qeq (snd a) (grid (qtrans (qmof D A)) N (vadd (snd b) (vscale N k)))) ideal (one_type bas)).
  { unfold ideal, one_type. clear - Hs. induction bas as [|b bas IH]; cbn [map]; constructor; auto. cbn [fst snd]. split; auto. exists (0, 0, 0)%Z. replace (vadd b (vscale N (0, 0, 0))%Z) with b; auto. clear. LatSites.vec_ring. }
  assert (HZr : forall t z, In (t, z) (one_type bas) -> reduced (N, N, N)%Z z) by (intros t z H; apply in_map_iff in H; destruct H as [b [E H]]; apply Hr; congruence).
  assert (Hfr : forall a, In a ideal -> fractional (qmof D A) N (snd a)).
  { intros a H. apply in_map_iff in H. destruct H as [[[x y] z] [<- _]]. exists x, y, z. apply qeq_refl. }
  assert (Hnd' : NoDup (map snd (one_type bas))) by (unfold one_type; rewrite map_map; cbn [snd]; rewrite map_id; auto).
  assert (Hdi : distinct_sites (qmof D A) ideal).
  { unfold distinct_sites, ideal. clear - Hs HN Hnd Hr Hd HD. induction Hnd as [|b bas Hb Hnd IH]; cbn [map]; constructor; [|apply IH; intros; apply Hr; right; auto].
    apply Forall_forall. intros a Ha [v [Hv E]]. apply in_map_iff in Ha. destruct Ha as [b' [<- Hb']]. cbn [snd] in E. apply Hb. apply (lattice_vec_iff (qmof D A) N v HN) in Hv. destruct Hv as [k Hv].
    assert (b = vadd b' (vscale N k)) as Eb.
    { apply (grid_inj (qmof D A) (qinv (qtrans (qmof D A))) N HN); [apply inv_c2l, qdet_qmof; auto; lia|]. eapply qeq_trans; [apply qeq_sym, Hs|]. eapply (qeq_trans _ (qadd (site b') v)); [exact E|].
      eapply qeq_trans; [apply qadd_morph; [apply Hs|exact Hv]|]. apply qeq_sym, grid_add; auto. }
    assert (b = b') as ->; auto. rewrite <- (LatMain.into_cell_id N b), <- (LatMain.into_cell_id N b') by (auto; apply Hr; cbn; auto). apply LatMain.into_cell_eq; eauto. }
  assert (Hne' : ideal <> []) by (unfold ideal; destruct bas; [congruence|discriminate]).
  destruct (space_group_ok eps D A atoms ideal latt N delta c HD Hd Hf HN C1 D0 S1 S2 Hcb Hne' Hat Hfr Hdi (one_type bas) HZ HZr) as [out [O1 O2]].
  exists out, (map (fun R => (on_coordinates A R, mround R (mdet A))) (ops eps D A)). split; auto. split; [apply PointGroupMain.point_group_list; auto|].
  rewrite (integer_spaceGroup N bas (ops eps D A) (on_coordinates A) (fun R => mround R (mdet A)) HN Hne Hr).
  set (f := fun k : mat * vec => {| rot := on_coordinates A (fst k); cart := mround (fst k) (mdet A); shift := snd k |}).
  assert (E : concat (map (fun R => map (fun i => {| rot := on_coordinates A R; cart := mround R (mdet A); shift := snd i |}) (iop N (one_type bas) (on_coordinates A R))) (ops eps D A)) = map f (keys eps D A N (one_type bas))).
  { unfold keys. rewrite concat_map, map_map. f_equal. apply map_ext. intros R. rewrite map_map. reflexivity. }
  rewrite E. clear E. revert O2. generalize (keys eps D A N (one_type bas)). clear - Hs. intros l. revert out. induction l as [|k l IH]; intros out HF; inversion HF as [|o ? out' ? [E W] HF']; subst; cbn [map]; constructor; auto.
  split; [|exists (fst k); auto]. eapply within_morph; [apply qeq_refl|apply qeq_sym, Hs|]. exact W.
Qed.
Lemma fcc_combo x y z : qeq (combo (qmof 2 (face_centred 1)) x y z) ((1 # 2) * (y + z), (1 # 2) * (x + z), (1 # 2) * (x + y)).
Proof. cbv [face_centred qmof qof combo qeq]. change (inject_Z 0 / inject_Z 2) with (0 # 2). change (inject_Z 1 / inject_Z 2) with (1 # 2). repeat split; field. Qed.
Example C65_integer_example : let L := qmof 2 (face_centred 1) in resolves L 4 (1 # 10000000000) 0 3 /\
  positions_near L true 0 [(1%Z, (0, 0, 0)); (1%Z, (1 # 4, 1 # 4, 1 # 4))]
    (map (fun b : vec => (1%Z, let '(x, y, z) := b in combo L (inject_Z x / inject_Z 4) (inject_Z y / inject_Z 4) (inject_Z z / inject_Z 4))) [(0, 0, 0)%Z; (1, 1, 1)%Z]).
Proof.
  cbn zeta. split.
  - split; [reflexivity|]. split; [discriminate|]. split; [|repeat split; try discriminate; reflexivity].
    intros e x y z H. apply (small_morph _ _ _ _ (Qeq_refl _) (fcc_combo x y z)) in H. cbn [small] in *. rewrite !abs_le in *. lra.
  - repeat constructor; cbn; discriminate.
Qed.

(** ** Zincblende, with positions given to thirteen digits *)
Definition zincblende : list (Z * pt) := [(0%Z, (0, 0, 0)); (1%Z, (1 # 4, 1 # 4, 1 # 4))].
Definition zincblende_given : list (Z * pt) := [(0%Z, (0, 0, 1 # 10000000000000)); (1%Z, (2500000000001 # 10000000000000, 1 # 4, 1 # 4))].
Lemma lattice_zero L : lattice_vec L (0, 0, 0).
Proof. exists 0%Z, 0%Z, 0%Z. destruct L as [[[[? ?] ?] [[? ?] ?]] [[? ?] ?]]. cbn [same combo]. change (inject_Z 0) with 0. repeat split; ring. Qed.
Lemma fcc_vec v : lattice_vec (qmof 2 (face_centred 1)) v <-> exists x y z : Z, qeq v ((1 # 2) * (inject_Z y + inject_Z z), (1 # 2) * (inject_Z x + inject_Z z), (1 # 2) * (inject_Z x + inject_Z y)).
Proof. split; intros [x [y [z H]]]; exists x, y, z; [exact (qeq_trans v (combo (qmof 2 (face_centred 1)) (inject_Z x) (inject_Z y) (inject_Z z)) _ H (fcc_combo _ _ _))|exact (qeq_trans v _ (combo (qmof 2 (face_centred 1)) (inject_Z x) (inject_Z y) (inject_Z z)) H (qeq_sym _ _ (fcc_combo _ _ _)))]. Qed.
Lemma zincblende_primitive : primitive (qmof 2 (face_centred 1)) zincblende.
Proof.
  intros t H. assert (O : occupied (qmof 2 (face_centred 1)) zincblende 0 (0, 0, 0)).
  { exists (0, 0, 0), (0, 0, 0). split; [left; auto|]. split; [apply lattice_zero|]. cbn [same plus]. repeat split; ring. }
  apply (proj1 (H 0%Z (0, 0, 0))) in O. destruct O as [p [v [Hp [[x [y [z Hv]]] Ht]]]]. destruct Hp as [E|[E|[]]]; [|discriminate]. assert (p = (0, 0, 0)) as -> by congruence.
  exists x, y, z. revert Hv Ht. generalize (combo (qmof 2 (face_centred 1)) (inject_Z x) (inject_Z y) (inject_Z z)). clear. intros w Hv Ht. destruct t as [[? ?] ?], v as [[? ?] ?], w as [[? ?] ?]. cbn [same plus] in *. lra.
Qed.
Example C65_example : let L := qmof 2 (face_centred 1) in
  mdet (face_centred 1) <> 0%Z /\ tolerable (1 # 10000000000) 2 (face_centred 1) 4 /\ fine (1 # 10000000000) (face_centred 1) /\
  resolves L 4 (1 # 10000000000) (1 # 10000000000000) 3 /\ good_crystal L 4 zincblende /\
  positions_near L false (1 # 10000000000000) zincblende_given zincblende /\ primitive L zincblende.
Proof.
  cbn zeta. split; [discriminate|]. split; [apply (proj1 C56_example); cbn; auto|]. split; [reflexivity|]. split; [|split; [|split; [|apply zincblende_primitive]]].
  - split; [reflexivity|]. split; [discriminate|]. split; [|repeat split; try discriminate; reflexivity].
    intros e x y z H. apply (small_morph _ _ _ _ (Qeq_refl _) (fcc_combo x y z)) in H. cbn [small] in *. rewrite !abs_le in *. lra.
  - split; [discriminate|]. split.
    + intros a [<-|[<-|[]]]; cbn [snd]; [exists 0%Z, 0%Z, 0%Z|exists 1%Z, 1%Z, 1%Z]; vm_compute; repeat split; reflexivity.
    + constructor; [|constructor; [constructor|constructor]]. constructor; [|constructor]. cbn [snd]. intros [v [Hv E]]. apply fcc_vec in Hv. destruct Hv as [x [y [z Hv]]]. destruct v as [[a b] c]. cbn [qeq same plus] in Hv, E.
      destruct Hv as [V1 [V2 V3]], E as [E1 [E2 E3]].
      assert (K : inject_Z (2 * (y + z)) == inject_Z (-1)) by (rewrite inject_Z_mult, inject_Z_plus; change (inject_Z 2) with 2; change (inject_Z (-1)) with (-1); lra).
      apply (proj1 (inject_Z_injective _ _)) in K. clear - K. lia.
  - repeat constructor; cbn; discriminate.
Qed.

(** ** A cell that is not primitive: the simple cubic lattice described with a doubled cell.  The rotations about the space
    diagonals take the crystal to itself and are missed. *)
Definition doubled : list (Z * pt) := [(0%Z, (0, 0, 0)); (0%Z, (0, 0, 1))].
Definition tall : mat := ((1, 0, 0), (0, 1, 0), (0, 0, 2))%Z.
Definition diagonal_turn : qmat := ((0, 1, 0), (0, 0, 1), (1, 0, 0)).
Lemma tall_combo x y z : qeq (combo (qmof 1 tall) x y z) (x, y, 2 * z).
Proof. cbv [tall qmof qof combo qeq]. change (inject_Z 0 / inject_Z 1) with 0. change (inject_Z 1 / inject_Z 1) with 1. change (inject_Z 2 / inject_Z 1) with 2. repeat split; field. Qed.
Lemma tall_vec v : lattice_vec (qmof 1 tall) v <-> exists x y z : Z, qeq v (inject_Z x, inject_Z y, 2 * inject_Z z).
Proof. split; intros [x [y [z H]]]; exists x, y, z; [exact (qeq_trans v (combo (qmof 1 tall) (inject_Z x) (inject_Z y) (inject_Z z)) _ H (tall_combo _ _ _))|exact (qeq_trans v _ (combo (qmof 1 tall) (inject_Z x) (inject_Z y) (inject_Z z)) H (qeq_sym _ _ (tall_combo _ _ _)))]. Qed.
Lemma doubled_occupied k x : occupied (qmof 1 tall) doubled k x <-> k = 0%Z /\ exists a b c : Z, same x (inject_Z a, inject_Z b, inject_Z c).
Proof.
  split.
  - intros [p [v [Hp [Hv Hx]]]]. apply tall_vec in Hv. destruct Hv as [a [b [c Hv]]]. destruct v as [[v1 v2] v3], x as [[x1 x2] x3]. cbn [qeq] in Hv. destruct Hv as [V1 [V2 V3]].
    destruct Hp as [E|[E|[]]]; (split; [congruence|]); [assert (p = (0, 0, 0)) as -> by congruence; exists a, b, (2 * c)%Z|assert (p = (0, 0, 1)) as -> by congruence; exists a, b, (2 * c + 1)%Z]; cbn [same plus] in *;
      rewrite ?inject_Z_plus, ?inject_Z_mult; change (inject_Z 2) with 2; change (inject_Z 1) with 1; lra.
  - intros [-> [a [b [c Hx]]]]. assert (exists h, (c = 2 * h \/ c = 2 * h + 1)%Z) as [h Hh] by (exists (c / 2)%Z; pose proof (Z.div_mod c 2); pose proof (Z.mod_pos_bound c 2); lia).
    exists (if (c mod 2 =? 0)%Z then (0, 0, 0) else (0, 0, 1)), (inject_Z a, inject_Z b, inject_Z (2 * h)). split; [destruct (c mod 2 =? 0)%Z; cbn; auto|]. split.
    + apply tall_vec. exists a, b, h. cbn [qeq]. rewrite inject_Z_mult. change (inject_Z 2) with 2. repeat split; lra.
    + destruct x as [[x1 x2] x3]. destruct Hh as [-> | ->].
      * replace ((2 * h) mod 2)%Z with 0%Z by (rewrite Z.mul_comm, Z.mod_mul; lia). cbn [Z.eqb same plus] in *. lra.
      * replace ((2 * h + 1) mod 2)%Z with 1%Z by (rewrite Z.add_comm, Z.mul_comm, Z.mod_add; reflexivity || lia). rewrite inject_Z_plus in Hx. change (inject_Z 1) with 1 in Hx. cbn [Z.eqb same plus] in *. lra.
Qed.
Theorem C65_nonprimitive_refuted : exists out, SpaceModel.get_spaceGroup (1 # 10000000000) 1 tall doubled false = Ok out /\
  rigid diagonal_turn /\ keeps_crystal (qmof 1 tall) doubled diagonal_turn (0, 0, 0) /\
  forall o, In o out -> ~ forall u, same (turn (fst o) u) (turn diagonal_turn u).
Proof.
  destruct (C65_space_group (1 # 10000000000) 1 tall 4 doubled false doubled 2 0 1) as [out [sym [H1 [H2 [H3 _]]]]].
  - reflexivity.
  - discriminate.
  - split; [intros i Hi; destruct i as [|[|[|i]]]; try lia; vm_compute; discriminate|split; [discriminate|reflexivity]].
  - reflexivity.
  - split; [reflexivity|]. split; [discriminate|]. split; [|repeat split; try discriminate; reflexivity].
    intros e x y z H. apply (small_morph _ _ _ _ (Qeq_refl _) (tall_combo x y z)) in H. cbn [small] in *. rewrite !abs_le in *. lra.
  - split; [discriminate|]. split.
    + intros a [<-|[<-|[]]]; cbn [snd]; [exists 0%Z, 0%Z, 0%Z|exists 0%Z, 0%Z, 1%Z]; vm_compute; repeat split; reflexivity.
    + constructor; [|constructor; [constructor|constructor]]. constructor; [|constructor]. cbn [snd]. intros [v [Hv E]]. apply tall_vec in Hv. destruct Hv as [x [y [z Hv]]]. destruct v as [[a b] c]. cbn [qeq same plus] in Hv, E.
      destruct Hv as [V1 [V2 V3]], E as [E1 [E2 E3]].
      assert (K : inject_Z (2 * z) == inject_Z (-1)) by (rewrite inject_Z_mult; change (inject_Z 2) with 2; change (inject_Z (-1)) with (-1); lra).
      apply (proj1 (inject_Z_injective _ _)) in K. clear - K. lia.
  - repeat constructor; cbn; discriminate.
  - exists out. split; auto. split; [intros [[x y] z]; cbn; ring|]. split.
    + intros k [[x y] z]. rewrite !doubled_occupied. split; intros [-> [a [b [c E]]]]; (split; [reflexivity|]); [exists b, c, a|exists c, a, b]; cbn [same turn diagonal_turn dotp plus] in *; lra.
    + intros o Ho E. destruct (LatTop.Forall2_in_l _ _ _ _ H2 Ho) as [s [Hs [Es _]]]. destruct (H3 s Hs) as [_ [K _]].
      assert (lattice_vec (qmof 1 tall) (1, 0, 0)) as V' by (exists 1%Z, 0%Z, 0%Z; vm_compute; repeat split; reflexivity).
      apply K in V'. rewrite <- Es in V'. specialize (E (1, 0, 0)). apply tall_vec in V'. destruct V' as [x [y [z V']]]. change (qeq (turn (fst o) (1, 0, 0)) (turn diagonal_turn (1, 0, 0))) in E. apply (qeq_trans _ _ _ (qeq_sym _ _ E)) in V'. cbn [turn dotp diagonal_turn qeq] in V'.
      destruct V' as [V1 [V2 V3]].
      assert (X : inject_Z (2 * z) == inject_Z 1) by (rewrite inject_Z_mult; change (inject_Z 2) with 2; change (inject_Z 1) with 1; lra).
      apply (proj1 (inject_Z_injective _ _)) in X. clear - X. lia.
Qed.
Print Assumptions C65_nonprimitive_refuted.
Print Assumptions C65_integer_form.
Print Assumptions C65_space_group.
Print Assumptions C65_primitive.
Print Assumptions C65_singular.
Print Assumptions C65_empty.
