(** Property theorems C39 and C45 (see /verif/properties.jsonl). *)
From Coq Require Import QArith Reals.
From Verif Require Import PyBase Mat3 HNFModel HNFProofs CellModel CellProofs ReduceModel ReduceSpec ReduceGauss ReduceC ReduceMink ReduceNorm.
Local Open Scope Z_scope.

(** ** C39: into the cell *)
(** [bring_into_cell] never takes its exit, moves the point by a vector of the lattice, and into the cell. *)
Theorem C39_bring_into_cell : forall vec cart_to_latt latt_to_cart eps,
  inverse_of latt_to_cart cart_to_latt -> inverse_of cart_to_latt latt_to_cart -> (0 <= eps <= 1)%Q ->
  exists r k, bring_into_cell vec cart_to_latt latt_to_cart eps = Ok r /\
    qeq r (qadd vec (qmvec latt_to_cart (ivec k))) /\
    all3 (fun x => (- eps <= x <= 1 - eps)%Q) (qmvec cart_to_latt r).
Proof. intros vec c2l l2c eps H1 H2 [H3 H4]. apply bring_into_cell_ok; auto. Qed.
Example C39_example : let l2c := ((1 # 2, 1 # 2, 0), (1 # 2, 0, 1 # 2), (0, 1 # 2, 1 # 2))%Q in let c2l := qinv l2c in
  inverse_of l2c c2l /\ inverse_of c2l l2c /\
  match bring_into_cell (3, -1 # 4, 7 # 4)%Q c2l l2c (1 # 10000) with Ok r => qeq r (0, 1 # 4, 1 # 4)%Q | Err _ => False end.
Proof.
  cbv zeta. split; [|split].
  - intros [[x y] z]. cbn. repeat split; field.
  - intros [[x y] z]. cbn. repeat split; field.
  - vm_compute. auto.
Qed.
(** [cartesian2direct] terminates for every tolerance and gives direct coordinates of the same point modulo the supercell. *)
Theorem C39_cartesian2direct : forall sLV aBas eps, ~ (qdet sLV == 0)%Q ->
  exists f0, forall fuel, (f0 <= fuel)%nat -> exists out, cartesian2direct fuel sLV aBas eps = Ok out /\
    Forall2 (fun p d => all3 (fun x => (- eps <= x)%Q /\ (x < 1 - eps)%Q) d /\ exists k, qeq (qvecm d sLV) (qadd p (qvecm (ivec k) sLV))) aBas out.
Proof. exact cartesian2direct_ok. Qed.
(** Positions that differ by a vector of the supercell get the same coordinates. *)
Theorem C39_direct_canonical : forall sLV eps p p' fuel d d' K, ~ (qdet sLV == 0)%Q ->
  qeq p' (qadd p (qvecm (ivec K) sLV)) ->
  cartesian2direct fuel sLV [p; p'] eps = Ok [d; d'] -> qeq d d'.
Proof.
  intros sLV eps p p' fuel d d' K Hd HK H.
  destruct (cartesian2direct_ok sLV [p; p'] eps Hd) as [f0 F0]. destruct (F0 (Nat.max f0 fuel) ltac:(lia)) as (out & H1 & H2).
  assert (MONO : forall f g v w, (f <= g)%nat -> direct_loop f eps v = Ok w -> direct_loop g eps v = Ok w).
  { induction f as [|f IH]; intros g v w Hg; destruct g; cbn [direct_loop]; destruct (not_direct eps v); auto; try discriminate; try lia. apply IH. lia. }
  unfold cartesian2direct in *. cbn [rmap] in *.
  destruct (direct_loop fuel eps (qvecm p (qinv sLV))) as [a|] eqn:A; [|discriminate].
  destruct (direct_loop fuel eps (qvecm p' (qinv sLV))) as [b|] eqn:B; [|discriminate]. cbn in H. injection H as -> ->.
  apply (MONO _ (Nat.max f0 fuel)) in A; [|lia]. apply (MONO _ (Nat.max f0 fuel)) in B; [|lia]. rewrite A, B in H1. cbn in H1. injection H1 as <-.
  inversion H2 as [|? ? ? ? [A1 [k A2]] H3]; subst. inversion H3 as [|? ? ? ? [B1 [k' B2]] _]; subst.
  eapply (direct_canonical sLV eps p p' d d'); eauto.
Qed.
Example C39_direct_example : let s := ((2, 0, 0), (1, 3, 0), (0, 1, 1))%Q in
  let p := (7 # 2, 1, -(5))%Q in let p' := (1 # 2, 5, -(4))%Q in
  ~ (qdet s == 0)%Q /\ qeq p' (qadd p (qvecm (ivec (-2, 1, 1)) s)) /\
  match cartesian2direct 20 s [p; p'] (1 # 1000) with
  | Ok [d; d'] => qeq d (3 # 4, 0, 0)%Q /\ qeq d' (3 # 4, 0, 0)%Q
  | _ => False end.
Proof. vm_compute. split; [discriminate|auto 7]. Qed.
(** The docstring's "all less than one" is false of a coordinate that is 1 - eps exactly: with [eps = 0] a point on the far face stays there
    ([>] in the loop's condition, [>=] in its body). *)
Theorem C39_docstring_refuted : exists vec m eps r, inverse_of m m /\ (0 <= eps <= 1)%Q /\ bring_into_cell vec m m eps = Ok r /\
  ~ all3 (fun x => (x < 1)%Q) (qmvec m r).
Proof.
  exists (1, 0, 0)%Q, ((1, 0, 0), (0, 1, 0), (0, 0, 1))%Q, 0%Q, (1, 0, 0)%Q. split; [|split; [|split]].
  - intros [[x y] z]. cbn. repeat split; ring.
  - split; discriminate.
  - vm_compute. reflexivity.
  - vm_compute. intros [H _]. discriminate.
Qed.

(** ** C45: reduction of the basis *)
(** The pair reduction keeps the lattice of the pair, whatever the tolerance. *)
Theorem C45_pair_lattice : forall e U V A B, gauss e U V = Ok (A, B) -> same_pair_lattice U V A B.
Proof. exact gauss_lattice. Qed.
(** With a tolerance that cannot confuse lengths: a shortest pair, no longer than the given one. *)
Theorem C45_pair_shortest : forall e m U V A B, small_tolerance e m -> len2 U <= m -> len2 V <= m -> gauss e U V = Ok (A, B) ->
  shortest_pair A B /\ len2 A <= len2 B /\ len2 A <= Z.min (len2 U) (len2 V) /\ len2 B <= Z.max (len2 U) (len2 V).
Proof.
  intros e m U V A B Hs HU HV H. destruct (gauss_reduced e m U V A B Hs HU HV H) as (R & H1 & H2). split; [apply reduced_shortest; auto|].
  split; [apply (red_order A B R)|]. auto.
Qed.
(** It returns if one of the vectors is shorter than 81 units. *)
Theorem C45_pair_returns_partial : forall e m U V, small_tolerance e m -> len2 U <= m -> len2 V <= m -> cross U V <> zero3 ->
  len2 U < 81 * 81 \/ len2 V < 81 * 81 -> exists A B, gauss e U V = Ok (A, B).
Proof.
  intros e m U V Hs HU HV HC HL. apply (gauss_returns e m); auto.
  - pose proof (nrm2_nonneg (cross U V)) as P. destruct (Z.eq_dec (nrm2 (cross U V)) 0) as [E|]; [|lia]. exfalso. apply HC.
    destruct (cross U V) as [[x y] z]. unfold nrm2 in E. cbn in E. assert (x = 0 /\ y = 0 /\ z = 0) as (-> & -> & ->) by nia. reflexivity.
  - change (3 ^ 8) with (81 * 81). unfold nrm2, len2 in *. lia.
Qed.
Example C45_pair_example : small_tolerance (1 # 1000) 10000 /\ gauss (1 # 1000) (1, 7, 5) (3, 18, 14) = Ok ((1, -2, 2), (0, -3, -1)) /\
  len2 (1, 7, 5) <= 10000 /\ len2 (3, 18, 14) <= 10000 /\ cross (1, 7, 5) (3, 18, 14) <> zero3.
Proof. split; [split; [split; [discriminate|reflexivity]|reflexivity]|]. split; [vm_compute; reflexivity|]. split; [discriminate|]. split; [discriminate|discriminate]. Qed.
(** The third vector: the same lattice, and for a shortest pair the shortest representative; its internal check never fails. *)
Theorem C45_third_vector : forall eps D m A0 B0 C, (0 <= eps)%Q -> (4 * eps <= 1)%Q -> small_tolerance (eps * inject_Z D) m ->
  len2 A0 <= m -> len2 B0 <= m -> mdet (A0, B0, C) <> 0 ->
  match gauss (eps * inject_Z D) A0 B0 with
  | Ok (A, B) => exists C', reduce_C eps D A0 B0 C = Ok (A, B, C') /\ same_row_lattice (A0, B0, C) (A, B, C') /\
                   forall x y, len2 C' <= len2 (comb3 (A, B, C) x y 1)
  | Err err => reduce_C eps D A0 B0 C = Err err
  end.
Proof.
  intros eps D m A0 B0 C E0 E4 Hs HA HB Hd. assert (E1 : (eps < 1)%Q) by Lqa.lra.
  pose proof (reduce_C_returns eps D A0 B0 C E0 E1 Hd) as R. destruct (gauss (eps * inject_Z D) A0 B0) as [[A B]|x] eqn:G; auto.
  destruct R as (i & j & R1 & R2 & R3). exists (vsub C (comb2 A B i j)). split; auto. split; auto. intros x y.
  destruct (gauss_reduced _ m A0 B0 A B Hs HA HB G) as (GR & _). specialize (R3 E4 GR (- x) (- y)).
  replace (comb3 (A, B, C) x y 1) with (vsub C (comb2 A B (- x) (- y))) by (clear; vec_eq). exact R3.
Qed.
(** The whole reduction keeps the lattice and makes the basis right-handed. *)
Theorem C45_basis_lattice : forall eps D IN OUT, (0 <= eps < 1)%Q -> 0 < D -> minkowski_reduce eps D IN = Ok OUT ->
  same_row_lattice IN OUT /\ 0 < mdet OUT.
Proof. intros eps D IN OUT [E0 E1]. apply minkowski_lattice; auto. Qed.
(** For makeStr: the columns are a basis of the supercell of the HNF. *)
Theorem C45_supercell : forall eps D H OUT, (0 <= eps < 1)%Q -> 0 < D -> minkowski_reduce eps D (transpose H) = Ok OUT ->
  same_lattice H (transpose OUT).
Proof.
  intros eps D H OUT E HD R. apply C45_basis_lattice in R as [R _]; auto. apply row_lattice_columns in R.
  replace (transpose (transpose H)) with H in R by (clear; mat_ring). exact R.
Qed.
(** With a tolerance that cannot confuse lengths what is returned is Minkowski-reduced, up to the exchange of the last two vectors. *)
Theorem C45_basis_reduced : forall eps D m IN OUT, (0 <= eps)%Q -> (4 * eps <= 1)%Q -> 0 < D -> small_tolerance (eps * inject_Z D) m ->
  (forall i, len2 (mrow IN i) <= m) -> minkowski_reduce eps D IN = Ok OUT -> exists M, same_rows M OUT /\ minkowski_reduced M.
Proof.
  intros eps D m IN OUT E0 E4 HD Hs Hf. apply (minkowski_is_reduced eps D m); auto. unfold fits, nrm2. unfold len2 in Hf. auto.
Qed.
(** Failures: dependent vectors, or one of the two caps of ten passes. *)
Theorem C45_errors : forall eps D IN x, (0 <= eps < 1)%Q -> 0 < D -> minkowski_reduce eps D IN = Err x ->
  (x = ValueError /\ (inject_Z (Z.abs (mdet IN)) <= eps * inject_Z (D * D * D))%Q) \/ x = SystemExit.
Proof. intros eps D IN x [E0 E1]. apply minkowski_errors; auto. Qed.
Theorem C45_conditions_partial : forall eps D m IN M, (0 <= eps)%Q -> (4 * eps <= 1)%Q -> small_tolerance (eps * inject_Z D) m ->
  mdet IN <> 0 -> (forall i, len2 (mrow IN i) <= m) -> mink_loop 10 eps D IN = Ok M ->
  len2 (mrow M 1) <= len2 (mrow M 2) -> conditions (eps * inject_Z D) M = true.
Proof.
  intros eps D m IN M E0 E4 Hs Hd Hf H HL.
  assert (HF : fits m IN) by (unfold fits, nrm2; unfold len2 in Hf; auto).
  pose proof (mink_loop_fits eps D m E0 E4 Hs 10 IN M Hd HF H) as (F0 & F1 & F2).
  destruct (mink_loop_conditions eps D m E0 E4 Hs 9 IN M Hd HF H) as [C|C]; [|unfold nrm2, len2 in *; lia].
  apply (conditions_iff _ m); auto.
Qed.
Example C45_example : let IN := ((1, 3, 5), (0, 4, 2), (0, 0, 7)) in
  small_tolerance ((1 # 1000) * inject_Z 1) 100 /\ (forall i, len2 (mrow IN i) <= 100) /\ mdet IN <> 0 /\
  minkowski_reduce (1 # 1000) 1 IN = Ok ((-2, 2, 1), (1, -1, 3), (2, 2, 1)).
Proof.
  cbv zeta. split; [split; [split; [discriminate|reflexivity]|reflexivity]|]. split; [intros [|[|i]]; discriminate|].
  split; [discriminate|vm_compute; reflexivity].
Qed.
(** Ten passes are not always enough: a basis of integers for which the program exits. *)
Theorem C45_returns_refuted : exists IN, mdet IN = 93222358 /\ minkowski_reduce (1 # 1000) 1 IN = Err SystemExit.
Proof. exists ((1, 38613965, 0), (0, 93222358, 0), (0, 0, 1)). split; vm_compute; reflexivity. Qed.
(** The comparisons of the model are those of Euclidean norms. *)
Theorem C45_norm_comparison : forall u v e, (0 <= e)%Q ->
  norm_ge (len2 u) (len2 v) e = true <-> (sqrt (IZR (len2 u)) >= sqrt (IZR (len2 v)) - Q2R e)%R.
Proof. intros u v e He. apply norm_ge_sqrt; auto; apply nrm2_nonneg. Qed.

Print Assumptions C39_bring_into_cell.
Print Assumptions C39_cartesian2direct.
Print Assumptions C39_direct_canonical.
Print Assumptions C39_docstring_refuted.
Print Assumptions C45_pair_lattice.
Print Assumptions C45_pair_shortest.
Print Assumptions C45_pair_returns_partial.
Print Assumptions C45_third_vector.
Print Assumptions C45_basis_lattice.
Print Assumptions C45_supercell.
Print Assumptions C45_basis_reduced.
Print Assumptions C45_errors.
Print Assumptions C45_conditions_partial.
Print Assumptions C45_returns_refuted.
Print Assumptions C45_norm_comparison.
