(** Property theorems C27-C30 (see /verif/properties.jsonl). *)
From Verif Require Import PyBase ListFacts DistModel DistSpec DistProofs DistSummary DistMain DistRandom.
Local Open Scope Z_scope.

Definition all_kinds : list (ftype * bool * bool) := [(FAll, true, true); (FShape, true, false); (FConc, false, true); (FSize, false, false)].

Lemma available_ext : forall h h' c c' count k, (forall s, h s = h' s) -> (forall s, c s = c' s) -> available h c count k = available h' c' count k.
Proof. intros h h' c c' count [[s [x|]] [y|]] Eh Ec; cbn [available]; rewrite ?Eh, ?Ec; auto. Qed.
Lemma kind_ext : forall sizes h h' c c' a b k, (forall s, h s = h' s) -> (forall s, c s = c' s) -> kind sizes h c a b k <-> kind sizes h' c' a b k.
Proof. intros sizes h h' c c' a b [[s x] y] Eh Ec. unfold kind. rewrite Eh, Ec. tauto. Qed.

(** ** C27: everything *)
(** The polya files hold [count s h c] structures for size s, shape h and concentration c.  Asking for all of them (or for
    at least as many as there are) requests, for every key of the distribution, exactly the number there are. *)
Theorem C27_everything : forall file sizes hnfs concs count ft shape conc wanted rnd,
  In (ft, shape, conc) all_kinds -> NoDup sizes ->
  (forall s, In s sizes -> file s = Some (polya_table (concs s) (hnfs s) (count s))) ->
  (forall s, In s sizes -> NoDup (concs s)) -> (forall s, In s sizes -> NoDup (hnfs s)) ->
  (forall s h c, In s sizes -> In h (hnfs s) -> In c (concs s) -> 0 <= count s h c) ->
  (forall n, wanted = Some n -> grand_total sizes hnfs concs count <= n) ->
  let result := distribute file sizes ft wanted NoFilter rnd in
  (forall k, kind sizes hnfs concs shape conc k -> requested key_eqb result k = available hnfs concs count k) /\
  (forall k v, In (k, v) result -> kind sizes hnfs concs shape conc k /\ v = available hnfs concs count k /\ 0 < v) /\
  NoDup (map fst result) /\ total snd result = grand_total sizes hnfs concs count.
Proof.
  intros file sizes hnfs concs count ft shape conc wanted rnd Hk Hsz Hf Hc Hh Hp Hw.
  assert (shape = by_shape ft /\ conc = by_conc ft) as [-> ->] by (destruct Hk as [E|[E|[E|[E|[]]]]]; inversion E; auto).
  assert (forall k, available (fun s => filter (keep_h NoFilter) (hnfs s)) (fun s => filter (keep_c NoFilter) (concs s)) count k = available hnfs concs count k) as Ea.
  { intros k. apply available_ext; intros s; try reflexivity; apply filter_true. }
  assert (forall k, kind sizes (fun s => filter (keep_h NoFilter) (hnfs s)) (fun s => filter (keep_c NoFilter) (concs s)) (by_shape ft) (by_conc ft) k <-> kind sizes hnfs concs (by_shape ft) (by_conc ft) k) as Ek.
  { intros k. apply kind_ext; intros s; try reflexivity; apply filter_true. }
  assert (total (fun s => available (fun s => filter (keep_h NoFilter) (hnfs s)) (fun s => filter (keep_c NoFilter) (concs s)) count (s, None, None)) sizes = grand_total sizes hnfs concs count) as Eg by (apply total_ext; intros; apply Ea).
  destruct (distribute_everything file sizes hnfs concs count NoFilter Hsz Hf Hc Hh Hp ft wanted rnd I) as [A1 [A2 [A3 A4]]]; [rewrite Eg; auto|].
  split; [|split; [|split]]; auto.
  - intros k Hkk. rewrite <- Ea. apply A1. apply Ek. auto.
  - intros k v Hin. destruct (A2 k v Hin) as [B1 [B2 B3]]. rewrite <- Ea. apply Ek in B1. auto.
  - rewrite A4. auto.
Qed.
(** Two shapes and two concentrations of size 2. *)
Definition two_shapes : list (list Z) := [[1; 0; 1; 0; 0; 2]; [1; 0; 1; 0; 1; 2]].
Definition small_file (count : list Z -> list Z -> Z) (s : Z) : option table := if s =? 2 then Some (polya_table [[1; 1]; [2; 0]] two_shapes count) else None.
Definition counts (h c : list Z) : Z := nth 4 h 0 * 4 + nth 0 c 0 * 2 + 1.
Example C27_example :
  distribute (small_file counts) [2] FAll None NoFilter (fun _ => false) =
    [((2, Some [1; 0; 1; 0; 0; 2], Some [1; 1]), 3); ((2, Some [1; 0; 1; 0; 0; 2], Some [2; 0]), 5); ((2, Some [1; 0; 1; 0; 1; 2], Some [1; 1]), 7); ((2, Some [1; 0; 1; 0; 1; 2], Some [2; 0]), 9)] /\
  distribute (small_file counts) [2] FConc None NoFilter (fun _ => false) = [((2, None, Some [1; 1]), 10); ((2, None, Some [2; 0]), 14)] /\
  NoDup [[1; 1]; [2; 0]] /\ NoDup two_shapes.
Proof. split; [reflexivity|]. split; [reflexivity|]. split; repeat constructor; cbn; intuition discriminate. Qed.

(** ** C30: filters *)
(** A filter on the shapes: the distribution of everything is that of the shapes kept, whichever the kind. *)
Theorem C30_shape_filter : forall file sizes hnfs concs count ft shape conc wanted rnd keep,
  In (ft, shape, conc) all_kinds -> NoDup sizes ->
  (forall s, In s sizes -> file s = Some (polya_table (concs s) (hnfs s) (count s))) ->
  (forall s, In s sizes -> NoDup (concs s)) -> (forall s, In s sizes -> NoDup (hnfs s)) ->
  (forall s h c, In s sizes -> In h (hnfs s) -> In c (concs s) -> 0 <= count s h c) ->
  let kept s := filter (fun h => existsb (zlist_eqb h) keep) (hnfs s) in
  (forall n, wanted = Some n -> grand_total sizes kept concs count <= n) ->
  let result := distribute file sizes ft wanted (ByShape keep) rnd in
  (forall k, kind sizes kept concs shape conc k -> requested key_eqb result k = available kept concs count k) /\
  (forall k v, In (k, v) result -> kind sizes kept concs shape conc k /\ v = available kept concs count k /\ 0 < v) /\
  NoDup (map fst result) /\ total snd result = grand_total sizes kept concs count.
Proof.
  intros file sizes hnfs concs count ft shape conc wanted rnd keep Hk Hsz Hf Hc Hh Hp kept Hw.
  assert (shape = by_shape ft /\ conc = by_conc ft) as [-> ->] by (destruct Hk as [E|[E|[E|[E|[]]]]]; inversion E; auto).
  assert (forall k, available (fun s => filter (keep_h (ByShape keep)) (hnfs s)) (fun s => filter (keep_c (ByShape keep)) (concs s)) count k = available kept concs count k) as Ea.
  { intros k. apply available_ext; intros s; try reflexivity; apply filter_true. }
  assert (forall k, kind sizes (fun s => filter (keep_h (ByShape keep)) (hnfs s)) (fun s => filter (keep_c (ByShape keep)) (concs s)) (by_shape ft) (by_conc ft) k <-> kind sizes kept concs (by_shape ft) (by_conc ft) k) as Ek.
  { intros k. apply kind_ext; intros s; try reflexivity; apply filter_true. }
  assert (total (fun s => available (fun s => filter (keep_h (ByShape keep)) (hnfs s)) (fun s => filter (keep_c (ByShape keep)) (concs s)) count (s, None, None)) sizes = grand_total sizes kept concs count) as Eg by (apply total_ext; intros; apply Ea).
  destruct (distribute_everything file sizes hnfs concs count (ByShape keep) Hsz Hf Hc Hh Hp ft wanted rnd) as [A1 [A2 [A3 A4]]]; [exact I|rewrite Eg; auto|].
  split; [|split; [|split]]; auto.
  - intros k Hkk. rewrite <- Ea. apply A1. apply Ek. auto.
  - intros k v Hin. destruct (A2 k v Hin) as [B1 [B2 B3]]. rewrite <- Ea. apply Ek in B1. auto.
  - rewrite A4. auto.
Qed.
(** A filter on the concentrations: the same, except for distributions over shapes. *)
Theorem C30_conc_filter_partial : forall file sizes hnfs concs count ft shape conc wanted rnd keep,
  In (ft, shape, conc) [(FAll, true, true); (FConc, false, true); (FSize, false, false)] -> NoDup sizes ->
  (forall s, In s sizes -> file s = Some (polya_table (concs s) (hnfs s) (count s))) ->
  (forall s, In s sizes -> NoDup (concs s)) -> (forall s, In s sizes -> NoDup (hnfs s)) ->
  (forall s h c, In s sizes -> In h (hnfs s) -> In c (concs s) -> 0 <= count s h c) ->
  let kept s := filter (fun c => existsb (zlist_eqb c) keep) (concs s) in
  (forall n, wanted = Some n -> grand_total sizes hnfs kept count <= n) ->
  let result := distribute file sizes ft wanted (ByConc keep) rnd in
  (forall k, kind sizes hnfs kept shape conc k -> requested key_eqb result k = available hnfs kept count k) /\
  (forall k v, In (k, v) result -> kind sizes hnfs kept shape conc k /\ v = available hnfs kept count k /\ 0 < v) /\
  NoDup (map fst result) /\ total snd result = grand_total sizes hnfs kept count.
Proof.
  intros file sizes hnfs concs count ft shape conc wanted rnd keep Hk Hsz Hf Hc Hh Hp kept Hw.
  assert (shape = by_shape ft /\ conc = by_conc ft /\ fair (ByConc keep) ft) as [-> [-> Hfair]] by (destruct Hk as [E|[E|[E|[]]]]; inversion E; cbn; auto).
  assert (forall k, available (fun s => filter (keep_h (ByConc keep)) (hnfs s)) (fun s => filter (keep_c (ByConc keep)) (concs s)) count k = available hnfs kept count k) as Ea.
  { intros k. apply available_ext; intros s; try reflexivity; apply filter_true. }
  assert (forall k, kind sizes (fun s => filter (keep_h (ByConc keep)) (hnfs s)) (fun s => filter (keep_c (ByConc keep)) (concs s)) (by_shape ft) (by_conc ft) k <-> kind sizes hnfs kept (by_shape ft) (by_conc ft) k) as Ek.
  { intros k. apply kind_ext; intros s; try reflexivity; apply filter_true. }
  assert (total (fun s => available (fun s => filter (keep_h (ByConc keep)) (hnfs s)) (fun s => filter (keep_c (ByConc keep)) (concs s)) count (s, None, None)) sizes = grand_total sizes hnfs kept count) as Eg by (apply total_ext; intros; apply Ea).
  destruct (distribute_everything file sizes hnfs concs count (ByConc keep) Hsz Hf Hc Hh Hp ft wanted rnd Hfair) as [A1 [A2 [A3 A4]]]; [rewrite Eg; auto|].
  split; [|split; [|split]]; auto.
  - intros k Hkk. rewrite <- Ea. apply A1. apply Ek. auto.
  - intros k v Hin. destruct (A2 k v Hin) as [B1 [B2 B3]]. rewrite <- Ea. apply Ek in B1. auto.
  - rewrite A4. auto.
Qed.
(** Over shapes the totals of the whole row are used: 10 structures of concentration 1:1 are there, the result asks for 8 of
    the first shape, of which there are 3. *)
Theorem C30_shapes_by_conc_refuted :
  d_gtotal (summary_one (ByConc [[1; 1]]) (polya_table [[1; 1]; [2; 0]] two_shapes counts)) = 10 /\
  distribute (small_file counts) [2] FShape None (ByConc [[1; 1]]) (fun _ => false) = [((2, Some [1; 0; 1; 0; 0; 2], None), 8); ((2, Some [1; 0; 1; 0; 1; 2], None), 16)] /\
  available (fun _ => two_shapes) (fun _ => [[1; 1]]) (fun _ => counts) (2, Some [1; 0; 1; 0; 0; 2], None) = 3.
Proof. split; [reflexivity|]. split; reflexivity. Qed.
(** A filter file with three species: only two of the numbers are read, so nothing is kept. *)
Theorem C30_ternary_refuted : forall count sizes rnd ft,
  let file s := if s =? 3 then Some (polya_table [[1; 1; 1]; [2; 1; 0]] two_shapes count) else None in
  sizes = [3] -> ft <> FShape -> distribute file sizes ft None (read_filter false [[3; 1; 1; 1]]) rnd = [].
Proof. intros count sizes rnd ft file -> Hft. destruct ft; try congruence; vm_compute; reflexivity. Qed.

(** The filter file: a line of a shape filter begins with the six entries of the HNF; a line of a concentration filter is
    the cell size and the two numbers of atoms.  What follows on the line is ignored. *)
Theorem C30_filter_file_partial : forall file sizes ft wanted rnd,
  (forall (shapes : list (Z * Z * Z * Z * Z * Z * list Z)),
     distribute file sizes ft wanted (read_filter true (map (fun '(a, b, c, d, e, f, rest) => a :: b :: c :: d :: e :: f :: rest) shapes)) rnd =
     distribute file sizes ft wanted (ByShape (map (fun '(a, b, c, d, e, f, rest) => [a; b; c; d; e; f]) shapes)) rnd) /\
  (forall (pairs : list (Z * Z * Z * list Z)),
     distribute file sizes ft wanted (read_filter false (map (fun '(n, a, b, rest) => n :: a :: b :: rest) pairs)) rnd =
     distribute file sizes ft wanted (ByConc (map (fun '(n, a, b, rest) => [a; b]) pairs)) rnd).
Proof.
  intros file sizes ft wanted rnd. split; intros l; unfold read_filter; rewrite map_map; do 2 f_equal; apply map_ext.
  - intros [[[[[[a b] c] d] e] f] r]. reflexivity.
  - intros [[[n a] b] r]. reflexivity.
Qed.
Example C30_filter_file_example :
  distribute (small_file counts) [2] FConc None (read_filter false [[2; 1; 1]]) (fun _ => false) = [((2, None, Some [1; 1]), 10)].
Proof. reflexivity. Qed.

(** ** C28, C29: n structures *)
(** For every stream of random numbers: no key twice, only existing kinds, at most four times as many of a kind as there
    are, and the total exceeds n by less than the largest kind. *)
Theorem C28_total_partial : forall file sizes hnfs concs count ft shape conc n m rnd,
  In (ft, shape, conc) all_kinds -> NoDup sizes ->
  (forall s, In s sizes -> file s = Some (polya_table (concs s) (hnfs s) (count s))) ->
  (forall s, In s sizes -> NoDup (concs s)) -> (forall s, In s sizes -> NoDup (hnfs s)) ->
  (forall s h c, In s sizes -> In h (hnfs s) -> In c (concs s) -> 0 <= count s h c) ->
  0 <= n < grand_total sizes hnfs concs count -> 1 <= m ->
  (forall k, kind sizes hnfs concs shape conc k -> available hnfs concs count k <= m) ->
  let result := distribute file sizes ft (Some n) NoFilter rnd in
  NoDup (map fst result) /\ (forall k v, In (k, v) result -> kind sizes hnfs concs shape conc k /\ 0 < v <= 4 * available hnfs concs count k) /\
  total snd result <= n + m - 1.
Proof.
  intros file sizes hnfs concs count ft shape conc n m rnd Hk Hsz Hf Hc Hh Hp Hn Hm Hav.
  assert (shape = by_shape ft /\ conc = by_conc ft) as [-> ->] by (destruct Hk as [E|[E|[E|[E|[]]]]]; inversion E; auto).
  assert (forall k, available (fun s => filter (keep_h NoFilter) (hnfs s)) (fun s => filter (keep_c NoFilter) (concs s)) count k = available hnfs concs count k) as Ea.
  { intros k. apply available_ext; intros s; try reflexivity; apply filter_true. }
  assert (forall k, kind sizes (fun s => filter (keep_h NoFilter) (hnfs s)) (fun s => filter (keep_c NoFilter) (concs s)) (by_shape ft) (by_conc ft) k <-> kind sizes hnfs concs (by_shape ft) (by_conc ft) k) as Ek.
  { intros k. apply kind_ext; intros s; try reflexivity; apply filter_true. }
  assert (grand_total sizes (fun s => filter (keep_h NoFilter) (hnfs s)) (fun s => filter (keep_c NoFilter) (concs s)) count = grand_total sizes hnfs concs count) as Eg by (apply total_ext; intros; apply Ea).
  destruct (random_bounds file sizes hnfs concs count NoFilter Hsz Hf Hc Hh Hp ft n m rnd I) as [A1 [A2 A3]]; [rewrite Eg; auto|auto|intros k Hkk; rewrite Ea; apply Hav, Ek; auto|].
  split; auto. split; auto. intros k v Hin. destruct (A2 k v Hin) as [B1 B2]. rewrite Ea in B2. apply Ek in B1. auto.
Qed.
(** If the weights are whole numbers the result is exactly proportional and totals n. *)
Theorem C28_proportional_partial : forall file sizes hnfs concs count ft shape conc n rnd,
  In (ft, shape, conc) all_kinds -> NoDup sizes ->
  (forall s, In s sizes -> file s = Some (polya_table (concs s) (hnfs s) (count s))) ->
  (forall s, In s sizes -> NoDup (concs s)) -> (forall s, In s sizes -> NoDup (hnfs s)) ->
  (forall s h c, In s sizes -> In h (hnfs s) -> In c (concs s) -> 0 <= count s h c) ->
  let g := grand_total sizes hnfs concs count in
  0 <= n < g -> (forall k, kind sizes hnfs concs shape conc k -> (g | available hnfs concs count k * n)) ->
  let result := distribute file sizes ft (Some n) NoFilter rnd in
  (forall k, kind sizes hnfs concs shape conc k -> g * requested key_eqb result k = available hnfs concs count k * n) /\
  (forall k v, In (k, v) result -> kind sizes hnfs concs shape conc k) /\ total snd result = n.
Proof.
  intros file sizes hnfs concs count ft shape conc n rnd Hk Hsz Hf Hc Hh Hp g Hn Hdiv.
  assert (shape = by_shape ft /\ conc = by_conc ft) as [-> ->] by (destruct Hk as [E|[E|[E|[E|[]]]]]; inversion E; auto).
  assert (forall k, available (fun s => filter (keep_h NoFilter) (hnfs s)) (fun s => filter (keep_c NoFilter) (concs s)) count k = available hnfs concs count k) as Ea.
  { intros k. apply available_ext; intros s; try reflexivity; apply filter_true. }
  assert (forall k, kind sizes (fun s => filter (keep_h NoFilter) (hnfs s)) (fun s => filter (keep_c NoFilter) (concs s)) (by_shape ft) (by_conc ft) k <-> kind sizes hnfs concs (by_shape ft) (by_conc ft) k) as Ek.
  { intros k. apply kind_ext; intros s; try reflexivity; apply filter_true. }
  assert (grand_total sizes (fun s => filter (keep_h NoFilter) (hnfs s)) (fun s => filter (keep_c NoFilter) (concs s)) count = g) as Eg by (apply total_ext; intros; apply Ea).
  destruct (random_exact file sizes hnfs concs count NoFilter Hsz Hf Hc Hh Hp ft n rnd I) as [A1 [A2 A3]]; [rewrite Eg; auto| |].
  { intros k Hkk. rewrite Ea, Eg. apply Z.mod_divide; [lia|]. apply Hdiv, Ek; auto. }
  split; [|split]; auto; [|intros k v Hin; apply Ek; eauto].
  intros k Hkk. rewrite A1 by (apply Ek; auto). rewrite Ea, Eg. symmetry. apply Z.div_exact; [lia|]. apply Z.mod_divide; [lia|auto].
Qed.
Definition five (h c : list Z) : Z := if zlist_eqb c [1; 1] then 5 else 0.
Example C28_example : (* the second count column is empty *)
  grand_total [2] (fun _ => two_shapes) (fun _ => [[1; 1]; [2; 0]]) (fun _ => five) = 10 /\
  distribute (small_file five) [2] FAll (Some 4) NoFilter (fun _ => true) =
    [((2, Some [1; 0; 1; 0; 0; 2], Some [1; 1]), 2); ((2, Some [1; 0; 1; 0; 1; 2], Some [1; 1]), 2)].
Proof. split; reflexivity. Qed.
(** Three of ten structures wanted: four, or two, are requested, depending on the random numbers. *)
Theorem C28_total_refuted :
  total snd (distribute (small_file five) [2] FAll (Some 3) NoFilter (fun _ => true)) = 4 /\
  total snd (distribute (small_file five) [2] FAll (Some 3) NoFilter (fun _ => false)) = 2.
Proof. split; vm_compute; reflexivity. Qed.
(** One structure of each of four kinds exists; three of one kind are requested. *)
Theorem C29_more_than_exist_refuted : let one (h c : list Z) := 1 in
  requested key_eqb (distribute (small_file one) [2] FAll (Some 3) NoFilter (fun i => (i mod 4 =? 0)%nat)) (2, Some [1; 0; 1; 0; 0; 2], Some [1; 1]) = 3.
Proof. vm_compute. reflexivity. Qed.

Print Assumptions C27_everything.
Print Assumptions C30_shape_filter.
Print Assumptions C30_conc_filter_partial.
Print Assumptions C30_shapes_by_conc_refuted.
Print Assumptions C30_ternary_refuted.
Print Assumptions C30_filter_file_partial.
Print Assumptions C28_total_partial.
Print Assumptions C28_proportional_partial.
Print Assumptions C28_total_refuted.
Print Assumptions C29_more_than_exist_refuted.
