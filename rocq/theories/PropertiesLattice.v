(** Property theorems C16, C17, C18, C46 (see /verif/properties.jsonl). *)
From Coq Require Import Permutation.
From Verif Require Import PyBase Spec ListFacts TransFacts Mat3 HNFModel HNFProofs.
Local Open Scope Z_scope.

(** ** C16 *)
Theorem C16_all_HNFs : forall (n : Z) (H : mat),
  In H (find_all_HNFs n) <->
  exists a b c d e f, H = ((a, 0, 0), (b, c, 0), (d, e, f)) /\
    0 < a /\ 0 <= b < c /\ 0 <= d < f /\ 0 <= e < f /\ a * c * f = n.
Proof. exact in_find_all. Qed.
Theorem C16_no_repetition : forall n : Z, NoDup (find_all_HNFs n).
Proof. exact NoDup_find_all. Qed.
Example C16_example : length (find_all_HNFs 12) = 455%nat /\
  In ((1, 0, 0), (2, 3, 0), (3, 1, 4)) (find_all_HNFs 12).
Proof. split; [reflexivity|]. apply in_find_all. exists 1, 2, 3, 3, 1, 4. repeat split; lia. Qed.

(** ** C17 *)
Theorem C17_superlattices : forall (n : Z) (M : mat), 0 < n -> mdet M = n \/ mdet M = - n ->
  exists! H, In H (find_all_HNFs n) /\ same_lattice H M.
Proof.
  intros n M Hn Hd. destruct (HNF_exists n M Hn) as [H [HH HS]]; [lia|].
  exists H. split; [split; [apply in_find_all|]; auto|]. intros H' [HH' HS'].
  apply in_find_all in HH'. apply (HNF_unique n H H'); auto.
  eapply same_lattice_trans; [exact HS|apply same_lattice_sym; auto].
Qed.
Example C17_example : mdet ((1, 2, 4), (3, 3, 4), (3, 4, 2)) = 14 /\
  same_lattice ((1, 0, 0), (0, 1, 0), (1, 10, 14)) ((1, 2, 4), (3, 3, 4), (3, 4, 2)).
Proof. split; [reflexivity|]. apply is_equiv_lattice_spec; [discriminate|]. vm_compute. auto. Qed.

(** ** C18 *)
Theorem C18_one_lattice_per_class : forall (rots : list mat) (hnfs : list mat),
  mat_group rots -> (forall h, In h hnfs -> mdet h <> 0) ->
  let uhnfs := fst (fst (remove_duplicate_lattices rots hnfs)) in
  subseq uhnfs hnfs /\
  (forall h, In h hnfs -> exists u, In u uhnfs /\ image_of rots u h) /\
  ForallOrdPairs (fun u v => ~ image_of rots v u /\ ~ image_of rots u v) uhnfs.
Proof.
  intros rots hnfs HG Hd. destruct (unique_HNFs_transversal rots hnfs HG Hd) as [H1 [_ [H2 H3]]].
  split; auto. split; auto. eapply FOP_impl; [|exact H3]. cbv beta. intros a b _ _ Hne.
  split; auto. intros K. apply Hne. apply image_of_sym; auto.
Qed.
(** Which rotations fix each kept lattice. *)
Theorem C18_fixing_operations : forall (rots : list mat) (H : mat),
  (forall r, In r rots -> unimodular r) -> mdet H <> 0 ->
  subseq (fst (get_sLV_fixing_operations H rots)) (seq 0 (length rots)) /\
  forall i, In i (fst (get_sLV_fixing_operations H rots)) <->
            (i < length rots)%nat /\ same_lattice (mmul (nth i rots mid) H) H.
Proof. intros rots H Hu Hd. split; [apply fixing_subseq; auto|intros; apply fixing_indices; auto]. Qed.

(** The 48 signed permutation matrices: the point group of the simple cubic lattice. *)
Definition unit_vectors : list vec := [(1, 0, 0); (-1, 0, 0); (0, 1, 0); (0, -1, 0); (0, 0, 1); (0, 0, -1)].
Definition cubic : list mat :=
  filter (fun M => negb (mdet M =? 0))
         (flat_map (fun u => flat_map (fun v => map (fun w => (u, v, w)) unit_vectors) unit_vectors) unit_vectors).
Definition vec_eqb (u v : vec) : bool :=
  let '(a, b, c) := u in let '(x, y, z) := v in (a =? x) && (b =? y) && (c =? z).
Definition mat_eqb (M N : mat) : bool :=
  let '(r, s, t) := M in let '(x, y, z) := N in vec_eqb r x && vec_eqb s y && vec_eqb t z.
Lemma mat_eqb_eq M N : mat_eqb M N = true -> M = N.
Proof.
  assert (forall u v, vec_eqb u v = true -> u = v) as Hv.
  { intros [[a b] c] [[x y] z]. cbn. rewrite !andb_true_iff, !Z.eqb_eq. intros [[-> ->] ->]. auto. }
  destruct M as [[r s] t], N as [[x y] z]. unfold mat_eqb. rewrite !andb_true_iff. intros [[H1 H2] H3].
  apply Hv in H1, H2, H3. congruence.
Qed.
Definition mat_groupb (R : list mat) : bool :=
  existsb (mat_eqb mid) R &&
  forallb (fun r => forallb (fun s => existsb (mat_eqb (mmul r s)) R) R) R &&
  forallb (fun r => (Z.abs (mdet r) =? 1) && existsb (fun s => mat_eqb (mmul r s) mid && mat_eqb (mmul s r) mid) R) R.
Lemma mat_groupb_spec R : mat_groupb R = true -> mat_group R.
Proof.
  unfold mat_groupb. rewrite !andb_true_iff, !forallb_forall, existsb_exists.
  intros [[[m [Hm E]] Hc] Hi]. apply mat_eqb_eq in E. subst m. split; [auto|]. split; [|split].
  - intros r s Hr Hs. specialize (Hc r Hr). rewrite forallb_forall in Hc. specialize (Hc s Hs).
    apply existsb_exists in Hc. destruct Hc as [t [Ht E]]. apply mat_eqb_eq in E. congruence.
  - intros r Hr. specialize (Hi r Hr). apply andb_prop in Hi. unfold unimodular. lia.
  - intros r Hr. specialize (Hi r Hr). apply andb_prop in Hi. destruct Hi as [_ Hi].
    apply existsb_exists in Hi. destruct Hi as [s [Hs E]]. apply andb_prop in E. destruct E as [E1 E2].
    apply mat_eqb_eq in E1, E2. eauto.
Qed.
Example C18_example : length cubic = 48%nat /\ mat_group cubic /\
  remove_duplicate_lattices cubic (find_all_HNFs 2) =
  ([((1, 0, 0), (0, 1, 0), (0, 0, 2)); ((1, 0, 0), (0, 1, 0), (0, 1, 2)); ((1, 0, 0), (0, 1, 0), (1, 1, 2))],
   map (fun H => fst (get_sLV_fixing_operations H cubic))
       [((1, 0, 0), (0, 1, 0), (0, 0, 2)); ((1, 0, 0), (0, 1, 0), (0, 1, 2)); ((1, 0, 0), (0, 1, 0), (1, 1, 2))],
   [3; 3; 1]%nat).
Proof.
  split; [vm_compute; reflexivity|]. split; [apply mat_groupb_spec; vm_compute; reflexivity|].
  vm_compute. reflexivity.
Qed.

(** ** C46 *)
(** The degeneracy reported for a lattice is the number of different lattices among its images. *)
Theorem C46_degeneracy_counts_images : forall (rots : list mat) (H : mat),
  (forall r, In r rots -> unimodular r) -> In mid rots -> mdet H <> 0 ->
  exists images, transversal (fun N => exists r, In r rots /\ N = mmul r H) same_lattice images /\
    length images = (snd (get_sLV_fixing_operations H rots) + 1)%nat.
Proof.
  intros rots H Hu Hid Hd. exists (H :: degen_lattices rots H). split; [apply degen_transversal; auto|].
  rewrite degen_length. cbn. lia.
Qed.
(** The degeneracies of the kept lattices add up to the number of all superlattices of that index. *)
Theorem C46_class_equation : forall (n : Z) (rots : list mat), 0 < n -> mat_group rots ->
  fold_right Nat.add 0%nat (snd (remove_duplicate_lattices rots (find_all_HNFs n))) =
  length (find_all_HNFs n).
Proof. exact class_equation. Qed.
Example C46_example : snd (remove_duplicate_lattices cubic (find_all_HNFs 4)) = [3; 6; 6; 4; 6; 3; 3; 3; 1]%nat /\
  length (find_all_HNFs 4) = 35%nat.
Proof. vm_compute. auto. Qed.

Print Assumptions C16_all_HNFs.
Print Assumptions C16_no_repetition.
Print Assumptions C17_superlattices.
Print Assumptions C18_one_lattice_per_class.
Print Assumptions C18_fixing_operations.
Print Assumptions C46_degeneracy_counts_images.
Print Assumptions C46_class_equation.
