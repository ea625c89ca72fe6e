(** Property theorems C20, C21 (see /verif/properties.jsonl). *)
From Verif Require Import PyBase Spec ListFacts ConcsModel ConcsProofs.
Local Open Scope Z_scope.

(** ** C20 *)
Theorem C20_all_concentrations : forall (fuel : nat) (size nB : Z) (nspecies : nat) (cs : list conc),
  exists L, get_concs_for_size fuel size nspecies false nB cs = Ok L /\ NoDup L /\
    forall w, In w L <-> length w = nspecies /\ (forall a, In a w -> 0 <= a) /\ sum_Z w = size * nB.
Proof.
  intros fuel size nB k cs. exists (concs_unrestricted size nB k).
  split; [reflexivity|]. split; [apply NoDup_unrestricted|]. apply in_unrestricted.
Qed.
Example C20_example : get_concs_for_size 0 1 3 false 2 [] =
  Ok [[0; 0; 2]; [0; 1; 1]; [0; 2; 0]; [1; 0; 1]; [1; 1; 0]; [2; 0; 0]].
Proof. reflexivity. Qed.

(** ** C21 *)
(** Everything listed honours the requested ranges, for any denominators, and is listed once. *)
Theorem C21_listed_in_range : forall (size nB : Z) (nspecies : nat) (cs : list conc),
  cs <> [] -> 0 < size * nB -> Forall (fun c => 0 < c_den c) cs ->
  exists L, NoDup L /\
    (forall a, In a L -> sum_Z a = size * nB /\ Forall2 (fraction_within (size * nB)) cs a) /\
  exists fuel0, forall fuel, (fuel0 <= fuel)%nat -> get_concs_for_size fuel size nspecies true nB cs = Ok L.
Proof.
  intros size nB k cs Hne Hn Hd. destruct cs as [|c0 cs']; [tauto|].
  exists (restricted_list size nB (c0 :: cs') c0). split; [apply restricted_NoDup|]. split.
  - intros a. apply (restricted_sound size nB _ c0).
  - apply (restricted_run size nB (c0 :: cs') c0 cs'); auto.
Qed.
(** With a common denominator the list is also complete.  Missing: the same for different denominators,
    which is false ([C21_denominators_refuted]). *)
Theorem C21_common_denominator_partial : forall (size nB D : Z) (nspecies : nat) (cs : list conc),
  cs <> [] -> 0 < size * nB -> 0 < D -> Forall (fun c => c_den c = D) cs ->
  exists L, NoDup L /\
    (forall a, In a L <-> sum_Z a = size * nB /\ Forall2 (fraction_within (size * nB)) cs a) /\
  exists fuel0, forall fuel, (fuel0 <= fuel)%nat -> get_concs_for_size fuel size nspecies true nB cs = Ok L.
Proof.
  intros size nB D k cs Hne Hn HD Hc. destruct cs as [|c0 cs']; [tauto|].
  assert (Forall (fun c => 0 < c_den c) (c0 :: cs')) as Hd.
  { eapply Forall_impl; [|exact Hc]. cbn. intros; lia. }
  assert (c_den c0 = D) as E by (inversion Hc; auto).
  exists (restricted_list size nB (c0 :: cs') c0). split; [apply restricted_NoDup|]. split.
  - intros a. split.
    + apply (restricted_sound size nB _ c0).
    + intros [H1 H2]. apply (restricted_complete size nB (c0 :: cs') c0 cs'); auto. rewrite E; auto.
  - apply (restricted_run size nB (c0 :: cs') c0 cs'); auto.
Qed.
(** Species 1 anywhere between 0/4 and 4/4, species 2 at exactly 1/2, four atoms: two atoms of each
    qualify, but nothing is listed. *)
Theorem C21_denominators_refuted : exists size nB cs a,
  cs <> [] /\ 0 < size * nB /\ Forall (fun c => 0 < c_den c) cs /\
  sum_Z a = size * nB /\ Forall2 (fraction_within (size * nB)) cs a /\
  exists L, get_concs_for_size 100 size 2 true nB cs = Ok L /\ ~ In a L.
Proof.
  exists 4, 1, [(0, 4, 4); (1, 1, 2)], [2; 2]. split; [discriminate|]. split; [lia|].
  split; [repeat constructor|]. split; [reflexivity|]. split; [repeat constructor; cbn; lia|].
  exists []. split; [vm_compute; reflexivity|]. auto.
Qed.
(** test_symmetry.py test_2 *)
Example C21_example : get_concs_for_size 5000 15 3 true 2 [(2, 8, 15); (5, 5, 15); (4, 8, 15)] =
  Ok [[4; 10; 16]; [5; 10; 15]; [6; 10; 14]; [7; 10; 13]; [8; 10; 12]; [9; 10; 11]; [10; 10; 10]; [11; 10; 9]; [12; 10; 8]].
Proof. vm_compute. reflexivity. Qed.
(** test_symmetry.py test_1, test_3, test_6, test_10 *)
Example C21_example_1 : get_concs_for_size 5000 4 2 true 3 [(1, 1, 4); (1, 1, 4)] = Ok [].
Proof. vm_compute. reflexivity. Qed.
Example C21_example_10 : get_concs_for_size 5000 14 2 true 4 [(3, 3, 14); (2, 13, 14)] = Ok [[12; 44]].
Proof. vm_compute. reflexivity. Qed.

Print Assumptions C20_all_concentrations.
Print Assumptions C21_listed_in_range.
Print Assumptions C21_common_denominator_partial.
Print Assumptions C21_denominators_refuted.
