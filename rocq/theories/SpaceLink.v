(** The integer form of [get_spaceGroup] used by LatGroupModel.v (atoms of one type) is what SpaceModel.v computes (C65). *)
From Coq Require Import QArith Qabs Lqa.
From Verif Require Import PyBase Mat3 CellModel CellProofs LatSpec LatGroupModel LatFacts LatSites LatMain LatTop ReduceSpec.
From Verif Require Import PointGroupModel PointGroupSpec PointGroupProofs PointGroupMain SpaceModel SpaceSpec SpaceProofs SpaceMain SpaceTop.
Local Open Scope Z_scope.

Definition one_type {X} (bas : list X) : list (Z * X) := map (fun b => (1, b)) bas.
Lemma existsb_map {X Y} (f : Y -> bool) (g : X -> Y) l : existsb f (map g l) = existsb (fun x => f (g x)) l.
Proof. induction l; cbn; congruence. Qed.
Lemma forallb_map {X Y} (f : Y -> bool) (g : X -> Y) l : forallb f (map g l) = forallb (fun x => f (g x)) l.
Proof. induction l; cbn; congruence. Qed.
Lemma existsb_ext_all {X} (f g : X -> bool) l : (forall x, f x = g x) -> existsb f l = existsb g l.
Proof. intros H. induction l; cbn; congruence. Qed.
Lemma forallb_ext_all {X} (f g : X -> bool) l : (forall x, f x = g x) -> forallb f l = forallb g l.
Proof. intros H. induction l; cbn; congruence. Qed.
Lemma iop_one N bas C : bas <> [] -> iop N (one_type bas) C = concat (map (iatom N (one_type bas) C (mvec C (nth 0 bas (0, 0, 0))) 1) (one_type bas)).
Proof. destruct bas; [congruence|reflexivity]. Qed.
Lemma integer_spaceGroup N bas (ops : list mat) (co ca : mat -> mat) : 0 < N -> bas <> [] -> (forall b, In b bas -> reduced (N, N, N) b) ->
  LatGroupModel.get_spaceGroup (map (fun R => (co R, ca R)) ops) N bas =
  concat (map (fun R => map (fun i => {| rot := co R; cart := ca R; shift := snd i |}) (iop N (one_type bas) (co R))) ops).
Proof.
  intros HN Hne Hr. unfold LatGroupModel.get_spaceGroup. rewrite (cell_bas N bas HN Hr). rewrite <- flat_map_concat_map. induction ops as [|R ops IH]; cbn [map flat_map]; auto. rewrite IH. f_equal. clear IH.
  rewrite (iop_one N bas (co R) Hne), concat_map, map_map, <- flat_map_concat_map. set (b0 := nth 0 bas (0, 0, 0)). clear Hr Hne.
  assert (K : forall l, flat_map (fun atom_j => if forallb (fun atom_k => existsb (vec_eqb (into_cell N (vadd (mvec (co R) atom_k) (into_cell N (vsub atom_j (mvec (co R) b0)))))) bas) bas
      then [{| rot := co R; cart := ca R; shift := into_cell N (vsub atom_j (mvec (co R) b0)) |}] else []) l =
    flat_map (fun x => map (fun i => {| rot := co R; cart := ca R; shift := snd i |}) (iatom N (one_type bas) (co R) (mvec (co R) b0) 1 x)) (one_type l)).
  { induction l as [|x l IH]; cbn [flat_map one_type map]; auto. fold (one_type l). rewrite <- IH. f_equal. unfold iatom. cbn [fst snd]. rewrite Z.eqb_refl. cbn [negb].
    assert (E : forallb (fun atom_k => existsb (vec_eqb (into_cell N (vadd (mvec (co R) atom_k) (into_cell N (vsub x (mvec (co R) b0)))))) bas) bas =
      forallb (imapped N (one_type bas) (co R) (into_cell N (vsub x (mvec (co R) b0)))) (one_type bas)).
    { unfold one_type at 2. rewrite forallb_map. apply forallb_ext_all. intros y. unfold imapped, one_type. rewrite existsb_map. apply existsb_ext_all. intros z. reflexivity. }
    rewrite E. destruct (forallb _ (one_type bas)); reflexivity. }
  apply K.
Qed.
