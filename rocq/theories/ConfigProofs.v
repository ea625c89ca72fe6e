(** The MTP configuration file (C55). *)
From Coq Require Import Permutation Sorted QArith.
From Verif Require Import TextModel TextProofs PyBase Spec ListFacts TreeSearch Mat3 HNFModel SNFModel SuperModel LatSpec StructSpec EnumOutModel.
From Verif Require Import MapModel MapSpec MapProofs MapSites PoscarModel PoscarSpec PoscarProofs ElementProofs PoscarMain MakeStrModel MakeStrSpec MakeStrProofs.
Local Open Scope Z_scope.

(** A loop over 0 ... k-1 with one hit. *)
Lemma one_hit {A} (k l : Z) (f : list A -> res (list A)) : 0 <= l < k -> forall out,
  rfold (fun out ilab => if ilab =? l then f out else Ok out) (range_up 0 k) out = f out.
Proof.
  intros Hl out.
  assert (forall m lo, Z.to_nat (k - lo) = m -> lo <= l -> forall out, rfold (fun out ilab => if ilab =? l then f out else Ok out) (range_up lo k) out = f out) as Hg; [|eapply Hg; eauto; lia].
  assert (forall m lo, Z.to_nat (k - lo) = m -> l < lo -> forall out, rfold (fun out ilab => if ilab =? l then f out else Ok out) (range_up lo k) out = Ok out) as Hafter.
  { induction m as [|m IH]; intros lo Hm Hlo o; [rewrite range_up_empty by lia; auto|]. rewrite range_up_cons by lia. cbn [rfold]. destruct (Z.eqb_spec lo l); [lia|]. cbn [rbind]. apply IH; lia. }
  induction m as [|m IH]; intros lo Hm Hlo o; [lia|]. rewrite range_up_cons by lia. cbn [rfold]. destruct (Z.eqb_spec lo l) as [->|].
  - destruct (f o) as [o'|] eqn:Ef; cbn [rbind]; auto. apply (Hafter m); lia.
  - cbn [rbind]. apply IH; lia.
Qed.
Lemma rfold_ext {A S} (f g : S -> A -> res S) l : (forall s x, In x l -> f s x = g s x) -> forall s, rfold f l s = rfold g l s.
Proof. induction l as [|a l IH]; intros H s; [auto|]. cbn [rfold]. rewrite H by (left; auto). destruct (g s a); cbn [rbind]; auto. apply IH. intros; apply H; right; auto. Qed.

Lemma flat_map_concat_map_single {A B} (f : A -> B) l : map f l = flat_map (fun x => [f x]) l.
Proof. induction l as [|a l IH]; [auto|]. cbn. rewrite IH. auto. Qed.
Definition type_of (mapping : option (list Z)) (l : Z) : Z := match mapping with None => l | Some m => nth (Z.to_nat l) m 0 end.
Section Config.
Variables (P : Type) (k : Z) (N : nat) (lab : string) (gs labels : list Z) (bas : list P) (x0 : P).
Hypothesis Hk : 0 <= k <= 10.
Hypothesis Hgs : length gs = N.
Hypothesis Hlb : length labels = N.
Hypothesis Hrange : forall l, In l labels -> 0 <= l < k.
Hypothesis Hread : forall i, (i < N)%nat -> char_at lab (nth i gs 0) = Ok (digit_char (nth i labels 0)).
Hypothesis Hbas : length bas = N.
Variable dirs : list vec.
Hypothesis Hdirs : length dirs = N.
Variable mapping : option (list Z).
Hypothesis Hmap : forall m, mapping = Some m -> length m = Z.to_nat k.

Lemma config_atoms_ok : config_atoms k lab gs bas dirs mapping N =
  Ok (map (fun i => (Z.of_nat i + 1, type_of mapping (nth i labels 0), nth i bas x0, nth i dirs (0, 0, 0))) (seq 0 N)).
Proof.
  unfold config_atoms.
  rewrite (rfold_ok _ (fun out i => out ++ [(Z.of_nat i + 1, type_of mapping (nth i labels 0), nth i bas x0, nth i dirs (0, 0, 0))])).
  - rewrite (fold_append (fun i => [(Z.of_nat i + 1, type_of mapping (nth i labels 0), nth i bas x0, nth i dirs (0, 0, 0))])). cbn [app]. rewrite <- flat_map_concat_map_single. reflexivity.
  - intros out i Hi. apply in_seq in Hi. assert (0 <= nth i labels 0 < k) as Hr by (apply Hrange; apply nth_In; lia).
    rewrite (rfold_ext _ (fun out ilab => if ilab =? nth i labels 0 then
       do p <- get bas i; do lb <- match mapping with None => Ok (nth i labels 0) | Some m => match nth_error m (Z.to_nat (nth i labels 0)) with Some v => Ok v | None => Err KeyError end end;
       Ok (out ++ [(Z.of_nat i + 1, lb, p, nth i dirs (0, 0, 0))]) else Ok out)).
    + rewrite (one_hit k (nth i labels 0) (fun out => do p <- get bas i; do lb <- match mapping with None => Ok (nth i labels 0) | Some m => match nth_error m (Z.to_nat (nth i labels 0)) with Some v => Ok v | None => Err KeyError end end;
       Ok (out ++ [(Z.of_nat i + 1, lb, p, nth i dirs (0, 0, 0))]))) by auto.
      rewrite (get_nth bas i x0) by lia. cbn [rbind]. unfold type_of. destruct mapping as [m|]; [|auto].
      rewrite (nth_error_nth' m 0) by (rewrite (Hmap m eq_refl); lia). auto.
    + intros o ilab Hil. apply in_range_up in Hil. rewrite (get_nth dirs i (0, 0, 0)) by (unfold vec in *; lia). cbn [rbind]. rewrite (get_nth gs i 0) by lia. cbn [rbind].
      rewrite Hread by lia. cbn [rbind]. rewrite label_eqb by lia. destruct (Z.eqb_spec ilab (nth i labels 0)) as [->|]; auto.
Qed.
Lemma config_counts_ok : config_counts k lab gs = Ok (map (number_with labels) (range_up 0 k)).
Proof.
  unfold config_counts. assert (rmap (char_at lab) gs = Ok (map digit_char labels)) as ->.
  { pose proof Hread as Hr. clear - Hr Hgs Hlb. revert labels N Hgs Hlb Hr. induction gs as [|g r IH]; intros labels' N' Hg Hl H.
    - destruct labels'; [auto|]. cbn in *. lia.
    - destruct labels' as [|l ls]; [cbn in *; lia|]. cbn [rmap]. pose proof (H 0%nat ltac:(cbn in *; lia)) as H0. cbn [nth] in H0. rewrite H0. cbn [rbind].
      rewrite (IH ls (pred N')); auto; try (cbn in *; lia). intros i Hi. apply (H (S i)). lia. }
  cbn [rbind]. f_equal. apply map_ext_in. intros s Hs. apply in_range_up in Hs. unfold number_with. f_equal. rewrite ListFacts.filter_map, map_length. f_equal.
  apply filter_ext_in. intros l Hl. specialize (Hrange l Hl). apply label_eqb; lia.
Qed.
End Config.

Section MakeConfig.
Variables (D : Z) (bas : list vec) (k : Z) (H : mat) (c : config) (s : structure) (lim : mat -> limits).
Hypothesis HD : 0 < D.
Hypothesis Hne : bas <> [].
Hypothesis Hnd : NoDup bas.
Hypothesis Hred : forall d, In d bas -> reduced (D, D, D) d.
Hypothesis Hk : 1 <= k <= 10.
Hypothesis Hh : hnf_form H.
Hypothesis Hdet : mdet H <= 10 ^ 5.
Hypothesis Hfull : full (lim H) H.
Hypothesis Hrow : row_for (length bas) k H c s.
Hypothesis Ha4 : forall a l, In (a, l) (decorated c) -> a <= 4.
Notation N := (length bas * Z.to_nat (mdet H))%nat.
Notation w := (decorated c).
Notation pts := (points (lim H) (mget H 0 0) (length bas)).
Notation gs := (map (g_index (sL s) (sdiag s)) pts).
Notation labels := (map (fun g => nth (Z.to_nat g) (species_of c) 0) gs).
Notation dirs := (map (fun d => nth d config_directions (0, 0, 0)) (map (fun x : Z * Z => Z.to_nat (fst x + 1)) w)).

Lemma config_ok param sys_title species mapping :
  (forall m, mapping = Some m -> length m = Z.to_nat k /\ exists es, species = Some es /\ forall i, In i m -> 0 <= i < Z.of_nat (length es)) ->
  (forall es, species = Some es -> (mapping = None -> length es = Z.to_nat k) /\ forall e, In e es -> known e) ->
  exists lp, make_config lim param D bas k sys_title s species mapping =
    Ok (lp, map (fun i => (Z.of_nat i + 1, type_of mapping (nth i labels 0), nth i (map (position D bas) pts) (0, 0, 0), nth i dirs (0, 0, 0))) (seq 0 N)).
Proof.
  intros Hm Hsp.
  pose proof (pts_length bas k H c s lim Hh Hdet Hfull Hrow) as Hpl.
  assert (length gs = N) as Hgl by (rewrite map_length; exact Hpl).
  assert (length labels = N) as Hll by (rewrite !map_length; exact Hpl).
  assert (forall l, In l labels -> 0 <= l < k) as Hlr.
  { apply (labels_range D bas k H c s lim); auto. }
  assert (forall i, (i < N)%nat -> char_at (labeling s) (nth i gs 0) = Ok (digit_char (nth i labels 0))) as Hrd.
  { apply (labels_read D bas k H c s lim); auto. }
  destruct (space_ok D bas k H c s lim) as [sp [Esp [Eb [Eg _]]]]; auto.
  assert (0 < N)%nat as HN by (apply (N_pos D bas k H c s lim); auto). assert (1 <= mdet H) as Hdp by (apply (det_pos bas k H c s lim); auto).
  assert (length dirs = N) as Hdl by (rewrite !map_length; apply (w_len bas k H c s Hrow)).
  assert (arrow_vectors config_directions (directions_of s) = Ok dirs) as Ed.
  { destruct (labs D bas k H c s lim) as [_ ->]; auto. apply arrow_vectors_ok.
    - unfold digits. pose proof (w_range bas k H c s Hrow) as Hw. clear - Hw. induction w as [|[a l] r IH]; [auto|]. cbn [map fold_right]. rewrite IH by (intros; apply Hw; right; auto).
      destruct (Hw a l (or_introl eq_refl)). cbn [fst]. rewrite Z2Nat.id by lia. auto.
    - intros d Hd. apply in_map_iff in Hd as [[a l] [<- Hin]]. destruct (w_range bas k H c s Hrow a l Hin). specialize (Ha4 a l Hin). cbn. lia. }
  set (concs := map (number_with labels) (range_up 0 k)).
  assert (zsum concs = Z.of_nat N) as Hsum.
  { unfold concs. rewrite zsum_numbers; [rewrite Hll; auto|apply NoDup_range_up|]. intros l Hl. apply in_range_up. auto. }
  assert (forall c, In c concs -> 0 <= c) as Hc by (intros x Hin; apply in_map_iff in Hin as [y [<- _]]; unfold number_with; lia).
  assert (length concs = Z.to_nat k) as Hcl by (unfold concs; rewrite map_length, MapProofs.range_up_length; lia).
  assert (exists sp', match mapping with
                 | None => Ok species
                 | Some m => match species with
                             | None => Err TypeError
                             | Some sp => if (length sp =? length m)%nat then Ok species
                                          else do l <- rmap (zget sp) m; Ok (Some l)
                             end
                 end = Ok sp' /\ forall es, sp' = Some es -> length es = Z.to_nat k /\ forall e, In e es -> known e) as [sp' [Esp' Hsp']].
  { destruct mapping as [m|].
    - destruct (Hm m eq_refl) as [Hml [es [-> Hi]]]. destruct (Hsp es eq_refl) as [_ Hkn]. destruct (Nat.eqb_spec (length es) (length m)) as [E|E].
      + exists (Some es). split; auto. intros es' E'. inversion E'; subst. split; auto. lia.
      + assert (rmap (zget es) m = Ok (map (fun i => nth (Z.to_nat i) es EmptyString) m)) as ->.
        { apply rmap_ok. intros i Hin. specialize (Hi i Hin). unfold zget. destruct (Z.ltb_spec i 0); [lia|]. destruct (Z.ltb_spec i 0); [lia|]. apply get_nth. lia. }
        eexists. split; [reflexivity|]. intros es' E'. inversion E'; subst. rewrite map_length. split; auto. intros e He. apply in_map_iff in He as [i [<- Hin]]. apply Hkn. apply nth_In. specialize (Hi i Hin). lia.
    - exists species. split; auto. intros es E. destruct (Hsp es E) as [H1 H2]. auto. }
  assert (exists lp t, get_lattice_parameter param sp' concs (sys_title ++ str (strN s) ++ String newline "")%string (Bool true) = Ok (lp, t)) as [lp [t Elp]].
  { destruct sp' as [es|]; [|eexists _, _; reflexivity]. destruct (Hsp' es eq_refl) as [H1 H2].
    destruct (lattice_parameter_ok param es concs (sys_title ++ str (strN s) ++ String newline "")%string (Bool true)) as [q [t [E _]]]; auto; [lia|lia|]. eauto. }
  exists lp. unfold make_config. pose proof Hrow as [Hr1 [Hr2 _]]. rewrite Hr1, Hr2, Esp. cbn [rbind]. rewrite Eb, Eg. unfold write_config.
  replace (Z.to_nat (mdet H * Z.of_nat (length bas))) with N by nia.
  rewrite (gs_all vec N gs labels (map (position D bas) pts)) with (dirs := dirs); auto; [|rewrite map_length; auto]. cbn [rbind].
  rewrite (config_counts_ok vec k N (labeling s) gs labels (map (position D bas) pts)) with (dirs := dirs) ; auto; try lia; [|rewrite map_length; auto]. cbn [rbind]. fold concs.
  rewrite Esp'. cbn [rbind]. rewrite Elp. cbn [rbind]. rewrite Ed. cbn [rbind].
  rewrite (config_atoms_ok vec k N (labeling s) gs labels (map (position D bas) pts) (0, 0, 0)); auto; try lia; try (rewrite map_length; auto; fail); try (intros m E; destruct (Hm m E); auto; fail).
Qed.
End MakeConfig.
