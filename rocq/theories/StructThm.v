(** The list of one supercell is a catalogue of its decorations (C49). *)
From Coq Require Import Permutation.
From Verif Require Import PyBase Spec ListFacts PermFacts TransFacts PhononsModel DecoFacts BranchTheorems Mat3 HNFModel LatSpec LatGroupModel LatFacts LatSites LatProofs LatMain LatTop LatGroupThm.
From Verif Require Import SNFModel SNFTop PropertiesSNF SuperModel StructSpec StructProofs.
Local Open Scope Z_scope.

Lemma snf_facts H : 1 <= mdet H <= 10 ^ 5 -> exists M L B, SmithNormalForm H = Ok (M, L, B) /\
  unimodular L /\ unimodular B /\ mmul (mmul L H) B = diagonal (diag_of M) /\ positive (diag_of M) /\
  (forall i, (i < 3)%nat -> vget (diag_of M) i <= 10 ^ 5) /\ volume (diag_of M) = mdet H.
Proof.
  intros Hd. destruct (C19_smith_normal_form H) as [M [L [B [a [b [c [E [H1 [HL [HB [HM [Ha [Hb [Hc _]]]]]]]]]]]]]]; [lia|].
  pose proof (C19_volume H M L B a b c ltac:(lia) E HM) as Hv.
  exists M, L, B. split; auto. split; auto. split; auto. rewrite HM in *. unfold diag_of. cbn [mget mrow vget diagonal positive volume].
  split; auto. split; auto. split; [|lia]. intros [|[|[|i]]] Hi; cbn [vget]; nia.
Qed.

Section One.
Variables (D : Z) (bas : list vec) (H L B : mat) (diag : vec).
Hypothesis HD : 0 < D.
Hypothesis Hred : forall d, In d bas -> reduced (D, D, D) d.
Hypothesis Hnd : NoDup bas.
Hypothesis HL : unimodular L.
Hypothesis HB : unimodular B.
Hypothesis Hsnf : mmul (mmul L H) B = diagonal diag.
Hypothesis Hpos : positive diag.
Notation n := (Z.to_nat (volume diag)).
Notation N := (length bas * n)%nat.
Notation describes := (describes D bas L diag).
Variable pg : list (mat * mat).
Hypothesis Hpg : forall C R, In (C, R) pg -> unimodular C /\ orthogonal R.

(** Two lists whose decorations are carried into each other by a symmetry of the supercell are equivalent. *)
Lemma plain_same G v w f g : (forall p a, In (p, a) G <-> a = idperm 6 /\ exists C R s, supercell_symmetry pg D bas H C R s /\ induces D bas L diag (affine C s) p) ->
  length v = N -> length w = N -> (forall c, In c v -> fst c = -1) -> describes v f -> describes w g -> same_in_supercell pg D bas H f g -> site_equiv G v w.
Proof.
  intros HG Hv Hw Hno Hf Hg [C [R [s [Hs Hcar]]]].
  destruct Hs as [S1 [S2 S3]]. assert (unimodular C) as HC by (apply (Hpg C R); auto).
  destruct (induces_exists D bas H L B diag HD Hred Hnd HL HB Hsnf Hpos C s) as [p Hp]; auto.
  exists (p, idperm 6). split; [apply HG; split; auto; exists C, R, s; split; auto; split; auto|]. cbn [fst].
  apply (carries_act_plain D bas L diag HL Hpos C R s p v w f g); auto.
Qed.
Lemma plain_catalogue G cwa l : length cwa = N -> (forall c, In c cwa -> fst c = -1) ->
  (forall p a, In (p, a) G <-> a = idperm 6 /\ exists C R s, supercell_symmetry pg D bas H C R s /\ induces D bas L diag (affine C s) p) ->
  transversal (fun w => Permutation w cwa) (site_equiv G) l ->
  catalogue (plain_structures D bas H cwa) (same_in_supercell pg D bas H) describes l.
Proof.
  intros Hl Hc HG [T1 [T2 T3]].
  assert (forall w, Permutation w cwa -> length w = N) as Hlen by (intros w Hw; rewrite (Permutation_length Hw); auto).
  assert (forall w c, Permutation w cwa -> In c w -> fst c = -1) as Hno by (intros w c Hw Hin; apply Hc; eapply Permutation_in; eauto).
  split; [|split; [|split]].
  - intros w _. exists (decode D bas L diag w). apply describes_decode; auto.
  - intros w f Hw Hf. split; [apply (describes_periodic D bas H L B diag HL HB Hsnf Hpos w f); auto|].
    destruct (describes_contents D bas H L B diag HD Hred Hnd HL HB Hsnf Hpos w f) as [pts [P1 P2]]; auto. exists pts. split; auto. rewrite P2. auto.
  - intros f [Hp Hco]. destruct (described D bas H L B diag HD Hred Hnd HL HB Hsnf Hpos f Hp) as [w [Hw Hd]].
    assert (Permutation w cwa) as HP.
    { eapply (contents_unique D bas H); eauto. apply (describes_contents D bas H L B diag HD Hred Hnd HL HB Hsnf Hpos w f); auto. }
    destruct (T2 w HP) as [r [Hr [[p a] [Hg E]]]]. cbn [fst] in E. exists r, (decode D bas L diag r). split; auto. split; [apply describes_decode; auto|].
    apply HG in Hg. destruct Hg as [_ [C [R [s [Hs Hi]]]]]. exists C, R, s. split; auto.
    apply (carries_act_plain D bas L diag HL Hpos C R s p w r); auto.
    + apply (Hpg C R), Hs.
    + apply Hs.
    + apply describes_decode; auto.
    + intros c Hin. apply (Hno w c); auto.
  - eapply FOP_impl; [|exact T3]. cbv beta. intros v w Hv Hw Hne f g Hf Hg Hsame. apply Hne.
    apply (plain_same G v w f g); auto. intros c Hin. apply (Hno v c); auto.
Qed.
Lemma arrow_catalogue G cwa l : length cwa = N ->
  (forall p a, In (p, a) G <-> exists C R s, supercell_symmetry pg D bas H C R s /\ induces D bas L diag (affine C s) p /\ turns R a) ->
  transversal (fun w => Permutation (map skeleton w) (map skeleton cwa) /\ directions_below 6 w) (op_equiv G) l ->
  catalogue (arrow_structures D bas H cwa) (same_in_supercell pg D bas H) describes l.
Proof.
  intros Hl HG [T1 [T2 T3]].
  assert (forall w, Permutation (map skeleton w) (map skeleton cwa) -> length w = N) as Hlen.
  { intros w Hw. apply Permutation_length in Hw. rewrite !map_length in Hw. lia. }
  assert (forall w f, length w = N -> describes w f -> directions_below 6 w <-> six_directions D bas f) as Hdir.
  { intros w f Hw Hf. split.
    - intros Hb x Hx. destruct (site_exists D bas L diag Hpos x Hx) as [i [Hi Hs]]. rewrite (Hf x i Hs). apply Hb, nth_In. lia.
    - intros Hb c Hin. apply In_nth with (d := (-1, 0)) in Hin. destruct Hin as [i [Hi <-]]. rewrite Hw in Hi.
      destruct (site_onto D bas L diag HL Hpos i Hi) as [x Hs]. rewrite <- (Hf x i Hs). apply Hb. eapply site_point; eauto. }
  assert (forall w f, length w = N -> describes w f -> contents D bas H (fun x => skeleton (f x)) (map skeleton w)) as Hcon.
  { intros w f Hw Hf. destruct (describes_contents D bas H L B diag HD Hred Hnd HL HB Hsnf Hpos w f) as [pts [P1 P2]]; auto. exists pts. split; auto.
    rewrite <- (map_map f skeleton). apply Permutation_map. auto. }
  split; [|split; [|split]].
  - intros w _. exists (decode D bas L diag w). apply describes_decode; auto.
  - intros w f Hw Hf. destruct (T1 w Hw) as [W1 W2]. assert (length w = N) as Wl by auto. split; [apply (describes_periodic D bas H L B diag HL HB Hsnf Hpos w f); auto|]. split.
    + destruct (Hcon w f Wl Hf) as [pts [P1 P2]]. exists pts. split; auto. rewrite P2. auto.
    + apply (Hdir w); auto.
  - intros f [Hp [Hco H6]]. destruct (described D bas H L B diag HD Hred Hnd HL HB Hsnf Hpos f Hp) as [w [Hw Hd]].
    assert (Permutation (map skeleton w) (map skeleton cwa)) as HP.
    { eapply (contents_unique D bas H (fun x => skeleton (f x))); eauto. intros k Hk x Hx. cbv beta. f_equal. apply Hp; auto. }
    destruct (T2 w) as [r [Hr [[p a] [Hg E]]]]; [split; auto; apply (Hdir w f); auto|]. exists r, (decode D bas L diag r). split; auto. split; [apply describes_decode; auto|].
    apply HG in Hg. destruct Hg as [C [R [s [Hs [Hi Ht]]]]]. exists C, R, s. split; auto. destruct (T1 r Hr) as [R1 R2].
    apply (carries_act D bas L diag HL Hpos C R s p a w r); auto.
    + apply (Hpg C R), Hs.
    + apply Hs.
    + apply describes_decode; auto.
    + apply (Hdir w f); auto.
  - eapply FOP_impl; [|exact T3]. cbv beta. intros v w Hv Hw Hne f g Hf Hg [C [R [s [Hs Hcar]]]]. apply Hne.
    destruct Hs as [S1 [S2 S3]]. destruct (Hpg C R S1) as [HC HR].
    destruct (induces_exists D bas H L B diag HD Hred Hnd HL HB Hsnf Hpos C s) as [p Hp]; auto. destruct (turns_exists R HR) as [a Ha].
    destruct (T1 v Hv) as [V1 V2]. destruct (T1 w Hw) as [W1 W2].
    exists (p, a). split; [apply HG; exists C, R, s; split; [split|]; auto|].
    apply (carries_act D bas L diag HL Hpos C R s p a v w f g); auto.
Qed.
End One.
