(** Commands in a directory (C61): lemmas. *)
From Coq Require Import Permutation QArith.
From Verif Require Import TextModel TextProofs PyBase ListFacts TreeSearch Mat3 HNFModel PolyaModel SuperModel EnumSysModel DistModel FilesModel FilesProofs EnumOutModel RunModel LatticeInModel ScriptModel.
Local Open Scope Z_scope.

(** ** Directories *)
Lemma dfile_same d f t : dfile (dput d f t) f = Some t.
Proof. unfold dfile, dput. cbn [dget]. rewrite String.eqb_refl. auto. Qed.
Lemma dfile_other d f t g : g <> f -> dfile (dput d f t) g = dfile d g.
Proof.
  intros H. unfold dfile, dput. cbn [dget]. destruct (String.eqb_spec g f); [congruence|]. induction d as [|[x u] d IH]; [auto|]. cbn [filter fst]. destruct (String.eqb_spec x f) as [E|E].
  - subst x. cbn [negb dget]. destruct (String.eqb_spec g f); [congruence|auto].
  - cbn [negb dget]. rewrite IH. auto.
Qed.
Lemma dfile_names d f : (exists t, dfile d f = Some t) <-> In f (names d).
Proof.
  unfold dfile, names. induction d as [|[k v] d IH]; cbn [dget map fst In]; [split; [intros [t E]; discriminate|intros []]|].
  destruct (String.eqb_spec f k); [subst; split; [auto|eauto]|]. rewrite IH. split; [auto|intros [E|E]; [congruence|auto]].
Qed.
Lemma dfile_none d f : dfile d f = None <-> ~ In f (names d).
Proof. rewrite <- dfile_names. destruct (dfile d f) as [t|]; split; try congruence; [intros H; exfalso; apply H; eauto|intros _ [t E]; discriminate]. Qed.
Lemma names_put d f t g : In g (names (dput d f t)) <-> g = f \/ In g (names d).
Proof.
  rewrite <- !dfile_names. destruct (string_dec g f) as [->|H]; [rewrite dfile_same; split; eauto|]. rewrite dfile_other by auto. split; [auto|intros [E|E]; [contradiction|auto]].
Qed.
Lemma put_NoDup d f t : NoDup (names d) -> NoDup (names (dput d f t)).
Proof.
  intros H. unfold names, dput. cbn [map fst]. constructor.
  - intros Hi. apply in_map_iff in Hi. destruct Hi as [[k v] [E Hk]]. cbn in E. subst. apply filter_In in Hk. destruct Hk as [_ Hk]. cbn [fst] in Hk. rewrite String.eqb_refl in Hk. discriminate.
  - unfold names in H. induction d as [|[k v] d IH]; cbn [filter map fst] in *; [constructor|]. inversion H; subst. destruct (String.eqb k f); cbn [negb map fst]; [auto|]. constructor; auto.
    intros Hi. apply in_map_iff in Hi. destruct Hi as [e [E He]]. apply filter_In in He. apply H2. apply in_map_iff. exists e. tauto.
Qed.
Lemma after_app d ws ws' : after d (ws ++ ws') = after (after d ws) ws'.
Proof. apply fold_left_app. Qed.
Lemma after_NoDup ws : forall d, NoDup (names d) -> NoDup (names (after d ws)).
Proof. induction ws as [|[f t] ws IH]; intros d H; cbn [after fold_left]; auto. apply IH, put_NoDup. auto. Qed.
Lemma after_other f ws : forall d, Forall (fun w => fst w <> f) ws -> dfile (after d ws) f = dfile d f.
Proof. induction ws as [|[g t] ws IH]; intros d H; [auto|]. inversion H; subst. cbn [after fold_left fst snd]. fold (after (dput d g t) ws). rewrite IH by auto. apply dfile_other. cbn in *. congruence. Qed.
Lemma after_names ws : forall d f, In f (names (after d ws)) <-> In f (names d) \/ In f (map fst ws).
Proof.
  induction ws as [|[g t] ws IH]; intros d f; cbn [after fold_left map fst snd In]; [tauto|]. fold (after (dput d g t) ws). rewrite IH, names_put. intuition.
Qed.
(** Files with different names, written one after the other. *)
Lemma after_last d ws f t : NoDup (map fst ws) -> In (f, t) ws -> dfile (after d ws) f = Some t.
Proof.
  revert d. induction ws as [|[g u] ws IH]; intros d Hn Hi; [destruct Hi|]. cbn [map fst] in Hn. inversion Hn; subst. cbn [after fold_left fst snd]. fold (after (dput d g u) ws). destruct Hi as [E|Hi]; [|auto].
  inversion E; subst. rewrite after_other; [apply dfile_same|]. apply Forall_forall. intros w Hw E'. apply H1. apply in_map_iff. exists w. auto.
Qed.

(** ** Which files are written *)
Definition only {A} (P : string -> Prop) (m : act A) : Prop := forall d, Forall (fun w => P (fst w)) (fst (m d)).
Section Only.
Variable P : string -> Prop.
Lemma only_ret {A} (a : A) : only P (aret a). Proof. intros d. constructor. Qed.
Lemma only_lift {A} (r : res A) : only P (lift r). Proof. intros d. constructor. Qed.
Lemma only_look {A} (g : dir -> A) : only P (alook g). Proof. intros d. constructor. Qed.
Lemma only_read f : only P (aread f). Proof. intros d. constructor. Qed.
Lemma only_write f t : P f -> only P (awrite f t). Proof. intros H d. constructor; auto. Qed.
Lemma only_bind {A B} (m : act A) (k : A -> act B) : only P m -> (forall a, only P (k a)) -> only P (abind m k).
Proof.
  intros Hm Hk d. unfold abind. specialize (Hm d). destruct (m d) as [ws [a|e]]; cbn [fst] in *; auto. specialize (Hk a (after d ws)). destruct (k a (after d ws)) as [ws' r]. cbn [fst] in *. apply Forall_app. auto.
Qed.
Lemma only_each {A} (f : A -> act unit) l : (forall x, In x l -> only P (f x)) -> only P (aeach f l).
Proof. induction l as [|x l IH]; intros H; [apply only_ret|]. cbn [aeach]. apply only_bind; [apply H; left; auto|]. intros _. apply IH. intros; apply H; right; auto. Qed.
End Only.
Lemma only_impl {A} (P Q : string -> Prop) (m : act A) : (forall f, P f -> Q f) -> only P m -> only Q m.
Proof. intros H Hm d. eapply Forall_impl; [|apply Hm]. intros w. apply H. Qed.
Create HintDb acts.
#[export] Hint Resolve only_ret only_lift only_look only_read : acts.

Definition sized_names (out f : string) : Prop := exists s, f = sized out s.
Lemma polya_step_only e su out : only (sized_names out) (polya_step e su out).
Proof.
  apply only_each. intros s _. destruct (get_HNFs (s_pg su) (s_D su) (s_bas su) s); auto with acts. destruct (polya_of_size (e_version e) (e_fuel e) su s).
  - apply only_write. exists s. auto.
  - apply only_bind; auto with acts. apply only_write. exists s. auto.
Qed.
Lemma lattice_step_only P f : only P (lattice_step f).
Proof. repeat (apply only_bind; auto with acts; intros). Qed.
Lemma polya_main_only e lat out : only (sized_names out) (polya_main e lat out).
Proof. apply only_bind; [apply lattice_step_only|]. intros. apply polya_step_only. Qed.
Lemma filter_step_only P flt : only P (filter_step flt).
Proof. destruct flt as [[kind f]|]; cbn [filter_step]; auto with acts. apply only_bind; auto with acts. intros t. destruct (String.eqb kind "shape" || String.eqb kind "conc"); auto with acts. apply only_bind; auto with acts. Qed.
Lemma enum_in_step_only e a input out dist : only (fun f => sized_names input f \/ f = out) (enum_in_step e a input out dist).
Proof.
  apply only_bind; auto with acts. intros there. apply only_bind.
  - destruct there; auto with acts. apply (only_impl (sized_names input)); auto. apply polya_main_only.
  - intros _. destruct dist as [|kind [|number [|]]]; auto with acts. repeat (apply only_bind; auto using filter_step_only with acts; intros). destruct a6; auto with acts. apply only_write. auto.
Qed.
Lemma enum_out_step_only e a input out : only (fun f => sized_names "polya.out" f \/ f = input \/ f = out) (enum_out_step e a input out).
Proof.
  apply only_bind; [apply lattice_step_only|]. intros [par su]. apply only_bind; auto with acts. intros there. apply only_bind.
  - destruct there; auto with acts. apply only_bind; auto with acts. intros counted. apply only_bind.
    + destruct counted; auto with acts. eapply only_impl; [|apply polya_step_only]. auto.
    + intros _. eapply only_impl; [|apply enum_in_step_only]. cbn. tauto.
  - intros _. apply only_bind; auto with acts. intros t. apply only_bind; auto with acts. intros sys. apply only_bind; [apply only_write; auto|]. intros _. apply only_bind; auto with acts. intros acc. apply only_bind; auto with acts. intros file. apply only_write. auto.
Qed.

(** ** Running through a directory *)
Lemma bind_ok {A B} (m : act A) (k : A -> act B) d ws a : m d = (ws, Ok a) -> abind m k d = (ws ++ fst (k a (after d ws)), snd (k a (after d ws)))%list.
Proof. intros E. unfold abind. rewrite E. destruct (k a (after d ws)). auto. Qed.
Lemma bind_quiet {A B} (m : act A) (k : A -> act B) d a : m d = ([], Ok a) -> abind m k d = k a d.
Proof. intros E. rewrite (bind_ok m k d [] a E). cbn [after fold_left app]. destruct (k a d). auto. Qed.
Lemma bind_then {A B} (m : act A) (k : A -> act B) d ws a ws' r : m d = (ws, Ok a) -> k a (after d ws) = (ws', r) -> abind m k d = (ws ++ ws', r)%list.
Proof. intros E E'. rewrite (bind_ok m k d ws a E), E'. auto. Qed.
Lemma read_ok f d t : dfile d f = Some t -> aread f d = ([], Ok t).
Proof. intros E. unfold aread. rewrite E. auto. Qed.
Lemma each_writes {A} (name : A -> string) (txt : A -> string) (f : A -> act unit) l : (forall x d, In x l -> f x d = ([(name x, txt x)], Ok tt)) ->
  forall d, aeach f l d = (map (fun x => (name x, txt x)) l, Ok tt).
Proof.
  induction l as [|x l IH]; intros H d; [auto|]. cbn [aeach map]. eapply (bind_then _ _ _ [(name x, txt x)]); [apply H; left; auto|]. apply IH. intros; apply H; right; auto.
Qed.
Lemma prefix_app p s : prefix_of p (p ++ s) = true.
Proof. induction p as [|c p IH]; [auto|]. cbn [append prefix_of]. rewrite Ascii.eqb_refl. auto. Qed.
Lemma prefix_contains p s : prefix_of p s = true -> exists r, s = (p ++ r)%string.
Proof.
  revert s. induction p as [|c p IH]; intros s H; [exists s; auto|]. destruct s as [|b s]; [discriminate|]. cbn [prefix_of] in H. apply andb_true_iff in H. destruct H as [H1 H2]. apply Ascii.eqb_eq in H1. subst. destruct (IH s H2) as [r ->]. exists r. auto.
Qed.
Lemma globbed_iff f d : globbed f d = true <-> exists r, In (f ++ "." ++ r)%string (names d).
Proof.
  unfold globbed. rewrite existsb_exists. split.
  - intros [g [Hg E]]. apply prefix_contains in E. destruct E as [r ->]. exists r. rewrite app_assoc_s in Hg. auto.
  - intros [r Hr]. exists (f ++ "." ++ r)%string. split; auto. rewrite <- app_assoc_s. apply prefix_app.
Qed.

(** ** Numerals of the heading *)
Lemma seven_solid q : solid (seven q).
Proof.
  assert (forall x, is_space (digit_char (x mod 10)) = false) as Hd.
  { intros x. pose proof (Z.mod_pos_bound x 10 ltac:(lia)) as B. apply (digit_char_facts (x mod 10)). lia. }
  unfold seven. cbv zeta. set (m := Z.abs _). split.
  - intros E. apply (f_equal String.length) in E. rewrite !app_length_s in E. cbn in E. lia.
  - apply all_chars_app. split; [destruct (Qnum q <? 0); cbn; auto|]. apply all_chars_app. split; [apply str_solid|]. cbn [append all_chars]. repeat (split; [auto; fail|]). cbn; auto.
Qed.
