(** Reproducibility (C79): without [-acceptrate] the accept/reject random numbers are not used. *)
From Coq Require Import Permutation QArith.
From Verif Require Import TextModel TextProofs PyBase ListFacts PhononsModel TreeModel PolyaModel SuperModel Mat3 HNFModel EnumSysModel DistModel FilesModel FilesProofs EnumOutModel RunModel RunSpec RunMain RunArrowSpec RunArrowTop RunArrowMain LatticeInModel ScriptModel ScriptProofs ScriptMain ScriptArrows.
Local Open Scope Z_scope.

Lemma rbind_same {A B} (m m' : res A) (k k' : A -> res B) : m = m' -> (forall a, k a = k' a) -> rbind m k = rbind m' k'.
Proof. intros <- H. destruct m; cbn; auto. Qed.
Lemma rmap_same {A B} (f g : A -> res B) l : (forall a, In a l -> f a = g a) -> rmap f l = rmap g l.
Proof. induction l as [|a l IH]; intros H; cbn [rmap]; auto. rewrite (H a) by (cbn; auto). rewrite IH; auto. intros b Hb. apply H. cbn. auto. Qed.
Lemma add_loop_rnd r r' col gr dim tr nw su : forall hs ars k, add_arrows_loop r hs col gr dim tr false nw su ars k = add_arrows_loop r' hs col gr dim tr false nw su ars k.
Proof.
  induction hs as [|h hs IH]; intros ars k; cbn [add_arrows_loop]; auto. apply rbind_same; auto. intros temp. apply rbind_same; auto. intros u. destruct u; auto. apply rbind_same; auto. intros sp.
  destruct sp; cbn [negb andb]; auto. destruct nw as [w|]; auto. destruct (_ =? w)%nat; auto.
Qed.
Lemma add_arrows_rnd r r' col gr dim tr nw su k : add_arrows r col gr dim tr false nw su k = add_arrows r' col gr dim tr false nw su k.
Proof. apply add_loop_rnd. Qed.
Lemma keep_rnd r r' us st z : keep false r us st z = keep false r' us st z.
Proof. reflexivity. Qed.
Lemma emit_rnd r r' concs gr col dim su cs us st ast : emit concs gr col dim su cs false r us st ast = emit concs gr col dim su cs false r' us st ast.
Proof.
  unfold emit. apply rbind_same; auto. intros x. destruct (0 <? br_narrows col)%nat; [|reflexivity]. apply rbind_same; [reflexivity|]. intros b.
  rewrite (add_arrows_rnd r r'). reflexivity.
Qed.
Lemma step_rnd r r' concs gr col dim su cs us st : step concs gr col dim su cs false r us st = step concs gr col dim su cs false r' us st.
Proof.
  unfold step. apply rbind_same; auto. intros stab. apply rbind_same; auto. intros [[[u sti] o] ast]. apply rbind_same; auto. intros stb. apply rbind_same; auto. intros [u2 st2].
  apply rbind_same; [|reflexivity]. destruct (u2 =? 0)%nat; [|reflexivity]. apply rbind_same; [|reflexivity]. destruct (b0 st2 || (lvl st =? 0)%nat)%bool; [apply emit_rnd|reflexivity].
Qed.
Lemma br_loop_rnd r r' concs gr col dim su cs us : forall fuel st, br_loop concs gr col dim su cs false r fuel us st = br_loop concs gr col dim su cs false r' fuel us st.
Proof. induction fuel as [|f IH]; intros st; cbn [br_loop]; [destruct (continue _ _ _ _); reflexivity|]. destruct (continue _ _ _ _); [|reflexivity]. apply rbind_same; [apply step_rnd|]. intros st'. apply IH. Qed.
Lemma brancher_rnd r r' concs gr col dim su cs fuel s : brancher concs gr col dim su cs false r fuel s = brancher concs gr col dim su cs false r' fuel s.
Proof. unfold brancher. destruct concs; [reflexivity|]. apply rbind_same; [apply br_loop_rnd|reflexivity]. Qed.
Lemma enum_sys_rnd v draw r r' sh fuel G nb concs na nw su : enum_sys v draw r sh fuel G nb concs na nw su false = enum_sys v draw r' sh fuel G nb concs na nw su false.
Proof.
  unfold enum_sys. destruct (nb =? 0)%nat; [reflexivity|]. apply rbind_same; [reflexivity|]. intros decs. destruct (how_many_arrows decs) as [[na' at'] sc]. apply rbind_same; [reflexivity|]. intros [[total subset] ag].
  destruct (length concs =? 1)%nat.
  - destruct (total =? 0); [reflexivity|]. rewrite (add_arrows_rnd r r'). reflexivity.
  - apply rbind_same; [reflexivity|]. intros m. destruct (_ && _)%bool; [reflexivity|]. destruct subset as [s|]; [apply brancher_rnd|reflexivity].
Qed.
Lemma enum_lines_rnd v draw r r' sh fuel su supers systems : enum_lines v draw r sh fuel su supers false systems = enum_lines v draw r' sh fuel su supers false systems.
Proof.
  unfold enum_lines. apply rmap_same. intros [i [[h c] num]] _. apply rbind_same; [reflexivity|]. intros G. rewrite (enum_sys_rnd v (draw i) (r i) (r' i)). reflexivity.
Qed.

(** One list of outcomes for all parameters [c]. *)
Lemma rmap_common {A B C} (f : C -> A -> nat -> res B) : forall l, (forall a, In a l -> exists b fuel0, forall c fuel, (fuel0 <= fuel)%nat -> f c a fuel = Ok b) ->
  exists bs fuel0, forall c fuel, (fuel0 <= fuel)%nat -> rmap (fun a => f c a fuel) l = Ok bs.
Proof.
  induction l as [|a l IH]; intros H; [exists [], 0%nat; auto|]. destruct (H a) as [b [f1 Hb]]; [cbn; auto|]. destruct IH as [bs [f2 Hbs]]; [intros; apply H; cbn; auto|].
  exists (b :: bs), (f1 + f2)%nat. intros c fuel Hf. cbn [rmap]. rewrite Hb by lia. cbn [rbind]. rewrite Hbs by lia. auto.
Qed.
(** The rows that are found do not depend on random numbers. *)
Definition determined (su : setup) (v : pyversion) (systems : list (list Z * list Z * Z)) : Prop :=
  exists found fuel0, forall draw rnd shuffled fuel, (fuel0 <= fuel)%nat -> enum_lines v draw rnd shuffled fuel su false false systems = Ok found.
Lemma determined_each su v systems : (forall h c x, In (h, c, x) systems -> exists G l fuel0, sym_group (s_pg su) (s_D su) (s_bas su) (full_HNF h) (s_arrows su) = Ok G /\
    forall draw shuffled fuel, (fuel0 <= fuel)%nat -> enum_sys v draw (fun _ => false) shuffled fuel G (length (s_bas su)) (map Z.to_nat c) (s_na su c) (Z.to_nat x) false false = Ok l) ->
  determined su v systems.
Proof.
  intros H.
  set (step := fun (p : (nat -> nat -> Z -> Z) * (nat -> list Z -> list Z)) (y : nat * (list Z * list Z * Z)) (fuel : nat) =>
    let '(i, (h, c, num)) := y in
    do G <- sym_group (s_pg su) (s_D su) (s_bas su) (full_HNF h) (s_arrows su);
    do configs <- enum_sys v (fst p i) (fun _ => false) (snd p i) fuel G (length (s_bas su)) (map Z.to_nat c) (s_na su c) (Z.to_nat num) false false;
    Ok (h, map Arrowed configs)).
  destruct (rmap_common step (combine (seq 0 (length systems)) systems)) as [found [f0 Hf]].
  { intros [i [[h c] x]] Hy. apply in_combine_r in Hy. destruct (H h c x Hy) as [G [l [f0 [EG Hl]]]]. exists (h, map Arrowed l), f0. intros p fuel Hfu. unfold step. rewrite EG. cbn [rbind]. rewrite Hl by auto. auto. }
  exists found, f0. intros draw rnd shuffled fuel Hfu. rewrite (enum_lines_rnd v draw rnd (fun _ _ => false)). rewrite <- (Hf (draw, shuffled) fuel Hfu). reflexivity.
Qed.
Lemma determined_plain su v systems : usable su -> are_systems su v systems -> determined su v systems.
Proof.
  intros [A1 A2 A3 A4 A5 A6 A7] Hsys. assert ((2 <= s_species su <= 3)%nat) as K1 by lia. assert (1 <= s_lo su <= s_hi su /\ s_hi su * Z.of_nat (length (s_bas su)) <= 20) as K2 by lia.
  apply determined_each. intros h c x Hi. apply Hsys in Hi. destruct Hi as [s [H [Hs [HH [-> [Hc ->]]]]]].
  destruct (system_facts su v A1 A2 A3 A4 A5 K1 K2 A7 s H c (fun _ => false) Hs HH Hc) as [Gt [Gf [l [f0 [_ [Ef [_ [_ [Hrun _]]]]]]]]].
  destruct (hnfs_facts su A1 A2 A3 A4 K1 K2 A7 s Hs) as [_ [Hf _]]. exists Gf, l, f0. destruct A7 as [_ [Ha _]]. rewrite Ha. rewrite (RunMain.six_full s H (Hf H HH)). auto.
Qed.
Lemma determined_displaced fl su v systems : usableA fl su -> are_systems su v systems -> determined su v systems.
Proof.
  intros Hu Hsys. pose proof (usableA_system fl su Hu) as Hsystem. destruct Hu as [A1 A2 A3 A4 A5 [B1 B2] [G1 [G2 [G3 [G4 G5]]]]].
  assert ((1 <= s_species su <= 3)%nat) as K1 by (unfold RunArrowTop.small_run in B2; lia). assert (1 <= s_lo su <= s_hi su /\ s_hi su * Z.of_nat (length (s_bas su)) <= 20) as K2 by (unfold RunArrowTop.small_run in B2; lia).
  apply determined_each. intros h c x Hi. apply Hsys in Hi. destruct Hi as [s [H [Hs [HH [-> [Hc ->]]]]]].
  destruct (system_factsA su v fl A1 A2 A3 A4 K1 K2 G1 G3 G5 Hsystem s H c (fun _ => false) Hs HH Hc) as [Gt [l [f0 [Et [_ [_ [Hrun _]]]]]]].
  destruct (hnfs_factsB su A1 A2 A3 A4 K1 K2 s Hs) as [_ [Hf _]]. exists Gt, l, f0. rewrite G2. rewrite (RunMain.six_full s H (Hf H HH)). auto.
Qed.

(** ** In a directory *)
Lemma abind_same {A B} (m m' : act A) (k k' : A -> act B) d : m d = m' d -> (forall ws a, m d = (ws, Ok a) -> k a (after d ws) = k' a (after d ws)) -> abind m k d = abind m' k' d.
Proof. intros E H. unfold abind. rewrite <- E. destruct (m d) as [ws [a|x]]; auto. rewrite (H ws a); auto. Qed.
Lemma enum_out_same e e' d ltext par su txt : e_version e = e_version e' -> e_date e = e_date e' -> dfile d "lattice.in" = Some ltext -> read_lattice ltext = Ok par -> setup_of par = Ok su -> dfile d "enum.in" = Some txt ->
  (forall systems, read_enum txt = Ok systems -> enum_lines (e_version e) (e_draw e) (e_rnd e) (e_shuffled e) (e_fuel e) su false false systems = enum_lines (e_version e) (e_draw e') (e_rnd e') (e_shuffled e') (e_fuel e') su false false systems) ->
  enum_out_step e enum_args "enum.in" "enum.out" d = enum_out_step e' enum_args "enum.in" "enum.out" d.
Proof.
  intros Ev Ed El Er Es Ei Hsame. unfold enum_out_step. cbn [enum_args a_lattice a_super a_accept a_distribution].
  assert (lattice_step "lattice.in" d = ([], Ok (par, su))) as E0.
  { unfold lattice_step. erewrite bind_quiet by (apply read_ok; eauto). unfold lift. rewrite Er. erewrite bind_quiet by reflexivity. rewrite Es. erewrite bind_quiet by reflexivity. reflexivity. }
  rewrite !(bind_quiet _ _ _ _ E0). cbn beta iota.
  assert (alook (fun d => match dfile d "enum.in" with Some _ => true | None => false end) d = ([], Ok true)) as E1 by (unfold alook; rewrite Ei; auto).
  rewrite !(bind_quiet _ _ _ _ E1). apply abind_same; auto. intros ws [] E. inversion E; subst. cbn [after fold_left].
  rewrite !(bind_quiet _ _ _ _ (read_ok _ _ _ Ei)). apply abind_same; auto. intros ws' systems E'. unfold lift in E'. inversion E'; subst. rewrite Ed. apply abind_same; auto. intros ws2 [] _. apply abind_same; auto. intros ws3 acc Ea. inversion Ea; subst.
  rewrite <- Ev. rewrite Hsame by auto. auto.
Qed.
Lemma polya_same e e' : e_version e = e_version e' -> e_fuel e = e_fuel e' -> forall lat out, polya_main e lat out = polya_main e' lat out.
Proof. intros Ev Ef lat out. unfold polya_main, polya_step. rewrite Ev, Ef. auto. Qed.
(** Where everything is distributed no random number is used. *)
Lemma distribute_all file sizes ft flt r r' : distribute file sizes ft None flt r = distribute file sizes ft None flt r'.
Proof. unfold distribute. destruct (distribution_summary file sizes flt) as [ds g]. rewrite Z.eqb_refl. auto. Qed.
Lemma make_all file sizes ft flt r r' save : make_enum_in file sizes ft None flt r save = make_enum_in file sizes ft None flt r' save.
Proof. unfold make_enum_in. apply rbind_same; auto. intros tabs. rewrite (distribute_all _ _ _ _ r r'). auto. Qed.
Lemma enum_in_same e e' a input out kind number d : e_version e = e_version e' -> e_fuel e = e_fuel e' -> (forall l, e_listdir e l = e_listdir e' l) -> lower_all number = "all"%string ->
  enum_in_step e a input out [kind; number] d = enum_in_step e' a input out [kind; number] d.
Proof.
  intros Ev Ef El En. unfold enum_in_step. rewrite (polya_same e e' Ev Ef), En. cbn [String.eqb]. 
  apply abind_same; [reflexivity|]. intros ws there _. apply abind_same; [reflexivity|]. intros ws1 u _. apply abind_same; [reflexivity|]. intros ws2 wanted Ew. inversion Ew; subst.
  apply abind_same; [unfold alook; rewrite El; auto|]. intros ws3 files _. apply abind_same; [reflexivity|]. intros ws4 sizes _. apply abind_same; [reflexivity|]. intros ws5 flt _. apply abind_same; [reflexivity|]. intros ws6 ft _. apply abind_same; [reflexivity|]. intros ws7 file _.
  rewrite (make_all _ _ _ _ (e_rnd0 e) (e_rnd0 e')). auto.
Qed.
