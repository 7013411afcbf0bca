(** Files in another layout: their definitions, analyses and whole runs of the tool (C112, and C79 over all iteration orders) *)
From Verif Require Import Base LexSpec Parser Analysis AnalysisSpec GuardProofs AnalysisProofs Project ProjectSpec ProjectProofs2 ProjectHistory PropsAnalysis
  PropsRealise PropsHistory DisplayProofs TreeProofs PropsReformat PropsLayout PropsProject PropsCli Cli Whole PropsWhole PropsPointing LexerProofs2 ParserSim TokParser ServerProofs.
From Coq Require Import Permutation.

(** ** Texts and nodes in two layouts *)
(** the same text, or the same tokens (none of them an unknown character, cf. C68) with other blanks, line breaks and comments *)
Definition relaid_text (k : fpath) (t t' : str) : Prop :=
  t = t' \/ exists toks toks', tokenize t k = Done toks /\ tokenize t' k = Done toks'
    /\ map tk_kind toks = map tk_kind toks' /\ Forall (fun k => ~ unknown k) (map tk_kind toks).
Lemma relaid_text_sym k t t' : relaid_text k t t' -> relaid_text k t' t.
Proof. intros [->|(x & y & X & Y & E & U)]; [left; reflexivity|]. right. exists y, x. rewrite <- E. auto. Qed.
(** the trees of a text of the file [k] in two layouts, out of a set [seen] of such pairs *)
Definition readings (seen : fpath -> str -> str -> Prop) (k : fpath) (f g : dts_file) : Prop :=
  exists dirs t t' s s', valid_utf8 t = true /\ valid_utf8 t' = true /\ seen k t t' /\ relaid_text k t t' /\ parse_text dirs t k = ROk f s /\ parse_text dirs t' k = ROk g s'.
(** what the nodes at the same places of such trees have in common: that they say the same, or more *)
Class likeness := {
  lk_seen : fpath -> str -> str -> Prop;
  lk : node -> node -> Prop;
  lk_bare : forall n m, lk n m -> bare_node n = bare_node m;
  lk_read : forall k f g, readings lk_seen k f g -> Forall2 lk (file_nodes f) (file_nodes g) }.
Lemma forall2_flip {A B} (R : A -> B -> Prop) l m : Forall2 R l m -> Forall2 (fun y x => R x y) m l.
Proof. induction 1; constructor; assumption. Qed.
(** the same in the other direction *)
Definition flipped (L : likeness) : likeness.
Proof.
  refine {| lk_seen := fun k t t' => lk_seen k t' t; lk := fun n m => lk m n |}.
  - intros n m H. symmetry. apply lk_bare, H.
  - intros k f g (dirs & t & t' & s & s' & V & V' & R & R' & P & P'). apply forall2_flip, (lk_read k). exists dirs, t', t, s', s. auto 7 using relaid_text_sym.
Defined.
Definition lkl {L : likeness} (x y : labeled) : Prop :=
  match x, y with LNode n, LNode m => lk n m | LProperty p, LProperty q => bare_property p = bare_property q | _, _ => False end.
Lemma lkl_bare {L : likeness} x y : lkl x y -> bare_labeled x = bare_labeled y.
Proof. destruct x, y; cbn [lkl bare_labeled]; intros H; try contradiction; [f_equal; apply lk_bare, H|congruence]. Qed.
Lemma lkl_flip {L : likeness} x y : lkl x y -> @lkl (flipped L) y x.
Proof. destruct x, y; cbn [lkl]; intros H; try contradiction; [exact H|congruence]. Qed.

Section Like.
Context {LK : likeness}.
(** ** Contexts and definitions up to places *)
Definition ctx_like (c d : actx) : Prop :=
  ((forall l x, In (l, x) (ac_labels c) -> exists y, In (l, y) (ac_labels d) /\ lkl x y)
   /\ (forall p n, In (p, n) (ac_flat c) -> exists m, In (p, m) (ac_flat d) /\ lk n m))
  /\ ((forall l y, In (l, y) (ac_labels d) -> exists x, In (l, x) (ac_labels c) /\ lkl x y)
   /\ (forall p m, In (p, m) (ac_flat d) -> exists n, In (p, n) (ac_flat c) /\ lk n m)).
Inductive def_like : def -> def -> Prop :=
| dl_node p n m : lk n m -> def_like (DNode p n) (DNode p m)
| dl_property p q : bare_property p = bare_property q -> def_like (DProperty p) (DProperty q)
| dl_include c d : ctx_like c d -> def_like (DInclude c) (DInclude d).
Definition def_nodes (d : def) : list node := match d with DNode _ n => [n] | _ => [] end.
Lemma same_like a b : Forall2 same_def a b -> (forall c, ~ In (DInclude c) a) -> Forall2 lk (flat_map def_nodes a) (flat_map def_nodes b) -> Forall2 def_like a b.
Proof.
  induction 1 as [|d e a b H _ IH]; intros N K; constructor.
  - destruct H as [p n m H|p q H|c]; [|constructor; exact H|exfalso; exact (N c (or_introl eq_refl))]. cbn [flat_map def_nodes app] in K. inversion K; subst. constructor. assumption.
  - apply IH; [intros c Hc; exact (N c (or_intror Hc))|]. destruct H; cbn [flat_map def_nodes app] in K; [inversion K; subst; assumption|exact K|exact K].
Qed.
Lemma node_def_nodes n : forall p, flat_map def_nodes (node_defs p n) = node_nodes n.
Proof.
  apply (node_rect' (fun n => forall p, flat_map def_nodes (node_defs p n) = node_nodes n)
    (fun i => forall p, flat_map def_nodes (items_defs p [i]) = match i with INode m => node_nodes m | _ => [] end)); clear n; try reflexivity.
  - intros l nm its e o IH p. cbn [node_defs node_nodes flat_map def_nodes app]. f_equal. induction IH as [|i its Hi _ IHl]; [reflexivity|].
    cbn [items_defs_of flat_map]. specialize (Hi p). unfold items_defs in Hi. cbn [items_defs_of] in Hi.
    destruct i; cbn [flat_map def_nodes app] in *; try exact IHl. rewrite flat_map_app, IHl. rewrite app_nil_r in Hi. rewrite Hi. reflexivity.
  - intros n IH p. unfold items_defs. cbn [items_defs_of]. rewrite app_nil_r. apply IH.
Qed.
Lemma items_def_nodes its p : flat_map def_nodes (items_defs p its) = items_nodes its.
Proof.
  unfold items_defs, items_nodes. induction its as [|i its IH]; [reflexivity|]. cbn [items_defs_of flat_map].
  destruct i; cbn [flat_map def_nodes app] in *; try exact IH. rewrite flat_map_app, IH, node_def_nodes. reflexivity.
Qed.
Lemma node_defs_like n m p : bare_node n = bare_node m -> Forall2 lk (node_nodes n) (node_nodes m) -> Forall2 def_like (node_defs p n) (node_defs p m).
Proof. intros E H. apply same_like; [apply node_defs_same, E|intros c; apply node_no_include|rewrite !node_def_nodes; exact H]. Qed.
Lemma items_defs_like a b p : map bare_item a = map bare_item b -> Forall2 lk (items_nodes a) (items_nodes b) -> Forall2 def_like (items_defs p a) (items_defs p b).
Proof. intros E H. apply same_like; [apply items_defs_same, E|intros c; apply items_no_include|rewrite !items_def_nodes; exact H]. Qed.
Lemma nodes_length_same n : forall m, bare_node n = bare_node m -> length (node_nodes n) = length (node_nodes m).
Proof.
  intros m E. rewrite <- (node_def_nodes n []), <- (node_def_nodes m []). pose proof (node_defs_same n m [] E) as H. clear E.
  induction H as [|d e a b H _ IH]; [reflexivity|]. cbn [flat_map]. rewrite !app_length, IH. destruct H; reflexivity.
Qed.
Lemma items_length_same a b : map bare_item a = map bare_item b -> length (items_nodes a) = length (items_nodes b).
Proof.
  intros E. rewrite <- (items_def_nodes a []), <- (items_def_nodes b []). pose proof (items_defs_same [] a b E) as H. clear E.
  induction H as [|d e l m H _ IH]; [reflexivity|]. cbn [flat_map]. rewrite !app_length, IH. destruct H; reflexivity.
Qed.
Lemma primary_length_same p q : bare_primary p = bare_primary q -> length (primary_nodes p) = length (primary_nodes q).
Proof.
  destruct p as [[t|t|x y|i|t r|t r]|n|r|s], q as [[t'|t'|x' y'|i'|t' r'|t' r']|n'|r'|s']; intros E; try discriminate E; try reflexivity; cbn [primary_nodes].
  - apply nodes_length_same. cbn in E. congruence.
  - apply items_length_same, payload_items_same. cbn in E. congruence.
Qed.
Lemma forall2_app_split {A B} (R : A -> B -> Prop) a : forall b c d, length a = length b -> Forall2 R (a ++ c) (b ++ d) -> Forall2 R a b /\ Forall2 R c d.
Proof.
  induction a as [|x a IH]; intros [|y b] c d E H; try discriminate E; [split; [constructor|exact H]|]. injection E as E. cbn [app] in H. inversion H; subst.
  destruct (IH b c d E) as [P Q]; [assumption|]. split; [constructor; assumption|exact Q].
Qed.

Lemma binds_label_like l d e x : def_like d e -> binds_label l d x -> exists y, binds_label l e y /\ lkl x y.
Proof.
  intros H K. destruct H as [p n m H|p q H|c c' H]; inversion K; subst.
  - exists (LNode m). split; [constructor; eapply label_is_bare; [apply bare_label, lk_bare, H|assumption]|exact H].
  - exists (LProperty q). split; [constructor; eapply label_is_bare; [|eassumption]|exact H]. exact (f_equal pr_label H).
  - destruct H as [[A _] _]. destruct (A l x) as (y & Y & E); [assumption|]. exists y. split; [constructor; exact Y|exact E].
Qed.
Lemma binds_path_like p d e n : def_like d e -> binds_path p d n -> exists m, binds_path p e m /\ lk n m.
Proof.
  intros H K. destruct H as [q n0 m H|q r H|c c' H]; inversion K; subst.
  - exists m. split; [constructor|exact H].
  - destruct H as [[_ A] _]. destruct (A p n) as (y & Y & E); [assumption|]. exists y. split; [constructor; exact Y|exact E].
Qed.
End Like.
Lemma ctx_like_flip {L : likeness} c d : ctx_like c d -> @ctx_like (flipped L) d c.
Proof.
  intros [[A B] [C D]]. split; (split; [intros l x H|intros p n H]).
  - destruct (C l x H) as (y & Y & E). exists y. split; [exact Y|apply lkl_flip, E].
  - exact (D p n H).
  - destruct (A l x H) as (y & Y & E). exists y. split; [exact Y|apply lkl_flip, E].
  - exact (B p n H).
Qed.
Lemma def_like_flip {L : likeness} d e : def_like d e -> @def_like (flipped L) e d.
Proof. destruct 1; constructor; auto using @ctx_like_flip. Qed.
Lemma defs_like_flip {L : likeness} a b : Forall2 def_like a b -> Forall2 (@def_like (flipped L)) b a.
Proof. induction 1; constructor; auto using @def_like_flip. Qed.
Lemma label_means_like {L : likeness} a b l x : Forall2 def_like a b -> label_means a l x -> exists y, label_means b l y /\ lkl x y.
Proof.
  apply (last_of_same (binds_label l) def_like lkl).
  - intros d e z H K. exact (binds_label_like _ _ _ _ H K).
  - intros d e z H K. destruct (binds_label_like _ _ _ _ (def_like_flip _ _ H) K) as (y & Y & _). exists y. exact Y.
Qed.
Lemma path_means_like {L : likeness} a b p n : Forall2 def_like a b -> path_means a p n -> exists m, path_means b p m /\ lk n m.
Proof.
  apply (last_of_same (binds_path p) def_like lk).
  - intros d e z H K. exact (binds_path_like _ _ _ _ H K).
  - intros d e z H K. destruct (binds_path_like _ _ _ _ (def_like_flip _ _ H) K) as (y & Y & _). exists y. exact Y.
Qed.
Lemma opens_like {L : likeness} a b r p f : Forall2 def_like a b -> opens a r p f -> opens b r p f.
Proof.
  intros H K. pose proof (defs_like_flip _ _ H) as H'. inversion K; subst.
  - destruct (path_means_like _ _ _ _ H H0) as (m & M & _). exact (op_path _ _ _ M).
  - constructor. intros n X. destruct (path_means_like _ _ _ _ H' X) as (m & M & _). exact (H0 m M).
  - destruct (path_means_like _ _ _ _ H H0) as (m & M & E). apply (op_label _ _ _ m M). eapply label_is_bare; [apply bare_label, lk_bare; exact E|assumption].
  - constructor. intros q n X Y. destruct (path_means_like _ _ _ _ H' X) as (m & M & E). apply (H0 q m M).
    eapply label_is_bare; [apply bare_label, (@lk_bare (flipped L)); exact E|exact Y].
Qed.
Lemma resolves_like {L : likeness} a b r : Forall2 def_like a b -> resolves a r -> resolves b r.
Proof.
  intros H. destruct r as [l|p]; cbn [resolves]; intros [x X].
  - destruct (label_means_like _ _ _ _ H X) as (y & Y & _). exists y. exact Y.
  - destruct (path_means_like _ _ _ _ H X) as (y & Y & _). exists y. exact Y.
Qed.
Lemma lookups_like {L : likeness} a b c d : Forall2 def_like a b -> lookups a c -> lookups b d -> ctx_like c d.
Proof.
  assert (X : forall L a b c d, Forall2 (@def_like L) a b -> lookups a c -> lookups b d ->
    (forall l x, In (l, x) (ac_labels c) -> exists y, In (l, y) (ac_labels d) /\ lkl x y)
    /\ (forall p n, In (p, n) (ac_flat c) -> exists m, In (p, m) (ac_flat d) /\ lk n m)).
  { clear. intros L a b c d H ((N1 & N2) & A & P) ((N3 & N4) & A' & P'). split.
    - intros l x Hx. apply (m_in_get str_eq_dec) in Hx; [|exact N1]. apply A in Hx. destruct (label_means_like _ _ _ _ H Hx) as (y & Y & E).
      apply A' in Y. exists y. split; [exact (m_get_in _ _ _ _ Y)|exact E].
    - intros l x Hx. apply (m_in_get npath_eq_dec) in Hx; [|exact N2]. apply P in Hx. destruct (path_means_like _ _ _ _ H Hx) as (y & Y & E).
      apply P' in Y. exists y. split; [exact (m_get_in _ _ _ _ Y)|exact E]. }
  intros H A B. split; [exact (X L a b c d H A B)|]. destruct (X (flipped L) b a d c (defs_like_flip _ _ H) B A) as [P Q].
  split; [|exact Q]. intros l y Hy. destruct (P l y Hy) as (x & Hx & E). exists x. split; [exact Hx|]. apply lkl_flip in E. destruct x, y; exact E.
Qed.

Section Like2.
Context {LK : likeness}.
(** ** Files in two layouts *)
Definition says_same (a b : list diag) : Prop := map says a = map says b.
Lemma says_app a b c d : says_same a b -> says_same c d -> says_same (a ++ c) (b ++ d).
Proof. unfold says_same. intros H K. rewrite !map_app, H, K. reflexivity. Qed.
Lemma compatibles_says a b : Forall2 same_property a b -> says_same (flat_map compatible_diags a) (flat_map compatible_diags b).
Proof.
  intros H. pose proof (compatibles_same a b H) as K.
  assert (C : Forall (fun d => dg_kind d = NonStringInCompatible) (flat_map compatible_diags a)).
  { apply Forall_forall. intros d Hd. apply in_flat_map in Hd. destruct Hd as (p & _ & Hd). unfold compatible_diags in Hd. destruct (str_eq_dec _ _); [|contradiction].
    apply in_map_iff in Hd. destruct Hd as (v & <- & _). reflexivity. }
  unfold says_same. clear H. induction K as [|d e l m [E1 E2] _ IH]; [reflexivity|]. inversion C as [|? ? C1 C2]; subst. cbn [map]. rewrite (IH C2).
  unfold says at 1 2. rewrite E1, E2; [reflexivity|]. rewrite C1. discriminate.
Qed.
Definition tree_like (a b : option dts_file) : Prop := match a, b with
  | Some f, Some g => bare_file f = bare_file g /\ fl_source f = fl_source g /\ Forall2 lk (file_nodes f) (file_nodes g) | None, None => True | _, _ => False end.
Definition context_like (a b : option actx) : Prop := match a, b with Some c, Some d => ctx_like c d | None, None => True | _, _ => False end.
Record relaid_file (v w : pfile) : Prop := {
  rf_parser : says_same (pf_pdiags v) (pf_pdiags w);
  rf_analysis : says_same (pf_adiags v) (pf_adiags w);
  rf_tree : tree_like (pf_file v) (pf_file w);
  rf_type : pf_type v = pf_type w;
  rf_ctx : context_like (pf_ctx v) (pf_ctx w) }.
Definition relaid_table (T U : table) : Prop := forall k, match fget k T, fget k U with
  | Some v, Some w => relaid_file v w | None, None => True | _, _ => False end.
Lemma relaid_diags v w : relaid_file v w -> says_same (pf_diags v) (pf_diags w).
Proof. intros [A B _ _ _]. apply says_app; assumption. Qed.
Lemma relaid_error pj1 pj2 v w : pj_sev pj1 = pj_sev pj2 -> says_same (pf_diags v) (pf_diags w) ->
  (exists d, error_diag pj1 v d) -> exists d, error_diag pj2 w d.
Proof.
  intros Es R [d [Hd E]]. unfold says_same in R. apply (in_map says) in Hd. rewrite R in Hd. apply in_map_iff in Hd. destruct Hd as (d' & E' & Hd').
  exists d'. split; [exact Hd'|]. rewrite <- Es. unfold says in E'. injection E' as -> _. exact E.
Qed.

Section Relay.
  Context (fs fs' : fsys).
  Hypothesis Hcanon : forall p, fs_canon fs p = fs_canon fs' p.
  Lemma resolve_relaid dirs name : resolve_in fs dirs name = resolve_in fs' dirs name.
  Proof. induction dirs as [|d dirs IH]; cbn [resolve_in]; [reflexivity|]. rewrite <- Hcanon. destruct (fs_canon fs (path_join d name)); [reflexivity|exact IH]. Qed.
  Lemma include_relaid i j : wt_item (in_file_name i) = wt_item (in_file_name j) -> in_paths i = in_paths j -> include_path fs i = include_path fs' j.
  Proof. unfold include_path. intros <- <-. rewrite resolve_relaid, Hcanon. reflexivity. Qed.

  Context (pj1 pj2 : project).
  Hypothesis Hsev : pj_sev pj1 = pj_sev pj2.
  Hypothesis Htab : relaid_table (pj_files pj1) (pj_files pj2).

  Lemma included_relay src h i j d1 g e1 : include_path fs i = include_path fs' j -> included fs pj1 src h i d1 g e1 ->
    exists d2 e2, included fs' pj2 src h j d2 g e2 /\ Forall2 def_like d1 d2 /\ says_same e1 e2.
  Proof.
    intros Ep H. inversion H as [e0 X1|q cycle X1 X2|q X1 X2 X3|q f0 d0 e0 X1 X2 X3 X4 X5]; subst; rewrite Ep in X1.
    - do 2 eexists. split; [apply in_missing; exact X1|]. split; [constructor|reflexivity].
    - do 2 eexists. split; [eapply in_cyclic; eassumption|]. split; [constructor|reflexivity].
    - do 2 eexists. split; [eapply in_unknown; [exact X1|exact X2|]|split; [constructor|reflexivity]]. unfold get_file in *. rewrite <- Hcanon.
      destruct (fs_canon fs q) as [z|]; [|reflexivity]. specialize (Htab z). rewrite X3 in Htab. destruct (fget z (pj_files pj2)); [contradiction|reflexivity].
    - unfold get_file in X3. destruct (fs_canon fs q) as [z|] eqn:Ez; [|discriminate X3]. pose proof (Htab z) as Hz. rewrite X3 in Hz.
      destruct (fget z (pj_files pj2)) as [w|] eqn:Ew; [|contradiction].
      assert (G : get_file fs' pj2 q = Some w) by (unfold get_file; rewrite <- Hcanon, Ez; exact Ew).
      assert (D : Forall2 def_like (match pf_ctx f0 with Some c => [DInclude c] | None => [] end) (match pf_ctx w with Some c => [DInclude c] | None => [] end)).
      { pose proof (rf_ctx _ _ Hz) as Hc. unfold context_like in Hc. destruct (pf_ctx f0), (pf_ctx w); try contradiction; repeat constructor; apply Hc. }
      pose proof (relaid_diags _ _ Hz) as Hd. destruct X5 as [[K ->]|[K ->]].
      + do 2 eexists. split; [eapply in_file; [exact X1|exact X2|exact G|reflexivity|left; split; [eapply relaid_error; eassumption|reflexivity]]|].
        split; [exact D|reflexivity].
      + do 2 eexists. split; [eapply in_file; [exact X1|exact X2|exact G|reflexivity|right; split; [|reflexivity]]|].
        * intros d Hx. destruct (relaid_error pj2 pj1 w f0 (eq_sym Hsev) (eq_sym Hd) (ex_intro _ d Hx)) as [d' Hd']. exact (K d' Hd').
        * split; [exact D|reflexivity].
  Qed.
  Lemma blame_relay ft ps qs r s found e1 : map bare_primary ps = map bare_primary qs -> blame ft ps r found e1 ->
    exists e2, blame ft qs s found e2 /\ says_same e1 e2.
  Proof.
    intros H B. pose proof (has_plugin_same _ _ H). pose proof (has_plugin_same _ _ (eq_sym H)). inversion B as [| X | X]; subst; unfold blames in *.
    - eexists. split; [constructor|reflexivity].
    - eexists. split; [apply bl_silent; unfold blames; tauto|reflexivity].
    - eexists. split; [apply bl_report; unfold blames; tauto|reflexivity].
  Qed.
  Lemma header_relay ps qs t u e1 : map bare_primary ps = map bare_primary qs -> header_diags ps t e1 -> exists e2, header_diags qs u e2 /\ says_same e1 e2.
  Proof.
    intros H B. pose proof (has_header_same _ _ H). pose proof (has_header_same _ _ (eq_sym H)). pose proof (has_content_same _ _ H). pose proof (has_content_same _ _ (eq_sym H)).
    inversion B; subst.
    - eexists. split; [apply hd_duplicate; auto|reflexivity].
    - eexists. split; [apply hd_misplaced; auto|reflexivity].
    - eexists. split; [apply hd_fine; auto|reflexivity].
  Qed.
  Lemma elements_relay src ft l1 : forall l2 ps1 ps2 a1 a2 h b1 g e1, map bare_primary l1 = map bare_primary l2 ->
    map bare_primary ps1 = map bare_primary ps2 -> Forall2 lk (flat_map primary_nodes l1) (flat_map primary_nodes l2) -> Forall2 def_like a1 a2 -> elements fs pj1 src ft ps1 a1 h l1 b1 g e1 ->
    exists b2 e2, elements fs' pj2 src ft ps2 a2 h l2 b2 g e2 /\ Forall2 def_like b1 b2 /\ says_same e1 e2.
  Proof.
    induction l1 as [|p l1 IH]; intros [|q l2] ps1 ps2 a1 a2 h b1 g e1 El Eps Nd Ha H1; try discriminate El.
    - apply elements_nil_inv in H1. destruct H1 as (-> & -> & ->). exists a2, []. split; [constructor|]. split; [exact Ha|reflexivity].
    - injection El as Ep El. cbn [flat_map] in Nd. apply forall2_app_split in Nd; [|exact (primary_length_same p q Ep)]. destruct Nd as [Np Nd]. apply elements_cons_inv in H1. destruct H1 as (dp1 & k1 & ep1 & f1 & A1 & B1 & ->).
      assert (K : exists dp2 ep2, element fs' pj2 src ft ps2 a2 h q dp2 k1 ep2 /\ Forall2 def_like dp1 dp2 /\ says_same ep1 ep2).
      { inversion A1 as [t es X|t|x y|t r|s|i ds1 h1 es X|t r x found es X Y|n|r x found es T X Y|r T]; subst;
          (destruct q as [[t'|t'|x' y'|i'|t' r'|t' r']|n'|r'|s']; try discriminate Ep);
          try (do 2 eexists; split; [constructor|split; [constructor|reflexivity]]; fail).
        - destruct (header_relay _ _ t t' _ Eps X) as (e2 & X2 & S). do 2 eexists. split; [constructor; exact X2|]. split; [constructor|exact S].
        - cbn [bare_primary] in Ep. injection Ep as Ei Ed.
          destruct (included_relay src h i i' _ _ _ (include_relaid i i' Ei Ed) X) as (d2 & e2 & X2 & D & S). exists d2, e2. split; [constructor; exact X2|]. auto.
        - cbn [bare_primary] in Ep. injection Ep as Er. destruct (blame_relay _ _ _ r r' _ _ Eps Y) as (e2 & Y2 & S).
          exists [], e2. split; [|split; [constructor|exact S]]. econstructor; [rewrite <- Er; eapply opens_like; eassumption|exact Y2].
        - exists (node_defs [] n'), (flat_map compatible_diags (element_properties (PRoot n'))). split; [constructor|].
          split; [apply node_defs_like; [cbn in Ep; congruence|exact Np]|]. apply compatibles_says, (element_properties_same (PRoot _) (PRoot _)), Ep.
        - pose proof Ep as Ep'. cbn [bare_primary] in Ep. injection Ep as Er Epl. destruct (blame_relay _ _ _ (rn_reference r) (rn_reference r') _ _ Eps Y) as (e2 & Y2 & S).
          do 2 eexists. split; [eapply el_opened; [reflexivity|rewrite <- Er; eapply opens_like; eassumption|exact Y2]|].
          split; [apply items_defs_like; [apply payload_items_same, Epl|exact Np]|]. apply says_app; [exact S|].
          apply compatibles_says, (element_properties_same (PReferencedNode _) (PReferencedNode _)), Ep'.
        - do 2 eexists. split; [apply el_assumed; exact T|]. split; [apply items_defs_like; [apply payload_items_same; cbn in Ep; congruence|exact Np]|].
          apply compatibles_says, (element_properties_same (PReferencedNode _) (PReferencedNode _)), Ep. }
      destruct K as (dp2 & ep2 & A2 & K1 & K2).
      assert (Eps' : map bare_primary (ps1 ++ [p]) = map bare_primary (ps2 ++ [q])) by (rewrite !map_app, Eps; cbn [map]; rewrite Ep; reflexivity).
      destruct (IH l2 _ _ _ (a2 ++ dp2) _ _ _ _ El Eps' Nd (Forall2_app Ha K1) B1) as (b2 & e2 & R1 & R2 & R3).
      exists b2, (ep2 ++ e2). split; [econstructor; eassumption|]. split; [exact R2|]. apply says_app; assumption.
  Qed.
  Lemma references_relay ft ps1 ps2 a b : map bare_primary ps1 = map bare_primary ps2 -> Forall2 def_like a b -> forall l m, Forall2 same_ref l m ->
    forall e1, reference_diags ft ps1 a l e1 -> exists e2, reference_diags ft ps2 b m e2 /\ says_same e1 e2.
  Proof.
    intros Eps Ha. induction 1 as [|r s l m Hr _ IH]; intros e1 H1; inversion H1 as [|? ? found es es' F B R]; subst.
    - exists []. split; [constructor|reflexivity].
    - destruct (IH _ R) as (e2 & R2 & S2). destruct (blame_relay _ _ _ r s _ _ Eps B) as (e3 & B3 & S3). exists (e3 ++ e2).
      split; [|apply says_app; assumption]. econstructor; [|exact B3|exact R2]. unfold same_ref in Hr. rewrite <- Hr, F.
      split; [apply resolves_like, Ha|apply (@resolves_like (flipped LK)), defs_like_flip, Ha].
  Qed.
  Lemma analysis_relay src ft h l1 l2 ds g es : map bare_primary l1 = map bare_primary l2 -> Forall2 lk (flat_map primary_nodes l1) (flat_map primary_nodes l2) -> analysis_of fs pj1 src ft h l1 ds g es ->
    exists ds2 es2, analysis_of fs' pj2 src ft h l2 ds2 g es2 /\ Forall2 def_like ds ds2 /\ says_same es es2.
  Proof.
    intros El Nd H. inversion H as [? ? e vs rs H1 H2 H3]; subst.
    destruct (elements_relay src ft l1 l2 [] [] [] [] _ _ _ _ El eq_refl Nd (Forall2_nil _) H1) as (ds2 & e2 & K1 & D & S1).
    destruct (references_relay ft l1 l2 ds ds2 El D _ _ (all_references_same _ _ El) _ H3) as (r2 & K3 & S3).
    pose proof (has_header_same _ _ El). pose proof (has_header_same _ _ (eq_sym El)).
    assert (V : exists v2, version_diags src ft l2 v2 /\ says_same vs v2).
    { inversion H2; subst; eexists; (split; [|reflexivity]); [apply vd_missing; auto|apply vd_fine; tauto]. }
    destruct V as (v2 & K2 & S2). exists ds2, (e2 ++ v2 ++ r2). split; [constructor; assumption|]. split; [exact D|]. do 2 (apply says_app; [assumption|]). exact S3.
  Qed.
End Relay.

Lemma analysis_lookups fs pj src ft h els ds g es : project_ok pj -> analysis_of fs pj src ft h els ds g es -> exists c, lookups ds c.
Proof.
  intros Hp An. inversion An as [? ? e1 vs rs H1 H2 H3]; subst. set (a := mkAnalysis (guard_after str_eq_dec h) O).
  destruct (primaries_real fs pj (mkFile els src) ft Hp _ _ _ _ _ _ _ a _ (flags_new ft) (rep_new ft) eq_refl H1) as (o & a' & c' & Ho & E & A & R & F & _).
  destruct (finish_spec o fs pj (mkFile els src) ft a a' c' ds e1 E A R F) as (ac & v2 & r2 & _ & _ & _ & Hok & ML & MP).
  exists ac. split; [exact Hok|]. split; assumption.
Qed.

(** ** Disks with the same files in two layouts *)
Definition relaid (fs fs' : fsys) : Prop :=
  (forall p, fs_canon fs p = fs_canon fs' p)
  /\ forall p, match read_to_string fs p, read_to_string fs' p with
               | inl t, inl t' => relaid_text p t t'
               | inr e, inr e' => e = e'
               | _, _ => False
               end.
Lemma relaid_sym fs fs' : relaid fs fs' -> relaid fs' fs.
Proof.
  intros [A B]. split; [intros p; symmetry; apply A|]. intros p. specialize (B p).
  destruct (read_to_string fs p) as [t|e], (read_to_string fs' p) as [t'|e']; try contradiction; [|symmetry; exact B].
  destruct B as [->|(x & y & X & Y & E & N)]; [left; reflexivity|]. right. exists y, x. rewrite <- E. auto.
Qed.
Lemma relaid_readable fs fs' p : relaid fs fs' -> readable fs p -> readable fs' p.
Proof.
  intros [_ B] [t R]. specialize (B p). rewrite R in B. destruct (read_to_string fs' p) as [t'|] eqn:E; [|contradiction]. exists t'. exact E.
Qed.

(** the texts of the disks are among those seen *)
Definition disks_seen (fs fs' : fsys) : Prop := forall k t t', read_to_string fs k = inl t -> read_to_string fs' k = inl t' -> lk_seen k t t'.
Section Disks.
  Context (fs fs' : fsys) (incl : list fpath).
  Hypothesis Hr : relaid fs fs'.
  Hypothesis Hseen : disks_seen fs fs'.
  Lemma unfollowable_relaid l : forall m, map bare_primary l = map bare_primary m -> says_same (flat_map (unfollowable fs) l) (flat_map (unfollowable fs') m).
  Proof.
    induction l as [|p l IH]; intros [|q m] E; try discriminate E; [reflexivity|]. injection E as Ep E. cbn [flat_map]. apply says_app; [|exact (IH m E)].
    destruct p as [[t|t|x y|i|t r|t r]|n|r|s], q as [[t'|t'|x' y'|i'|t' r'|t' r']|n'|r'|s']; try discriminate Ep; try reflexivity. cbn [unfollowable].
    cbn [bare_primary] in Ep. injection Ep as Ei Ed. rewrite (include_relaid fs fs' (proj1 Hr) i i' Ei Ed).
    destruct (include_path fs' i') as [z|e]; [|reflexivity]. pose proof (proj2 Hr z) as Hz.
    destruct (read_to_string fs z) as [t|e], (read_to_string fs' z) as [t'|e']; try contradiction; [reflexivity|]. subst e'. reflexivity.
  Qed.
  Lemma reading_relaid dirs k t t' : relaid_text k t t' -> valid_utf8 t = true -> valid_utf8 t' = true ->
    same_reading (parse_text dirs t k) (parse_text dirs t' k).
  Proof.
    intros [<-|(toks & toks' & E1 & E2 & Ek & Nu)] Hv Hv'; [|exact (C68_same_tokens dirs t t' k k toks toks' Hv Hv' E1 E2 Ek Nu)].
    destruct (tokenize_total t k Hv) as [toks Ht]. pose proof (parse_behind dirs t k toks Hv Ht) as B.
    destruct (parse_text dirs t k) as [f s|d s| |]; cbn [same_reading]; auto; destruct (t_parse dirs t k toks); contradiction.
  Qed.
  Lemma entry_relaid k v : entry fs incl k v -> exists w, entry fs' incl k w /\ relaid_file v w.
  Proof.
    intros H. assert (X : exists t, read_to_string fs k = inl t) by (inversion H; eauto). destruct X as [t0 R0]. pose proof (proj2 Hr k) as Hk. rewrite R0 in Hk.
    destruct (read_to_string fs' k) as [t'|] eqn:R'; [|contradiction].
    pose proof (proj1 (read_valid fs k t0 R0)) as Hv. pose proof (proj1 (read_valid fs' k t' R')) as Hv'.
    pose proof (reading_relaid (include_dirs incl k) k t0 t' Hk Hv Hv') as Rd.
    inversion H as [t f s R P|t d s R P]; subst; assert (t = t0) as -> by congruence; rewrite P in Rd; cbn [same_reading] in Rd.
    - destruct (parse_text (include_dirs incl k) t' k) as [f' s'|d' s'| |] eqn:P'; try contradiction. destruct Rd as [Eb Ed].
      eexists. split; [exact (en_tree fs' incl k t' f' s' R' P')|]. constructor; cbn [pf_pdiags pf_adiags pf_file pf_type pf_ctx tree_like context_like]; try reflexivity; try exact I.
      + apply says_app; [exact Ed|]. apply unfollowable_relaid. exact Eb.
      + split; [exact Eb|]. split; [rewrite (parse_source _ _ _ _ _ Hv P), (parse_source _ _ _ _ _ Hv' P'); reflexivity|].
        apply (lk_read k). do 5 eexists. split; [exact Hv|]. split; [exact Hv'|]. split; [exact (Hseen k t0 t' R0 R')|]. split; [exact Hk|]. split; eassumption.
    - destruct (parse_text (include_dirs incl k) t' k) as [f' s'|d' s'| |] eqn:P'; try contradiction. destruct Rd as [Eb Ed].
      eexists. split; [exact (en_error fs' incl k t' d' s' R' P')|]. constructor; cbn [pf_pdiags pf_adiags pf_file pf_type pf_ctx tree_like context_like]; try reflexivity; try exact I.
      + unfold says_same. cbn [map]. rewrite Eb. reflexivity.
  Qed.
  Lemma met_relaid root k : met fs incl root k -> met fs' incl root k.
  Proof.
    induction 1 as [|k v f i q _ IH En Ef Hi Ei Hq]; [constructor|]. destruct (entry_relaid k v En) as (w & Ew & [_ _ Ht _ _]).
    rewrite Ef in Ht. destruct (pf_file w) as [g|] eqn:Eg; [|contradiction]. destruct Ht as [Eb _].
    destruct (same_elements_in _ _ _ Eb Hi) as (p & Hp & Ep). destruct p as [[t|t|x y|j|t r|t r]|n|r|s]; try discriminate Ep. cbn [bare_primary] in Ep. injection Ep as E1 E2.
    eapply me_include; [exact IH|exact Ew|exact Eg|exact Hp| |exact (relaid_readable _ _ _ Hr Hq)].
    rewrite <- (include_relaid fs fs' (proj1 Hr) i j E1 E2). exact Ei.
  Qed.
  Lemma resolved_relaid f g : bare_file f = bare_file g -> resolved_includes fs f = resolved_includes fs' g.
  Proof.
    unfold bare_file, resolved_includes, includes_of. generalize (fl_elements g). induction (fl_elements f) as [|p l IH]; intros [|q m] E; try discriminate E; [reflexivity|].
    injection E as Ep E. specialize (IH m E).
    destruct p as [[t|t|x y|i|t r|t r]|n|r|s], q as [[t'|t'|x' y'|i'|t' r'|t' r']|n'|r'|s']; try discriminate Ep; try exact IH.
    cbn [bare_primary] in Ep. injection Ep as Ei Ed. cbn [fold_right as_include].
    rewrite (include_relaid fs fs' (proj1 Hr) i i' Ei Ed), IH. reflexivity.
  Qed.

  (** *** Tables *)
  Definition paired (x y : fpath * pfile) : Prop := fst x = fst y /\ relaid_file (snd x) (snd y).
  Lemma paired_keys T U : Forall2 paired T U -> keys T = keys U.
  Proof. induction 1 as [|x y T U [E _] _ IH]; [reflexivity|]. unfold keys, m_keys in *. cbn [map]. rewrite E, IH. reflexivity. Qed.
  Lemma paired_table T U : Forall2 paired T U -> relaid_table T U.
  Proof.
    intros H k. induction H as [|[a v] [b w] T U [E R] _ IH]; [exact I|]. cbn [fst snd] in *. subst b. cbn [m_get]. destruct (str_eq_dec k a); [exact R|exact IH].
  Qed.
  Lemma table_paired T : forall U, NoDup (keys T) -> keys T = keys U -> relaid_table T U -> Forall2 paired T U.
  Proof.
    induction T as [|[a v] T IH]; intros [|[b w] U] N E R; try discriminate E; [constructor|]. unfold keys, m_keys in *. cbn [map fst] in *. injection E as <- E.
    inversion N as [|? ? N1 N2]; subst. constructor.
    - split; [reflexivity|]. specialize (R a). cbn [m_get] in R. destruct (str_eq_dec a a); [exact R|contradiction].
    - apply IH; [exact N2|exact E|]. intros k. pose proof (R k) as Rk. cbn [m_get] in Rk. destruct (str_eq_dec k a) as [->|]; [|exact Rk].
      destruct (fget a T) as [x|] eqn:X; [apply (m_get_key str_eq_dec) in X; contradiction|].
      destruct (fget a U) as [y|] eqn:Y; [exfalso; apply N1; rewrite E; exact (m_get_key _ _ _ _ Y)|exact I].
  Qed.
  Lemma perm_paired l T U : Permutation T l -> Forall2 paired T U -> exists m, Permutation U m /\ Forall2 paired l m.
  Proof.
    intros P. revert U. induction P as [|x a b _ IH|x y a|a b c _ IH1 _ IH2]; intros U H.
    - inversion H; subst. exists []. split; constructor.
    - inversion H as [|? y ? U' R H']; subst. destruct (IH _ H') as (m & P & F). exists (y :: m). split; constructor; assumption.
    - inversion H as [|? u ? U' R H']; subst. inversion H' as [|? w ? U2 R' H2]; subst. exists (w :: u :: U2). split; [apply perm_swap|repeat (constructor; [assumption|]); assumption].
    - destruct (IH1 _ H) as (m & P1 & F1). destruct (IH2 _ F1) as (m' & P2 & F2). exists m'. split; [eapply Permutation_trans; eassumption|exact F2].
  Qed.
  Lemma includers_relaid l m : Forall2 paired l m -> includer_map fs l = includer_map fs' m.
  Proof.
    unfold includer_map. generalize (@nil (fpath * list fpath)). intros a H. revert a. induction H as [|[k v] [k' w] l m [E R] _ IH]; intros a; [reflexivity|].
    cbn [fold_left fst snd] in *. subst k'. pose proof (rf_tree _ _ R) as Ht. unfold tree_like in Ht.
    destruct (pf_file v) as [f|], (pf_file w) as [g|]; try contradiction; [|apply IH]. destruct Ht as [Eb _]. rewrite (resolved_relaid f g Eb). apply IH.
  Qed.
End Disks.
End Like2.
Lemma loaded_relaid {LK : likeness} fs fs' incl root T : relaid fs fs' -> disks_seen fs fs' -> all_met fs incl root T -> exists U, all_met fs' incl root U /\ Forall2 paired T U.
Proof.
  intros Hr Hseen (N & K & E). assert (X : forall T, NoDup (keys T) -> (forall k v, fget k T = Some v -> entry fs incl k v) ->
      exists U, Forall2 paired T U /\ forall k w, In (k, w) U -> entry fs' incl k w).
    { clear - Hr Hseen. induction T as [|[k v] T IH]; intros N E; [exists []; split; [constructor|intros k w []]|]. unfold keys, m_keys in *. cbn [map fst] in N. inversion N as [|? ? N1 N2]; subst.
      destruct IH as (U & F & G); [exact N2| |].
      - intros q x Hq. apply E. cbn [m_get]. destruct (str_eq_dec q k) as [->|]; [|exact Hq]. apply (m_get_key str_eq_dec) in Hq. contradiction.
      - destruct (entry_relaid fs fs' incl Hr Hseen k v) as (w & Ew & R); [apply E; cbn [m_get]; destruct (str_eq_dec k k); [reflexivity|contradiction]|].
        exists ((k, w) :: U). split; [constructor; [split; [reflexivity|exact R]|exact F]|]. intros q x [H|H]; [injection H as <- <-; exact Ew|exact (G q x H)]. }
    destruct (X T N E) as (U & F & G). pose proof (paired_keys _ _ F) as Ek. exists U. split; [|exact F]. split; [rewrite <- Ek; exact N|]. split.
    - intros k. rewrite <- Ek, K. split; [apply met_relaid; assumption|]. apply (@met_relaid (flipped LK) fs' fs incl (relaid_sym _ _ Hr)). intros q t t' Q Q'. exact (Hseen q t' t Q' Q).
    - intros k w Hw. apply G. exact (m_get_in _ _ _ _ Hw).
Qed.

(** *** The analysis of all files *)
Lemma walk_relaid {LK : likeness} fs fs' incl sev order h T T' : relaid fs fs' -> walk fs incl sev order h T T' ->
  forall U, relaid_table T U -> project_ok (mkProject U incl sev) ->
  exists U', walk fs' incl sev order h U U' /\ relaid_table T' U' /\ keys U' = keys U.
Proof.
  intros Hr H. induction H as [h T|k r h T T' v Hv Hf _ IH|k r h T T' v f ds h' es c Hv Hf An Hc _ IH]; intros U R Ok.
  - exists U. split; [constructor|]. split; [exact R|reflexivity].
  - destruct (IH U R Ok) as (U' & W & R' & K). exists U'. split; [|auto]. pose proof (R k) as Rk. rewrite Hv in Rk. destruct (fget k U) as [w|] eqn:Ew; [|contradiction].
    eapply wk_none; [exact Ew| |exact W]. pose proof (rf_tree _ _ Rk) as Ht. rewrite Hf in Ht. destruct (pf_file w); [contradiction|reflexivity].
  - pose proof (R k) as Rk. rewrite Hv in Rk. destruct (fget k U) as [w|] eqn:Ew; [|contradiction].
    destruct Rk as [R1 R2 R3 R4 R5]. rewrite Hf in R3. destruct (pf_file w) as [g|] eqn:Eg; [|contradiction]. destruct R3 as (Eb & Es & Nd).
    destruct (analysis_relay fs fs' (proj1 Hr) (mkProject T incl sev) (mkProject U incl sev) eq_refl R _ _ _ _ (fl_elements g) _ _ _ Eb Nd An) as (ds2 & es2 & An2 & D & S).
    destruct (analysis_lookups _ _ _ _ _ _ _ _ _ Ok An2) as [c2 Hc2].
    destruct (IH (m_update k (store_result (c2, es2) w) U)) as (U' & W & R' & K).
    + intros q. rewrite !update_get. specialize (R q). destruct (str_eq_dec k q) as [<-|]; [|exact R]. rewrite Hv, Ew.
      constructor; cbn [store_result pf_pdiags pf_adiags pf_file pf_type pf_ctx fst snd]; try assumption.
      * rewrite Hf, Eg. split; [|split]; assumption.
      * exact (lookups_like _ _ _ _ D Hc Hc2).
    + pose proof (project_ok_update (mkProject U incl sev) k w (c2, es2) Ok (proj1 Hc2)) as X. exact X.
    + exists U'. split; [|split; [exact R'|rewrite K; apply update_keys]].
      eapply wk_file; [exact Ew|exact Eg|rewrite <- Es, <- R4; exact An2|exact Hc2|exact W].
Qed.

(** ** Two such likenesses *)
Lemma readings_bare seen k f g : readings seen k f g -> bare_file f = bare_file g.
Proof.
  intros (dirs & t & t' & s & s' & V & V' & _ & R & P & P'). pose proof (reading_relaid dirs k t t' R V V') as H. rewrite P, P' in H. exact (proj1 H).
Qed.
Lemma node_nodes_bare n : forall m, bare_node n = bare_node m -> Forall2 (fun x y => bare_node x = bare_node y) (node_nodes n) (node_nodes m).
Proof.
  intros m E. rewrite <- (node_def_nodes n []), <- (node_def_nodes m []). pose proof (node_defs_same n m [] E) as H. clear E.
  induction H as [|d e a b H _ IH]; [constructor|]. cbn [flat_map]. apply Forall2_app; [|exact IH]. destruct H; repeat constructor. assumption.
Qed.
Lemma file_nodes_bare f g : bare_file f = bare_file g -> Forall2 (fun x y => bare_node x = bare_node y) (file_nodes f) (file_nodes g).
Proof.
  unfold bare_file, file_nodes. generalize (fl_elements g). induction (fl_elements f) as [|p l IH]; intros [|q m] E; try discriminate E; [constructor|].
  injection E as Ep E. cbn [flat_map]. apply Forall2_app; [|exact (IH m E)].
  destruct p as [[t|t|x y|i|t r|t r]|n|r|s], q as [[t'|t'|x' y'|i'|t' r'|t' r']|n'|r'|s']; try discriminate Ep; try constructor.
  - apply node_nodes_bare. cbn in Ep. congruence.
  - assert (E' : map bare_item (pl_items (rn_payload r)) = map bare_item (pl_items (rn_payload r'))) by (apply payload_items_same; cbn in Ep; congruence).
    rewrite <- (items_def_nodes _ []), <- (items_def_nodes (pl_items (rn_payload r')) []). pose proof (items_defs_same [] _ _ E') as H. clear - H.
    induction H as [|d e a b H _ IH]; [constructor|]. cbn [flat_map]. apply Forall2_app; [|exact IH]. destruct H; repeat constructor. assumption.
Qed.
(** saying the same *)
#[export] Instance bare_likeness : likeness.
Proof.
  refine {| lk_seen := fun _ _ _ => True; lk := fun n m => bare_node n = bare_node m |}; [auto|]. intros k f g R. eapply file_nodes_bare, readings_bare, R.
Defined.
(** being the same node, the [i]th of the trees of a text in two layouts *)
Definition twin (seen : fpath -> str -> str -> Prop) (n m : node) : Prop :=
  exists k f g i, readings seen k f g /\ nth_error (file_nodes f) i = Some n /\ nth_error (file_nodes g) i = Some m.
Lemma nth_forall2 {A B} (R : A -> B -> Prop) l m i x y : Forall2 R l m -> nth_error l i = Some x -> nth_error m i = Some y -> R x y.
Proof.
  intros H. revert i. induction H as [|a b l m H _ IH]; intros [|i] X Y; try discriminate X; cbn [nth_error] in *; [congruence|exact (IH i X Y)].
Qed.
Lemma forall2_nth {A B} (R : A -> B -> Prop) l : forall m, length l = length m -> (forall i x y, nth_error l i = Some x -> nth_error m i = Some y -> R x y) -> Forall2 R l m.
Proof.
  induction l as [|a l IH]; intros [|b m] E H; try discriminate E; [constructor|]. injection E as E. constructor; [exact (H O a b eq_refl eq_refl)|].
  apply IH; [exact E|]. intros i. exact (H (S i)).
Qed.
Lemma forall2_len {A B} (R : A -> B -> Prop) l m : Forall2 R l m -> length l = length m.
Proof. induction 1; cbn; congruence. Qed.
Definition twin_likeness (seen : fpath -> str -> str -> Prop) : likeness.
Proof.
  refine {| lk_seen := seen; lk := twin seen |}.
  - intros n m (k & f & g & i & R & X & Y). exact (nth_forall2 _ _ _ _ _ _ (file_nodes_bare f g (readings_bare seen k f g R)) X Y).
  - intros k f g R. apply forall2_nth; [exact (forall2_len _ _ _ (file_nodes_bare f g (readings_bare seen k f g R)))|]. intros i x y X Y. exists k, f, g, i. auto.
Defined.
