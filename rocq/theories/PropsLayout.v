(** C79: the layout of a text does not matter to the analysis *)
From Verif Require Import Parser Analysis Project AnalysisSpec GuardProofs AnalysisProofs DisplayProofs TreeProofs LexSpec PropsReformat PropsAnalysis PropsProject3.

(** ** Definitions up to positions *)
Inductive same_def : def -> def -> Prop :=
| sd_node p n m : bare_node n = bare_node m -> same_def (DNode p n) (DNode p m)
| sd_property p q : bare_property p = bare_property q -> same_def (DProperty p) (DProperty q)
| sd_include c : same_def (DInclude c) (DInclude c).
Lemma same_def_sym d e : same_def d e -> same_def e d.
Proof. destruct 1; constructor; auto. Qed.
Lemma same_defs_sym a b : Forall2 same_def a b -> Forall2 same_def b a.
Proof. induction 1; constructor; auto using same_def_sym. Qed.
Definition bare_labeled (x : labeled) : labeled :=
  match x with LNode n => LNode (bare_node n) | LProperty p => LProperty (bare_property p) end.

Lemma bare_item_eq (w v : wtok str) : bare w = bare v -> wt_item w = wt_item v.
Proof. intros H. exact (f_equal wt_item H). Qed.
Lemma bare_item_eq' {A} (w v : wtok A) : bare w = bare v -> wt_item w = wt_item v.
Proof. intros H. exact (f_equal wt_item H). Qed.
Lemma bare_label n m : bare_node n = bare_node m -> option_map bare (nd_label n) = option_map bare (nd_label m).
Proof. intros H. apply (f_equal nd_label) in H. destruct n, m. exact H. Qed.
Lemma bare_nd_name n m : bare_node n = bare_node m -> wt_item (nd_name n) = wt_item (nd_name m).
Proof. intros H. apply (f_equal (fun n => wt_item (nd_name n))) in H. destruct n, m. exact H. Qed.
Lemma label_is_bare o o' l : option_map bare o = option_map bare o' -> label_is o l -> label_is o' l.
Proof.
  intros E (w & -> & Hw). destruct o' as [v|]; [|discriminate]. cbn [option_map] in E. exists v. split; [reflexivity|].
  rewrite <- Hw. symmetry. apply bare_item_eq. congruence.
Qed.

(** binding the same names *)
Lemma binds_label_same l d e x : same_def d e -> binds_label l d x -> exists y, binds_label l e y /\ bare_labeled x = bare_labeled y.
Proof.
  intros H K. destruct H as [p n m H|p q H|c]; inversion K; subst.
  - exists (LNode m). split; [constructor; eapply label_is_bare; [apply bare_label, H|assumption]|cbn; congruence].
  - exists (LProperty q). split; [constructor; eapply label_is_bare; [|eassumption]|cbn; congruence]. exact (f_equal pr_label H).
  - exists x. auto.
Qed.
Lemma binds_path_same p d e n : same_def d e -> binds_path p d n -> exists m, binds_path p e m /\ bare_node n = bare_node m.
Proof.
  intros H K. destruct H as [q n0 m H|q r H|c]; inversion K; subst.
  - exists m. split; [constructor|exact H].
  - exists n. auto.
Qed.
Lemma last_of_same {D X} (binds : D -> X -> Prop) (R : D -> D -> Prop) (Q : X -> X -> Prop) :
  (forall d e x, R d e -> binds d x -> exists y, binds e y /\ Q x y) -> (forall d e y, R d e -> binds e y -> exists x, binds d x) ->
  forall a b x, Forall2 R a b -> last_of binds a x -> exists y, last_of binds b y /\ Q x y.
Proof.
  intros HR HR' a b x H (pre & d & post & -> & Hd & Hp). apply Forall2_app_inv_l in H. destruct H as (pre' & b2 & H1 & H2 & ->).
  inversion H2 as [|? e ? post' He H3]; subst. destruct (HR _ _ _ He Hd) as (y & Hy & Hq). exists y. split; [|exact Hq].
  exists pre', e, post'. split; [reflexivity|]. split; [exact Hy|].
  intros d' z Hd' K. clear - H3 Hd' K Hp HR'. induction H3 as [|u v post post' Huv H3 IH]; [contradiction|].
  destruct Hd' as [<-|Hd'].
  - destruct (HR' _ _ _ Huv K) as [w W]. exact (Hp u w (or_introl eq_refl) W).
  - apply IH; [|exact Hd']. intros w t Hw. apply Hp. right. exact Hw.
Qed.
Lemma label_means_same a b l x : Forall2 same_def a b -> label_means a l x -> exists y, label_means b l y /\ bare_labeled x = bare_labeled y.
Proof.
  apply (last_of_same (binds_label l) same_def (fun x y => bare_labeled x = bare_labeled y)).
  - intros d e z H K. exact (binds_label_same _ _ _ _ H K).
  - intros d e z H K. destruct (binds_label_same _ _ _ _ (same_def_sym _ _ H) K) as (y & Y & _). exists y. exact Y.
Qed.
Lemma path_means_same a b p n : Forall2 same_def a b -> path_means a p n -> exists m, path_means b p m /\ bare_node n = bare_node m.
Proof.
  apply (last_of_same (binds_path p) same_def (fun x y => bare_node x = bare_node y)).
  - intros d e z H K. exact (binds_path_same _ _ _ _ H K).
  - intros d e z H K. destruct (binds_path_same _ _ _ _ (same_def_sym _ _ H) K) as (y & Y & _). exists y. exact Y.
Qed.
Lemma opens_same a b r p f : Forall2 same_def a b -> opens a r p f -> opens b r p f.
Proof.
  intros H K. pose proof (same_defs_sym _ _ H) as H'. inversion K; subst.
  - destruct (path_means_same _ _ _ _ H H0) as (m & M & _). exact (op_path _ _ _ M).
  - constructor. intros n X. destruct (path_means_same _ _ _ _ H' X) as (m & M & _). exact (H0 m M).
  - destruct (path_means_same _ _ _ _ H H0) as (m & M & E). apply (op_label _ _ _ m M). eapply label_is_bare; [apply bare_label; exact E|assumption].
  - constructor. intros q n X Y. destruct (path_means_same _ _ _ _ H' X) as (m & M & E). apply (H0 q m M).
    eapply label_is_bare; [apply bare_label; exact E|exact Y].
Qed.
Lemma resolves_same a b r : Forall2 same_def a b -> resolves a r -> resolves b r.
Proof.
  intros H. destruct r as [l|p]; cbn [resolves]; intros [x X].
  - destruct (label_means_same _ _ _ _ H X) as (y & Y & _). exists y. exact Y.
  - destruct (path_means_same _ _ _ _ H X) as (y & Y & _). exists y. exact Y.
Qed.

(** ** The definitions and properties of elements *)
Lemma node_defs_same n : forall m p, bare_node n = bare_node m -> Forall2 same_def (node_defs p n) (node_defs p m).
Proof.
  apply (node_rect' (fun n => forall m p, bare_node n = bare_node m -> Forall2 same_def (node_defs p n) (node_defs p m))
    (fun i => forall j p, bare_item i = bare_item j -> Forall2 same_def (items_defs p [i]) (items_defs p [j]))).
  - intros l nm its e o IH [l' nm' [its' e'] o'] p H. cbn [node_defs].
    constructor; [constructor; exact H|].
    assert (Hi : map bare_item its = map bare_item its') by (injection H; intros; assumption).
    clear H. fold items_defs. revert its' Hi. induction IH as [|i its Hd _ IHl]; intros [|j its'] Hi; try discriminate Hi; [constructor|].
    injection Hi as E1 E2. specialize (IHl its' E2). specialize (Hd j p E1). unfold items_defs in *. cbn [items_defs_of] in *.
    destruct i, j; try discriminate E1; rewrite ?app_nil_r in Hd; try exact IHl.
    + inversion Hd; subst. constructor; assumption.
    + apply Forall2_app; assumption.
  - intros q j p H. destruct j; try discriminate H. cbn. constructor; [constructor; cbn in H; congruence|constructor].
  - intros n0 IH j p H. destruct j; try discriminate H. unfold items_defs. cbn [items_defs_of]. rewrite !app_nil_r.
    assert (E : bare_node n0 = bare_node n1) by (cbn in H; congruence). rewrite (bare_nd_name _ _ E). apply IH, E.
  - intros t w j p H. destruct j; try discriminate H. constructor.
  - intros t w j p H. destruct j; try discriminate H. constructor.
Qed.
Lemma items_defs_same p its : forall its', map bare_item its = map bare_item its' -> Forall2 same_def (items_defs p its) (items_defs p its').
Proof.
  induction its as [|i its IH]; intros [|j its'] H; try discriminate H; [constructor|]. injection H as E1 E2. specialize (IH _ E2).
  unfold items_defs in *. destruct i, j; try discriminate E1; cbn [items_defs_of]; try exact IH.
  - constructor; [constructor; cbn in E1; congruence|exact IH].
  - assert (E : bare_node n = bare_node n0) by (cbn in E1; congruence). rewrite (bare_nd_name _ _ E). apply Forall2_app; [apply node_defs_same, E|exact IH].
Qed.
Definition same_property (p q : property) : Prop := bare_property p = bare_property q.
Lemma defs_properties_same a b : Forall2 same_def a b -> Forall2 same_property (flat_map def_properties a) (flat_map def_properties b).
Proof. induction 1 as [|d e a b H _ IH]; [constructor|]. destruct H; cbn; try exact IH. constructor; assumption. Qed.
Lemma payload_items_same p q : bare_payload p = bare_payload q -> map bare_item (pl_items p) = map bare_item (pl_items q).
Proof. destruct p, q. intros H. injection H. auto. Qed.
Lemma element_properties_same p q : bare_primary p = bare_primary q -> Forall2 same_property (element_properties p) (element_properties q).
Proof.
  destruct p as [[]| | |], q as [[]| | |]; intros H; try discriminate H; try constructor; cbn [element_properties bare_primary] in *; apply defs_properties_same.
  - apply node_defs_same. congruence.
  - apply items_defs_same, payload_items_same. congruence.
Qed.
(** the same complaint, perhaps at another place; the cycle named may be another one (C32) *)
Definition says_alike (a b : diag) : Prop := dg_kind a = dg_kind b /\ (dg_kind a <> CyclicDependencyError -> dg_msg a = dg_msg b).
Lemma says_alike_refl a : says_alike a a.
Proof. split; auto. Qed.
Lemma compatible_same p q : same_property p q -> Forall2 says_alike (compatible_diags p) (compatible_diags q).
Proof.
  intros H. unfold compatible_diags. pose proof (f_equal (fun p => wt_item (pr_name p)) H) as En. cbn in En. rewrite En.
  destruct (str_eq_dec _ _); [|constructor]. pose proof (f_equal pr_values H) as Ev. cbn in Ev. clear - Ev. revert Ev.
  generalize (pr_values q). induction (pr_values p) as [|v l IH]; intros [|w m] E; try discriminate E; [constructor|]. injection E as E1 E2. specialize (IH _ E2).
  cbn [filter]. destruct v, w; try discriminate E1; cbn [is_string negb map]; try exact IH; constructor; try exact IH; split; auto.
Qed.
Lemma compatibles_same a b : Forall2 same_property a b -> Forall2 says_alike (flat_map compatible_diags a) (flat_map compatible_diags b).
Proof. induction 1; cbn [flat_map]; [constructor|]. apply Forall2_app; [apply compatible_same; assumption|assumption]. Qed.
Definition same_ref (r s : wtok reference) : Prop := wt_item r = wt_item s.
Lemma property_refs_same p q : same_property p q -> Forall2 same_ref (property_refs p) (property_refs q).
Proof.
  intros H. unfold property_refs. pose proof (f_equal pr_values H) as Ev. cbn in Ev. clear - Ev. revert Ev.
  generalize (pr_values q). induction (pr_values p) as [|v l IH]; intros [|w m] E; try discriminate E; [constructor|]. injection E as E1 E2. specialize (IH _ E2).
  cbn [flat_map]. apply Forall2_app; [|exact IH]. destruct v, w; try discriminate E1; cbn [value_refs]; try constructor; try (constructor; fail).
  - assert (Ec : map bare_cell cells = map bare_cell cells0) by (cbn in E1; congruence). clear - Ec. revert cells0 Ec.
    induction cells as [|c cs IH]; intros [|d ds] E; try discriminate E; [constructor|]. injection E as E1 E2. specialize (IH _ E2).
    cbn [flat_map]. apply Forall2_app; [|exact IH]. destruct c, d; try discriminate E1; cbn [cell_refs]; repeat constructor. apply bare_item_eq'. cbn in E1. congruence.
  - apply bare_item_eq'. cbn in E1. congruence.
Qed.
Lemma all_references_same ps qs : map bare_primary ps = map bare_primary qs -> Forall2 same_ref (all_references ps) (all_references qs).
Proof.
  intros H. unfold all_references, all_properties.
  assert (K : Forall2 same_property (flat_map element_properties ps) (flat_map element_properties qs)).
  { revert qs H. induction ps as [|p ps IH]; intros [|q qs] H; try discriminate H; [constructor|]. injection H as E1 E2. cbn [flat_map].
    apply Forall2_app; [apply element_properties_same, E1|apply IH, E2]. }
  clear H. induction K; cbn [flat_map]; [constructor|]. apply Forall2_app; [apply property_refs_same; assumption|assumption].
Qed.

(** ** Two layouts of a file *)
Lemma same_elements_in ps qs p : map bare_primary ps = map bare_primary qs -> In p ps -> exists q, In q qs /\ bare_primary p = bare_primary q.
Proof.
  intros H Hp. apply (in_map bare_primary) in Hp. rewrite H in Hp. apply in_map_iff in Hp. destruct Hp as (q & E & Hq). exists q. auto.
Qed.
Lemma has_plugin_same ps qs : map bare_primary ps = map bare_primary qs -> has_plugin ps -> has_plugin qs.
Proof. intros H [t Ht]. destruct (same_elements_in _ _ _ H Ht) as (q & Hq & E). destruct q as [[]| | |]; try discriminate E. eexists. exact Hq. Qed.
Lemma has_header_same ps qs : map bare_primary ps = map bare_primary qs -> has_header ps -> has_header qs.
Proof. intros H [t Ht]. destruct (same_elements_in _ _ _ H Ht) as (q & Hq & E). destruct q as [[]| | |]; try discriminate E. eexists. exact Hq. Qed.
Lemma after_header_bare p : after_header (bare_primary p) = after_header p.
Proof. destruct p as [[]| | |]; reflexivity. Qed.
Lemma has_content_same ps qs : map bare_primary ps = map bare_primary qs -> has_content ps -> has_content qs.
Proof.
  intros H (p & Hp & Ep). destruct (same_elements_in _ _ _ H Hp) as (q & Hq & E). exists q. split; [exact Hq|].
  rewrite <- after_header_bare, <- E, after_header_bare. exact Ep.
Qed.
Lemma header_same ps qs t u e1 e2 : map bare_primary ps = map bare_primary qs -> header_diags ps t e1 -> header_diags qs u e2 -> Forall2 says_alike e1 e2.
Proof.
  intros H H1 H2. pose proof (has_header_same _ _ H). pose proof (has_header_same _ _ (eq_sym H)). pose proof (has_content_same _ _ H). pose proof (has_content_same _ _ (eq_sym H)).
  inversion H1; subst; inversion H2; subst; try tauto; repeat constructor.
Qed.
Lemma blame_same ft ps qs r s fnd e1 e2 : map bare_primary ps = map bare_primary qs -> blame ft ps r fnd e1 -> blame ft qs s fnd e2 -> Forall2 says_alike e1 e2.
Proof.
  intros H H1 H2. pose proof (has_plugin_same _ _ H). pose proof (has_plugin_same _ _ (eq_sym H)).
  inversion H1; subst; inversion H2; subst; unfold blames in *; try tauto; repeat constructor.
Qed.
Lemma include_path_same fs i j : wt_item (in_file_name i) = wt_item (in_file_name j) -> in_paths i = in_paths j -> include_path fs i = include_path fs j.
Proof. unfold include_path. intros -> ->. reflexivity. Qed.
Lemma included_same fs pj src h i j d1 h1 e1 d2 h2 e2 : include_path fs i = include_path fs j ->
  included fs pj src h i d1 h1 e1 -> included fs pj src h j d2 h2 e2 -> Forall2 same_def d1 d2 /\ h1 = h2 /\ Forall2 says_alike e1 e2.
Proof.
  intros Ep H1 H2. inversion H1; subst; inversion H2; subst;
    repeat match goal with
    | A : include_path fs i = ?x, B : include_path fs j = ?y |- _ => rewrite Ep, B in A; injection A as A; subst; clear B
    | A : include_path fs i = ?x, B : include_path fs j = ?y |- _ => rewrite Ep, B in A; discriminate
    end;
    try (exfalso; eapply simple_not_cycle; eassumption); try (exfalso; congruence).
  - repeat split; auto; repeat constructor.
  - repeat split; auto. constructor; [|constructor]. split; [reflexivity|]. cbn. congruence.
  - repeat split; auto.
  - assert (f = f0) as <- by congruence. split; [destruct (pf_ctx f); repeat constructor|]. split; [reflexivity|].
    repeat match goal with K : _ /\ _ \/ _ /\ _ |- _ => destruct K as [[? ->]|[? ->]] end;
      repeat constructor; exfalso;
      match goal with A : exists d, _, B : forall d, ~ _ |- _ => destruct A as [? A]; exact (B _ A) end.
Qed.
Lemma elements_layout fs pj src ft l1 : forall l2 ps1 ps2 a1 a2 h b1 b2 g1 g2 e1 e2, map bare_primary l1 = map bare_primary l2 ->
  map bare_primary ps1 = map bare_primary ps2 -> Forall2 same_def a1 a2 ->
  elements fs pj src ft ps1 a1 h l1 b1 g1 e1 -> elements fs pj src ft ps2 a2 h l2 b2 g2 e2 ->
  (forall l r m k, l1 = l ++ PReferencedNode r :: m -> wt_item (rn_reference r) = RefLabel k -> ft = DtSource ->
     forall ds' h' e', elements fs pj src ft ps1 a1 h l ds' h' e' ->
     forall p n q m, path_means ds' p n -> path_means ds' q m ->
       label_is (nd_label n) k -> label_is (nd_label m) k -> p = q) ->
  Forall2 same_def b1 b2 /\ g1 = g2 /\ Forall2 says_alike e1 e2.
Proof.
  induction l1 as [|p l1 IH]; intros [|q l2] ps1 ps2 a1 a2 h b1 b2 g1 g2 e1 e2 El Eps Ha H1 H2 Hu; try discriminate El.
  - apply elements_nil_inv in H1, H2. destruct H1 as (-> & -> & ->), H2 as (-> & -> & ->). auto.
  - injection El as Ep El. apply elements_cons_inv in H1, H2.
    destruct H1 as (dp1 & k1 & ep1 & f1 & A1 & B1 & ->), H2 as (dp2 & k2 & ep2 & f2 & A2 & B2 & ->).
    assert (K : Forall2 same_def dp1 dp2 /\ k1 = k2 /\ Forall2 says_alike ep1 ep2).
    { inversion A1; subst; (destruct q as [[]| | |]; try discriminate Ep); inversion A2; subst; try contradiction; try (split; [constructor|split; [reflexivity|constructor]]).
      - split; [constructor|]. split; [reflexivity|]. eapply header_same; eassumption.
      - cbn [bare_primary] in Ep. injection Ep as Ei Ed. eapply included_same; [|eassumption|eassumption]. apply include_path_same; [exact Ei|exact Ed].
      - cbn [bare_primary] in Ep. injection Ep as Er. rewrite <- Er in *.
        match goal with A : opens a1 _ _ _, B : opens a2 _ _ _ |- _ => pose proof (opens_found _ _ _ _ _ _ (opens_same _ _ _ _ _ Ha A) B) as <- end.
        split; [constructor|]. split; [reflexivity|]. eapply blame_same; eassumption.
      - split; [apply node_defs_same; cbn in Ep; congruence|]. split; [reflexivity|]. apply compatibles_same, (element_properties_same (PRoot _) (PRoot _)), Ep.
      - pose proof Ep as Ep'. cbn [bare_primary] in Ep. injection Ep as Er Epl. rewrite <- Er in *.
        match goal with A : opens a1 _ ?p _, B : opens a2 _ ?q _ |- _ =>
          pose proof (opens_found _ _ _ _ _ _ (opens_same _ _ _ _ _ Ha A) B) as <-; assert (p = q) as ->;
          [eapply opens_fun; [exact A|eapply opens_same; [apply same_defs_sym; exact Ha|exact B]|]; intros k p' n q' m Ek; eapply (Hu [] _ l1 k eq_refl Ek eq_refl); constructor|]
        end.
        split; [apply items_defs_same, payload_items_same, Epl|]. split; [reflexivity|]. apply Forall2_app; [eapply blame_same; eassumption|].
        apply compatibles_same, (element_properties_same (PReferencedNode _) (PReferencedNode _)), Ep'.
      - split; [apply items_defs_same, payload_items_same; cbn in Ep; congruence|]. split; [reflexivity|].
        apply compatibles_same, (element_properties_same (PReferencedNode _) (PReferencedNode _)), Ep. }
    destruct K as (K1 & <- & K2).
    assert (Eps' : map bare_primary (ps1 ++ [p]) = map bare_primary (ps2 ++ [q])) by (rewrite !map_app, Eps; cbn [map]; rewrite Ep; reflexivity).
    edestruct (IH l2 (ps1 ++ [p]) (ps2 ++ [q])) as (R1 & R2 & R3); [exact El|exact Eps'|apply Forall2_app; [exact Ha|exact K1]|exact B1|exact B2| |].
    + intros l r m k -> Er Et ds' h' e' Hl. eapply (Hu (p :: l) r m k eq_refl Er Et). econstructor; eassumption.
    + repeat split; try assumption. apply Forall2_app; assumption.
Qed.
Lemma references_layout ft ps1 ps2 a b : map bare_primary ps1 = map bare_primary ps2 -> Forall2 same_def a b -> forall l m, Forall2 same_ref l m ->
  forall e1 e2, reference_diags ft ps1 a l e1 -> reference_diags ft ps2 b m e2 -> Forall2 says_alike e1 e2.
Proof.
  intros Eps Ha. induction 1 as [|r s l m Hr _ IH]; intros e1 e2 H1 H2; inversion H1; subst; inversion H2; subst; [constructor|].
  apply Forall2_app; [|apply IH; assumption]. unfold same_ref in Hr. rewrite Hr in *.
  assert (found = found0) as <-.
  { pose proof (resolves_same _ _ (wt_item s) Ha). pose proof (resolves_same _ _ (wt_item s) (same_defs_sym _ _ Ha)).
    destruct found, found0; auto; exfalso; intuition congruence. }
  eapply blame_same; eassumption.
Qed.

(** ** C79 *)
(** Two files that differ in the places of their tokens only, analysed at the same moment. As in C32, a label that is opened must be
    on one node only. *)
Theorem C79_same_tree_partial : forall fs pj f1 f2 ft h ac1 es1 ac2 es2, project_ok pj ->
  bare_file f1 = bare_file f2 -> fl_source f1 = fl_source f2 -> (ft = DtSource -> unambiguous fs pj f1 h) ->
  analysed fs pj f1 ft h ac1 es1 -> analysed fs pj f2 ft h ac2 es2 ->
  Forall2 says_alike es1 es2
  /\ (forall r, option_map bare_node (get_referenced ac1 r) = option_map bare_node (get_referenced ac2 r))
  /\ (forall l, option_map bare_labeled (m_get str_eq_dec l (ac_labels ac1)) = option_map bare_labeled (m_get str_eq_dec l (ac_labels ac2))).
Proof.
  intros fs pj f1 f2 ft h ac1 es1 ac2 es2 Hp Eb Es Hu H1 H2. unfold bare_file in Eb.
  apply (analysed_spec _ _ _ _ _ _ _ Hp) in H1, H2.
  destruct H1 as (ds1 & h1 & A1 & _ & L1 & P1), H2 as (ds2 & h2 & A2 & _ & L2 & P2).
  inversion A1 as [? ? e1 v1 r1 B1 C1 D1]; subst. inversion A2 as [? ? e2 v2 r2 B2 C2 D2]; subst. rewrite <- Es in *.
  destruct (elements_layout _ _ _ _ _ _ _ _ _ _ _ _ _ _ _ _ _ Eb eq_refl (Forall2_nil _) B1 B2) as (E1 & <- & E2).
  { intros l r m k El Er Et ds' h' e' Hl. subst ft. eapply (Hu eq_refl); eassumption. }
  assert (EL : forall l, option_map bare_labeled (m_get str_eq_dec l (ac_labels ac1)) = option_map bare_labeled (m_get str_eq_dec l (ac_labels ac2))).
  { intros l. destruct (m_get str_eq_dec l (ac_labels ac1)) as [x|] eqn:X.
    - apply L1 in X. destruct (label_means_same _ _ _ _ E1 X) as (y & Y & E). apply L2 in Y. rewrite Y. cbn. congruence.
    - destruct (m_get str_eq_dec l (ac_labels ac2)) as [y|] eqn:Y; [|reflexivity]. apply L2 in Y.
      destruct (label_means_same _ _ _ _ (same_defs_sym _ _ E1) Y) as (x & X' & _). apply L1 in X'. congruence. }
  split; [|split; [|exact EL]].
  - apply Forall2_app; [exact E2|]. apply Forall2_app.
    + pose proof (has_header_same _ _ Eb). pose proof (has_header_same _ _ (eq_sym Eb)).
      inversion C1; subst; inversion C2; subst; try (exfalso; intuition congruence); repeat constructor.
    + eapply references_layout; [exact Eb|exact E1|apply all_references_same, Eb|exact D1|exact D2].
  - intros [l|p]; cbn [get_referenced].
    + unfold get_node_by_label. specialize (EL l).
      destruct (m_get str_eq_dec l (ac_labels ac1)) as [[]|], (m_get str_eq_dec l (ac_labels ac2)) as [[]|]; try discriminate EL; try reflexivity.
      cbn in EL |- *. congruence.
    + unfold get_node_by_path. destruct (m_get npath_eq_dec p (ac_flat ac1)) as [x|] eqn:X.
      * apply P1 in X. destruct (path_means_same _ _ _ _ E1 X) as (y & Y & E). apply P2 in Y. rewrite Y. cbn. congruence.
      * destruct (m_get npath_eq_dec p (ac_flat ac2)) as [y|] eqn:Y; [|reflexivity]. apply P2 in Y.
        destruct (path_means_same _ _ _ _ (same_defs_sym _ _ E1) Y) as (x & X' & _). apply P1 in X'. congruence.
Qed.
Print Assumptions C79_same_tree_partial.

(** The same for texts: two layouts of the same tokens, stored under the same path, get the same syntax and analysis diagnostics apart
    from their places, and names mean the same nodes. Full statement: also for a file that opens a label two nodes carry; false for
    single runs, since there not even two runs on one text agree (C32_hash_order_refuted). *)
Theorem C79_layout_partial : forall fs pj incl text text' src toks toks' f s f' s' ft h ac es ac' es', project_ok pj ->
  valid_utf8 text = true -> valid_utf8 text' = true ->
  tokenize text src = Done toks -> tokenize text' src = Done toks' ->
  map tk_kind toks = map tk_kind toks' -> Forall (fun k => ~ unknown k) (map tk_kind toks) ->
  parse_text incl text src = ROk f s -> parse_text incl text' src = ROk f' s' ->
  (ft = DtSource -> unambiguous fs pj f h) ->
  analysed fs pj f ft h ac es -> analysed fs pj f' ft h ac' es' ->
  Forall2 says_alike (ps_diags s ++ es) (ps_diags s' ++ es')
  /\ (forall r, option_map bare_node (get_referenced ac r) = option_map bare_node (get_referenced ac' r))
  /\ (forall l, option_map bare_labeled (m_get str_eq_dec l (ac_labels ac)) = option_map bare_labeled (m_get str_eq_dec l (ac_labels ac'))).
Proof.
  intros fs pj incl text text' src toks toks' f s f' s' ft h ac es ac' es' Hp Hv Hv' Ht Ht' Hk Hn Hf Hf' Hu H1 H2.
  pose proof (C68_same_tokens incl text text' src src toks toks' Hv Hv' Ht Ht' Hk Hn) as R. rewrite Hf, Hf' in R. destruct R as [Eb Ed].
  destruct (C79_same_tree_partial fs pj f f' ft h ac es ac' es' Hp Eb) as (A & B & C); auto.
  { rewrite (parse_source _ _ _ _ _ Hv Hf), (parse_source _ _ _ _ _ Hv' Hf'). reflexivity. }
  split; [|split; [exact B|exact C]]. apply Forall2_app; [|exact A]. clear -Ed.
  revert Ed. generalize (ps_diags s'). induction (ps_diags s) as [|d l IH]; intros [|d' l'] E; try discriminate E; constructor.
  - injection E as E1 E2 _. split; [exact E1|]. intros _. exact E2.
  - apply IH. injection E as _ _ E. exact E.
Qed.
Print Assumptions C79_layout_partial.

(** A file with five diagnostics, written on one line and over several *)
Definition ex79a : str := bs "/ { l: a { reg = <1 &m>; #address-cells = <1> }; }; /dts-v1/; /dts-v1/; &l { z { compatible = [00]; }; }; &q { };".
Definition ex79b : str := bs "/ { l: a /* first */ {
 reg = < 1 &m >;
 #address-cells = < 1 > };
 // that was it
}; /dts-v1/;
/dts-v1/; &l { z { compatible =
[ 00 ]; }; }; &q { };".

(** ** Files whose labels are written once *)
(** the labels of the nodes in an element, in order *)
Definition def_labels (d : def) : list str := match d with DNode _ n => match nd_label n with Some w => [wt_item w] | None => [] end | _ => [] end.
Definition labels_written (p : primary) : list str :=
  match p with
  | PRoot n => flat_map def_labels (node_defs [] n)
  | PReferencedNode r => flat_map def_labels (items_defs [] (pl_items (rn_payload r)))
  | _ => []
  end.
Lemma node_labels_path n : forall p q, flat_map def_labels (node_defs p n) = flat_map def_labels (node_defs q n).
Proof.
  apply (node_rect' (fun n => forall p q, flat_map def_labels (node_defs p n) = flat_map def_labels (node_defs q n))
    (fun i => forall p q, flat_map def_labels (items_defs p [i]) = flat_map def_labels (items_defs q [i]))); try (intros; reflexivity).
  - intros l nm its e o IH p q. cbn [node_defs flat_map def_labels]. f_equal.
    induction IH as [|i its Hd _ IHl]; [reflexivity|]. specialize (Hd p q). unfold items_defs in Hd. cbn [items_defs_of] in *.
    destruct i; cbn [flat_map def_labels app] in *; try exact IHl. rewrite !app_nil_r in Hd. rewrite !flat_map_app, Hd, IHl. reflexivity.
  - intros n0 IH p q. unfold items_defs. cbn [items_defs_of]. rewrite !app_nil_r. apply IH.
Qed.
Lemma items_labels_path its p q : flat_map def_labels (items_defs p its) = flat_map def_labels (items_defs q its).
Proof.
  unfold items_defs. induction its as [|i its IH]; [reflexivity|]. destruct i; cbn [items_defs_of flat_map def_labels app]; try exact IH.
  rewrite !flat_map_app, IH. f_equal. apply node_labels_path.
Qed.
Definition no_include (p : primary) : Prop := match p with PDirective (AInclude _) => False | _ => True end.
Definition is_def (d : def) : Prop := match d with DInclude _ => False | _ => True end.
Lemma node_defs_is p n : Forall is_def (node_defs p n).
Proof.
  revert p. apply (node_rect' (fun n => forall p, Forall is_def (node_defs p n)) (fun i => forall p, Forall is_def (items_defs p [i]))); try (repeat constructor; fail).
  - intros l nm its e o IH p. cbn [node_defs]. constructor; [exact I|].
    induction IH as [|i its Hd _ IHl]; [constructor|]. specialize (Hd p). unfold items_defs in Hd. cbn [items_defs_of] in *.
    destruct i; rewrite ?app_nil_r in Hd; try exact IHl; [constructor; [exact I|exact IHl]|apply Forall_app; auto].
  - intros n0 IH p. unfold items_defs. cbn [items_defs_of]. rewrite app_nil_r. apply IH.
Qed.
Lemma items_defs_is p its : Forall is_def (items_defs p its).
Proof.
  unfold items_defs. induction its as [|i its IH]; [constructor|]. destruct i; cbn [items_defs_of]; try exact IH; [constructor; [exact I|exact IH]|].
  apply Forall_app. split; [apply node_defs_is|exact IH].
Qed.
Lemma elements_labels fs pj src ft l : Forall no_include l -> forall ps ds h ds' h' es, elements fs pj src ft ps ds h l ds' h' es ->
  flat_map def_labels ds' = flat_map def_labels ds ++ flat_map labels_written l /\ (Forall is_def ds -> Forall is_def ds').
Proof.
  induction 1 as [|p l Hp _ IH]; intros ps ds h ds' h' es H.
  - apply elements_nil_inv in H. destruct H as (-> & _). rewrite app_nil_r. auto.
  - apply elements_cons_inv in H. destruct H as (dp & k & ep & f & A & B & _). apply IH in B. destruct B as [B1 B2].
    assert (K : flat_map def_labels dp = labels_written p /\ Forall is_def dp).
    { inversion A; subst; try (split; [reflexivity|constructor]); try destruct Hp; cbn [labels_written].
      - split; [reflexivity|apply node_defs_is].
      - split; [apply items_labels_path|apply items_defs_is].
      - split; [reflexivity|apply items_defs_is]. }
    destruct K as [K1 K2]. split; [rewrite B1; cbn [flat_map]; rewrite flat_map_app, K1, app_assoc; reflexivity|].
    intros Hd. apply B2, Forall_app. auto.
Qed.
Lemma one_binder ds : Forall is_def ds -> NoDup (flat_map def_labels ds) -> forall p n q m k, path_means ds p n -> path_means ds q m ->
  label_is (nd_label n) k -> label_is (nd_label m) k -> p = q.
Proof.
  intros Hd Hn p n q m k (a & d & b & E & Hb & _) (a' & d' & b' & E' & Hb' & _) (w & Ew & Hw) (w' & Ew' & Hw').
  assert (D : d = DNode p n).
  { inversion Hb; subst; auto. exfalso. rewrite Forall_forall in Hd. apply (Hd (DInclude c)). apply in_or_app. right. left. reflexivity. }
  assert (D' : d' = DNode q m).
  { inversion Hb'; subst; auto. exfalso. rewrite Forall_forall in Hd. apply (Hd (DInclude c)). rewrite E'. apply in_or_app. right. left. reflexivity. }
  subst d d'. clear Hb Hb' Hd.
  assert (L : def_labels (DNode p n) = [k]) by (cbn; rewrite Ew, Hw; reflexivity).
  assert (L' : def_labels (DNode q m) = [k]) by (cbn; rewrite Ew', Hw'; reflexivity).
  assert (Hin : In (DNode q m) (a ++ DNode p n :: b)) by (rewrite <- E, E'; apply in_or_app; right; left; reflexivity).
  rewrite E, flat_map_app in Hn. cbn [flat_map] in Hn. rewrite L in Hn. apply NoDup_remove_2 in Hn. rewrite <- flat_map_app in Hn.
  apply in_app_or in Hin. destruct Hin as [Hin|[Hin|Hin]]; [|injection Hin as -> _; reflexivity|]; destruct Hn;
    apply in_flat_map; exists (DNode q m); (split; [apply in_or_app; tauto|rewrite L'; left; reflexivity]).
Qed.
Theorem labels_once_unambiguous : forall fs pj f h, Forall no_include (fl_elements f) -> NoDup (flat_map labels_written (fl_elements f)) -> unambiguous fs pj f h.
Proof.
  intros fs pj f h Hi Hn l1 r l2 k E _ ds h1 e1 H. rewrite E in Hi, Hn. apply Forall_app in Hi. destruct Hi as [Hi _].
  rewrite flat_map_app in Hn. destruct (elements_labels _ _ _ _ _ Hi _ _ _ _ _ _ H) as [K1 K2]. cbn [flat_map app] in K1.
  intros p n q m. apply one_binder; [apply K2; constructor|]. rewrite K1. revert Hn. generalize (flat_map labels_written l1).
  generalize (flat_map labels_written (PReferencedNode r :: l2)). clear. intros y x. induction x as [|c x IH]; intros H; [constructor|].
  inversion H; subst. constructor; [|apply IH; assumption]. intros K. match goal with X : ~ _ |- _ => apply X, in_or_app; left; exact K end.
Qed.
Print Assumptions labels_once_unambiguous.

Definition kinds_and_spans (text : str) : list error_code * list span :=
  match parse_text [] text (bs "a.dts") with
  | ROk f s => match analyze_file o_id no_fs empty_project f DtSource analysis_new with Done ((_, es), _) => (map dg_kind (ps_diags s ++ es), map dg_span es) | _ => ([], []) end
  | _ => ([], [])
  end.
Example C79_case : exists f s f' s' toks toks' ac es ac' es',
  valid_utf8 ex79a = true /\ valid_utf8 ex79b = true
  /\ tokenize ex79a (bs "a.dts") = Done toks /\ tokenize ex79b (bs "a.dts") = Done toks'
  /\ map tk_kind toks = map tk_kind toks' /\ Forall (fun k => ~ unknown k) (map tk_kind toks)
  /\ parse_text [] ex79a (bs "a.dts") = ROk f s /\ parse_text [] ex79b (bs "a.dts") = ROk f' s'
  /\ unambiguous no_fs empty_project f []
  /\ analysed no_fs empty_project f DtSource [] ac es /\ analysed no_fs empty_project f' DtSource [] ac' es'
  /\ map dg_kind (ps_diags s ++ es) = [Expected; MisplacedDtsHeader; DuplicateDirective; NonStringInCompatible; UnresolvedReference; UnresolvedReference]
  /\ map dg_span es <> map dg_span es'.
Proof.
  assert (E : exists f s f' s' toks toks' ac es a ac' es' a',
    tokenize ex79a (bs "a.dts") = Done toks /\ tokenize ex79b (bs "a.dts") = Done toks'
    /\ parse_text [] ex79a (bs "a.dts") = ROk f s /\ parse_text [] ex79b (bs "a.dts") = ROk f' s'
    /\ analyze_file o_id no_fs empty_project f DtSource analysis_new = Done ((ac, es), a)
    /\ analyze_file o_id no_fs empty_project f' DtSource analysis_new = Done ((ac', es'), a')).
  { do 12 eexists. do 5 (split; [vm_compute; reflexivity|]). vm_compute. reflexivity. }
  destruct E as (f & s & f' & s' & toks & toks' & ac & es & a & ac' & es' & a' & E1 & E2 & E3 & E4 & E5 & E6).
  exists f, s, f', s', toks, toks', ac, es, ac', es'.
  split; [reflexivity|]. split; [reflexivity|]. split; [exact E1|]. split; [exact E2|].
  assert (K : map tk_kind toks = map tk_kind toks' /\ Forall (fun k => ~ unknown k) (map tk_kind toks)).
  { split.
    - assert (X : match tokenize ex79a (bs "a.dts"), tokenize ex79b (bs "a.dts") with Done t, Done t' => map tk_kind t = map tk_kind t' | _, _ => False end) by (vm_compute; reflexivity).
      rewrite E1, E2 in X. exact X.
    - assert (X : match tokenize ex79a (bs "a.dts") with Done t => forallb (fun k => match k with Unknown _ => false | _ => true end) (map tk_kind t) = true | _ => False end) by (vm_compute; reflexivity).
      rewrite E1 in X. rewrite forallb_forall in X. apply Forall_forall. intros k Hk [c ->]. specialize (X _ Hk). discriminate X. }
  split; [exact (proj1 K)|]. split; [exact (proj2 K)|]. split; [exact E3|]. split; [exact E4|]. split.
  - apply labels_once_unambiguous.
    + assert (X : match parse_text [] ex79a (bs "a.dts") with ROk f _ => forallb (fun p => match p with PDirective (AInclude _) => false | _ => true end) (fl_elements f) = true | _ => False end) by (vm_compute; reflexivity).
      rewrite E3 in X. rewrite forallb_forall in X. apply Forall_forall. intros p Hp. specialize (X _ Hp). destruct p as [[]| | |]; try exact I. discriminate X.
    + assert (X : match parse_text [] ex79a (bs "a.dts") with ROk f _ => flat_map labels_written (fl_elements f) = [bs "l"] | _ => False end) by (vm_compute; reflexivity).
      rewrite E3 in X. rewrite X. repeat constructor. intros [].
  - split; [exact (run_analysed _ _ _ _ _ _ o_id_ok E5)|]. split; [exact (run_analysed _ _ _ _ _ _ o_id_ok E6)|].
    assert (X : kinds_and_spans ex79a = (map dg_kind (ps_diags s ++ es), map dg_span es)) by (unfold kinds_and_spans; rewrite E3, E5; reflexivity).
    assert (Y : kinds_and_spans ex79b = (map dg_kind (ps_diags s' ++ es'), map dg_span es')) by (unfold kinds_and_spans; rewrite E4, E6; reflexivity).
    assert (Z : fst (kinds_and_spans ex79a) = [Expected; MisplacedDtsHeader; DuplicateDirective; NonStringInCompatible; UnresolvedReference; UnresolvedReference]
      /\ snd (kinds_and_spans ex79a) <> snd (kinds_and_spans ex79b)) by (split; [vm_compute; reflexivity|vm_compute; discriminate]).
    rewrite X, Y in Z. exact Z.
Qed.
