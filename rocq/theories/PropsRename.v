(** C92: labels can be renamed *)
From Verif Require Import Parser Analysis Project AnalysisSpec GuardProofs AnalysisProofs DisplayProofs TreeProofs Grammar LexSpec LexerProofs2 LexerProofs3 ParserSim TokParser Reformat Rename PropsReformat PropsAnalysis PropsProject3 PropsLayout.

(** ** Reading *)
Definition renamed (rho : str -> str) (f : dts_file) : dts_file := mkFile (map (ren_primary rho) (fl_elements f)) (fl_source f).
Definition reads_renamed (rho : str -> str) (r r' : res dts_file) : Prop :=
  match r, r' with
  | ROk f s, ROk f' s' => bare_file (renamed rho f) = bare_file f' /\ map says (ps_diags s) = map says (ps_diags s')
  | RErr d s, RErr d' s' => says d = says d' /\ map says (ps_diags s) = map says (ps_diags s')
  | _, _ => False
  end.
(** a label or a reference to one is legal and stays so *)
Definition stays_legal (rho : str -> str) (k : token_kind) : Prop :=
  match k with
  | Label l | Ref (TRefSimple l) => legal_label l /\ legal_label (rho l)
  | _ => True
  end.

Lemma kinds_ren rho l : forall l', map tk_kind l' = map (ren_kind rho) (map tk_kind l) -> Forall2 (tok_ren rho) l l'.
Proof.
  induction l as [|t l IH]; intros [|t' l'] H; try discriminate H; constructor.
  - exact (f_equal (hd Slash) H).
  - apply IH. exact (f_equal (@tl _) H).
Qed.
Theorem C92_reading : forall rho incl text text' src src' toks toks',
  valid_utf8 text = true -> valid_utf8 text' = true ->
  tokenize text src = Done toks -> tokenize text' src' = Done toks' ->
  map tk_kind toks' = map (ren_kind rho) (map tk_kind toks) ->
  Forall (fun k => ~ unknown k) (map tk_kind toks) -> Forall (stays_legal rho) (map tk_kind toks) ->
  reads_renamed rho (parse_text incl text src) (parse_text incl text' src').
Proof.
  intros rho incl text text' src src' toks toks' Hv Hv' Ht Ht' Hk Hu Hl.
  pose proof (parse_sim incl text src toks Hv Ht) as H.
  pose proof (parse_sim incl text' src' toks' Hv' Ht') as H'.
  assert (He : Rename.eqv rho (mkTS toks []) (mkTS toks' [])).
  { split; [exact (kinds_ren _ _ _ Hk)|]. split; [|constructor]. cbn [t_toks].
    pose proof (lexed_no_comment _ _ _ _ _ (proj1 (tokenize_iff text src toks Hv) Ht)) as Hc.
    rewrite Forall_map in Hu, Hl. rewrite Forall_forall in *. intros t Hin. specialize (Hc t Hin). specialize (Hu t Hin). specialize (Hl t Hin).
    split; [|exact Hl]. destruct (tk_kind t) eqn:E; try reflexivity; exfalso.
    - exact (Hc _ eq_refl).
    - apply Hu. eexists. reflexivity. }
  pose proof (Rename.rf_file rho src src' incl (relex text src) (relex text' src') (S (S (length text))) (S (S (length text'))) _ _ He) as X.
  unfold Rename.eqv_res, t_parse in *.
  destruct (parse_text incl text src), (t_p_file src incl _ _ _); try contradiction;
    destruct (parse_text incl text' src'), (t_p_file src' incl _ _ _); try contradiction;
    destruct H as [H1 H2], H' as [H1' H2'], X as (X1 & _ & _ & X2); cbn [reads_renamed].
  - subst. split; [|rewrite (says_sim _ _ H2), (says_sim _ _ H2'); exact (says_eqv _ _ X2)].
    unfold bare_file, renamed. cbn [fl_elements]. rewrite map_map. exact X1.
  - split; [|rewrite (says_sim _ _ H2), (says_sim _ _ H2'); exact (says_eqv _ _ X2)].
    unfold says. destruct H1 as (-> & _ & -> & _), H1' as (-> & _ & -> & _), X1 as [-> ->]. reflexivity.
Qed.
Print Assumptions C92_reading.

(** ** The analysis *)
Section Ren.
  Context (rho : str -> str) (Hinj : forall a b, rho a = rho b -> a = b).
  Definition ren_labeled (x : labeled) : labeled :=
    match x with LNode n => LNode (ren_node rho n) | LProperty p => LProperty (ren_property rho p) end.
  Definition ren_def (d : def) : def :=
    match d with DNode p n => DNode p (ren_node rho n) | DProperty p => DProperty (ren_property rho p) | DInclude c => DInclude c end.
  (** nothing in the context of a file is renamed *)
  Definition fixed_ctx (c : actx) : Prop :=
    (forall l x, In (l, x) (ac_labels c) -> rho l = l /\ ren_labeled x = x) /\ (forall p n, In (p, n) (ac_flat c) -> ren_node rho n = n).
  Definition fixed_def (d : def) : Prop := match d with DInclude c => fixed_ctx c | _ => True end.

  Lemma ren_nd_label n : nd_label (ren_node rho n) = ren_label rho (nd_label n).
  Proof. destruct n. reflexivity. Qed.
  Lemma label_is_ren o l : label_is o l <-> label_is (ren_label rho o) (rho l).
  Proof.
    split.
    - intros (w & -> & <-). eexists. split; reflexivity.
    - intros (w & E & H). destruct o as [v|]; [|discriminate E]. injection E as <-. exists v. split; [reflexivity|]. apply Hinj, H.
  Qed.
  Lemma binds_ren l d x : fixed_def d -> binds_label l d x -> binds_label (rho l) (ren_def d) (ren_labeled x).
  Proof.
    intros F H. destruct H as [p n H|p H|c x H]; cbn [ren_def ren_labeled].
    - constructor. rewrite ren_nd_label. exact (proj1 (label_is_ren _ _) H).
    - constructor. exact (proj1 (label_is_ren _ _) H).
    - destruct F as [F _]. destruct (F l x H) as [-> ->]. constructor. exact H.
  Qed.
  Lemma binds_ren_inv l d y : fixed_def d -> binds_label (rho l) (ren_def d) y -> exists x, binds_label l d x /\ y = ren_labeled x.
  Proof.
    intros F H. destruct d as [p n|p|c]; cbn [ren_def] in H; inversion H as [p' n' L|p' L|c' x' L]; subst.
    - rewrite ren_nd_label in L. exists (LNode n). split; [constructor; exact (proj2 (label_is_ren _ _) L)|reflexivity].
    - exists (LProperty p). split; [constructor; exact (proj2 (label_is_ren _ _) L)|reflexivity].
    - destruct F as [F _]. destruct (F _ _ L) as [E1 E2]. apply Hinj in E1. rewrite E1 in L. exists y. split; [constructor; exact L|symmetry; exact E2].
  Qed.
  Lemma path_ren p d n : fixed_def d -> binds_path p d n -> binds_path p (ren_def d) (ren_node rho n).
  Proof.
    intros F H. destruct H as [n|c n H]; cbn [ren_def]; [constructor|]. destruct F as [_ F]. rewrite (F _ _ H). constructor. exact H.
  Qed.
  Lemma path_ren_inv p d m : fixed_def d -> binds_path p (ren_def d) m -> exists n, binds_path p d n /\ m = ren_node rho n.
  Proof.
    intros F H. destruct d as [q n|q|c]; cbn [ren_def] in H; inversion H as [n' E|c' n' L]; subst.
    - exists n. split; [constructor|reflexivity].
    - destruct F as [_ F]. exists m. split; [constructor; exact L|symmetry; exact (F _ _ L)].
  Qed.
  Lemma last_ren {X Y} (b : def -> X -> Prop) (b' : def -> Y -> Prop) (g : X -> Y) :
    (forall d x, fixed_def d -> b d x -> b' (ren_def d) (g x)) -> (forall d y, fixed_def d -> b' (ren_def d) y -> exists x, b d x /\ y = g x) ->
    forall ds, Forall fixed_def ds -> (forall x, last_of b ds x -> last_of b' (map ren_def ds) (g x))
      /\ (forall y, last_of b' (map ren_def ds) y -> exists x, last_of b ds x /\ y = g x).
  Proof.
    intros H1 H2 ds F. split.
    - intros x (pre & d & post & -> & Hd & Hp). apply Forall_app in F. destruct F as [_ F]. inversion F as [|? ? Fd Fp]; subst.
      exists (map ren_def pre), (ren_def d), (map ren_def post). split; [rewrite map_app; reflexivity|]. split; [exact (H1 _ _ Fd Hd)|].
      intros d' y Hin Hy. apply in_map_iff in Hin. destruct Hin as (e & <- & He). rewrite Forall_forall in Fp.
      destruct (H2 e y (Fp e He) Hy) as (z & Z & _). exact (Hp e z He Z).
    - intros y (pre & d & post & E & Hd & Hp). apply map_eq_app in E. destruct E as (pre' & r & -> & E1 & E2).
      apply map_eq_cons in E2. destruct E2 as (e & post' & -> & <- & E3). apply Forall_app in F. destruct F as [_ F]. inversion F as [|? ? Fd Fp]; subst.
      destruct (H2 e y Fd Hd) as (x & X' & ->). exists x. split; [|reflexivity]. exists pre', e, post'. split; [reflexivity|]. split; [exact X'|].
      intros d' z Hin Hz. rewrite Forall_forall in Fp. apply (Hp (ren_def d') (g z)); [apply in_map; exact Hin|]. exact (H1 _ _ (Fp _ Hin) Hz).
  Qed.
  Lemma label_means_ren ds l : Forall fixed_def ds -> (forall x, label_means ds l x -> label_means (map ren_def ds) (rho l) (ren_labeled x))
    /\ (forall y, label_means (map ren_def ds) (rho l) y -> exists x, label_means ds l x /\ y = ren_labeled x).
  Proof. apply last_ren; [exact (binds_ren l)|exact (binds_ren_inv l)]. Qed.
  Lemma path_means_ren ds p : Forall fixed_def ds -> (forall n, path_means ds p n -> path_means (map ren_def ds) p (ren_node rho n))
    /\ (forall m, path_means (map ren_def ds) p m -> exists n, path_means ds p n /\ m = ren_node rho n).
  Proof. apply last_ren; [exact (path_ren p)|exact (path_ren_inv p)]. Qed.
  Lemma opens_ren ds r p f : Forall fixed_def ds -> opens ds r p f -> opens (map ren_def ds) (ren_ref rho r) p f.
  Proof.
    intros F H. destruct H as [p n H|p H|l p n H Hl|l H]; cbn [ren_ref].
    - eapply op_path. apply (proj1 (path_means_ren ds p F)), H.
    - constructor. intros m M. apply (proj2 (path_means_ren ds p F)) in M. destruct M as (n & N & _). exact (H n N).
    - eapply op_label; [apply (proj1 (path_means_ren ds p F)), H|]. rewrite ren_nd_label. exact (proj1 (label_is_ren _ _) Hl).
    - constructor. intros p m M L. apply (proj2 (path_means_ren ds p F)) in M. destruct M as (n & N & ->). apply (H p n N).
      rewrite ren_nd_label in L. exact (proj2 (label_is_ren _ _) L).
  Qed.
  Lemma resolves_ren ds r : Forall fixed_def ds -> resolves ds r <-> resolves (map ren_def ds) (ren_ref rho r).
  Proof.
    intros F. destruct r as [l|p]; cbn [resolves ren_ref].
    - destruct (label_means_ren ds l F) as [A B]. split; [intros [x X]; eexists; exact (A x X)|]. intros [y Y]. destruct (B y Y) as (x & X & _). exists x. exact X.
    - destruct (path_means_ren ds p F) as [A B]. split; [intros [x X]; eexists; exact (A x X)|]. intros [y Y]. destruct (B y Y) as (x & X & _). exists x. exact X.
  Qed.

  Lemma node_defs_ren n : forall p, node_defs p (ren_node rho n) = map ren_def (node_defs p n).
  Proof.
    apply (node_rect' (fun n => forall p, node_defs p (ren_node rho n) = map ren_def (node_defs p n))
      (fun i => forall p, items_defs p [ren_item rho i] = map ren_def (items_defs p [i]))); try (intros; reflexivity).
    - intros l nm its e o IH p. cbn [node_defs].
      change (ren_node rho (mkNode l nm (mkPayload its e) o)) with (mkNode (ren_label rho l) nm (mkPayload (map (ren_item rho) its) e) o).
      cbn [node_defs map ren_def]. f_equal. clear - IH. fold items_defs in *. induction IH as [|i its Hd _ IHl]; [reflexivity|].
      specialize (Hd p). unfold items_defs in *. cbn [map]. destruct i as [q|n|t w|t w]; cbn [ren_item items_defs_of map] in *; try exact IHl.
      + f_equal. exact IHl.
      + rewrite map_app, IHl. f_equal. rewrite !app_nil_r in Hd. exact Hd.
    - intros n0 IH p. unfold items_defs. cbn [ren_item items_defs_of]. rewrite !app_nil_r. destruct n0. apply IH.
  Qed.
  Lemma items_defs_ren p its : items_defs p (map (ren_item rho) its) = map ren_def (items_defs p its).
  Proof.
    unfold items_defs. induction its as [|i its IH]; [reflexivity|]. cbn [map]. destruct i as [q|n|t w|t w]; cbn [ren_item items_defs_of map]; try exact IH.
    - f_equal. exact IH.
    - rewrite map_app, IH. f_equal. destruct n. apply (node_defs_ren (mkNode _ _ _ _)).
  Qed.
  Lemma ren_items p : pl_items (ren_payload rho p) = map (ren_item rho) (pl_items p).
  Proof. destruct p. reflexivity. Qed.
  Lemma def_properties_ren ds : flat_map def_properties (map ren_def ds) = map (ren_property rho) (flat_map def_properties ds).
  Proof. induction ds as [|[] ds IH]; cbn [map flat_map ren_def def_properties app]; try exact IH; [reflexivity|]. f_equal. exact IH. Qed.
  Lemma element_properties_ren p : element_properties (ren_primary rho p) = map (ren_property rho) (element_properties p).
  Proof.
    destruct p as [[]|n|r|]; try reflexivity; cbn [ren_primary element_properties rn_payload].
    - rewrite node_defs_ren. apply def_properties_ren.
    - rewrite ren_items, items_defs_ren. apply def_properties_ren.
  Qed.
  Lemma compatible_ren p : compatible_diags (ren_property rho p) = compatible_diags p.
  Proof.
    unfold compatible_diags. cbn [ren_property pr_name pr_values]. destruct (str_eq_dec _ _); [|reflexivity].
    induction (pr_values p) as [|v l IH]; [reflexivity|]. cbn [map filter]. destruct v; cbn [ren_value is_string negb map]; try exact IH; f_equal; exact IH.
  Qed.
  Lemma compatibles_ren l : flat_map compatible_diags (map (ren_property rho) l) = flat_map compatible_diags l.
  Proof. induction l as [|p l IH]; [reflexivity|]. cbn [map flat_map]. rewrite compatible_ren, IH. reflexivity. Qed.
  Lemma property_refs_ren p : property_refs (ren_property rho p) = map (ren_w (ren_ref rho)) (property_refs p).
  Proof.
    unfold property_refs. cbn [ren_property pr_values]. induction (pr_values p) as [|v l IH]; [reflexivity|]. cbn [map flat_map]. rewrite map_app, IH. f_equal.
    destruct v; try reflexivity. cbn [ren_value value_refs]. induction cells as [|c cs IHc]; [reflexivity|]. cbn [map flat_map]. rewrite map_app, IHc. f_equal.
    destruct c; reflexivity.
  Qed.
  Lemma all_references_ren ps : all_references (map (ren_primary rho) ps) = map (ren_w (ren_ref rho)) (all_references ps).
  Proof.
    unfold all_references, all_properties. induction ps as [|p ps IH]; [reflexivity|]. cbn [map flat_map]. rewrite !flat_map_app, map_app, IH. f_equal.
    rewrite element_properties_ren. induction (element_properties p) as [|q l IHl]; [reflexivity|]. cbn [map flat_map]. rewrite map_app, IHl. f_equal. apply property_refs_ren.
  Qed.
  Lemma in_ren (R : primary -> Prop) ps : (forall p, R (ren_primary rho p) <-> R p) -> (exists p, In p (map (ren_primary rho) ps) /\ R p) <-> (exists p, In p ps /\ R p).
  Proof.
    intros H. split.
    - intros (p & Hp & Rp). apply in_map_iff in Hp. destruct Hp as (q & <- & Hq). exists q. split; [exact Hq|]. apply H, Rp.
    - intros (p & Hp & Rp). exists (ren_primary rho p). split; [apply in_map, Hp|]. apply H, Rp.
  Qed.
  Lemma has_header_ren ps : has_header (map (ren_primary rho) ps) <-> has_header ps.
  Proof.
    unfold has_header. split; intros [t H].
    - apply in_map_iff in H. destruct H as (q & E & Hq). destruct q as [[]| | |]; try discriminate E. eexists. exact Hq.
    - exists t. exact (in_map (ren_primary rho) _ _ H).
  Qed.
  Lemma has_plugin_ren ps : has_plugin (map (ren_primary rho) ps) <-> has_plugin ps.
  Proof.
    unfold has_plugin. split; intros [t H].
    - apply in_map_iff in H. destruct H as (q & E & Hq). destruct q as [[]| | |]; try discriminate E. eexists. exact Hq.
    - exists t. exact (in_map (ren_primary rho) _ _ H).
  Qed.
  Lemma has_content_ren ps : has_content (map (ren_primary rho) ps) <-> has_content ps.
  Proof. unfold has_content. apply (in_ren (fun p => after_header p = true)). intros [[]| | |]; reflexivity. Qed.
  Lemma header_ren ps t es : header_diags ps t es -> header_diags (map (ren_primary rho) ps) t es.
  Proof. destruct 1; constructor; rewrite ?has_header_ren, ?has_content_ren; assumption. Qed.
  Lemma blame_ren ft ps r f es : blame ft ps r f es -> blame ft (map (ren_primary rho) ps) (ren_w (ren_ref rho) r) f es.
  Proof.
    intros H. destruct H as [|H|H]; [apply bl_found|apply bl_silent|apply (bl_report ft (map (ren_primary rho) ps) (ren_w (ren_ref rho) r))];
      unfold blames in *; rewrite has_plugin_ren; exact H.
  Qed.

  Context (fs : fsys) (pj : project) (src : fpath) (ft : file_type).
  (** the files of the project stay as they are *)
  Definition leaves_alone : Prop := forall k f c, In (k, f) (pj_files pj) -> pf_ctx f = Some c -> fixed_ctx c.
  Context (Hpj : leaves_alone).
  Lemma node_defs_fixed n p : Forall fixed_def (node_defs p n).
  Proof. eapply Forall_impl; [|apply node_defs_is]. intros [] H; [exact I|exact I|contradiction H]. Qed.
  Lemma items_defs_fixed its p : Forall fixed_def (items_defs p its).
  Proof. eapply Forall_impl; [|apply items_defs_is]. intros [] H; [exact I|exact I|contradiction H]. Qed.
  Lemma included_fixed h i ds h' es : included fs pj src h i ds h' es -> Forall fixed_def ds /\ map ren_def ds = ds.
  Proof.
    destruct 1 as [| | |p f ds es E Hc G -> _]; try (split; [constructor|reflexivity]).
    destruct (pf_ctx f) as [c|] eqn:Ec; [|split; [constructor|reflexivity]]. split; [|reflexivity]. constructor; [|constructor].
    unfold get_file in G. destruct (fs_canon fs p) as [q|]; [|discriminate]. apply m_get_in in G. exact (Hpj _ _ _ G Ec).
  Qed.
  Lemma element_ren ps ds h p dp h' es : Forall fixed_def ds -> element fs pj src ft ps ds h p dp h' es ->
    Forall fixed_def dp /\ element fs pj src ft (map (ren_primary rho) ps) (map ren_def ds) h (ren_primary rho p) (map ren_def dp) h' es.
  Proof.
    intros F H. destruct H as [t es H|t|a l|t r|s|i ds' h' es H|t r p found es H B|n|r p found es Ht H B|r Ht]; cbn [ren_primary map]; try (split; constructor; fail).
    - split; constructor. apply header_ren, H.
    - destruct (included_fixed _ _ _ _ _ H) as [A ->]. split; [exact A|]. constructor. exact H.
    - split; [constructor|]. econstructor; [|apply blame_ren, B]. cbn [ren_w wt_item]. eapply opens_ren; eassumption.
    - split; [apply node_defs_fixed|]. rewrite <- node_defs_ren. rewrite <- compatibles_ren, <- element_properties_ren. cbn [ren_primary]. constructor.
    - split; [apply items_defs_fixed|]. rewrite <- items_defs_ren, <- ren_items. rewrite <- compatibles_ren, <- element_properties_ren. cbn [ren_primary].
      apply (el_opened fs pj src ft _ _ _ (mkRefNode (ren_w (ren_ref rho) (rn_reference r)) (ren_payload rho (rn_payload r))) p found es Ht); cbn [rn_reference].
      + cbn [ren_w wt_item]. apply opens_ren; assumption.
      + apply blame_ren, B.
    - split; [apply items_defs_fixed|]. rewrite <- items_defs_ren, <- ren_items. rewrite <- compatibles_ren, <- element_properties_ren. cbn [ren_primary].
      apply (el_assumed fs pj src ft _ _ _ (mkRefNode (ren_w (ren_ref rho) (rn_reference r)) (ren_payload rho (rn_payload r))) Ht).
  Qed.
  Lemma elements_ren l : forall ps ds h ds' h' es, Forall fixed_def ds -> elements fs pj src ft ps ds h l ds' h' es ->
    Forall fixed_def ds' /\ elements fs pj src ft (map (ren_primary rho) ps) (map ren_def ds) h (map (ren_primary rho) l) (map ren_def ds') h' es.
  Proof.
    induction l as [|p l IH]; intros ps ds h ds' h' es F H.
    - apply elements_nil_inv in H. destruct H as (-> & -> & ->). split; [exact F|constructor].
    - apply elements_cons_inv in H. destruct H as (dp & k & ep & f & A & B & ->). apply (element_ren _ _ _ _ _ _ _ F) in A. destruct A as [Fp A].
      apply IH in B; [|apply Forall_app; auto]. destruct B as [F' B]. split; [exact F'|]. rewrite !map_app in B. econstructor; [exact A|exact B].
  Qed.
  Lemma references_ren ps ds : Forall fixed_def ds -> forall l es, reference_diags ft ps ds l es ->
    reference_diags ft (map (ren_primary rho) ps) (map ren_def ds) (map (ren_w (ren_ref rho)) l) es.
  Proof.
    intros F. induction 1 as [|r l found es es' Hf B _ IH]; [constructor|]. cbn [map]. econstructor; [|apply blame_ren, B|exact IH].
    rewrite Hf. cbn [ren_w wt_item]. apply resolves_ren, F.
  Qed.
End Ren.

(** ** C92 *)
(** Renaming the labels of a file by an injective function, with their references, changes nothing but the names: the diagnostics stay, and
    a new name means what the old one meant, with its labels renamed. The files of the project must not use the names concerned. *)
Theorem C92_rename : forall rho fs pj f1 f2 ft h ac1 es1 ac2 es2, project_ok pj ->
  (forall a b, rho a = rho b -> a = b) -> leaves_alone rho pj ->
  bare_file (renamed rho f1) = bare_file f2 -> fl_source f1 = fl_source f2 -> (ft = DtSource -> unambiguous fs pj f2 h) ->
  analysed fs pj f1 ft h ac1 es1 -> analysed fs pj f2 ft h ac2 es2 ->
  Forall2 says_alike es1 es2
  /\ (forall r, option_map (fun n => bare_node (ren_node rho n)) (get_referenced ac1 r) = option_map bare_node (get_referenced ac2 (ren_ref rho r)))
  /\ (forall l, option_map (fun x => bare_labeled (ren_labeled rho x)) (m_get str_eq_dec l (ac_labels ac1)) = option_map bare_labeled (m_get str_eq_dec (rho l) (ac_labels ac2))).
Proof.
  intros rho fs pj f1 f2 ft h ac1 es1 ac2 es2 Hp Hinj Hal Eb Es Hu H1 H2. unfold bare_file, renamed in Eb. cbn [fl_elements] in Eb.
  apply (analysed_spec _ _ _ _ _ _ _ Hp) in H1, H2.
  destruct H1 as (ds1 & h1 & A1 & _ & L1 & P1), H2 as (ds2 & h2 & A2 & _ & L2 & P2).
  inversion A1 as [? ? e1 v1 r1 B1 C1 D1]; subst. inversion A2 as [? ? e2 v2 r2 B2 C2 D2]; subst. rewrite Es in *.
  destruct (elements_ren rho Hinj fs pj (fl_source f2) ft Hal _ _ _ _ _ _ _ (Forall_nil _) B1) as [F B1']. cbn [map] in B1'.
  pose proof (references_ren rho Hinj ft _ _ F _ _ D1) as D1'. rewrite <- all_references_ren in D1'.
  destruct (elements_layout _ _ _ _ _ _ _ _ _ _ _ _ _ _ _ _ _ (eq_sym Eb) eq_refl (Forall2_nil _) B2 B1') as (E1' & <- & E2').
  { intros l r m k El Er Et ds' h' e' Hl. subst ft. eapply (Hu eq_refl); eassumption. }
  assert (E1 : Forall2 same_def (map (ren_def rho) ds1) ds2) by (apply same_defs_sym, E1').
  assert (E2 : Forall2 says_alike e1 e2).
  { clear - E2'. induction E2' as [|x y l m [A B] _ IH]; constructor; [|exact IH]. split; [symmetry; exact A|]. intros N. symmetry. apply B. congruence. }
  assert (EL : forall l, option_map (fun x => bare_labeled (ren_labeled rho x)) (m_get str_eq_dec l (ac_labels ac1)) = option_map bare_labeled (m_get str_eq_dec (rho l) (ac_labels ac2))).
  { intros l. destruct (m_get str_eq_dec l (ac_labels ac1)) as [x|] eqn:X.
    - apply L1 in X. apply (proj1 (label_means_ren rho Hinj ds1 l F)) in X. destruct (label_means_same _ _ _ _ E1 X) as (y & Y & E). apply L2 in Y. rewrite Y. cbn. congruence.
    - destruct (m_get str_eq_dec (rho l) (ac_labels ac2)) as [y|] eqn:Y; [|reflexivity]. apply L2 in Y.
      destruct (label_means_same _ _ _ _ E1' Y) as (x & X' & _). apply (proj2 (label_means_ren rho Hinj ds1 l F)) in X'. destruct X' as (z & Z & _). apply L1 in Z. congruence. }
  split; [|split; [|exact EL]].
  - apply Forall2_app; [exact E2|]. apply Forall2_app.
    + pose proof (has_header_same _ _ Eb) as X. pose proof (has_header_same _ _ (eq_sym Eb)) as Y. rewrite has_header_ren in X, Y.
      inversion C1; subst; inversion C2; subst; try (exfalso; intuition congruence); repeat constructor.
    + eapply references_layout; [exact Eb|exact E1|apply all_references_same, Eb|exact D1'|exact D2].
  - intros [l|p]; cbn [get_referenced ren_ref].
    + unfold get_node_by_label. specialize (EL l).
      destruct (m_get str_eq_dec l (ac_labels ac1)) as [[]|], (m_get str_eq_dec (rho l) (ac_labels ac2)) as [[]|]; try discriminate EL; try reflexivity.
      cbn in EL |- *. congruence.
    + unfold get_node_by_path. destruct (m_get npath_eq_dec p (ac_flat ac1)) as [x|] eqn:X.
      * apply P1 in X. apply (proj1 (path_means_ren rho ds1 p F)) in X. destruct (path_means_same _ _ _ _ E1 X) as (y & Y & E). apply P2 in Y. rewrite Y. cbn. congruence.
      * destruct (m_get npath_eq_dec p (ac_flat ac2)) as [y|] eqn:Y; [|reflexivity]. apply P2 in Y.
        destruct (path_means_same _ _ _ _ E1' Y) as (x & X' & _). apply (proj2 (path_means_ren rho ds1 p F)) in X'. destruct X' as (z & Z & _). apply P1 in Z. congruence.
Qed.
Print Assumptions C92_rename.

(** The same for texts that spell the renamed tokens, in whatever layout *)
Theorem C92_text : forall rho fs pj incl text text' src toks toks' f s f' s' ft h ac es ac' es', project_ok pj ->
  (forall a b, rho a = rho b -> a = b) -> leaves_alone rho pj ->
  valid_utf8 text = true -> valid_utf8 text' = true -> tokenize text src = Done toks -> tokenize text' src = Done toks' ->
  map tk_kind toks' = map (ren_kind rho) (map tk_kind toks) ->
  Forall (fun k => ~ unknown k) (map tk_kind toks) -> Forall (stays_legal rho) (map tk_kind toks) ->
  parse_text incl text src = ROk f s -> parse_text incl text' src = ROk f' s' ->
  (ft = DtSource -> unambiguous fs pj f' h) ->
  analysed fs pj f ft h ac es -> analysed fs pj f' ft h ac' es' ->
  Forall2 says_alike (ps_diags s ++ es) (ps_diags s' ++ es')
  /\ (forall r, option_map (fun n => bare_node (ren_node rho n)) (get_referenced ac r) = option_map bare_node (get_referenced ac' (ren_ref rho r)))
  /\ (forall l, option_map (fun x => bare_labeled (ren_labeled rho x)) (m_get str_eq_dec l (ac_labels ac)) = option_map bare_labeled (m_get str_eq_dec (rho l) (ac_labels ac'))).
Proof.
  intros rho fs pj incl text text' src toks toks' f s f' s' ft h ac es ac' es' Hp Hi Ha Hv Hv' Ht Ht' Hk Hn Hl Hf Hf' Hu H1 H2.
  pose proof (C92_reading rho incl text text' src src toks toks' Hv Hv' Ht Ht' Hk Hn Hl) as R. rewrite Hf, Hf' in R. destruct R as [Eb Ed].
  destruct (C92_rename rho fs pj f f' ft h ac es ac' es' Hp Hi Ha Eb) as (A & B & C); auto.
  { rewrite (parse_source _ _ _ _ _ Hv Hf), (parse_source _ _ _ _ _ Hv' Hf'). reflexivity. }
  split; [|split; [exact B|exact C]]. apply Forall2_app; [|exact A]. clear -Ed.
  revert Ed. generalize (ps_diags s'). induction (ps_diags s) as [|d l IH]; intros [|d' l'] E; try discriminate E; constructor.
  - injection E as E1 E2 _. split; [exact E1|]. intros _. exact E2.
  - apply IH. injection E as _ _ E. exact E.
Qed.
Print Assumptions C92_text.

(** two labels exchanged *)
Definition exchange (a b : str) (s : str) : str := if str_eq_dec s a then b else if str_eq_dec s b then a else s.
Lemma exchange_inj a b x y : exchange a b x = exchange a b y -> x = y.
Proof. unfold exchange. repeat destruct (str_eq_dec _ _); congruence. Qed.
Lemma legal_one c : letter c -> legal_label [c].
Proof. intros H. split; [split; [discriminate|cbn; lia]|]. split; [constructor; [left; exact H|constructor]|]. exists c, []. split; [reflexivity|left; exact H]. Qed.
Definition ex92a : str := bs "/dts-v1/; / { l: a { reg = <1 &l>; m: q = &n; }; }; &l { z { compatible = [00]; }; }; /delete-node/ &m;".
Definition ex92b : str := bs "/dts-v1/; / { m: a { reg = <1 &m>; l: q = &n; }; };
&m { z { compatible = [00]; }; }; /delete-node/ &l;".
Definition lm : str -> str := exchange (bs "l") (bs "m").
Definition kinds92 (text : str) : list error_code := fst (kinds_and_spans text).
Example C92_case : exists toks toks' f s f' s', valid_utf8 ex92a = true /\ valid_utf8 ex92b = true
  /\ tokenize ex92a (bs "a.dts") = Done toks /\ tokenize ex92b (bs "a.dts") = Done toks'
  /\ map tk_kind toks' = map (ren_kind lm) (map tk_kind toks) /\ Forall (fun k => ~ unknown k) (map tk_kind toks) /\ Forall (stays_legal lm) (map tk_kind toks)
  /\ parse_text [] ex92a (bs "a.dts") = ROk f s /\ parse_text [] ex92b (bs "a.dts") = ROk f' s'
  /\ unambiguous no_fs empty_project f' [] /\ leaves_alone lm empty_project
  /\ kinds92 ex92a = [NonStringInCompatible; UnresolvedReference; UnresolvedReference] /\ kinds92 ex92b = kinds92 ex92a.
Proof.
  assert (E : exists toks toks' f s f' s', tokenize ex92a (bs "a.dts") = Done toks /\ tokenize ex92b (bs "a.dts") = Done toks'
    /\ parse_text [] ex92a (bs "a.dts") = ROk f s /\ parse_text [] ex92b (bs "a.dts") = ROk f' s').
  { do 6 eexists. do 3 (split; [vm_compute; reflexivity|]). vm_compute. reflexivity. }
  destruct E as (toks & toks' & f & s & f' & s' & E1 & E2 & E3 & E4). exists toks, toks', f, s, f', s'.
  split; [reflexivity|]. split; [reflexivity|]. split; [exact E1|]. split; [exact E2|].
  assert (K : map tk_kind toks' = map (ren_kind lm) (map tk_kind toks) /\ Forall (fun k => ~ unknown k) (map tk_kind toks) /\ Forall (stays_legal lm) (map tk_kind toks)).
  { assert (Ll : legal_label (bs "l") /\ legal_label (bs "m") /\ legal_label (bs "n")).
    { split; [apply (legal_one 108)|split; [apply (legal_one 109)|apply (legal_one 110)]]; unfold letter; lia. }
    destruct Ll as (La & Lb & Lc).
    pose proof (f_equal (fun o => match o with Done t => t | _ => [] end) E1) as X1. pose proof (f_equal (fun o => match o with Done t => t | _ => [] end) E2) as X2. cbv beta iota in X1, X2.
    subst toks toks'. clear E1 E2 E3 E4. split; [vm_compute; reflexivity|].
    match goal with |- Forall _ ?x /\ _ => let y := eval vm_compute in x in change x with y end.
    split; repeat (apply Forall_cons; [first [intros [c X]; discriminate X|exact I|split; assumption]|]); apply Forall_nil. }
  destruct K as (K1 & K2 & K3). split; [exact K1|]. split; [exact K2|]. split; [exact K3|]. split; [exact E3|]. split; [exact E4|].
  split.
  { assert (K : match parse_text [] ex92b (bs "a.dts") with ROk f' _ => Forall no_include (fl_elements f') /\ NoDup (flat_map labels_written (fl_elements f')) | _ => False end).
    { match goal with |- ?g => let y := eval vm_compute in g in change y end. split; [repeat constructor|]. repeat constructor; cbn [In]; intuition discriminate. }
    rewrite E4 in K. apply labels_once_unambiguous; apply K. }
  split; [intros k v c []|]. split; vm_compute; reflexivity.
Qed.
(** a function that makes two names one is no renaming: here a reference that meant nothing finds a node *)
Example C92_merged : kinds92 (bs "/dts-v1/; / { l: a { q = &m; }; };") = [UnresolvedReference] /\ kinds92 (bs "/dts-v1/; / { l: a { q = &l; }; };") = [].
Proof. split; vm_compute; reflexivity. Qed.
