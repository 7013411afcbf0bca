(** Other values, and other names of properties: analysis and projects *)
From Verif Require Import Lexer LexerProofs2 LexerProofs3 Parser Utf8 Project Visitor Server Session AnalysisSpec AnalysisProofs TreeProofs PropsParser CrLfProject PropsCrLf Revalue.
From Verif Require UnlabelProject.
From Coq Require Import Lia List.
Import ListNotations.

Notation by_path := UnlabelProject.by_path.
Section Names.
Context {names : name_change}.

Definition s_labeled (x : labeled) : labeled :=
  match x with LNode n => LNode (s_node n) | LProperty p => LProperty (s_property p) end.
Definition s_labels (m : list (str * labeled)) : list (str * labeled) := map (fun kv => (fst kv, s_labeled (snd kv))) m.
Definition s_flat (m : list (npath * node)) : list (npath * node) := map (fun kv => (fst kv, s_node (snd kv))) m.
Definition s_actx (c : actx) : actx := mkActx (s_labels (ac_labels c)) (s_flat (ac_flat c)).

(** ** Tables *)
Lemma flat_insert p n m : s_flat (m_insert npath_eq_dec p n m) = m_insert npath_eq_dec p (s_node n) (s_flat m).
Proof. unfold s_flat, m_insert. cbn [map fst snd]. rewrite (UnlabelProject.map_remove npath_eq_dec s_node). reflexivity. Qed.
Lemma flat_extend m' : forall m, s_flat (m_extend npath_eq_dec m m') = m_extend npath_eq_dec (s_flat m) (s_flat m').
Proof.
  unfold m_extend. induction m' as [|[p n] m' IH]; intros m; [reflexivity|]. cbn [s_flat map fold_left fst snd].
  rewrite IH, flat_insert. reflexivity.
Qed.
Lemma labels_insert k x m : s_labels (m_insert str_eq_dec k x m) = m_insert str_eq_dec k (s_labeled x) (s_labels m).
Proof. unfold s_labels, m_insert. cbn [map fst snd]. rewrite (UnlabelProject.map_remove str_eq_dec s_labeled). reflexivity. Qed.
Lemma labels_extend m' : forall m, s_labels (m_extend str_eq_dec m m') = m_extend str_eq_dec (s_labels m) (s_labels m').
Proof.
  unfold m_extend. induction m' as [|[p n] m' IH]; intros m; [reflexivity|]. cbn [s_labels map fold_left fst snd].
  rewrite IH, labels_insert. reflexivity.
Qed.
Lemma labels_get l m : m_get str_eq_dec l (s_labels m) = option_map s_labeled (m_get str_eq_dec l m).
Proof. apply (UnlabelProject.map_get str_eq_dec s_labeled). Qed.
Lemma flat_get p m : m_get npath_eq_dec p (s_flat m) = option_map s_node (m_get npath_eq_dec p m).
Proof. apply (UnlabelProject.map_get npath_eq_dec s_node). Qed.
Lemma labels_mem l m m' : s_labels m' = s_labels m -> m_mem str_eq_dec l m' = m_mem str_eq_dec l m.
Proof.
  intros E. apply (f_equal (m_get str_eq_dec l)) in E. rewrite !labels_get in E. unfold m_mem.
  destruct (m_get str_eq_dec l m), (m_get str_eq_dec l m'); cbn [option_map] in E; congruence.
Qed.
Lemma flat_mem p m m' : s_flat m' = s_flat m -> m_mem npath_eq_dec p m' = m_mem npath_eq_dec p m.
Proof.
  intros E. apply (f_equal (m_get npath_eq_dec p)) in E. rewrite !flat_get in E. unfold m_mem.
  destruct (m_get npath_eq_dec p m), (m_get npath_eq_dec p m'); cbn [option_map] in E; congruence.
Qed.

(** ** What does not depend on the values *)
Lemma s_nd_label n : nd_label (s_node n) = nd_label n.
Proof. destruct n as [? ? [] ?]. reflexivity. Qed.
Lemma s_nd_name n : nd_name (s_node n) = nd_name n.
Proof. destruct n as [? ? [] ?]. reflexivity. Qed.
Lemma s_find_label l m : find_label l (s_flat m) = find_label l m.
Proof.
  induction m as [|[p n] m IH]; [reflexivity|]. cbn [s_flat map find_label fst snd]. unfold has_label at 1. rewrite s_nd_label.
  fold (has_label l n). destruct (has_label l n); [reflexivity|exact IH].
Qed.
Lemma s_referenced c r : get_referenced (s_actx c) r = option_map s_node (get_referenced c r).
Proof.
  destruct r as [l|p]; cbn [get_referenced].
  - unfold get_node_by_label. cbn [s_actx ac_labels]. rewrite labels_get. destruct (m_get str_eq_dec l (ac_labels c)) as [[n|q]|]; reflexivity.
  - apply flat_get.
Qed.
Lemma s_property_refs p : property_refs (s_property p) = property_refs p.
Proof.
  unfold property_refs, s_property. cbn [pr_values]. induction (pr_values p) as [|v vs IH]; [reflexivity|]. cbn [map flat_map]. rewrite IH. f_equal.
  destruct v as [w|a cs b|r|a l b]; try reflexivity. cbn [s_value value_refs]. induction cs as [|[w|r|] cs IHc]; [reflexivity|..]; cbn [map flat_map s_cell cell_refs]; rewrite IHc; reflexivity.
Qed.
Lemma s_compatible p : compatible_diags (s_property p) = compatible_diags p.
Proof.
  unfold compatible_diags. cbn [s_property pr_name pr_values].
  assert (E : wt_item (s_name (pr_name p)) = bs "compatible" <-> wt_item (pr_name p) = bs "compatible").
  { unfold s_name, str_eqb. destruct (str_eq_dec (wt_item (pr_name p)) (bs "compatible")), may_rename; cbn [andb negb wt_item]; try tauto.
    split; [discriminate|contradiction]. }
  destruct (str_eq_dec (wt_item (s_name (pr_name p))) _), (str_eq_dec (wt_item (pr_name p)) _); try reflexivity; try (exfalso; tauto).
  induction (pr_values p) as [|v vs IH]; [reflexivity|]. destruct v; cbn [map filter s_value is_string negb]; rewrite ?IH; reflexivity.
Qed.

(** ** Definitions *)
Definition s_def (d : def) : def :=
  match d with DNode p n => DNode p (s_node n) | DProperty p => DProperty (s_property p) | DInclude c => DInclude (s_actx c) end.
Lemma node_defs_s n : forall p, node_defs p (s_node n) = map s_def (node_defs p n).
Proof.
  apply (node_rect' (fun n => forall p, node_defs p (s_node n) = map s_def (node_defs p n))
    (fun i => forall p, items_defs p [s_item i] = map s_def (items_defs p [i]))); try (intros; reflexivity).
  - intros l nm its e o IH p. cbn [node_defs].
    change (s_node (mkNode l nm (mkPayload its e) o)) with (mkNode l nm (mkPayload (map s_item its) e) o).
    cbn [node_defs map s_def]. f_equal. clear - IH. fold items_defs in *. induction IH as [|i its Hd _ IHl]; [reflexivity|].
    specialize (Hd p). unfold items_defs in *. cbn [map]. destruct i as [q|n|t w|t w]; cbn [s_item items_defs_of map] in *; try exact IHl.
    + f_equal. exact IHl.
    + rewrite map_app, IHl. f_equal. rewrite !app_nil_r in Hd. exact Hd.
  - intros n0 IH p. unfold items_defs. cbn [s_item items_defs_of]. rewrite !app_nil_r. destruct n0. apply IH.
Qed.
Lemma items_defs_s p its : items_defs p (map s_item its) = map s_def (items_defs p its).
Proof.
  unfold items_defs. induction its as [|i its IH]; [reflexivity|]. cbn [map]. destruct i as [q|n|t w|t w]; cbn [s_item items_defs_of map]; try exact IH.
  - f_equal. exact IH.
  - rewrite map_app, IH. f_equal. destruct n. apply (node_defs_s (mkNode _ _ _ _)).
Qed.
Lemma s_items p : pl_items (s_payload p) = map s_item (pl_items p).
Proof. destruct p. reflexivity. Qed.

(** ** Contexts that differ in the values of the nodes and properties only *)
Record like (c c' : fctx) : Prop := mkLike {
  lk_diags : fc_diags c' = fc_diags c;
  lk_unres : fc_unres c' = fc_unres c;
  lk_flags : flags c' = flags c;
  lk_labels : s_labels (fc_labels c') = s_labels (fc_labels c);
  lk_flat : s_flat (fc_flat c') = s_flat (fc_flat c)
}.
Lemma like_grows c c' d d' es rs : like c c' -> grows c d es rs -> grows c' d' es rs ->
  s_labels (fc_labels d') = s_labels (fc_labels d) -> s_flat (fc_flat d') = s_flat (fc_flat d) -> like d d'.
Proof.
  intros [A B C _ _] (G1 & G2 & G3) (H1 & H2 & H3) L M. constructor; try assumption; congruence.
Qed.
Lemma s_tables c d :
  s_labels (fc_labels (def_step c d)) = match d with
    | DNode _ n => match nd_label n with Some w => m_insert str_eq_dec (wt_item w) (LNode (s_node n)) (s_labels (fc_labels c)) | None => s_labels (fc_labels c) end
    | DProperty p => label_insert (pr_label p) (LProperty (s_property p)) (s_labels (fc_labels c))
    | DInclude x => m_extend str_eq_dec (s_labels (fc_labels c)) (s_labels (ac_labels x))
    end
  /\ s_flat (fc_flat (def_step c d)) = match d with
    | DNode p n => m_insert npath_eq_dec p (s_node n) (s_flat (fc_flat c))
    | DProperty p => s_flat (fc_flat c)
    | DInclude x => m_extend npath_eq_dec (s_flat (fc_flat c)) (s_flat (ac_flat x))
    end.
Proof.
  destruct d as [p n|p|x]; cbn [def_step].
  - unfold define_node. destruct (nd_label n); cbn [fc_labels fc_flat set_flat set_labels]; rewrite flat_insert, ?labels_insert; auto.
  - pose proof (proj2 (property_grows c p)) as T. unfold tables in T. injection T as T1 T2. rewrite T1, T2. split; [|reflexivity].
    unfold label_insert. destruct (pr_label p); [apply labels_insert|reflexivity].
  - cbn [fc_labels fc_flat set_flat set_labels]. split; [apply labels_extend|apply flat_extend].
Qed.
Lemma like_step c c' d d' : like c c' -> s_def d' = s_def d -> like (def_step c d) (def_step c' d').
Proof.
  intros L Q. pose proof (step_grows c d) as G. pose proof (step_grows c' d') as G'.
  destruct (s_tables c d) as [T1 T2], (s_tables c' d') as [T1' T2'].
  assert (E : flat_map compatible_diags (def_properties d') = flat_map compatible_diags (def_properties d)
    /\ flat_map property_refs (def_properties d') = flat_map property_refs (def_properties d)).
  { destruct d as [p n|p|x], d' as [p' n'|p'|x']; try discriminate Q; auto. cbn [def_properties flat_map]. 
    assert (E : s_property p' = s_property p) by (cbn [s_def] in Q; congruence).
    rewrite <- (s_compatible p'), <- (s_compatible p), <- (s_property_refs p'), <- (s_property_refs p), E. auto. }
  destruct E as [E1 E2]. rewrite E1, E2 in G'. eapply like_grows; [exact L|exact G|exact G'| |]; rewrite ?T1, ?T1', ?T2, ?T2'; clear - L Q.
  - destruct d as [p n|p|x], d' as [p' n'|p'|x']; try discriminate Q; cbn [s_def] in Q.
    + assert (E : s_node n' = s_node n) by congruence. pose proof (f_equal nd_label E) as El. rewrite !s_nd_label in El.
      rewrite El, E, (lk_labels _ _ L). reflexivity.
    + assert (E : s_property p' = s_property p) by congruence. pose proof (f_equal pr_label E) as El.
      cbn [s_property pr_label] in El. rewrite El, E, (lk_labels _ _ L). reflexivity.
    + assert (E : s_actx x' = s_actx x) by congruence. pose proof (f_equal ac_labels E) as El. cbn [s_actx ac_labels] in El.
      rewrite El, (lk_labels _ _ L). reflexivity.
  - destruct d as [p n|p|x], d' as [p' n'|p'|x']; try discriminate Q; cbn [s_def] in Q.
    + assert (E : s_node n' = s_node n) by congruence. assert (E2 : p' = p) by congruence. rewrite E, E2, (lk_flat _ _ L). reflexivity.
    + apply L.
    + assert (E : s_actx x' = s_actx x) by congruence. pose proof (f_equal ac_flat E) as El. cbn [s_actx ac_flat] in El.
      rewrite El, (lk_flat _ _ L). reflexivity.
Qed.
Lemma like_steps ds : forall ds' c c', like c c' -> map s_def ds' = map s_def ds -> like (fold_left def_step ds c) (fold_left def_step ds' c').
Proof.
  induction ds as [|d ds IH]; intros [|d' ds'] c c' L E; try discriminate E; [exact L|]. cbn [map] in E.
  assert (E1 : s_def d' = s_def d) by congruence. assert (E2 : map s_def ds' = map s_def ds) by congruence.
  cbn [fold_left]. apply IH; [|exact E2]. apply like_step; assumption.
Qed.
Lemma like_diag c c' d : like c c' -> like (add_diag d c) (add_diag d c').
Proof. intros [A B D E F]. constructor; cbn [add_diag fc_diags fc_unres fc_labels fc_flat]; try assumption; try congruence. Qed.
Lemma like_fields c c' : like c c' -> fc_type c' = fc_type c /\ fc_plugin c' = fc_plugin c
  /\ fc_first_non_include c' = fc_first_non_include c /\ fc_header c' = fc_header c.
Proof. intros L. pose proof (lk_flags _ _ L) as H. unfold flags in H. injection H as A B C D. auto. Qed.
Lemma like_unresolved c c' r : like c c' -> like (unresolved_error r c) (unresolved_error r c').
Proof.
  intros L. unfold unresolved_error. destruct (like_fields _ _ L) as (-> & -> & _). destruct (_ && _); [apply like_diag|]; exact L.
Qed.
Lemma like_set (f : fctx -> fctx) c c' : (forall x, fc_diags (f x) = fc_diags x /\ fc_unres (f x) = fc_unres x /\ fc_labels (f x) = fc_labels x /\ fc_flat (f x) = fc_flat x) ->
  flags (f c') = flags (f c) -> like c c' -> like (f c) (f c').
Proof.
  intros H E [A B D G K]. destruct (H c) as (P & Q & R & S), (H c') as (P' & Q' & R' & S').
  constructor; try congruence.
Qed.
Lemma like_header c c' : like c c' -> like (set_header c) (set_header c').
Proof. intros L. apply like_set; [auto| |exact L]. destruct (like_fields _ _ L) as (A & B & C & D). unfold flags. cbn. congruence. Qed.
Lemma like_plugin c c' : like c c' -> like (set_plugin c) (set_plugin c').
Proof. intros L. apply like_set; [auto| |exact L]. destruct (like_fields _ _ L) as (A & B & C & D). unfold flags. cbn. congruence. Qed.
Lemma like_first c c' : like c c' -> like (set_first_non_include c) (set_first_non_include c').
Proof. intros L. apply like_set; [auto| |exact L]. destruct (like_fields _ _ L) as (A & B & C & D). unfold flags. cbn. congruence. Qed.

Lemma like_resolve o r a c c' : by_path o -> like c c' ->
  fst (resolve_reference o r a c') = fst (resolve_reference o r a c)
  /\ fst (snd (resolve_reference o r a c')) = fst (snd (resolve_reference o r a c))
  /\ like (snd (snd (resolve_reference o r a c))) (snd (snd (resolve_reference o r a c'))).
Proof.
  intros B L. unfold resolve_reference. destruct (wt_item r) as [l|p].
  - assert (E : find_label l (o_flat o (an_tick a) (fc_flat c')) = find_label l (o_flat o (an_tick a) (fc_flat c))).
    { rewrite <- (s_find_label l (o_flat o (an_tick a) (fc_flat c'))), <- (s_find_label l (o_flat o (an_tick a) (fc_flat c))).
      unfold s_flat. rewrite <- !(B _ s_node). fold (s_flat (fc_flat c')). fold (s_flat (fc_flat c)). rewrite (lk_flat _ _ L). reflexivity. }
    rewrite E. clear E. destruct (find_label l _); cbn [fst snd]; split; auto. split; [reflexivity|]. apply like_unresolved, L.
  - cbn [fst snd]. split; [reflexivity|]. split; [reflexivity|]. rewrite (flat_mem _ _ _ (lk_flat _ _ L)).
    destruct (m_mem npath_eq_dec p (fc_flat c)); [exact L|apply like_unresolved, L].
Qed.
Lemma like_payload pl pl' path c c' : like c c' -> s_payload pl' = s_payload pl -> like (analyze_payload pl path c) (analyze_payload pl' path c').
Proof.
  intros L E. rewrite !payload_all. apply like_steps; [exact L|]. rewrite <- !items_defs_s, <- !s_items, E. reflexivity.
Qed.

(** ** Projects *)
Record pf_like (f f' : pfile) : Prop := mkPfLike {
  pk_pdiags : pf_pdiags f' = pf_pdiags f;
  pk_adiags : pf_adiags f' = pf_adiags f;
  pk_file : option_map s_file (pf_file f') = option_map s_file (pf_file f);
  pk_ctx : option_map s_actx (pf_ctx f') = option_map s_actx (pf_ctx f);
  pk_type : pf_type f' = pf_type f
}.
Notation alike := (Forall2 (entry_alike pf_like)).
Lemma alike_get l l' p : alike l l' ->
  match m_get str_eq_dec p l, m_get str_eq_dec p l' with
  | Some f, Some f' => pf_like f f'
  | None, None => True
  | _, _ => False
  end.
Proof.
  induction 1 as [|[k v] [k' v'] l l' [E S] _ IH]; [exact I|]. cbn [fst snd] in E, S. subst k'.
  cbn [m_get]. destruct (str_eq_dec p k); [exact S|exact IH].
Qed.
Lemma alike_mem l l' p : alike l l' -> m_mem str_eq_dec p l' = m_mem str_eq_dec p l.
Proof.
  intros H. pose proof (alike_get _ _ p H) as G. unfold m_mem.
  destruct (m_get str_eq_dec p l), (m_get str_eq_dec p l'); auto; contradiction.
Qed.
Lemma alike_remove l l' p : alike l l' -> alike (m_remove str_eq_dec p l) (m_remove str_eq_dec p l').
Proof.
  induction 1 as [|[k v] [k' v'] l l' [E S] _ IH]; [constructor|]. cbn [fst snd] in E, S. subst k'.
  unfold m_remove in *. cbn [filter fst]. destruct (str_eq_dec p k); [exact IH|].
  constructor; [split; [reflexivity|exact S]|exact IH].
Qed.
Lemma alike_insert l l' p f f' : alike l l' -> pf_like f f' ->
  alike (m_insert str_eq_dec p f l) (m_insert str_eq_dec p f' l').
Proof.
  intros H S. unfold m_insert. constructor; [split; [reflexivity|exact S]|]. apply alike_remove, H.
Qed.
Lemma alike_update l l' k v v' : alike l l' -> pf_like v v' ->
  alike (m_update k v l) (m_update k v' l').
Proof.
  intros H S. unfold m_update. induction H as [|[x w] [x' w'] l l' [E T] _ IH]; [constructor|].
  cbn [fst snd] in E, T. subst x'. cbn [map fst]. constructor; [|exact IH].
  destruct (str_eq_dec k x); split; cbn; auto.
Qed.
Definition like_project (pj pj' : project) : Prop :=
  alike (pj_files pj) (pj_files pj') /\ pj_incl pj' = pj_incl pj /\ pj_sev pj' = pj_sev pj.



(** [t'] is [t] with other numbers, bytes and strings, where [t] is without syntax errors; or it is [t] *)
Definition other_values (t t' : list N) : Prop := valid_utf8 t = true
  /\ (t' = t \/ (parses_cleanly t /\ valid_utf8 t' = true
     /\ forall src, exists toks toks', tokenize t src = Done toks /\ tokenize t' src = Done toks' /\ revalued Plain toks toks')).
Lemma other_parse t t' incl src : other_values t t' ->
  match parse_text incl t src, parse_text incl t' src with
  | ROk f s, ROk f' s' => s_file f' = s_file f /\ ps_diags s' = ps_diags s
  | RErr d _, RErr d' _ => d' = d
  | _, _ => False
  end.
Proof.
  intros [V [-> | (P & V' & T)]].
  - destruct (C09_parse_total incl t src V) as [(f & s & E) | (d & s & E)]; rewrite E; auto.
  - destruct (P incl src) as (f & s & E & D). destruct (T src) as (toks & toks' & T1 & T2 & R).
    destruct (rv_parse incl src t t' toks toks' f s V V' T1 T2 R E D) as (f' & s' & E' & D' & Q).
    rewrite E, E'. split; [exact Q|congruence].
Qed.
Definition disk_other_values (fs fs' : fsys) : Prop :=
  (forall p, fs_canon fs' p = fs_canon fs p)
  /\ forall p, match read_to_string fs p, read_to_string fs' p with
               | inl t, inl t' => other_values t t'
               | inr e, inr e' => e' = e
               | _, _ => False
               end.

Lemma includes_s f : includes_of (s_file f) = includes_of f.
Proof.
  unfold includes_of, s_file. cbn [fl_elements]. induction (fl_elements f) as [|p l IH]; [reflexivity|].
  cbn [map fold_right]. rewrite IH. destruct p as [[]| | |]; reflexivity.
Qed.
Lemma includes_same f f' : s_file f' = s_file f -> includes_of f' = includes_of f.
Proof. intros E. rewrite <- (includes_s f'), E. apply includes_s. Qed.

(** the item at a position *)
Lemma property_at_s c p : property_at c (s_property p) = property_at c p.
Proof.
  unfold property_at. cbn [s_property pr_label pr_values]. destruct (label_at (pr_label p) c); [reflexivity|].
  induction (pr_values p) as [|v vs IH]; [reflexivity|]. cbn [map find_map]. rewrite IH.
  assert (E : value_at c (s_value v) = value_at c v); [|rewrite E; reflexivity].
  destruct v as [w|a cs b|r|a l b]; try reflexivity. cbn [s_value value_at].
  induction cs as [|[w|r|] cs IHc]; [reflexivity|..]; cbn [map find_map s_cell cell_at]; rewrite IHc; reflexivity.
Qed.
Lemma node_at_s c n : node_at c (s_node n) = node_at c n.
Proof.
  apply (node_rect' (fun n => node_at c (s_node n) = node_at c n) (fun i => nitem_at c (s_item i) = nitem_at c i)); try (intros; reflexivity).
  - intros l nm its e o IH.
    change (s_node (mkNode l nm (mkPayload its e) o)) with (mkNode l nm (mkPayload (map s_item its) e) o).
    cbn [node_at]. destruct (label_at l c); [reflexivity|]. cbn [payload_at].
    induction IH as [|i its Hd _ IHl]; [reflexivity|]. cbn [map]. rewrite Hd, IHl. reflexivity.
  - intros p. apply property_at_s.
  - intros n0 IH. exact IH.
Qed.
Lemma payload_at_s c p : payload_at c (s_payload p) = payload_at c p.
Proof. exact (node_at_s c (mkNode None (mkWT (mkNN [] None) (pl_end p)) p None)). Qed.
Lemma at_s f c : file_at (s_file f) c = file_at f c.
Proof.
  unfold file_at, s_file. cbn [fl_elements]. induction (fl_elements f) as [|p l IH]; [reflexivity|]. cbn [map find_map]. rewrite IH.
  destruct p as [[]|n|r|s]; cbn [s_primary primary_at]; try reflexivity; [rewrite node_at_s; reflexivity|].
  unfold ref_node_at. cbn [rn_reference rn_payload]. rewrite payload_at_s. reflexivity.
Qed.
(** the outline, without the names of properties if they may change *)
Fixpoint unnamed (s : symbol) : symbol :=
  match s with mkSym n k d r x c => mkSym (match k with SkProperty => [] | _ => n end) k d r x (option_map (map unnamed) c) end.
Definition view (s : symbol) : symbol := if may_rename then unnamed s else s.
Lemma s_name_span w : wt_span (s_name w) = wt_span w.
Proof. unfold s_name. destruct (_ && _); reflexivity. Qed.
Lemma property_symbol_s p : view (item_symbol (IProperty (s_property p))) = view (item_symbol (IProperty p)).
Proof.
  cbn [item_symbol]. unfold prop_span, view. cbn [s_property pr_name pr_label pr_end]. rewrite s_name_span.
  destruct may_rename eqn:E; [reflexivity|]. unfold s_name. rewrite E. reflexivity.
Qed.
Lemma view_sym n k d r x c : k <> SkProperty -> view (mkSym n k d r x (Some c)) = mkSym n k d r x (Some (map view c)).
Proof.
  intros K. unfold view. destruct may_rename; [|rewrite map_id; reflexivity]. cbn [unnamed option_map]. destruct k; [congruence|reflexivity..].
Qed.
Lemma node_symbol_s n : view (node_symbol (s_node n)) = view (node_symbol n).
Proof.
  apply (node_rect' (fun n => view (node_symbol (s_node n)) = view (node_symbol n)) (fun i => view (item_symbol (s_item i)) = view (item_symbol i)));
    try (intros; reflexivity).
  - intros l nm its e o IH.
    change (s_node (mkNode l nm (mkPayload its e) o)) with (mkNode l nm (mkPayload (map s_item its) e) o).
    cbn [node_symbol]. unfold node_span. cbn [nd_label nd_name nd_payload pl_end payload_symbols]. rewrite !view_sym by discriminate. do 2 f_equal.
    induction IH as [|i its Hd _ IHl]; [reflexivity|]. cbn [map]. rewrite Hd, IHl. reflexivity.
  - intros p. apply property_symbol_s.
  - intros n0 IH. exact IH.
Qed.
Lemma payload_symbols_s p : map view (payload_symbols (s_payload p)) = map view (payload_symbols p).
Proof.
  pose proof (node_symbol_s (mkNode None (mkWT (mkNN [] None) (pl_end p)) p None)) as H.
  cbn [s_node node_symbol] in H. rewrite !view_sym in H by discriminate. apply (f_equal sy_children) in H.
  cbn [sy_children] in H. injection H as H. exact H.
Qed.
Lemma symbols_s f : map view (file_symbols (s_file f)) = map view (file_symbols f).
Proof.
  unfold file_symbols, s_file. cbn [fl_elements]. induction (fl_elements f) as [|p l IH]; [reflexivity|]. cbn [map Server.filter_map].
  destruct p as [[]|n|r|s]; cbn [s_primary primary_symbol map]; rewrite ?IH; try reflexivity; [rewrite node_symbol_s; reflexivity|].
  unfold ref_node_span. cbn [rn_reference rn_payload]. rewrite !view_sym, payload_symbols_s by discriminate. destruct (rn_payload r). reflexivity.
Qed.

Section Disks.
Context (fs fs' : fsys) (SD : disk_other_values fs fs').
Lemma u_canon p : fs_canon fs' p = fs_canon fs p.
Proof. apply SD. Qed.
Lemma u_include i : include_path fs' i = include_path fs i.
Proof.
  unfold include_path.
  assert (G : forall ds n, resolve_in fs' ds n = resolve_in fs ds n).
  { induction ds as [|d ds IH]; intros n; [reflexivity|]. cbn [resolve_in]. rewrite u_canon, IH. reflexivity. }
  rewrite G, u_canon. reflexivity.
Qed.

Lemma parse_like fl incl : forall name t t' ft l l',
  other_values t t' -> alike l l' ->
  orel alike (parse_file fl fs incl name t ft l) (parse_file fl fs' incl name t' ft l').
Proof.
  induction fl as [|fl IH]; intros name t t' ft l l' W H; cbn [parse_file]; [exact I|].
  pose proof (other_parse t t' (include_dirs incl name) name W) as P.
  destruct (parse_text (include_dirs incl name) t name) as [f s|d s| |],
    (parse_text (include_dirs incl name) t' name) as [f' s'|d' s'| |]; try contradiction.
  - destruct P as (Ef & Ps). rewrite (includes_same _ _ Ef).
    eapply orel_bind with (R := fun x y => fst y = fst x /\ alike (snd x) (snd y)).
    + rewrite Ps. generalize (ps_diags s) as ds.
      assert (H1 : alike (m_insert str_eq_dec name pf_default l) (m_insert str_eq_dec name pf_default l')).
      { apply alike_insert; [exact H|]. constructor; reflexivity. }
      revert H1. generalize (m_insert str_eq_dec name pf_default l) as c.
      generalize (m_insert str_eq_dec name pf_default l') as c'.
      induction (includes_of f) as [|i js IHi]; intros c' c H1 ds; [cbn; auto|].
      rewrite u_include. destruct (include_path fs i) as [p|e]; [|apply IHi, H1].
      rewrite (alike_mem _ _ p H1). destruct (m_mem str_eq_dec p c); [apply IHi, H1|].
      pose proof (proj2 SD p) as Rd.
      destruct (read_to_string fs p) as [t1|e1] eqn:R1, (read_to_string fs' p) as [t2|e2] eqn:R2;
        try contradiction.
      * eapply orel_bind.
        -- apply IH; [exact Rd|exact H1].
        -- intros a a' Ha. apply IHi, Ha.
      * subst e2. apply IHi, H1.
    + intros [ds c] [ds' c'] [E Hc]. cbn [fst snd] in E, Hc. subst ds'. cbn [orel].
      apply alike_insert; [exact Hc|]. constructor; try reflexivity. cbn. rewrite Ef. reflexivity.
  - subst d'. cbn [orel]. apply alike_insert; [exact H|]. constructor; reflexivity.
Qed.

Lemma like_includer l l' : alike l l' -> includer_map fs' l' = includer_map fs l.
Proof.
  unfold includer_map. generalize (@nil (fpath * list fpath)) as m. intros m H. revert m.
  induction H as [|[k v] [k' v'] l l' [E S] _ IH]; intros m; [reflexivity|].
  cbn [fst snd] in E, S. subst k'. cbn [fold_left fst snd].
  pose proof (pk_file _ _ S) as F.
  assert (R : forall f f', s_file f' = s_file f -> resolved_includes fs' f' = resolved_includes fs f).
  { intros f f' Q. unfold resolved_includes. rewrite (includes_same _ _ Q). induction (includes_of f) as [|i js IHi]; [reflexivity|].
    cbn [fold_right]. rewrite u_include, IHi. reflexivity. }
  destruct (pf_file v) as [f|], (pf_file v') as [f'|]; cbn [option_map] in F; try discriminate F; [|apply IH].
  rewrite (R f f') by congruence. apply IH.
Qed.
Lemma like_order o l l' : by_name (o_files o) -> alike l l' ->
  compute_key_order o fs' l' = compute_key_order o fs l.
Proof.
  intros B H. unfold compute_key_order. apply B in H.
  rewrite (like_includer _ _ H), (alike_keys _ _ _ H). reflexivity.
Qed.
Lemma like_get pj pj' p : like_project pj pj' ->
  match get_file fs pj p, get_file fs' pj' p with
  | Some f, Some f' => pf_like f f'
  | None, None => True
  | _, _ => False
  end.
Proof.
  intros (H & _ & _). unfold get_file. rewrite u_canon.
  destruct (fs_canon fs p); [apply alike_get, H|exact I].
Qed.



(** ** The analysis of a file *)
Definition state_like (x y : analysis * fctx) : Prop := fst y = fst x /\ like (snd x) (snd y).
Lemma like_analyze_include o pj pj' file file' i a c c' : like_project pj pj' -> fl_source file' = fl_source file -> like c c' ->
  orel state_like (analyze_include o fs pj file i a c) (analyze_include o fs' pj' file' i a c').
Proof.
  intros H Es L. unfold analyze_include. rewrite u_include, Es.
  destruct (include_path fs i) as [p|e]; [|split; [reflexivity|]; apply like_diag, L].
  destruct (guard_add str_eq_dec (o_guard o (an_tick a)) p [fl_source file] (an_guard a)) as [[r g]| |];
    cbn [obind orel]; auto.
  destruct r as [cy|]; [split; [reflexivity|]; apply like_diag, L|].
  pose proof (like_get _ _ p H) as G.
  destruct (get_file fs pj p) as [f|], (get_file fs' pj' p) as [f'|]; try contradiction; [|split; [reflexivity|exact L]].
  assert (X : has_errors (pj_sev pj') f' = has_errors (pj_sev pj) f).
  { unfold has_errors, pf_diags. rewrite (pk_pdiags _ _ G), (pk_adiags _ _ G), (proj2 (proj2 H)). reflexivity. }
  rewrite X. pose proof (pk_ctx _ _ G) as K.
  assert (M : like (if has_errors (pj_sev pj) f then add_diag (diag_new (include_span i) (include_source i) ErrorsInInclude (bs "Included file contains errors")) c else c)
    (if has_errors (pj_sev pj) f then add_diag (diag_new (include_span i) (include_source i) ErrorsInInclude (bs "Included file contains errors")) c' else c')).
  { destruct (has_errors (pj_sev pj) f); [apply like_diag|]; exact L. }
  destruct (pf_ctx f) as [ac|], (pf_ctx f') as [ac'|]; cbn [option_map] in K; try discriminate K; (split; [reflexivity|]); [|exact M].
  assert (Q : s_def (DInclude ac') = s_def (DInclude ac)) by (cbn [s_def]; congruence).
  exact (like_step _ _ (DInclude ac) (DInclude ac') M Q).
Qed.
Lemma like_primary o pj pj' file file' p p' a c c' : by_path o -> like_project pj pj' -> fl_source file' = fl_source file -> like c c' ->
  s_primary p' = s_primary p ->
  orel state_like (analyze_primary o fs pj file p a c) (analyze_primary o fs' pj' file' p' a c').
Proof.
  intros B H Es L E. destruct p as [d|n|r|s], p' as [d'|n'|r'|s']; try (destruct d; discriminate E); try (destruct d'; discriminate E); try discriminate E; cbn [s_primary] in E.
  - assert (d' = d \/ exists x y x' y', d = AMemreserve x y /\ d' = AMemreserve x' y').
    { destruct d, d'; try discriminate E; try (right; eexists _, _, _, _; split; reflexivity); left; injection E; intros; subst; reflexivity. }
    destruct H0 as [->|(x & y & x' & y' & -> & ->)]; [|split; [reflexivity|]; apply like_first, L].
    destruct d as [t|t|x y|i|t r|t r]; cbn [analyze_primary].
    + split; [reflexivity|]. destruct (like_fields _ _ L) as (_ & _ & -> & ->). cbn [snd].
      apply like_header. destruct (fc_header c); [apply like_diag, L|]. destruct (fc_first_non_include c); [apply like_diag|]; exact L.
    + split; [reflexivity|]. apply like_plugin, like_first, L.
    + split; [reflexivity|]. apply like_first, L.
    + apply like_analyze_include; assumption.
    + destruct (like_resolve o r a c c' B L) as (_ & E2 & E3). split; [exact E2|exact E3].
    + split; [reflexivity|]. apply like_first, L.
  - cbn [analyze_primary]. split; [reflexivity|]. cbn [snd]. apply like_first. rewrite !(proj1 steps_all). apply like_steps; [exact L|].
    rewrite <- !node_defs_s. congruence.
  - assert (E1 : rn_reference r' = rn_reference r) by congruence. assert (E2 : s_payload (rn_payload r') = s_payload (rn_payload r)) by congruence.
    cbn [analyze_primary]. unfold analyze_referenced_node. destruct (like_fields _ _ L) as (-> & _). rewrite E1. destruct (file_type_eqb (fc_type c) DtSource).
    + destruct (like_resolve o (rn_reference r) a c c' B L) as (F1 & F2 & F3).
      destruct (resolve_reference o (rn_reference r) a c) as [p [a1 c1]], (resolve_reference o (rn_reference r) a c') as [p' [a1' c1']].
      cbn [fst snd] in *. subst p' a1'. split; [reflexivity|]. cbn [snd]. apply like_first, like_payload; assumption.
    + split; [reflexivity|]. cbn [snd]. apply like_first, like_payload; assumption.
  - split; [reflexivity|exact L].
Qed.
Lemma like_analyze_file o pj pj' file file' ft a : by_path o -> like_project pj pj' -> s_file file' = s_file file ->
  orel (fun x y => s_actx (fst (fst y)) = s_actx (fst (fst x)) /\ snd (fst y) = snd (fst x) /\ snd y = snd x)
    (analyze_file o fs pj file ft a) (analyze_file o fs' pj' file' ft a).
Proof.
  intros B H E. unfold analyze_file.
  assert (Es : fl_source file' = fl_source file) by exact (f_equal fl_source E).
  assert (Ee : map s_primary (fl_elements file') = map s_primary (fl_elements file)) by exact (f_equal fl_elements E).
  assert (G : forall ps ps' a c c', map s_primary ps' = map s_primary ps -> like c c' ->
    orel state_like (analyze_primaries o fs pj file ps a c) (analyze_primaries o fs' pj' file' ps' a c')).
  { induction ps as [|p ps IH]; intros [|p' ps'] b c c' K L; try discriminate K; cbn [analyze_primaries]; [split; [reflexivity|exact L]|].
    cbn [map] in K. assert (K1 : s_primary p' = s_primary p) by congruence. assert (K2 : map s_primary ps' = map s_primary ps) by congruence.
    eapply orel_bind; [apply (like_primary o pj pj' file file'); eassumption|].
    intros [x1 x2] [y1 y2] [E1 E2]. cbn [fst snd] in *. subst y1. apply IH; assumption. }
  eapply orel_bind.
  - apply G; [exact Ee|]. constructor; reflexivity.
  - intros [x c] [y c'] [Ex L]. cbn [fst snd] in *. subst y. cbn [orel].
    assert (L2 : like (check_header file c) (check_header file' c')).
    { unfold check_header. rewrite Es. destruct (like_fields _ _ L) as (-> & _ & _ & ->). destruct (_ && _); [apply (like_diag _ _ _ L)|exact L]. }
    assert (R : forall rs d d', like d d' -> like (fold_left resolve_one rs d) (fold_left resolve_one rs d')).
    { induction rs as [|r rs IH]; intros d d' M; [exact M|]. cbn [fold_left]. apply IH.
      unfold resolve_one. destruct (wt_item r) as [l|p].
      - rewrite (labels_mem _ _ _ (lk_labels _ _ M)). destruct (m_mem str_eq_dec l (fc_labels d)); [exact M|apply like_unresolved, M].
      - rewrite (flat_mem _ _ _ (lk_flat _ _ M)). destruct (m_mem npath_eq_dec p (fc_flat d)); [exact M|apply like_unresolved, M]. }
    unfold resolve_references. rewrite (lk_unres _ _ L2).
    pose proof (R (fc_unres (check_header file c)) _ _ L2) as M. cbn [fst snd]. split; [|split; [apply (lk_diags _ _ M)|reflexivity]].
    unfold s_actx. cbn [ac_labels ac_flat]. rewrite (lk_labels _ _ M), (lk_flat _ _ M). reflexivity.
Qed.
Lemma like_analyze_keys o keys : by_path o -> forall a pj pj', like_project pj pj' ->
  orel like_project (analyze_keys o fs keys a pj) (analyze_keys o fs' keys a pj').
Proof.
  intros B. induction keys as [|k keys IH]; intros a pj pj' H; cbn [analyze_keys]; [exact H|].
  pose proof (alike_get _ _ k (proj1 H)) as G.
  destruct (m_get str_eq_dec k (pj_files pj)) as [f|], (m_get str_eq_dec k (pj_files pj')) as [f'|];
    try contradiction; [|exact I].
  rewrite (pk_type _ _ G). pose proof (pk_file _ _ G) as F.
  destruct (pf_file f) as [file|] eqn:Ef, (pf_file f') as [file'|] eqn:Ef'; cbn [option_map] in F; try discriminate F; [|apply IH, H].
  assert (F2 : s_file file' = s_file file) by congruence.
  eapply orel_bind; [apply like_analyze_file; [exact B|exact H|exact F2]|].
  intros [[ac es] a1] [[ac' es'] a1'] (E1 & E2 & E3). cbn [fst snd] in *. subst es' a1'.
  apply IH. destruct H as (H1 & H2 & H3). split; [|split; assumption].
  cbn [pj_files set_files]. apply alike_update; [exact H1|].
  unfold store_result. constructor; cbn [pf_pdiags pf_adiags pf_file pf_ctx pf_type fst snd option_map]; try apply G; try reflexivity.
  congruence.
Qed.
Lemma like_add_text fuel o name t t' ft pj pj' : by_name (o_files o) -> by_path (o_an o) ->
  other_values t t' -> like_project pj pj' ->
  orel like_project (add_file_with_text fuel o fs name t ft pj) (add_file_with_text fuel o fs' name t' ft pj').
Proof.
  intros B Bp W (H1 & H2 & H3). unfold add_file_with_text. rewrite u_canon, H2.
  destruct (fs_canon fs name) as [p|e]; [|exact I].
  eapply orel_bind; [apply parse_like; eassumption|]. intros l l' Hl.
  eapply orel_bind; [apply orel_eq; apply (like_order o _ _ B Hl)|]. intros ks ks' <-.
  apply like_analyze_keys; [exact Bp|]. split; [exact Hl|]. split; assumption.
Qed.
Lemma like_add fuel o name pj pj' : by_name (o_files o) -> by_path (o_an o) -> like_project pj pj' ->
  orel (fun x y => match x, y with
                   | inl e, inl e' => e' = e
                   | inr a, inr b => like_project a b
                   | _, _ => False
                   end)
    (add_file fuel o fs name pj) (add_file fuel o fs' name pj').
Proof.
  intros B Bp H. unfold add_file. rewrite u_canon. destruct (fs_canon fs name) as [p|e]; [|reflexivity].
  pose proof (proj2 SD p) as Rd.
  destruct (read_to_string fs p) as [t1|e1] eqn:R1, (read_to_string fs' p) as [t2|e2] eqn:R2;
    try contradiction; [|exact Rd].
  eapply orel_bind; [apply like_add_text; try eassumption|].
  intros a a' Ha. exact Ha.
Qed.
Lemma like_include_paths ps pj pj' : like_project pj pj' ->
  like_project (set_include_paths fs ps pj) (set_include_paths fs' ps pj').
Proof.
  intros (H1 & H2 & H3). split; [exact H1|]. split; [|exact H3]. cbn.
  apply map_ext. intros p. rewrite u_canon. reflexivity.
Qed.

(** ** The server *)
Definition like_server (sv sv' : server) : Prop :=
  like_project (sv_project sv) (sv_project sv') /\ sv_sent sv' = sv_sent sv.
Definition note_other_values (n n' : note) : Prop :=
  match n, n' with
  | NInitialize d, NInitialize d' | NConfigure d, NConfigure d' => d' = d
  | NOpen u t, NOpen u' t' => u' = u /\ other_values t t'
  | NChange u ts, NChange u' ts' => u' = u /\ Forall2 (other_values) ts ts'
  | NClose u, NClose u' => u' = u
  | _, _ => False
  end.
Lemma like_diagnostics pj pj' p : like_project pj pj' ->
  get_diagnostics fs' pj' p = get_diagnostics fs pj p.
Proof.
  intros H. pose proof (like_get _ _ p H) as G. unfold get_diagnostics.
  destruct (get_file fs pj p) as [f|], (get_file fs' pj' p) as [f'|]; try contradiction; [|reflexivity].
  unfold pf_diags. rewrite (pk_pdiags _ _ G), (pk_adiags _ _ G). reflexivity.
Qed.
Lemma like_publish ok sv sv' : like_server sv sv' ->
  orel like_server (publish ok fs sv) (publish ok fs' sv').
Proof.
  intros [H E]. unfold publish. rewrite (alike_keys _ _ _ (proj1 H)), E.
  assert (G : forall l, publish_all fs' (sv_project sv') l = publish_all fs (sv_project sv) l).
  { induction l as [|f l IH]; [reflexivity|]. cbn [publish_all].
    rewrite IH, (like_diagnostics _ _ f H). reflexivity. }
  rewrite G. destruct (publish_all fs (sv_project sv) _) as [ps| |]; cbn [obind orel]; auto.
  split; [exact H|reflexivity].
Qed.
Lemma like_remove p pj pj' : like_project pj pj' ->
  like_project (remove_file fs p pj) (remove_file fs' p pj').
Proof.
  intros H. unfold remove_file. rewrite u_canon. destruct (fs_canon fs p); [|exact H].
  destruct H as (H1 & H2 & H3). split; [|split; assumption]. apply alike_remove, H1.
Qed.
Lemma like_handle fuel o ok n n' sv sv' : by_name (o_files o) -> by_path (o_an o) -> note_other_values n n' -> like_server sv sv' ->
  orel like_server (handle fuel o ok fs n sv) (handle fuel o ok fs' n' sv').
Proof.
  intros B Bp N [H E].
  assert (C : forall d, like_server (mkServer (set_include_paths fs d (sv_project sv)) (sv_sent sv))
                          (mkServer (set_include_paths fs' d (sv_project sv')) (sv_sent sv'))).
  { intros d. split; [apply like_include_paths; assumption|exact E]. }
  assert (T : forall u t t', other_values t t' ->
    orel like_server (did_open fuel o ok fs u t sv) (did_open fuel o ok fs' u t' sv')).
  { intros u t t' F. unfold did_open. destruct (to_file_path u) as [p|]; [|split; assumption].
    eapply orel_bind; [apply like_add_text; eassumption|]. intros a a' Ha.
    apply like_publish. split; assumption. }
  destruct n as [d|d|u t|u ts|u], n' as [d'|d'|u' t'|u' ts'|u']; cbn [note_other_values] in N; try contradiction;
    cbn [handle].
  - subst d'. apply C.
  - subst d'. apply like_publish, C.
  - destruct N as [-> F]. apply T; assumption.
  - destruct N as [-> F]. unfold did_change. destruct F as [|t t' ts ts' F _].
    + destruct (to_file_path u); [exact I|]. split; assumption.
    + apply (T u t t'); assumption.
  - subst u'. cbn [orel]. unfold did_close. destruct (to_file_path u); [|split; assumption].
    split; [apply like_remove, H|exact E].
Qed.


Lemma like_answers sv sv' u c : like_server sv sv' ->
  goto_definition fs' u c sv' = goto_definition fs u c sv /\ hover fs' u c sv' = hover fs u c sv
  /\ option_map (map view) (document_symbol fs' u sv') = option_map (map view) (document_symbol fs u sv).
Proof.
  intros [H _]. unfold goto_definition, hover, document_symbol. destruct (to_file_path u) as [p|]; [|auto].
  pose proof (like_get _ _ p H) as G.
  assert (X : find_at_pos fs' (sv_project sv') p c = find_at_pos fs (sv_project sv) p c).
  { unfold find_at_pos. destruct (get_file fs (sv_project sv) p) as [f|], (get_file fs' (sv_project sv') p) as [f'|]; try contradiction; [|reflexivity].
    pose proof (pk_file _ _ G) as F. destruct (pf_file f) as [file|], (pf_file f') as [file'|]; cbn [option_map] in F; try discriminate F; [|reflexivity].
    rewrite <- (at_s file' c), <- (at_s file c). congruence. }
  assert (A : option_map s_actx (get_analysis fs' (sv_project sv') p) = option_map s_actx (get_analysis fs (sv_project sv) p)).
  { unfold get_analysis. destruct (get_file fs (sv_project sv) p) as [f|], (get_file fs' (sv_project sv') p) as [f'|]; try contradiction; [|reflexivity].
    apply (pk_ctx _ _ G). }
  assert (R : option_map (map view) (option_map file_symbols (get_root fs' (sv_project sv') p)) = option_map (map view) (option_map file_symbols (get_root fs (sv_project sv) p))).
  { unfold get_root. destruct (get_file fs (sv_project sv) p) as [f|], (get_file fs' (sv_project sv') p) as [f'|]; try contradiction; [|reflexivity].
    pose proof (pk_file _ _ G) as F. destruct (pf_file f) as [file|], (pf_file f') as [file'|]; cbn [option_map] in *; try discriminate F; [|reflexivity].
    rewrite <- (symbols_s file'), <- (symbols_s file). congruence. }
  assert (N : forall r, get_node_position fs' (sv_project sv') p r = get_node_position fs (sv_project sv) p r
    /\ document_reference fs' (sv_project sv') p r = document_reference fs (sv_project sv) p r).
  { intros r. unfold get_node_position, document_reference.
    destruct (get_analysis fs (sv_project sv) p) as [x|], (get_analysis fs' (sv_project sv') p) as [x'|]; cbn [option_map] in A; try discriminate A; [|auto].
    assert (Q : option_map s_node (get_referenced x' r) = option_map s_node (get_referenced x r)) by (rewrite <- !s_referenced; congruence).
    destruct (get_referenced x r) as [n|], (get_referenced x' r) as [n'|]; cbn [option_map] in Q |- *; try discriminate Q; [|auto].
    assert (Qn : nd_name n' = nd_name n) by (rewrite <- (s_nd_name n'), <- (s_nd_name n); congruence). rewrite Qn. auto. }
  rewrite X, R. destruct (find_at_pos fs (sv_project sv) p c) as [[r|l|i]|]; rewrite ?u_include; auto.
  destruct (N r) as [-> ->]. auto.
Qed.
End Disks.
End Names.
