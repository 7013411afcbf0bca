(** Specification of the analysis of a file: definitions in source order. Uses Ast.v, and of Analysis.v only the
    data types and the file lookups ([include_path], [get_file]). *)
From Verif Require Export Analysis GuardProofs.

(** ** Definitions in source order *)
Inductive def :=
| DNode (path : npath) (n : node)
| DProperty (p : property)
(** the definitions of an included file *)
| DInclude (c : actx).

Section Defs.
  Variable node_defs : npath -> node -> list def.
  Fixpoint items_defs_of (path : npath) (its : list item) : list def :=
    match its with
    | [] => []
    | IProperty p :: r => DProperty p :: items_defs_of path r
    | INode n :: r => node_defs (path ++ [wt_item (nd_name n)]) n ++ items_defs_of path r
    | _ :: r => items_defs_of path r
    end.
End Defs.
(** a node, then its properties and children in order *)
Fixpoint node_defs (path : npath) (n : node) : list def :=
  match n with
  | mkNode _ _ (mkPayload its _) _ => DNode path n :: items_defs_of node_defs path its
  end.
Definition items_defs : npath -> list item -> list def := items_defs_of node_defs.

(** [last_of binds l x]: the last element of [l] that binds anything binds [x] *)
Definition last_of {D X} (binds : D -> X -> Prop) (l : list D) (x : X) : Prop :=
  exists pre d post, l = pre ++ d :: post /\ binds d x /\ forall d' y, In d' post -> ~ binds d' y.

Definition label_is (o : option (wtok str)) (l : str) : Prop := exists w, o = Some w /\ wt_item w = l.

(** what a definition binds a label or a path to *)
Inductive binds_label (l : str) : def -> labeled -> Prop :=
| bl_node p n : label_is (nd_label n) l -> binds_label l (DNode p n) (LNode n)
| bl_property p : label_is (pr_label p) l -> binds_label l (DProperty p) (LProperty p)
| bl_include c x : In (l, x) (ac_labels c) -> binds_label l (DInclude c) x.
Inductive binds_path (p : npath) : def -> node -> Prop :=
| bp_node n : binds_path p (DNode p n) n
| bp_include c n : In (p, n) (ac_flat c) -> binds_path p (DInclude c) n.

(** the node at a path, the thing behind a label, after the definitions [ds] *)
Definition label_means (ds : list def) (l : str) (x : labeled) : Prop := last_of (binds_label l) ds x.
Definition path_means (ds : list def) (p : npath) (n : node) : Prop := last_of (binds_path p) ds n.

(** hash maps have one value per key *)
Definition ctx_ok (c : actx) : Prop := NoDup (map fst (ac_labels c)) /\ NoDup (map fst (ac_flat c)).
Definition project_ok (pj : project) : Prop :=
  forall p f c, In (p, f) (pj_files pj) -> pf_ctx f = Some c -> ctx_ok c.

(** ** References *)
(** [opens ds r path found]: the payload of "&r { ... }" after the definitions [ds] belongs to [path] *)
Inductive opens (ds : list def) : reference -> npath -> bool -> Prop :=
| op_path p n : path_means ds p n -> opens ds (RefPath p) p true
| op_no_path p : (forall n, ~ path_means ds p n) -> opens ds (RefPath p) p false
| op_label l p n : path_means ds p n -> label_is (nd_label n) l -> opens ds (RefLabel l) p true
| op_no_label l : (forall p n, path_means ds p n -> ~ label_is (nd_label n) l) ->
    opens ds (RefLabel l) [] false.

(** [resolves ds r]: a reference in a property, with all the definitions of the file *)
Definition resolves (ds : list def) (r : reference) : Prop :=
  match r with
  | RefLabel l => exists x, label_means ds l x
  | RefPath p => exists n, path_means ds p n
  end.

(** references in property values *)
Definition cell_refs (c : cell) : list (wtok reference) := match c with CReference r => [r] | _ => [] end.
Definition value_refs (v : prop_value) : list (wtok reference) :=
  match v with
  | PVCells _ cs _ => flat_map cell_refs cs
  | PVReference r => [r]
  | _ => []
  end.
Definition property_refs (p : property) : list (wtok reference) := flat_map value_refs (pr_values p).
Definition def_properties (d : def) : list property := match d with DProperty p => [p] | _ => [] end.
(** the properties and the references of a file, in source order *)
Definition element_properties (p : primary) : list property :=
  match p with
  | PRoot n => flat_map def_properties (node_defs [] n)
  | PReferencedNode r => flat_map def_properties (items_defs [] (pl_items (rn_payload r)))
  | _ => []
  end.
Definition all_properties (ps : list primary) : list property := flat_map element_properties ps.
Definition all_references (ps : list primary) : list (wtok reference) :=
  flat_map property_refs (all_properties ps).

(** ** Diagnostics *)
Definition unresolved_diag (r : wtok reference) : diag :=
  mkDiag UnresolvedReference (wt_span r) (wt_source r) (bs "Reference cannot be resolved").
Definition non_string_diag (v : prop_value) : diag :=
  mkDiag NonStringInCompatible (pv_span v) (pv_source v) (bs "compatible property should only contain strings").
Definition is_string (v : prop_value) : bool := match v with PVString _ => true | _ => false end.
Definition compatible_diags (p : property) : list diag :=
  if str_eq_dec (wt_item (pr_name p)) (bs "compatible")
  then map non_string_diag (filter (fun v => negb (is_string v)) (pr_values p)) else [].

Definition has_header (ps : list primary) : Prop := exists t, In (PDirective (ADtsHeader t)) ps.
Definition has_plugin (ps : list primary) : Prop := exists t, In (PDirective (APlugin t)) ps.
(** elements that must come after the version header *)
Definition after_header (p : primary) : bool :=
  match p with
  | PDirective (AMemreserve _ _) | PDirective (APlugin _) | PDirective (AOmitIfNoRef _ _)
  | PRoot _ | PReferencedNode _ => true
  | _ => false
  end.
Definition has_content (ps : list primary) : Prop := exists p, In p ps /\ after_header p = true.

(** unresolved references are reported in sources that are not plugins; [ps] are the elements so far *)
Definition blames (ft : file_type) (ps : list primary) : Prop := ft = DtSource /\ ~ has_plugin ps.
Inductive blame (ft : file_type) (ps : list primary) (r : wtok reference) : bool -> list diag -> Prop :=
| bl_found : blame ft ps r true []
| bl_silent : ~ blames ft ps -> blame ft ps r false []
| bl_report : blames ft ps -> blame ft ps r false [unresolved_diag r].

Section File.
  Context (fs : fsys) (pj : project) (src : fpath) (ft : file_type).
  Definition deps := list (fpath * list fpath).

  Inductive header_diags (ps : list primary) (t : token) : list diag -> Prop :=
  | hd_duplicate : has_header ps ->
      header_diags ps t [mkDiag DuplicateDirective (tk_span t) (tk_source t) (bs "Duplicate dts-v1 version header")]
  | hd_misplaced : ~ has_header ps -> has_content ps ->
      header_diags ps t [mkDiag MisplacedDtsHeader (tk_span t) (tk_source t)
                           (bs "dts-v1 header must be placed on top of the file")]
  | hd_fine : ~ has_header ps -> ~ has_content ps -> header_diags ps t [].

  Definition error_diag (f : pfile) (d : diag) : Prop := In d (pf_diags f) /\ pj_sev pj (dg_kind d) = SevError.
  (** an include: what it defines, the dependencies after it, its diagnostics *)
  Inductive included (h : deps) (i : include) : list def -> deps -> list diag -> Prop :=
  | in_missing e : include_path fs i = inr e ->
      included h i [] h [mkDiag IOError (include_span i) (include_source i) e]
  | in_cyclic p cycle : include_path fs i = inl p -> simple_cycle (depends (h ++ [(p, [src])])) p cycle ->
      included h i [] (h ++ [(p, [src])])
        [mkDiag CyclicDependencyError (include_span i) (include_source i)
           (bs "Cyclic include: " ++ join (bs " -> ") cycle)]
  | in_unknown p : include_path fs i = inl p -> ~ on_cycle (depends (h ++ [(p, [src])])) p ->
      get_file fs pj p = None -> included h i [] (h ++ [(p, [src])]) []
  | in_file p f ds es : include_path fs i = inl p -> ~ on_cycle (depends (h ++ [(p, [src])])) p ->
      get_file fs pj p = Some f ->
      ds = match pf_ctx f with Some c => [DInclude c] | None => [] end ->
      ((exists d, error_diag f d) /\ es = [mkDiag ErrorsInInclude (include_span i) (include_source i)
                                             (bs "Included file contains errors")]
       \/ (forall d, ~ error_diag f d) /\ es = []) ->
      included h i ds (h ++ [(p, [src])]) es.

  (** one element after the elements [ps], which gave the definitions [ds] and the dependencies [h] *)
  Inductive element (ps : list primary) (ds : list def) (h : deps) : primary -> list def -> deps -> list diag -> Prop :=
  | el_header t es : header_diags ps t es -> element ps ds h (PDirective (ADtsHeader t)) [] h es
  | el_plugin t : element ps ds h (PDirective (APlugin t)) [] h []
  | el_memreserve a l : element ps ds h (PDirective (AMemreserve a l)) [] h []
  | el_omit t r : element ps ds h (PDirective (AOmitIfNoRef t r)) [] h []
  | el_c_include s : element ps ds h (PCStyleInclude s) [] h []
  | el_include i ds' h' es : included h i ds' h' es -> element ps ds h (PDirective (AInclude i)) ds' h' es
  | el_delete t r p found es : opens ds (wt_item r) p found -> blame ft ps r found es ->
      element ps ds h (PDirective (ADeletedNode t r)) [] h es
  | el_root n : element ps ds h (PRoot n) (node_defs [] n) h (flat_map compatible_diags (element_properties (PRoot n)))
  | el_opened r p found es : ft = DtSource -> opens ds (wt_item (rn_reference r)) p found ->
      blame ft ps (rn_reference r) found es ->
      element ps ds h (PReferencedNode r) (items_defs p (pl_items (rn_payload r))) h
        (es ++ flat_map compatible_diags (element_properties (PReferencedNode r)))
  | el_assumed r : ft <> DtSource ->
      element ps ds h (PReferencedNode r) (items_defs [] (pl_items (rn_payload r))) h
        (flat_map compatible_diags (element_properties (PReferencedNode r))).

  (** [elements ps ds h l ds' h' es]: the elements [l] after [ps] *)
  Inductive elements : list primary -> list def -> deps -> list primary -> list def -> deps -> list diag -> Prop :=
  | els_nil ps ds h : elements ps ds h [] ds h []
  | els_cons ps ds h p dp h1 ep l ds' h' es :
      element ps ds h p dp h1 ep -> elements (ps ++ [p]) (ds ++ dp) h1 l ds' h' es ->
      elements ps ds h (p :: l) ds' h' (ep ++ es).

  Inductive version_diags (ps : list primary) : list diag -> Prop :=
  | vd_missing : ft = DtSource -> ~ has_header ps ->
      version_diags ps [mkDiag NonDtsV1 (mkSpan (mkPos 0 0) (mkPos 0 0)) src
                          (bs "Files without the '/dts-v1/' Header are not supported")]
  | vd_fine : ft <> DtSource \/ has_header ps -> version_diags ps [].

  Inductive reference_diags (ps : list primary) (ds : list def) : list (wtok reference) -> list diag -> Prop :=
  | rd_nil : reference_diags ps ds [] []
  | rd_cons r l found es es' : (found = true <-> resolves ds (wt_item r)) -> blame ft ps r found es ->
      reference_diags ps ds l es' -> reference_diags ps ds (r :: l) (es ++ es').

  (** the analysis of a file whose elements are [ps], after the includes [h] of other files *)
  Inductive analysis_of (h : deps) (ps : list primary) : list def -> deps -> list diag -> Prop :=
  | an_intro ds h' es vs rs : elements [] [] h ps ds h' es -> version_diags ps vs ->
      reference_diags ps ds (all_references ps) rs -> analysis_of h ps ds h' (es ++ vs ++ rs).
End File.
