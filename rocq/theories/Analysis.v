(** analysis.rs, and the data types of project.rs it works on *)
From Verif Require Export Ast Diag ImportGuard.

(** ** File system: what the code asks the operating system for. A file system is fixed during one
    operation (the code may call canonicalize on the same path several times; Live.v and LiveAsk.v
    model the operations on a disk that changes in between). *)
Record fsys := mkFs {
  (** dunce::canonicalize *)
  fs_canon : fpath -> fpath + str;
  (** the bytes of a file, or the text of the I/O error *)
  fs_read : fpath -> str + str
}.

(** fs::read_to_string *)
Definition read_to_string (fs : fsys) (p : fpath) : str + str :=
  match fs_read fs p with
  | inr e => inr e
  | inl b => if valid_utf8 b then inl b else inr (bs "stream did not contain valid UTF-8")
  end.

(** PathBuf::join (Unix) *)
Definition path_join (p f : fpath) : fpath :=
  match f with
  | 47 :: _ => f
  | _ =>
    match p with
    | [] => f
    | _ => if last p 0 =? cSlash then p ++ f else p ++ [cSlash] ++ f
    end
  end.

(** ast.rs:473-486 [Include::path] *)
Fixpoint resolve_in (fs : fsys) (dirs : list fpath) (name : str) : option fpath :=
  match dirs with
  | [] => None
  | d :: r =>
    match fs_canon fs (path_join d name) with
    | inl p => Some p
    | inr _ => resolve_in fs r name
    end
  end.
Definition include_path (fs : fsys) (i : include) : fpath + str :=
  match resolve_in fs (in_paths i) (wt_item (in_file_name i)) with
  | Some p => inl p
  | None => fs_canon fs (wt_item (in_file_name i))
  end.

(** ** Data types *)

(** analysis.rs:16-20 [Labeled] *)
Inductive labeled := LNode (n : node) | LProperty (p : property).

(** analysis.rs:36-40 [AnalysisContext] *)
Record actx := mkActx { ac_labels : list (str * labeled); ac_flat : list (npath * node) }.

(** analysis.rs:47-65 *)
Definition get_node_by_label (c : actx) (l : str) : option node :=
  match m_get str_eq_dec l (ac_labels c) with
  | Some (LNode n) => Some n
  | _ => None
  end.
Definition get_node_by_path (c : actx) (p : npath) : option node := m_get npath_eq_dec p (ac_flat c).
Definition get_referenced (c : actx) (r : reference) : option node :=
  match r with
  | RefLabel l => get_node_by_label c l
  | RefPath p => get_node_by_path c p
  end.

(** project.rs:16-24 [ProjectFile] *)
Record pfile := mkPF {
  pf_pdiags : list diag;
  pf_adiags : list diag;
  pf_file : option dts_file;
  pf_ctx : option actx;
  pf_type : file_type;
  pf_text : str
}.

(** project.rs:74-79 [Project] *)
Record project := mkProject {
  pj_files : list (fpath * pfile);
  pj_incl : list fpath;
  pj_sev : severity_map
}.

(** project.rs:58-62 [diagnostics] *)
Definition pf_diags (f : pfile) : list diag := pf_pdiags f ++ pf_adiags f.

(** project.rs:64-67 [has_errors] *)
Definition has_errors (m : severity_map) (f : pfile) : bool :=
  existsb (fun d => severity_eqb (diag_severity m d) SevError) (pf_diags f).

(** project.rs:292-297 [get_file] *)
Definition get_file (fs : fsys) (pj : project) (p : fpath) : option pfile :=
  match fs_canon fs p with
  | inl q => m_get str_eq_dec q (pj_files pj)
  | inr _ => None
  end.

(** analysis.rs:67-77 [FileContext] *)
Record fctx := mkFctx {
  fc_diags : list diag;
  fc_labels : list (str * labeled);
  fc_flat : list (npath * node);
  fc_unres : list (wtok reference);
  fc_type : file_type;
  fc_plugin : bool;
  fc_first_non_include : bool;
  fc_header : bool
}.

(** analysis.rs:80-82 [add_diagnostic] *)
Definition add_diag (d : diag) (c : fctx) : fctx :=
  mkFctx (fc_diags c ++ [d]) (fc_labels c) (fc_flat c) (fc_unres c) (fc_type c) (fc_plugin c)
         (fc_first_non_include c) (fc_header c).
Definition set_labels (l : list (str * labeled)) (c : fctx) : fctx :=
  mkFctx (fc_diags c) l (fc_flat c) (fc_unres c) (fc_type c) (fc_plugin c)
         (fc_first_non_include c) (fc_header c).
Definition set_flat (f : list (npath * node)) (c : fctx) : fctx :=
  mkFctx (fc_diags c) (fc_labels c) f (fc_unres c) (fc_type c) (fc_plugin c)
         (fc_first_non_include c) (fc_header c).
Definition add_unres (r : wtok reference) (c : fctx) : fctx :=
  mkFctx (fc_diags c) (fc_labels c) (fc_flat c) (fc_unres c ++ [r]) (fc_type c) (fc_plugin c)
         (fc_first_non_include c) (fc_header c).
Definition set_plugin (c : fctx) : fctx :=
  mkFctx (fc_diags c) (fc_labels c) (fc_flat c) (fc_unres c) (fc_type c) true
         (fc_first_non_include c) (fc_header c).
Definition set_first_non_include (c : fctx) : fctx :=
  mkFctx (fc_diags c) (fc_labels c) (fc_flat c) (fc_unres c) (fc_type c) (fc_plugin c)
         true (fc_header c).
Definition set_header (c : fctx) : fctx :=
  mkFctx (fc_diags c) (fc_labels c) (fc_flat c) (fc_unres c) (fc_type c) (fc_plugin c)
         (fc_first_non_include c) true.

(** analysis.rs:110-120 *)
Definition fctx_new (ft : file_type) : fctx :=
  mkFctx [] [] [] [] ft (file_type_eqb ft DtSourceOverlay) false false.

(** Iteration orders of the hash collections consulted during an analysis. [o_guard t n s]: order
    in which the import guard visits the neighbours [s] of [n]; [o_flat t m]: order in which
    [flat_nodes] is searched. [t] counts the queries, so that each query may use another order. *)
Record an_oracle := mkOracle {
  o_guard : nat -> fpath -> list fpath -> list fpath;
  o_flat : nat -> list (npath * node) -> list (npath * node)
}.

(** analysis.rs:24-34 [Analysis], with the query counter *)
Record analysis := mkAnalysis { an_guard : guard fpath; an_tick : nat }.
Definition analysis_new : analysis := mkAnalysis guard_empty 0.
Definition tick (a : analysis) : analysis := mkAnalysis (an_guard a) (S (an_tick a)).

(** analysis.rs:84-88 [FileContext::resolve_reference], over the iteration order [m] *)
Definition has_label (l : str) (n : node) : bool :=
  match nd_label n with
  | Some w => str_eqb (wt_item w) l
  | None => false
  end.
Fixpoint find_label (l : str) (m : list (npath * node)) : option npath :=
  match m with
  | [] => None
  | (p, n) :: r => if has_label l n then Some p else find_label l r
  end.

(** analysis.rs:210-227 [unresolved_reference_error] *)
Definition unresolved_error (r : wtok reference) (c : fctx) : fctx :=
  if file_type_eqb (fc_type c) DtSource && negb (fc_plugin c) then
    add_diag (diag_new (wt_span r) (wt_source r) UnresolvedReference
                (bs "Reference cannot be resolved")) c
  else c.

(** analysis.rs:229-249 [Analysis::resolve_reference] *)
Definition resolve_reference (o : an_oracle) (r : wtok reference) (a : analysis) (c : fctx)
  : npath * (analysis * fctx) :=
  match wt_item r with
  | RefLabel l =>
    match find_label l (o_flat o (an_tick a) (fc_flat c)) with
    | None => ([], (tick a, unresolved_error r c))
    | Some p => (p, (tick a, c))
    end
  | RefPath p =>
    (p, (a, if m_mem npath_eq_dec p (fc_flat c) then c else unresolved_error r c))
  end.

(** analysis.rs:367-373 *)
Definition analyze_reference (r : wtok reference) (c : fctx) : fctx := add_unres r c.

(** analysis.rs:359-365 *)
Definition analyze_cell (x : cell) (c : fctx) : fctx :=
  match x with
  | CReference r => analyze_reference r c
  | _ => c
  end.

(** analysis.rs:346-357 *)
Definition analyze_value (v : prop_value) (c : fctx) : fctx :=
  match v with
  | PVString _ | PVBytes _ _ _ => c
  | PVCells _ cells _ => fold_left (fun c x => analyze_cell x c) cells c
  | PVReference r => analyze_reference r c
  end.

Definition is_string_value (v : prop_value) : bool :=
  match v with PVString _ => true | _ => false end.

(** analysis.rs:308-319 [check_is_string_list] *)
Definition check_is_string_list (vs : list prop_value) (c : fctx) : fctx :=
  fold_left (fun c v =>
    if is_string_value v then c
    else add_diag (diag_new (pv_span v) (pv_source v) NonStringInCompatible
                     (bs "compatible property should only contain strings")) c) vs c.

(** analysis.rs:329-344; [check_is_single_string] and [check_is_single_u32] (321-327) do nothing *)
Definition analyze_property (p : property) (c : fctx) : fctx :=
  let c1 := match pr_label p with
            | Some l => set_labels (m_insert str_eq_dec (wt_item l) (LProperty p) (fc_labels c)) c
            | None => c
            end in
  let c2 := fold_left (fun c v => analyze_value v c) (pr_values p) c1 in
  if str_eqb (wt_item (pr_name p)) (bs "compatible") then check_is_string_list (pr_values p) c2
  else c2.

(** analysis.rs:281-288 [analyze_node], without the payload *)
Definition define_node (n : node) (path : npath) (c : fctx) : fctx :=
  let c1 := match nd_label n with
            | Some l => set_labels (m_insert str_eq_dec (wt_item l) (LNode n) (fc_labels c)) c
            | None => c
            end in
  set_flat (m_insert npath_eq_dec path n (fc_flat c1)) c1.

(** analysis.rs:281-306 [analyze_node], [analyze_node_payload] *)
Fixpoint analyze_node (n : node) (path : npath) (c : fctx) : fctx :=
  match n with
  | mkNode _ _ pl _ => analyze_payload pl path (define_node n path c)
  end
with analyze_payload (p : payload) (path : npath) (c : fctx) : fctx :=
  match p with
  | mkPayload items _ =>
    (fix go (l : list item) (c : fctx) : fctx :=
       match l with
       | [] => c
       | i :: r => go r (analyze_item i path c)
       end) items c
  end
with analyze_item (i : item) (path : npath) (c : fctx) : fctx :=
  match i with
  | IProperty p => analyze_property p c
  | INode n => analyze_node n (with_child path (wt_item (nd_name n))) c
  | IDeletedNode _ _ => c
  | IDeletedProperty _ _ => c
  end.

(** analysis.rs:251-259 *)
Definition analyze_referenced_node (o : an_oracle) (r : ref_node) (a : analysis) (c : fctx)
  : analysis * fctx :=
  if file_type_eqb (fc_type c) DtSource then
    let '(path, (a', c')) := resolve_reference o (rn_reference r) a c in
    (a', analyze_payload (rn_payload r) path c')
  else (a, analyze_payload (rn_payload r) [] c).

(** analysis.rs:261-279 [resolve_references] *)
Definition resolve_one (c : fctx) (r : wtok reference) : fctx :=
  match wt_item r with
  | RefLabel l => if m_mem str_eq_dec l (fc_labels c) then c else unresolved_error r c
  | RefPath p => if m_mem npath_eq_dec p (fc_flat c) then c else unresolved_error r c
  end.
Definition resolve_references (c : fctx) : fctx := fold_left resolve_one (fc_unres c) c.

(** analysis.rs:174-208 [analyze_include] *)
Definition analyze_include (o : an_oracle) (fs : fsys) (pj : project) (parent : dts_file)
  (i : include) (a : analysis) (c : fctx) : outcome (analysis * fctx) :=
  match include_path fs i with
  | inr e => Done (a, add_diag (diag_io_error (include_span i) (include_source i) e) c)
  | inl path =>
    obind (guard_add str_eq_dec (o_guard o (an_tick a)) path [fl_source parent] (an_guard a))
      (fun '(r, g) =>
         let a' := mkAnalysis g (S (an_tick a)) in
         match r with
         | Some cycle =>
           Done (a', add_diag (diag_cyclic (include_span i) (include_source i) cycle) c)
         | None =>
           match get_file fs pj path with
           | None => Done (a', c)
           | Some f =>
             let c1 := if has_errors (pj_sev pj) f then
                         add_diag (diag_new (include_span i) (include_source i) ErrorsInInclude
                                     (bs "Included file contains errors")) c
                       else c in
             match pf_ctx f with
             | Some ac =>
               Done (a', set_labels (m_extend str_eq_dec (fc_labels c1) (ac_labels ac))
                           (set_flat (m_extend npath_eq_dec (fc_flat c1) (ac_flat ac)) c1))
             | None => Done (a', c1)
             end
           end
         end)
  end.

(** analysis.rs:121-161: one top-level element *)
Definition analyze_primary (o : an_oracle) (fs : fsys) (pj : project) (file : dts_file)
  (p : primary) (a : analysis) (c : fctx) : outcome (analysis * fctx) :=
  match p with
  | PDirective (ADtsHeader tok) =>
    let c1 :=
      if fc_header c then
        add_diag (diag_from_token tok DuplicateDirective (bs "Duplicate dts-v1 version header")) c
      else if fc_first_non_include c then
        add_diag (diag_from_token tok MisplacedDtsHeader
                    (bs "dts-v1 header must be placed on top of the file")) c
      else c in
    Done (a, set_header c1)
  | PDirective (AMemreserve _ _) => Done (a, set_first_non_include c)
  | PDirective (AInclude i) => analyze_include o fs pj file i a c
  | PDirective (APlugin _) => Done (a, set_plugin (set_first_non_include c))
  | PDirective (AOmitIfNoRef _ _) => Done (a, set_first_non_include c)
  | PDirective (ADeletedNode _ r) => Done (snd (resolve_reference o r a c))
  | PRoot n => Done (a, set_first_non_include (analyze_node n [] c))
  | PReferencedNode r =>
    let '(a', c') := analyze_referenced_node o r a c in Done (a', set_first_non_include c')
  | PCStyleInclude _ => Done (a, c)
  end.

Fixpoint analyze_primaries (o : an_oracle) (fs : fsys) (pj : project) (file : dts_file)
  (ps : list primary) (a : analysis) (c : fctx) : outcome (analysis * fctx) :=
  match ps with
  | [] => Done (a, c)
  | p :: r =>
    obind (analyze_primary o fs pj file p a c) (fun '(a', c') =>
      analyze_primaries o fs pj file r a' c')
  end.

(** analysis.rs:162-169 *)
Definition check_header (file : dts_file) (c : fctx) : fctx :=
  if negb (fc_header c) && file_type_eqb (fc_type c) DtSource then
    add_diag (diag_new (as_span pos_zero) (fl_source file) NonDtsV1
                (bs "Files without the '/dts-v1/' Header are not supported")) c
  else c.

(** analysis.rs:104-172, 91-101 [analyze_file]; the result is the context and the diagnostics *)
Definition analyze_file (o : an_oracle) (fs : fsys) (pj : project) (file : dts_file)
  (ft : file_type) (a : analysis) : outcome ((actx * list diag) * analysis) :=
  obind (analyze_primaries o fs pj file (fl_elements file) a (fctx_new ft)) (fun '(a', c) =>
    let c' := resolve_references (check_header file c) in
    Done ((mkActx (fc_labels c') (fc_flat c'), fc_diags c'), a')).
