(** ginko_ls/src/server.rs *)
From Verif Require Export Project Display.

(** A document URI: a file URL (of an absolute path) or another one *)
Inductive uri := FileUri (p : fpath) | OtherUri (s : str).
(** Url::to_file_path, server.rs:73-86 *)
Definition to_file_path (u : uri) : option fpath :=
  match u with FileUri p => Some p | OtherUri _ => None end.
(** Url::from_file_path: fails for paths that are not absolute *)
Definition from_file_path (p : fpath) : option uri :=
  match p with
  | 47 :: _ => Some (FileUri p)
  | _ => None
  end.

(** lsp_types::Diagnostic as filled in by server.rs:59-71; ranges are spans, server.rs:50-56 *)
Record lsp_diag := mkLD {
  ld_range : span; ld_message : str; ld_code : str; ld_severity : severity
}.
Definition to_lsp (sev : severity_map) (d : diag) : lsp_diag :=
  mkLD (dg_span d) (dg_msg d) (error_code_name (dg_kind d)) (diag_severity sev d).

(** A publishDiagnostics message *)
Definition publication := (uri * list lsp_diag)%type.

(** server.rs:15-19 [Backend]: the project and everything sent to the client so far *)
Record server := mkServer { sv_project : project; sv_sent : list publication }.
(** server.rs:22-28 *)
Definition server_new : server := mkServer project_new [].

(** server.rs:88-106 [publish_diagnostics] with no interleaving; [files] are the keys of the
    project in iteration order *)
Fixpoint publish_all (fs : fsys) (pj : project) (files : list fpath) : outcome (list publication) :=
  match files with
  | [] => Done []
  | f :: r =>
    match from_file_path f with
    | None => Panic
    | Some u =>
      obind (publish_all fs pj r) (fun t =>
        Done ((u, map (to_lsp default_severities) (get_diagnostics fs pj f)) :: t))
    end
  end.
Definition publish (ok : list fpath -> list fpath) (fs : fsys) (sv : server) : outcome server :=
  obind (publish_all fs (sv_project sv) (ok (m_keys (pj_files (sv_project sv))))) (fun ps =>
    Done (mkServer (sv_project sv) (sv_sent sv ++ ps))).

(** server.rs:141-152 [did_open] *)
Definition did_open (fuel : nat) (o : oracle) (ok : list fpath -> list fpath) (fs : fsys)
  (u : uri) (text : str) (sv : server) : outcome server :=
  match to_file_path u with
  | None => Done sv
  | Some p =>
    obind (add_file_with_text fuel o fs p text (file_type_of_path p) (sv_project sv)) (fun pj =>
      publish ok fs (mkServer pj (sv_sent sv)))
  end.

(** server.rs:154-165 [did_change]: the first content change is used *)
Definition did_change (fuel : nat) (o : oracle) (ok : list fpath -> list fpath) (fs : fsys)
  (u : uri) (changes : list str) (sv : server) : outcome server :=
  match to_file_path u with
  | None => Done sv
  | Some p =>
    match changes with
    | [] => Panic
    | text :: _ =>
      obind (add_file_with_text fuel o fs p text (file_type_of_path p) (sv_project sv)) (fun pj =>
        publish ok fs (mkServer pj (sv_sent sv)))
    end
  end.

(** server.rs:169-174 [did_close] *)
Definition did_close (fs : fsys) (u : uri) (sv : server) : server :=
  match to_file_path u with
  | None => sv
  | Some p => mkServer (remove_file fs p (sv_project sv)) (sv_sent sv)
  end.

(** server.rs:129-133 [did_change_configuration] *)
Definition did_change_configuration (ok : list fpath -> list fpath) (fs : fsys)
  (includes : list str) (sv : server) : outcome server :=
  publish ok fs (mkServer (set_include_paths fs includes (sv_project sv)) (sv_sent sv)).

(** server.rs:111-113 the configuration part of [initialize] *)
Definition initialize (fs : fsys) (includes : list str) (sv : server) : server :=
  mkServer (set_include_paths fs includes (sv_project sv)) (sv_sent sv).

(** What the client shows for a document: the last publication for its URI *)
Definition uri_eq_dec (a b : uri) : {a = b} + {a <> b}.
Proof. decide equality; apply str_eq_dec. Defined.
Definition client_view (sent : list publication) (u : uri) : list lsp_diag :=
  fold_left (fun acc p => if uri_eq_dec (fst p) u then snd p else acc) sent [].

(** server.rs:176-216 [goto_definition]: the location answered, if any; a panic stands for
    Url::from_file_path(..).unwrap() *)
Definition goto_definition (fs : fsys) (u : uri) (pos : position) (sv : server)
  : outcome (option (uri * span)) :=
  match to_file_path u with
  | None => Done None
  | Some p =>
    match find_at_pos fs (sv_project sv) p pos with
    | Some (AtReference r) =>
      match get_node_position fs (sv_project sv) p r with
      | Some (sp, src) =>
        match from_file_path src with
        | Some u' => Done (Some (u', sp))
        | None => Panic
        end
      | None => Done None
      end
    | Some (AtInclude i) =>
      match include_path fs i with
      | inl q =>
        match from_file_path q with
        | Some u' => Done (Some (u', include_span i))
        | None => Done None
        end
      | inr _ => Done None
      end
    | _ => Done None
    end
  end.

(** server.rs:218-246 [hover] *)
Definition hover (fs : fsys) (u : uri) (pos : position) (sv : server) : option str :=
  match to_file_path u with
  | None => None
  | Some p =>
    match find_at_pos fs (sv_project sv) p pos with
    | Some (AtReference r) => document_reference fs (sv_project sv) p r
    | Some (AtLabel l) => Some (wt_item l)
    | Some (AtInclude i) => Some (wt_item (in_file_name i))
    | None => None
    end
  end.

(** lsp_types::DocumentSymbol *)
Inductive symbol_kind := SkProperty | SkModule | SkFile | SkField.
Inductive symbol :=
| mkSym (name : str) (kind : symbol_kind) (deprecated : bool) (range selection : span)
        (children : option (list symbol)).
Definition sy_range (s : symbol) := match s with mkSym _ _ _ r _ _ => r end.
Definition sy_selection (s : symbol) := match s with mkSym _ _ _ _ x _ => x end.
Definition sy_children (s : symbol) := match s with mkSym _ _ _ _ _ c => c end.
Definition sy_name (s : symbol) := match s with mkSym n _ _ _ _ _ => n end.

(** server.rs:260-318 [node_payload_to_symbol], [node_to_symbol] *)
Fixpoint node_symbol (n : node) : symbol :=
  match n with
  | mkNode _ name pl _ =>
    mkSym (nn_name (wt_item name)) SkModule false (node_span n) (wt_span name)
          (Some (payload_symbols pl))
  end
with payload_symbols (p : payload) : list symbol :=
  match p with
  | mkPayload items _ =>
    (fix go (l : list item) : list symbol :=
       match l with
       | [] => []
       | i :: r => item_symbol i :: go r
       end) items
  end
with item_symbol (i : item) : symbol :=
  match i with
  | IProperty p =>
    mkSym (wt_item (pr_name p)) SkProperty false (prop_span p) (wt_span (pr_name p)) None
  | INode n => node_symbol n
  | IDeletedNode t n =>
    mkSym (show_node_name (wt_item n)) SkModule true
          (mkSpan (tk_start t) (span_end (wt_span n))) (wt_span n) None
  | IDeletedProperty t n =>
    mkSym (wt_item n) SkProperty true
          (mkSpan (tk_start t) (span_end (wt_span n))) (wt_span n) None
  end.

(** server.rs:323-370 *)
Definition primary_symbol (p : primary) : option symbol :=
  match p with
  | PRoot n => Some (node_symbol n)
  | PReferencedNode r =>
    Some (mkSym (show_reference (wt_item (rn_reference r))) SkModule false (ref_node_span r)
            (wt_span (rn_reference r)) (Some (payload_symbols (rn_payload r))))
  | PDirective (AInclude i) =>
    Some (mkSym (bs "include " ++ wt_item (in_file_name i)) SkFile false (include_span i)
            (wt_span (in_file_name i)) None)
  | PDirective (ADeletedNode t r) =>
    Some (mkSym (show_reference (wt_item r)) SkModule true
            (mkSpan (tk_start t) (span_end (wt_span r))) (wt_span r) None)
  | PDirective (AOmitIfNoRef t r) =>
    Some (mkSym (show_reference (wt_item r)) SkField false
            (mkSpan (tk_start t) (span_end (wt_span r))) (wt_span r) None)
  | _ => None
  end.
Fixpoint filter_map {A B} (f : A -> option B) (l : list A) : list B :=
  match l with
  | [] => []
  | x :: r => match f x with Some b => b :: filter_map f r | None => filter_map f r end
  end.
Definition file_symbols (f : dts_file) : list symbol := filter_map primary_symbol (fl_elements f).

(** server.rs:248-373 [document_symbol] *)
Definition document_symbol (fs : fsys) (u : uri) (sv : server) : option (list symbol) :=
  match to_file_path u with
  | None => None
  | Some p => option_map file_symbols (get_root fs (sv_project sv) p)
  end.

(** ** Concurrency. tower-lsp runs handlers concurrently; a handler can be suspended at each await
    and between the critical sections of the project lock. The publishing part of a handler
    (server.rs:88-106) is modelled as a task: update the project (under the write lock), take the
    list of files (read lock), then for each file read its diagnostics (read lock) and send them. *)
Inductive task :=
| TUpdate (f : project -> project)
| TSnapshot
| TLoop (files : list fpath)
| TSend (u : uri) (ds : list lsp_diag) (files : list fpath).

(** one step of a task; [None] as the task means that it has finished *)
Definition task_step (fs : fsys) (sv : server) (t : task) : option (server * option task) :=
  match t with
  | TUpdate f => Some (mkServer (f (sv_project sv)) (sv_sent sv), Some TSnapshot)
  | TSnapshot => Some (sv, Some (TLoop (m_keys (pj_files (sv_project sv)))))
  | TLoop [] => Some (sv, None)
  | TLoop (f :: r) =>
    match from_file_path f with
    | None => None
    | Some u =>
      Some (sv, Some (TSend u (map (to_lsp default_severities)
                                 (get_diagnostics fs (sv_project sv) f)) r))
    end
  | TSend u ds r => Some (mkServer (sv_project sv) (sv_sent sv ++ [(u, ds)]), Some (TLoop r))
  end.

(** an execution of a list of tasks: any task that has not finished may take the next step *)
Inductive exec (fs : fsys) : server -> list task -> server -> Prop :=
| exec_done sv : exec fs sv [] sv
| exec_step sv sv1 sv2 pre t post t' :
    task_step fs sv t = Some (sv1, t') ->
    exec fs sv1 (pre ++ match t' with Some x => [x] | None => [] end ++ post) sv2 ->
    exec fs sv (pre ++ t :: post) sv2.
