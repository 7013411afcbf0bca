(** ast.rs: the syntax tree (Display is in Display.v, include paths in Project.v) *)
From Verif Require Export Token.

(** ast.rs:11-15 [WithToken] *)
Record wtok (A : Type) := mkWT { wt_item : A; wt_tok : token }.
Arguments mkWT {A} _ _.
Arguments wt_item {A} _.
Arguments wt_tok {A} _.
(** ast.rs:17-27 *)
Definition wt_span {A} (w : wtok A) : span := tk_span (wt_tok w).
Definition wt_source {A} (w : wtok A) : fpath := tk_source (wt_tok w).

(** ast.rs:66-70 *)
Record node_name := mkNN { nn_name : str; nn_addr : option str }.
Definition node_name_eq_dec (a b : node_name) : {a = b} + {a <> b}.
Proof. decide equality; [decide equality; apply str_eq_dec | apply str_eq_dec]. Defined.

(** ast.rs:72-90 From<String>/From<&str> for NodeName; ast.rs:99-111 simple/with_address *)
Definition node_name_of (s : str) : node_name :=
  match split_once cAt s with
  | Some (p, q) => mkNN p (Some q)
  | None => mkNN s None
  end.

(** ast.rs:126-128 [Path] *)
Definition npath := list node_name.
Definition npath_eq_dec : forall a b : npath, {a = b} + {a <> b} := list_eq_dec node_name_eq_dec.

(** ast.rs:165-175 From<&str> for Path *)
Definition npath_of (s : str) : npath :=
  map node_name_of (filter (fun c => negb (str_eqb c [])) (split_on cSlash s)).

(** ast.rs:152-158 *)
Definition with_child (p : npath) (n : node_name) : npath := p ++ [n].

(** ast.rs:178-181 [Reference] *)
Inductive reference := RefLabel (s : str) | RefPath (p : npath).

(** ast.rs:193-197 *)
Inductive cell :=
| CNumber (n : wtok N)
| CReference (r : wtok reference)
| CExpression.

(** ast.rs:211-216 *)
Inductive prop_value :=
| PVString (s : wtok str)
| PVCells (open : token) (cells : list cell) (close : token)
| PVReference (r : wtok reference)
| PVBytes (open : token) (strings : list (wtok str)) (close : token).

(** ast.rs:218-227 *)
Definition pv_span (v : prop_value) : span :=
  match v with
  | PVString s => wt_span s
  | PVCells a _ b => pos_to (tk_start a) (tk_end b)
  | PVReference r => wt_span r
  | PVBytes a _ b => pos_to (tk_start a) (tk_end b)
  end.
(** ast.rs:229-238 *)
Definition pv_source (v : prop_value) : fpath :=
  match v with
  | PVString s => wt_source s
  | PVCells a _ _ => tk_source a
  | PVReference r => wt_source r
  | PVBytes a _ _ => tk_source a
  end.

(** ast.rs:275-280 *)
Record property := mkProp {
  pr_label : option (wtok str);
  pr_name : wtok str;
  pr_values : list prop_value;
  pr_end : token
}.

(** ast.rs:282-291 *)
Definition prop_span (p : property) : span :=
  let first := match pr_label p with Some l => wt_span l | None => wt_span (pr_name p) end in
  pos_to (span_start first) (tk_end (pr_end p)).

(** ast.rs:341-354, 370-373 *)
Inductive node :=
| mkNode (nd_label : option (wtok str)) (nd_name : wtok node_name) (nd_payload : payload)
         (nd_omit : option token)
with payload :=
| mkPayload (items : list item) (pl_end : token)
with item :=
| IProperty (p : property)
| INode (n : node)
| IDeletedNode (t : token) (n : wtok node_name)
| IDeletedProperty (t : token) (n : wtok str).

Definition nd_label (n : node) := match n with mkNode l _ _ _ => l end.
Definition nd_name (n : node) := match n with mkNode _ m _ _ => m end.
Definition nd_payload (n : node) := match n with mkNode _ _ p _ => p end.
Definition nd_omit (n : node) := match n with mkNode _ _ _ o => o end.
Definition pl_items (p : payload) := match p with mkPayload i _ => i end.
Definition pl_end (p : payload) := match p with mkPayload _ e => e end.

(** ast.rs:385-394 *)
Definition node_span (n : node) : span :=
  let first := match nd_label n with Some l => wt_span l | None => wt_span (nd_name n) end in
  pos_to (span_start first) (tk_end (pl_end (nd_payload n))).

(** ast.rs:449-453 *)
Record include := mkInclude {
  in_token : token;
  in_file_name : wtok str;
  in_paths : list fpath
}.
(** ast.rs:455-465 *)
Definition include_span (i : include) : span :=
  pos_to (tk_start (in_token i)) (span_end (wt_span (in_file_name i))).
Definition include_source (i : include) : fpath := tk_source (in_token i).

(** ast.rs:406-409, 489-496 *)
Inductive any_directive :=
| ADtsHeader (t : token)
| APlugin (t : token)
| AMemreserve (address length : wtok N)
| AInclude (i : include)
| ADeletedNode (t : token) (r : wtok reference)
| AOmitIfNoRef (t : token) (r : wtok reference).

(** ast.rs:512-515 *)
Record ref_node := mkRefNode { rn_reference : wtok reference; rn_payload : payload }.
(** ast.rs:517-521 *)
Definition ref_node_span (r : ref_node) : span :=
  pos_to (span_start (wt_span (rn_reference r))) (tk_end (pl_end (rn_payload r))).

(** ast.rs:530-536 *)
Inductive primary :=
| PDirective (d : any_directive)
| PRoot (n : node)
| PReferencedNode (r : ref_node)
| PCStyleInclude (s : str).

(** ast.rs:539-544 *)
Definition as_include (p : primary) : option include :=
  match p with
  | PDirective (AInclude i) => Some i
  | _ => None
  end.

(** ast.rs:428-431 *)
Record dts_file := mkFile { fl_elements : list primary; fl_source : fpath }.
