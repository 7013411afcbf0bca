(** Specification of the shape of spans in a syntax tree (C17), in terms of Ast.v only *)
From Verif Require Import Ast.

Definition inside (a b : span) : Prop :=
  pos_le (span_start b) (span_start a) /\ pos_le (span_end a) (span_end b).
Definition proper (a : span) : Prop := pos_lt (span_start a) (span_end a).
Definition before (a b : span) : Prop := pos_le (span_end a) (span_start b).

(** non-empty, disjoint, in order *)
Definition in_order (l : list span) : Prop := Forall proper l /\ ForallOrdPairs before l.

Definition cell_spans (c : cell) : list span :=
  match c with
  | CNumber n => [wt_span n]
  | CReference r => [wt_span r]
  | CExpression => []
  end.

Definition value_nested (v : prop_value) : Prop :=
  match v with
  | PVString _ | PVReference _ => True
  | PVCells a cs b =>
    in_order ([tk_span a] ++ flat_map cell_spans cs ++ [tk_span b])
  | PVBytes a ss b => in_order ([tk_span a] ++ map wt_span ss ++ [tk_span b])
  end.

(** A property that lost its semicolon ends, for the parser, at its '=' sign. *)
Definition prop_nested (p : property) : Prop :=
  inside (wt_span (pr_name p)) (prop_span p)
  /\ (forall l, pr_label p = Some l ->
        proper (wt_span l) /\ inside (wt_span l) (prop_span p) /\ before (wt_span l) (wt_span (pr_name p)))
  /\ in_order (wt_span (pr_name p) :: map pv_span (pr_values p))
  /\ Forall value_nested (pr_values p)
  /\ (tk_kind (pr_end p) = Equal \/ Forall (fun v => inside (pv_span v) (prop_span p)) (pr_values p)).

Definition item_span (i : item) : span :=
  match i with
  | IProperty p => prop_span p
  | INode n => node_span n
  | IDeletedNode t n => pos_to (tk_start t) (span_end (wt_span n))
  | IDeletedProperty t n => pos_to (tk_start t) (span_end (wt_span n))
  end.

Inductive node_nested : node -> Prop :=
| node_nested_intro l nm its e o :
    inside (wt_span nm) (node_span (mkNode l nm (mkPayload its e) o)) ->
    (forall w, l = Some w -> proper (wt_span w) /\ inside (wt_span w) (node_span (mkNode l nm (mkPayload its e) o))
                             /\ before (wt_span w) (wt_span nm)) ->
    in_order (wt_span nm :: map item_span its) ->
    Forall (fun i => inside (item_span i) (node_span (mkNode l nm (mkPayload its e) o))) its ->
    Forall item_nested its ->
    node_nested (mkNode l nm (mkPayload its e) o)
with item_nested : item -> Prop :=
| in_property p : prop_nested p -> item_nested (IProperty p)
| in_node n : node_nested n -> item_nested (INode n)
| in_deleted_node t n : in_order [tk_span t; wt_span n] -> item_nested (IDeletedNode t n)
| in_deleted_property t n : in_order [tk_span t; wt_span n] -> item_nested (IDeletedProperty t n).

Definition primary_nested (p : primary) : Prop :=
  match p with
  | PDirective (ADtsHeader _) | PDirective (APlugin _) | PCStyleInclude _ => True
  | PDirective (AMemreserve a l) => in_order [wt_span a; wt_span l]
  | PDirective (AInclude i) =>
    in_order [tk_span (in_token i); wt_span (in_file_name i)]
    /\ inside (wt_span (in_file_name i)) (include_span i)
  | PDirective (ADeletedNode t r) | PDirective (AOmitIfNoRef t r) => in_order [tk_span t; wt_span r]
  | PRoot n => node_nested n
  | PReferencedNode r =>
    proper (wt_span (rn_reference r)) /\ inside (wt_span (rn_reference r)) (ref_node_span r)
    /\ in_order (wt_span (rn_reference r) :: map item_span (pl_items (rn_payload r)))
    /\ Forall (fun i => inside (item_span i) (ref_node_span r)) (pl_items (rn_payload r))
    /\ Forall item_nested (pl_items (rn_payload r))
  end.

(** the spans of the elements of a file *)
Definition primary_spans (p : primary) : list span :=
  match p with
  | PDirective (ADtsHeader t) | PDirective (APlugin t) => [tk_span t]
  | PDirective (AMemreserve a l) => [pos_to (span_start (wt_span a)) (span_end (wt_span l))]
  | PDirective (AInclude i) => [include_span i]
  | PDirective (ADeletedNode t r) | PDirective (AOmitIfNoRef t r) =>
    [pos_to (tk_start t) (span_end (wt_span r))]
  | PRoot n => [node_span n]
  | PReferencedNode r => [ref_node_span r]
  | PCStyleInclude _ => []
  end.

Definition file_nested (f : dts_file) : Prop :=
  in_order (flat_map primary_spans (fl_elements f)) /\ Forall primary_nested (fl_elements f).
