(** visitor.rs: the item at a cursor position *)
From Verif Require Export Ast.

(** visitor.rs:7-14; the [Property] and [Node] cases are never constructed by the code *)
Inductive item_at_cursor :=
| AtReference (r : reference)
| AtLabel (l : wtok str)
| AtInclude (i : include).

(** the pattern [for x in xs { if let Some(item) = f(x) { return Some(item) } } None] *)
Fixpoint find_map {A B} (f : A -> option B) (l : list A) : option B :=
  match l with
  | [] => None
  | x :: r => match f x with Some b => Some b | None => find_map f r end
  end.

(** the pattern [if let Some(label) = &self.label { if label.span().contains(cursor) .. } }] *)
Definition label_at (l : option (wtok str)) (c : position) : option item_at_cursor :=
  match l with
  | Some l => if span_contains (wt_span l) c then Some (AtLabel l) else None
  | None => None
  end.
Definition ref_at (r : wtok reference) (c : position) : option item_at_cursor :=
  if span_contains (wt_span r) c then Some (AtReference (wt_item r)) else None.

(** visitor.rs:121-131 *)
Definition cell_at (c : position) (x : cell) : option item_at_cursor :=
  match x with
  | CNumber _ | CExpression => None
  | CReference r => ref_at r c
  end.

(** visitor.rs:117-144 *)
Definition value_at (c : position) (v : prop_value) : option item_at_cursor :=
  match v with
  | PVString _ => None
  | PVCells _ cells _ => find_map (cell_at c) cells
  | PVReference r => ref_at r c
  | PVBytes _ _ _ => None
  end.

(** visitor.rs:101-115 *)
Definition property_at (c : position) (p : property) : option item_at_cursor :=
  match label_at (pr_label p) c with
  | Some i => Some i
  | None => find_map (value_at c) (pr_values p)
  end.

(** visitor.rs:68-99 *)
Fixpoint node_at (c : position) (n : node) : option item_at_cursor :=
  match n with
  | mkNode label _ pl _ =>
    match label_at label c with
    | Some i => Some i
    | None => payload_at c pl
    end
  end
with payload_at (c : position) (p : payload) : option item_at_cursor :=
  match p with
  | mkPayload items _ =>
    (fix go (l : list item) : option item_at_cursor :=
       match l with
       | [] => None
       | i :: r => match nitem_at c i with Some b => Some b | None => go r end
       end) items
  end
with nitem_at (c : position) (i : item) : option item_at_cursor :=
  match i with
  | IProperty p => property_at c p
  | INode n => node_at c n
  | IDeletedNode _ _ => None
  | IDeletedProperty _ _ => None
  end.

(** visitor.rs:59-66 *)
Definition ref_node_at (c : position) (r : ref_node) : option item_at_cursor :=
  match ref_at (rn_reference r) c with
  | Some i => Some i
  | None => payload_at c (rn_payload r)
  end.

(** visitor.rs:38-57; the cursor is not looked at for deletions and omissions *)
Definition directive_at (c : position) (d : any_directive) : option item_at_cursor :=
  match d with
  | AInclude i => if span_contains (include_span i) c then Some (AtInclude i) else None
  | ADeletedNode _ r => Some (AtReference (wt_item r))
  | AOmitIfNoRef _ r => Some (AtReference (wt_item r))
  | _ => None
  end.

(** visitor.rs:27-36 *)
Definition primary_at (c : position) (p : primary) : option item_at_cursor :=
  match p with
  | PDirective d => directive_at c d
  | PRoot n => node_at c n
  | PReferencedNode r => ref_node_at c r
  | PCStyleInclude _ => None
  end.

(** visitor.rs:16-25 *)
Definition file_at (f : dts_file) (c : position) : option item_at_cursor :=
  find_map (primary_at c) (fl_elements f).
