(** ast.rs: Display implementations *)
From Verif Require Export Ast.

(** ast.rs:113-121 *)
Definition show_node_name (n : node_name) : str :=
  nn_name n ++ match nn_addr n with Some a => bs "@" ++ a | None => [] end.

(** ast.rs:130-141 *)
Fixpoint show_components (p : npath) : str :=
  match p with
  | [] => []
  | n :: r => bs "/" ++ show_node_name n ++ show_components r
  end.
Definition show_npath (p : npath) : str :=
  match p with
  | [] => bs "/"
  | _ => show_components p
  end.

(** ast.rs:183-190 *)
Definition show_reference (r : reference) : str :=
  match r with
  | RefLabel l => bs "&" ++ l
  | RefPath p => bs "&{" ++ show_npath p ++ bs "}"
  end.

(** ast.rs:199-207 *)
Definition show_cell (c : cell) : str :=
  match c with
  | CNumber n => bs "0x" ++ show_hex (wt_item n)
  | CReference r => show_reference (wt_item r)
  | CExpression => bs "(not implemented)"
  end.

(** format!("{:2x}", n) for a u8: padded with a space on the left *)
Definition show_hex2 (n : N) : str :=
  let s := show_hex n in
  match s with
  | [c] => [cSpace; c]
  | _ => s
  end.

(** ast.rs:240-271 *)
Definition show_value (v : prop_value) : str :=
  match v with
  | PVString s => bs """" ++ wt_item s ++ bs """"
  | PVCells _ cells _ => bs "<" ++ join (bs " ") (map show_cell cells) ++ bs ">"
  | PVReference r => show_reference (wt_item r)
  | PVBytes _ strings _ =>
    bs "[" ++ join (bs " ") (map (fun w => concat (map show_hex2 (wt_item w))) strings) ++ bs "]"
  end.

Definition nl : str := [cNL].

(** ast.rs:323-338 *)
Definition show_property (p : property) : str :=
  match pr_values p with
  | [] => wt_item (pr_name p) ++ bs ";" ++ nl
  | vs => wt_item (pr_name p) ++ bs " = " ++ join (bs ", ") (map show_value vs) ++ bs ";" ++ nl
  end.

(** ast.rs:356-367, 375-383, 396-403 *)
Fixpoint show_node (n : node) : str :=
  match n with
  | mkNode label name pl _ =>
    match label with Some l => wt_item l ++ bs ": " | None => [] end
    ++ show_node_name (wt_item name) ++ bs " " ++ show_payload pl
  end
with show_payload (p : payload) : str :=
  match p with
  | mkPayload items _ =>
    bs "{" ++ nl
    ++ (fix go (l : list item) : str :=
          match l with
          | [] => []
          | i :: r => bs "    " ++ show_item i ++ nl ++ go r
          end) items
    ++ bs "};"
  end
with show_item (i : item) : str :=
  match i with
  | IProperty p => show_property p
  | INode n => show_node n
  | IDeletedNode _ n => bs "/delete-node/ " ++ show_node_name (wt_item n)
  | IDeletedProperty _ n => bs "/delete-property/ " ++ wt_item n
  end.

(** ast.rs:417-425 *)
Definition show_memreserve (a l : wtok N) : str :=
  bs "/memreserve/ 0x" ++ show_hex (wt_item a) ++ bs " 0x" ++ show_hex (wt_item l) ++ bs ";".

(** ast.rs:467-471 *)
Definition show_include (i : include) : str :=
  bs "/include/ """ ++ wt_item (in_file_name i) ++ bs """".

(** ast.rs:498-509 *)
Definition show_any_directive (d : any_directive) : str :=
  match d with
  | ADtsHeader _ => bs "/dts-v1/;"
  | AMemreserve a l => show_memreserve a l ++ bs ";"
  | AInclude i => show_include i
  | APlugin _ => bs "/plugin/;"
  | ADeletedNode _ r => bs "/delete-node/ " ++ show_reference (wt_item r) ++ bs ";"
  | AOmitIfNoRef _ r => bs "/omit-if-no-ref/ " ++ show_reference (wt_item r) ++ bs ";"
  end.

(** ast.rs:523-527 *)
Definition show_ref_node (r : ref_node) : str :=
  show_reference (wt_item (rn_reference r)) ++ bs " " ++ show_payload (rn_payload r).

(** ast.rs:547-556 *)
Definition show_primary (p : primary) : str :=
  match p with
  | PDirective d => show_any_directive d
  | PRoot n => show_node n
  | PReferencedNode r => show_ref_node r
  | PCStyleInclude s => bs "#include " ++ s
  end.

(** ast.rs:439-446 *)
Definition show_file (f : dts_file) : str :=
  concat (map (fun p => show_primary p ++ nl) (fl_elements f)).
