(** What a device-tree source says, told without the analysis: which nodes are declared at which paths, which labels
    are written, and when a source is correct. Of AnalysisSpec.v only small readings of the tree are used
    ([label_is], [has_header], [has_plugin]). *)
From Verif Require Export AnalysisSpec.

(** [lies its p n]: among the items [its] the node [n] is written, at the path [p] relative to them *)
Inductive lies : list item -> npath -> node -> Prop :=
| li_here its n : In (INode n) its -> lies its [wt_item (nd_name n)] n
| li_deep its n p m : In (INode n) its -> lies (pl_items (nd_payload n)) p m -> lies its (wt_item (nd_name n) :: p) m.
(** [bears its p]: among the items the property [p] is written *)
Inductive bears : list item -> property -> Prop :=
| be_here its p : In (IProperty p) its -> bears its p
| be_deep its n p : In (INode n) its -> bears (pl_items (nd_payload n)) p -> bears its p.
Definition element_items (e : primary) : list item :=
  match e with
  | PRoot n => pl_items (nd_payload n)
  | PReferencedNode r => pl_items (rn_payload r)
  | _ => []
  end.

(** [refers q r]: the reference [r] is a value of the property, or a cell of one *)
Inductive refers (q : property) (r : wtok reference) : Prop :=
| re_value : In (PVReference r) (pr_values q) -> refers q r
| re_cell a cs b : In (PVCells a cs b) (pr_values q) -> In (CReference r) cs -> refers q r.
(** what must not stand before the version header *)
Inductive substance : primary -> Prop :=
| su_memreserve a l : substance (PDirective (AMemreserve a l))
| su_plugin t : substance (PDirective (APlugin t))
| su_omit t r : substance (PDirective (AOmitIfNoRef t r))
| su_root n : substance (PRoot n)
| su_opened r : substance (PReferencedNode r).

(** a file whose references are not judged at this point: no source, or a plugin declared before *)
Definition unjudged (ft : file_type) (before : list primary) : Prop := ft <> DtSource \/ has_plugin before.

(** [leads i k]: the include [i] names the file [k]; [world k ft els]: there is the file [k] of this type with these elements *)
Section Meaning.
  Context (leads : include -> fpath -> Prop) (world : fpath -> file_type -> list primary -> Prop).

  (** [declared ft ps p n]: the elements [ps], with the files they include, declare the node [n] at [p].
      [target ft ps r p]: behind the elements [ps], the reference [r] is the node at [p].
      A file that is not judged may open nodes it does not know; these are taken for the root. *)
  Inductive declared : file_type -> list primary -> npath -> node -> Prop :=
  | de_root ft ps n : In (PRoot n) ps -> declared ft ps [] n
  | de_below ft ps n p m : In (PRoot n) ps -> lies (pl_items (nd_payload n)) p m -> declared ft ps p m
  | de_opened ft a r b q p m : target ft a (wt_item (rn_reference r)) q -> lies (pl_items (rn_payload r)) p m ->
      declared ft (a ++ PReferencedNode r :: b) (q ++ p) m
  | de_included ft ps i k ft' els p m : In (PDirective (AInclude i)) ps -> leads i k -> world k ft' els ->
      declared ft' els p m -> declared ft ps p m
  with target : file_type -> list primary -> reference -> npath -> Prop :=
  | ta_path ft a p n : declared ft a p n -> target ft a (RefPath p) p
  | ta_label ft a l p n : declared ft a p n -> label_is (nd_label n) l -> target ft a (RefLabel l) p
  | ta_unknown ft a r : unjudged ft a -> target ft a r []
  | ta_unknown_path ft a p : unjudged ft a -> target ft a (RefPath p) p.

  (** the label [l] is written before a node or a property, here or in an included file *)
  Inductive mentions : list primary -> str -> Prop :=
  | me_root ps n l : In (PRoot n) ps -> label_is (nd_label n) l -> mentions ps l
  | me_node ps e p n l : In e ps -> lies (element_items e) p n -> label_is (nd_label n) l -> mentions ps l
  | me_property ps e q l : In e ps -> bears (element_items e) q -> label_is (pr_label q) l -> mentions ps l
  | me_included ps i k ft els l : In (PDirective (AInclude i)) ps -> leads i k -> world k ft els -> mentions els l -> mentions ps l.

  (** a reference in a value names something *)
  Definition named (ft : file_type) (ps : list primary) (r : reference) : Prop :=
    match r with
    | RefLabel l => mentions ps l
    | RefPath p => exists n, declared ft ps p n
    end.

  (** the reference of an element that opens or deletes a node *)
  Definition handle (e : primary) : option reference :=
    match e with
    | PReferencedNode r => Some (wt_item (rn_reference r))
    | PDirective (ADeletedNode _ r) => Some (wt_item r)
    | _ => None
    end.

  Record correct (ft : file_type) (ps : list primary) : Prop := {
    (** a source has the version header; nothing but includes and deletions stands before it, and no other header *)
    co_header : ft = DtSource -> has_header ps;
    co_first : forall a t b, ps = a ++ PDirective (ADtsHeader t) :: b -> ~ has_header a /\ Forall (fun e => ~ substance e) a;
    (** what is opened or deleted has been declared before *)
    co_opened : forall a e b r, ps = a ++ e :: b -> handle e = Some r -> ~ unjudged ft a -> exists q, target ft a r q;
    (** references in values name something *)
    co_named : ~ unjudged ft ps -> forall e q r, In e ps -> bears (element_items e) q -> refers q r ->
      named ft ps (wt_item r);
    co_compatible : forall e q v, In e ps -> bears (element_items e) q -> wt_item (pr_name q) = bs "compatible" ->
      In v (pr_values q) -> exists s, v = PVString s;
    (** includes lead to files *)
    co_includes : forall i, In (PDirective (AInclude i)) ps -> exists k ft' els, leads i k /\ world k ft' els
  }.
End Meaning.

Scheme declared_mut := Induction for declared Sort Prop
with target_mut := Induction for target Sort Prop.
Combined Scheme declared_target_ind from declared_mut, target_mut.
