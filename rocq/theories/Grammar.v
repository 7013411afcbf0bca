(** The grammar of device-tree sources over tokens, independent of Parser.v.
    [rel l x l'] reads: the token list [l] begins with a phrase denoting [x] and goes on with [l']. *)
From Verif Require Export LexSpec Ast.

(** ** Names *)
Definition short (s : str) : Prop := s <> [] /\ (length s <= 31)%nat.
Definition legal_label (s : str) : Prop :=
  short s /\ Forall label_char s /\ exists c r, s = c :: r /\ (letter c \/ c = cUnder).
Definition legal_property_name (s : str) : Prop := short s /\ Forall name_char s.
Definition node_char (c : N) : Prop :=
  letter c \/ digit c \/ In c [cComma; cDot; cUnder; cPlus; cMinus].
Definition legal_node_name (n : node_name) : Prop :=
  n = mkNN (bs "__symbols__") None
  \/ (short (nn_name n) /\ Forall node_char (nn_name n)
      /\ (exists c r, nn_name n = c :: r /\ letter c)
      /\ forall a, nn_addr n = Some a -> short a /\ Forall node_char a).

(** name and unit address, separated by the first '@' *)
Inductive node_text : str -> node_name -> Prop :=
| nt_plain s : ~ In cAt s -> node_text s (mkNN s None)
| nt_addr s a : ~ In cAt s -> node_text (s ++ [cAt] ++ a) (mkNN s (Some a)).

(** path components, separated by one or more slashes *)
Inductive path_text : str -> npath -> Prop :=
| pt_nil : path_text [] []
| pt_slash s p : path_text s p -> path_text (cSlash :: s) p
| pt_comp c s n p : c <> [] -> ~ In cSlash c -> (s = [] \/ exists r, s = cSlash :: r) ->
    node_text c n -> path_text s p -> path_text (c ++ s) (n :: p).

Inductive ref_text : tref -> reference -> Prop :=
| rt_label s : legal_label s -> ref_text (TRefSimple s) (RefLabel s)
| rt_path s p : s <> [] -> path_text s p -> Forall legal_node_name p -> ref_text (TRefPath s) (RefPath p).

(** ** Numbers *)
Definition digit_value (c v : N) : Prop :=
  (48 <= c <= 57 /\ v = c - 48) \/ (97 <= c <= 122 /\ v = c - 87) \/ (65 <= c <= 90 /\ v = c - 55).
Inductive numeral (b : N) : str -> N -> Prop :=
| num_one c v : digit_value c v -> v < b -> numeral b [c] v
| num_snoc s n c v : numeral b s n -> digit_value c v -> v < b -> numeral b (s ++ [c]) (n * b + v).
(** decimal, hexadecimal with 0x, octal with a leading 0 *)
Inductive literal : str -> N -> Prop :=
| lit_zero : literal (bs "0") 0
| lit_dec c s n : c <> 48 -> numeral 10 (c :: s) n -> literal (c :: s) n
| lit_hex s n : numeral 16 s n -> literal (bs "0x" ++ s) n
| lit_oct s n : numeral 8 s n -> literal (bs "0" ++ s) n.

(** bytes by pairs of hexadecimal digits. The tool also takes '+' and one digit for a pair. *)
Inductive byte_text : str -> str -> Prop :=
| bt_nil : byte_text [] []
| bt_pair c d x y s b : digit_value c x -> x < 16 -> digit_value d y -> y < 16 -> byte_text s b ->
    byte_text (c :: d :: s) (16 * x + y :: b)
| bt_plus d y s b : digit_value d y -> y < 16 -> byte_text s b ->
    byte_text (cPlus :: d :: s) (y :: b).

(** ** Phrases *)
Definition is (k : token_kind) (t : token) : Prop := tk_kind t = k.

Inductive opt_label : list token -> list token -> Prop :=
| ol_none l : opt_label l l
| ol_some t s l : is (Label s) t -> opt_label (t :: l) l.

(** the inside of a parenthesised expression *)
Inductive parens : list token -> list token -> Prop :=
| pa_nil l : parens l l
| pa_token t l l' : ~ is OpenParen t -> ~ is CloseParen t -> parens l l' -> parens (t :: l) l'
| pa_nest t l u l' l'' : is OpenParen t -> is CloseParen u -> parens l (u :: l') -> parens l' l'' ->
    parens (t :: l) l''.

Inductive g_cell : list token -> cell -> list token -> Prop :=
| gc_number t s n l : is (UnparsedNumber s) t -> literal s n -> n < 2 ^ 32 ->
    g_cell (t :: l) (CNumber (mkWT n t)) l
| gc_reference t r x l : is (Ref r) t -> ref_text r x -> g_cell (t :: l) (CReference (mkWT x t)) l
| gc_expression t l u l' : is OpenParen t -> is CloseParen u -> parens l (u :: l') ->
    g_cell (t :: l) CExpression l'.
(** cells, each with an optional label before, and the closing bracket with an optional label *)
Inductive g_cells : list token -> list cell -> token -> list token -> Prop :=
| gcs_nil l t l' : opt_label l (t :: l') -> is ChevronRight t -> g_cells l [] t l'
| gcs_cons l l1 c l2 cs t l' : opt_label l l1 -> g_cell l1 c l2 -> g_cells l2 cs t l' ->
    g_cells l (c :: cs) t l'.

Definition element_text (t : token) (s : str) : Prop := is (UnparsedNumber s) t \/ is (Ident s) t.
Inductive g_bytes : list token -> list (wtok str) -> token -> list token -> Prop :=
| gbs_nil l t l' : opt_label l (t :: l') -> is CloseBracket t -> g_bytes l [] t l'
| gbs_cons l e s b l2 bs t l' : opt_label l (e :: l2) -> element_text e s -> byte_text s b ->
    g_bytes l2 bs t l' -> g_bytes l (mkWT b e :: bs) t l'.

(** the /bits/ prefix; the width is not looked at *)
Inductive g_bits : list token -> list token -> Prop :=
| gb_none l : g_bits l l
| gb_some d t s l : is (Directive Bits) d -> is (UnparsedNumber s) t -> g_bits (d :: t :: l) l.

Inductive g_value : list token -> prop_value -> list token -> Prop :=
| gv_string l t s l' : g_bits l (t :: l') -> is (TString s) t -> g_value l (PVString (mkWT s t)) l'
| gv_reference l t r x l' : g_bits l (t :: l') -> is (Ref r) t -> ref_text r x ->
    g_value l (PVReference (mkWT x t)) l'
| gv_cells l t l1 cs e l' : g_bits l (t :: l1) -> is ChevronLeft t -> g_cells l1 cs e l' ->
    g_value l (PVCells t cs e) l'
| gv_bytes l t l1 bs e l' : g_bits l (t :: l1) -> is OpenBracket t -> g_bytes l1 bs e l' ->
    g_value l (PVBytes t bs e) l'.
(** comma separated values with optional labels around each, as long as possible *)
Definition values_end (l2 l' : list token) : Prop :=
  exists t r, l' = t :: r /\ ~ is Comma t /\ (l2 = l' -> forall s, ~ is (Label s) t).
Inductive g_values : list token -> list prop_value -> list token -> Prop :=
| gvs_one l l1 v l2 l' : opt_label l l1 -> g_value l1 v l2 -> opt_label l2 l' -> values_end l2 l' ->
    g_values l [v] l'
| gvs_cons l l1 v l2 c l3 vs l' : opt_label l l1 -> g_value l1 v l2 -> opt_label l2 (c :: l3) ->
    is Comma c -> g_values l3 vs l' -> g_values l (v :: vs) l'.

(** the end of a statement; the last argument counts missing semicolons (tokens are never comments) *)
Inductive g_end : list token -> option token -> list token -> nat -> Prop :=
| ge_semicolon t l : is Semicolon t -> g_end (t :: l) (Some t) l 0
| ge_missing l : (forall t r, l = t :: r -> ~ is Semicolon t /\ (forall c, ~ is (Unknown c) t)
      /\ forall s, ~ is (Comment s) t) ->
    g_end l None l 1.
(** the last token of a statement: the semicolon, or another token if it is missing *)
Definition last_token (e : option token) (t : token) : token :=
  match e with Some x => x | None => t end.

Inductive g_label : list token -> option (wtok str) -> list token -> Prop :=
| gl_none l : g_label l None l
| gl_some t s l : is (Label s) t -> legal_label s -> g_label (t :: l) (Some (mkWT s t)) l.
Inductive g_omit : list token -> option token -> list token -> Prop :=
| go_none l : g_omit l None l
| go_some t l : is (Directive OmitIfNoRef) t -> g_omit (t :: l) (Some t) l.

(** The inside of braces up to the end of the statement, and the items. The first argument of
    [g_items] tells whether a node has been seen: then no property may follow.
    The tool takes an omit directive and a label before the closing brace; they are ignored. *)
Inductive g_body : list token -> payload -> list token -> nat -> Prop :=
| gbo l its n l1 o l2 lb c l3 e l4 m :
    g_items false l its l1 n -> g_omit l1 o l2 -> g_label l2 lb (c :: l3) -> is CloseBrace c ->
    g_end l3 e l4 m -> g_body l (mkPayload its (last_token e c)) l4 (n + m)
with g_items : bool -> list token -> list item -> list token -> nat -> Prop :=
| gi_nil seen l : g_items seen l [] l 0
| gi_delete_node seen d t s nm l e l1 m its l2 n :
    is (Directive DeleteNode) d -> is (Ident s) t -> node_text s nm -> legal_node_name nm ->
    g_end l e l1 m -> g_items seen l1 its l2 n ->
    g_items seen (d :: t :: l) (IDeletedNode d (mkWT nm t) :: its) l2 (m + n)
| gi_delete_property seen d t s l e l1 m its l2 n :
    is (Directive DeleteProperty) d -> is (Ident s) t -> legal_property_name s ->
    g_end l e l1 m -> g_items seen l1 its l2 n ->
    g_items seen (d :: t :: l) (IDeletedProperty d (mkWT s t) :: its) l2 (m + n)
| gi_property l lb t s q l1 vs l2 e l3 m its l4 n :
    g_label l lb (t :: q :: l1) -> is (Ident s) t -> legal_property_name s -> is Equal q ->
    g_values l1 vs l2 -> g_end l2 e l3 m -> g_items false l3 its l4 n ->
    g_items false l (IProperty (mkProp lb (mkWT s t) vs (last_token e q)) :: its) l4 (m + n)
| gi_empty_property l lb t s e l1 its l2 n :
    g_label l lb (t :: e :: l1) -> is (Ident s) t -> legal_property_name s -> is Semicolon e ->
    g_items false l1 its l2 n ->
    g_items false l (IProperty (mkProp lb (mkWT s t) [] e) :: its) l2 n
| gi_node seen l o l1 lb t s nm b l2 pl l3 m its l4 n :
    g_omit l o l1 -> g_label l1 lb (t :: b :: l2) -> is (Ident s) t -> node_text s nm ->
    legal_node_name nm -> is OpenBrace b -> g_body l2 pl l3 m -> g_items true l3 its l4 n ->
    g_items seen l (INode (mkNode lb (mkWT nm t) pl o) :: its) l4 (m + n).

(** top-level elements; [incl] are the include directories, recorded in the tree *)
Inductive g_primary (incl : list fpath) : list token -> primary -> list token -> nat -> Prop :=
| gp_header t l e l' m : is (Directive DTSVersionHeader) t -> g_end l e l' m ->
    g_primary incl (t :: l) (PDirective (ADtsHeader t)) l' m
| gp_plugin t l e l' m : is (Directive Plugin) t -> g_end l e l' m ->
    g_primary incl (t :: l) (PDirective (APlugin t)) l' m
| gp_memreserve t a sa na b sb nb l e l' m : is (Directive MemReserve) t ->
    is (UnparsedNumber sa) a -> literal sa na -> na < 2 ^ 64 ->
    is (UnparsedNumber sb) b -> literal sb nb -> nb < 2 ^ 64 -> g_end l e l' m ->
    g_primary incl (t :: a :: b :: l) (PDirective (AMemreserve (mkWT na a) (mkWT nb b))) l' m
| gp_c_include t f s l : is (Ident (bs "#include")) t -> is (TString s) f ->
    g_primary incl (t :: f :: l) (PCStyleInclude s) l 0
| gp_include t f s l : is (Directive Include) t -> is (TString s) f ->
    (forall u r, l = u :: r -> ~ is Semicolon u) ->
    g_primary incl (t :: f :: l) (PDirective (AInclude (mkInclude t (mkWT s f) incl))) l 0
| gp_root t b l pl l' m : is Slash t -> is OpenBrace b -> g_body l pl l' m ->
    g_primary incl (t :: b :: l) (PRoot (mkNode None (mkWT (mkNN (bs "/") None) t) pl None)) l' m
| gp_ref_node t r x b l pl l' m : is (Ref r) t -> ref_text r x -> is OpenBrace b -> g_body l pl l' m ->
    g_primary incl (t :: b :: l) (PReferencedNode (mkRefNode (mkWT x t) pl)) l' m
| gp_delete_node d t r x l e l' m : is (Directive DeleteNode) d -> is (Ref r) t -> ref_text r x ->
    g_end l e l' m -> g_primary incl (d :: t :: l) (PDirective (ADeletedNode d (mkWT x t))) l' m
| gp_omit d t r x l e l' m : is (Directive OmitIfNoRef) d -> is (Ref r) t -> ref_text r x ->
    g_end l e l' m -> g_primary incl (d :: t :: l) (PDirective (AOmitIfNoRef d (mkWT x t))) l' m.

Inductive g_file (incl : list fpath) : list token -> list primary -> nat -> Prop :=
| gf_nil : g_file incl [] [] 0
| gf_cons l p l' m ps n : g_primary incl l p l' m -> g_file incl l' ps n -> g_file incl l (p :: ps) (m + n).

(** the tokens derive the syntax tree *)
Definition derives (incl : list fpath) (toks : list token) (els : list primary) : Prop :=
  g_file incl toks els 0.

Scheme g_body_mut := Induction for g_body Sort Prop
with g_items_mut := Induction for g_items Sort Prop.
Combined Scheme g_body_items_ind from g_body_mut, g_items_mut.
