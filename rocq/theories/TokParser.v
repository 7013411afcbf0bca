(** The parser over lists of tokens: the functions of Parser.v with the lexer replaced by the list of
    tokens to come. Proof device: ParserSim.v shows that Parser.v behaves like this, up to the
    positions of "expected" and "end of file" diagnostics. *)
From Verif Require Import Parser.

Record tstate := mkTS { t_toks : list token; t_diags : list diag }.
Inductive tres (A : Type) : Type :=
| TOk (a : A) (s : tstate)
| TErr (d : diag) (s : tstate)
| TBad.
Arguments TOk {A} a s.
Arguments TErr {A} d s.
Arguments TBad {A}.
Definition TM (A : Type) := tstate -> tres A.
Definition t_ret {A} (a : A) : TM A := fun s => TOk a s.
Definition t_throw {A} (d : diag) : TM A := fun s => TErr d s.
Definition t_no_fuel {A} : TM A := fun _ => TBad.
Definition t_panic {A} : TM A := fun _ => TBad.
Definition t_bind {A B} (m : TM A) (f : A -> TM B) : TM B := fun s =>
  match m s with
  | TOk a s' => f a s'
  | TErr d s' => TErr d s'
  | TBad => TBad
  end.
Definition t_catch {A B} (m : TM A) (f : A -> TM B) (g : diag -> TM B) : TM B := fun s =>
  match m s with
  | TOk a s' => f a s'
  | TErr d s' => g d s'
  | TBad => TBad
  end.
Notation "'let^' x := m 'in' k" := (t_bind m (fun x => k))
  (at level 200, x pattern, m at level 100, k at level 200, right associativity).
Notation "m1 ;^ m2" := (t_bind m1 (fun _ => m2)) (at level 100, right associativity).

Definition t_push (d : diag) : TM unit := fun s => TOk tt (mkTS (t_toks s) (t_diags s ++ [d])).
Definition t_push_opt (d : option diag) : TM unit :=
  match d with Some d => t_push d | None => t_ret tt end.
Definition t_peek : TM (option token) := fun s => TOk (hd_error (t_toks s)) s.
Definition t_next : TM (option token) := fun s =>
  TOk (hd_error (t_toks s)) (mkTS (tl (t_toks s)) (t_diags s)).

(** no unknown characters (the only tokens after which the lexer changes its mode) *)
Definition known (t : token) : Prop := semicolon_skips (tk_kind t) = false.

Section Tok.
(** [relex p]: the tokens from position [p] on if a name is expected there *)
Context (src : fpath) (incl : list fpath) (relex : position -> list token).

Definition t_source : TM fpath := t_ret src.
Definition t_include_paths : TM (list fpath) := t_ret incl.
(** positions are not tracked; an error is put at the token it is about *)
Definition t_cur_pos : TM position := t_ret pos_zero.
Definition t_last_pos : TM position := t_ret pos_zero.
(** a missing semicolon is put at the number of tokens still to come *)
Definition t_here : TM position := fun s => TOk (mkPos (N.of_nat (length (t_toks s))) 0) s.
Definition t_relex (t : token) : TM unit := fun s => TOk tt (mkTS (relex (tk_end t)) (t_diags s)).

Definition t_peek_expect : TM token :=
  let^ p := t_cur_pos in
  let^ src := t_source in
  let^ t := t_peek in
  match t with
  | None => t_throw (eof_diag p src)
  | Some tok => t_ret tok
  end.
Definition t_expect (k : token_kind) : TM token :=
  let^ p := t_cur_pos in
  let^ t := t_next in
  let^ src := t_source in
  match t with
  | None => t_throw (eof_diag p src)
  | Some tok =>
    if kind_eqb (tk_kind tok) k then t_ret tok
    else t_throw (diag_expected (tk_span tok) src [tk_kind tok])
  end.
Definition t_expect_next : TM token :=
  let^ p := t_cur_pos in
  let^ t := t_next in
  let^ src := t_source in
  match t with
  | None => t_throw (eof_diag p src)
  | Some tok => t_ret tok
  end.
Definition t_skip_tok : TM unit := let^ _ := t_next in t_ret tt.
Definition t_check_ident (sp : span) (s : str) (pred start : N -> bool) (ctx : name_context)
  : TM unit :=
  let^ src := t_source in t_push_opt (check_ident_diag sp s pred start ctx src).
Definition t_check_is_label (sp : span) (s : str) : TM unit :=
  t_check_ident sp s label_pred label_start CtxLabel.
Definition t_check_is_node_name (sp : span) (n : node_name) : TM unit :=
  if match nn_addr n with None => str_eqb (nn_name n) (bs "__symbols__") | Some _ => false end
  then t_ret tt
  else
    t_check_ident sp (nn_name n) node_pred is_alpha CtxNodeName ;^
    match nn_addr n with
    | Some a => t_check_ident sp a node_pred any_char CtxNodeName
    | None => t_ret tt
    end.
Definition t_check_is_property_name (sp : span) (s : str) : TM unit :=
  t_check_ident sp s prop_pred any_char CtxPropertyName.
Fixpoint t_check_path (sp : span) (p : npath) : TM unit :=
  match p with
  | [] => t_ret tt
  | n :: r => t_check_is_node_name sp n ;^ t_check_path sp r
  end.
Definition t_p_reference (tok : token) (r : tref) : TM (wtok reference) :=
  match r with
  | TRefSimple s => t_check_is_label (tk_span tok) s ;^ t_ret (mkWT (RefLabel s) tok)
  | TRefPath s =>
    (match s with
     | [] => t_push (diag_from_token tok PathCannotBeEmpty (bs "Path cannot be empty"))
     | _ => t_ret tt
     end) ;^
    t_check_path (tk_span tok) (npath_of s) ;^
    t_ret (mkWT (RefPath (npath_of s)) tok)
  end.
Fixpoint t_skip_expression (fuel : nat) (depth : N) : TM unit :=
  match fuel with
  | O => t_no_fuel
  | S f =>
    let^ t := t_peek in
    match t with
    | None => t_ret tt
    | Some tok =>
      match tk_kind tok with
      | OpenParen => t_skip_tok ;^ t_skip_expression f (depth + 1)
      | CloseParen =>
        t_skip_tok ;^ (if depth =? 1 then t_ret tt else t_skip_expression f (depth - 1))
      | _ => t_skip_tok ;^ t_skip_expression f depth
      end
    end
  end.
Definition t_number_u32 (fuel : nat) : TM cell :=
  let^ tok := t_expect_next in
  match tk_kind tok with
  | Ref r => let^ w := t_p_reference tok r in t_ret (CReference w)
  | UnparsedNumber s =>
    match parse_number u32_lim s with
    | IntOk n => t_ret (CNumber (mkWT n tok))
    | IntErr e =>
      t_push (diag_int_error (tk_span tok) (tk_source tok) e) ;^ t_ret (CNumber (mkWT 0 tok))
    end
  | OpenParen =>
    t_skip_expression fuel 1 ;^
    let^ t := t_peek in
    (match t with
     | None => t_push (diag_from_token tok UnbalancedParentheses (bs "Unbalanced parentheses"))
     | Some _ => t_ret tt
     end) ;^
    t_ret CExpression
  | _ => t_throw (diag_expected (tk_span tok) (tk_source tok) [k_num; k_ref; OpenParen])
  end.
Definition t_memreserve_number : TM (wtok N) :=
  let^ tok := t_expect_next in
  match tk_kind tok with
  | UnparsedNumber s =>
    match parse_number u64_lim s with
    | IntOk n => t_ret (mkWT n tok)
    | IntErr e =>
      t_push (diag_int_error (tk_span tok) (tk_source tok) e) ;^ t_ret (mkWT 0 tok)
    end
  | _ =>
    let^ p := t_last_pos in
    let^ src := t_source in
    t_throw (diag_expected (tk_span tok) src [k_num])
  end.
Definition t_byte_string : TM (wtok str) :=
  let^ tok := t_expect_next in
  match tk_kind tok with
  | UnparsedNumber s | Ident s =>
    if negb (Nat.even (length s)) then
      t_push (diag_from_token tok OddNumberOfBytestringElements
              (bs "Number of elements in byte string must be even")) ;^
      t_ret (mkWT [] tok)
    else
      match decode_pairs s with
      | Done (inl b) => t_ret (mkWT b tok)
      | Done (inr e) =>
        t_push (diag_int_error (tk_span tok) (tk_source tok) e) ;^ t_ret (mkWT [] tok)
      | Panic => t_panic
      | NoFuel => t_no_fuel
      end
  | _ =>
    t_push (diag_expected (tk_span tok) (tk_source tok) [k_num; k_ident]) ;^ t_ret (mkWT [] tok)
  end.
Definition t_skip_optional_label : TM unit :=
  let^ t := t_peek in
  match t with
  | Some tok => match tk_kind tok with Label _ => t_skip_tok | _ => t_ret tt end
  | None => t_ret tt
  end.
Fixpoint t_cells_loop (fuel : nat) (acc : list cell) : TM (list cell * token) :=
  match fuel with
  | O => t_no_fuel
  | S f =>
    t_skip_optional_label ;^
    let^ t := t_peek_expect in
    if kind_eqb (tk_kind t) ChevronRight then
      let^ e := t_expect_next in t_ret (acc, e)
    else
      t_catch (t_number_u32 f)
        (fun c => t_cells_loop f (acc ++ [c]))
        (fun d => t_push d ;^ t_cells_loop f acc)
  end.
Fixpoint t_bytes_loop (fuel : nat) (acc : list (wtok str)) : TM (list (wtok str) * token) :=
  match fuel with
  | O => t_no_fuel
  | S f =>
    t_skip_optional_label ;^
    let^ t := t_peek_expect in
    if kind_eqb (tk_kind t) CloseBracket then
      t_skip_tok ;^ t_ret (acc, t)
    else
      let^ b := t_byte_string in t_bytes_loop f (acc ++ [b])
  end.
Definition t_bits_prefix : TM unit :=
  let^ t := t_peek in
  match t with
  | Some tok =>
    if kind_eqb (tk_kind tok) (Directive Bits) then
      t_skip_tok ;^
      let^ width := t_expect_next in
      match tk_kind width with
      | UnparsedNumber _ => t_ret tt
      | _ => t_push (diag_expected (tk_span width) (tk_source width) [k_num])
      end
    else t_ret tt
  | None => t_ret tt
  end.
Definition t_property_value (fuel : nat) : TM prop_value :=
  t_bits_prefix ;^
  let^ tok := t_expect_next in
  match tk_kind tok with
  | TString s => t_ret (PVString (mkWT s tok))
  | ChevronLeft =>
    let^ (cells, e) := t_cells_loop fuel [] in t_ret (PVCells tok cells e)
  | Ref r => let^ w := t_p_reference tok r in t_ret (PVReference w)
  | OpenBracket =>
    let^ (strings, e) := t_bytes_loop fuel [] in t_ret (PVBytes tok strings e)
  | _ => t_throw (diag_expected (tk_span tok) (tk_source tok)
                  [k_string; ChevronLeft; k_ref; OpenBracket])
  end.
Fixpoint t_property_values (fuel : nat) (acc : list prop_value) : TM (list prop_value) :=
  match fuel with
  | O => t_no_fuel
  | S f =>
    t_skip_optional_label ;^
    let^ v := t_property_value f in
    t_skip_optional_label ;^
    let^ t := t_peek_expect in
    if kind_eqb (tk_kind t) Comma then t_skip_tok ;^ t_property_values f (acc ++ [v])
    else t_ret (acc ++ [v])
  end.
Definition t_p_property_name : TM (wtok str) :=
  let^ tok := t_expect_next in
  match tk_kind tok with
  | Ident s => t_check_is_property_name (tk_span tok) s ;^ t_ret (mkWT s tok)
  | _ => t_throw (diag_expected (tk_span tok) (tk_source tok) [k_ident])
  end.
Definition t_p_node_name : TM (wtok node_name) :=
  let^ tok := t_expect_next in
  match tk_kind tok with
  | Ident s =>
    t_check_is_node_name (tk_span tok) (node_name_of s) ;^ t_ret (mkWT (node_name_of s) tok)
  | _ => t_throw (diag_expected (tk_span tok) (tk_source tok) [k_ident])
  end.
Definition t_expect_semicolon : TM (option token) :=
  let^ t := t_peek in
  match t with
  | None =>
    let^ p := t_here in
    let^ src := t_source in
    t_push (diag_expected (as_span p) src [Semicolon]) ;^ t_ret None
  | Some tok =>
    match tk_kind tok with
    | Semicolon => t_next
    | k =>
      let^ sp :=
        (if semicolon_skips k then
           let^ t2 := t_expect_next in
           t_relex t2 ;^ t_ret (tk_span t2)
         else
           let^ p := t_here in t_ret (as_char_span p)) in
      let^ src := t_source in
      t_push (diag_expected sp src [Semicolon]) ;^ t_ret None
    end
  end.
(** the complaint of [t_expect_semicolon] about tokens to come *)
Definition t_missing (l : list token) : diag :=
  diag_expected (match l with [] => as_span (mkPos 0 0) | _ => as_char_span (mkPos (N.of_nat (length l)) 0) end) src [Semicolon].
Definition t_check_omit (omit : option token) : TM unit :=
  match omit with
  | Some t =>
    let^ src := t_source in
    t_push (diag_new (tk_span t) src IncorrectDirective
            (bs "The /omit-if-no-ref/ directive can only be used on nodes"))
  | None => t_ret tt
  end.
Definition t_check_order (node_discovered : bool) (p : property) : TM unit :=
  if node_discovered then
    let^ src := t_source in
    t_push (diag_new (prop_span p) src PropertyAfterNode
            (bs "Properties must be placed before nodes"))
  else t_ret tt.
Fixpoint t_payload_loop (fuel : nat) (items : list item) (node_discovered : bool) : TM payload :=
  match fuel with
  | O => t_no_fuel
  | S f =>
    let^ tok := t_expect_next in
    if kind_eqb (tk_kind tok) (Directive DeleteNode) then
      let^ n := t_p_node_name in
      t_expect_semicolon ;^
      t_payload_loop f (items ++ [IDeletedNode tok n]) node_discovered
    else if kind_eqb (tk_kind tok) (Directive DeleteProperty) then
      let^ n := t_p_property_name in
      t_expect_semicolon ;^
      t_payload_loop f (items ++ [IDeletedProperty tok n]) node_discovered
    else
      let^ (tok, omit) :=
        (if kind_eqb (tk_kind tok) (Directive OmitIfNoRef) then
           let^ t := t_expect_next in t_ret (t, Some tok)
         else t_ret (tok, None)) in
      let^ (tok, label) :=
        (match tk_kind tok with
         | Label s =>
           t_check_is_label (tk_span tok) s ;^
           let^ t := t_expect_next in t_ret (t, Some (mkWT s tok))
         | _ => t_ret (tok, None)
         end) in
      match tk_kind tok with
      | Ident s =>
        let^ t2 := t_peek_expect in
        match tk_kind t2 with
        | OpenBrace =>
          let name := mkWT (node_name_of s) tok in
          t_check_is_node_name (tk_span tok) (node_name_of s) ;^
          t_expect OpenBrace ;^
          let^ pl := t_payload_loop f [] false in
          t_payload_loop f (items ++ [INode (mkNode label name pl omit)]) true
        | Equal =>
          t_skip_tok ;^
          t_check_is_property_name (tk_span tok) s ;^
          let^ values := t_property_values f [] in
          let^ e := t_expect_semicolon in
          t_check_omit omit ;^
          let p := mkProp label (mkWT s tok) values (or_token e t2) in
          t_check_order node_discovered p ;^
          t_payload_loop f (items ++ [IProperty p]) node_discovered
        | Semicolon =>
          t_skip_tok ;^
          t_check_is_property_name (tk_span tok) s ;^
          let p := mkProp label (mkWT s tok) [] t2 in
          t_check_order node_discovered p ;^
          t_check_omit omit ;^
          t_payload_loop f (items ++ [IProperty p]) node_discovered
        | _ =>
          let^ p := t_last_pos in
          let^ src := t_source in
          t_throw (diag_expected (tk_span t2) src
                   [Semicolon; Equal; OpenBrace; Directive OmitIfNoRef])
        end
      | CloseBrace =>
        let^ e := t_expect_semicolon in t_ret (mkPayload items (or_token e tok))
      | _ => t_throw (diag_expected (tk_span tok) (tk_source tok) [k_ident; CloseBrace])
      end
  end.
Definition t_node_payload (fuel : nat) : TM payload :=
  t_expect OpenBrace ;^ t_payload_loop fuel [] false.
Definition t_parse_reference : TM (wtok reference) :=
  let^ tok := t_expect_next in
  match tk_kind tok with
  | Ref r => t_p_reference tok r
  | _ => t_throw (diag_expected (tk_span tok) (tk_source tok) [k_ref])
  end.
Definition t_p_primary (fuel : nat) : TM primary :=
  let^ tok := t_expect_next in
  match tk_kind tok with
  | Directive DTSVersionHeader =>
    t_expect_semicolon ;^ t_ret (PDirective (ADtsHeader tok))
  | Directive Plugin =>
    t_expect_semicolon ;^ t_ret (PDirective (APlugin tok))
  | Directive MemReserve =>
    let^ address := t_memreserve_number in
    let^ length := t_memreserve_number in
    t_expect_semicolon ;^
    t_ret (PDirective (AMemreserve address length))
  | Ident s =>
    if str_eqb s (bs "#include") then
      let^ t := t_expect_next in
      match tk_kind t with
      | TString f => t_ret (PCStyleInclude f)
      | _ => t_throw (diag_expected (tk_span t) (tk_source t) [k_string])
      end
    else t_throw (diag_expected (tk_span tok) (tk_source tok)
                  [Directive DTSVersionHeader; Directive MemReserve; Directive Include;
                   Directive DeleteNode; Directive OmitIfNoRef; Slash; k_ref])
  | Directive Include =>
    let^ t := t_expect_next in
    match tk_kind t with
    | TString f =>
      let^ t2 := t_peek in
      (match t2 with
       | Some tok2 =>
         if kind_eqb (tk_kind tok2) Semicolon then
           let^ tok3 := t_expect_next in
           t_push (diag_from_token tok3 ParserError
                   (bs "Include directive must not end with a semicolon"))
         else t_ret tt
       | None => t_ret tt
       end) ;^
      let^ paths := t_include_paths in
      t_ret (PDirective (AInclude (mkInclude tok (mkWT f t) paths)))
    | _ => t_throw (diag_expected (tk_span t) (tk_source t) [k_string])
    end
  | Slash =>
    let^ pl := t_node_payload fuel in
    t_ret (PRoot (mkNode None (mkWT (mkNN (bs "/") None) tok) pl None))
  | Ref r =>
    let^ w := t_p_reference tok r in
    let^ pl := t_node_payload fuel in
    t_ret (PReferencedNode (mkRefNode w pl))
  | Directive DeleteNode =>
    let^ w := t_parse_reference in
    t_expect_semicolon ;^
    t_ret (PDirective (ADeletedNode tok w))
  | Directive OmitIfNoRef =>
    let^ w := t_parse_reference in
    t_expect_semicolon ;^
    t_ret (PDirective (AOmitIfNoRef tok w))
  | _ => t_throw (diag_expected (tk_span tok) (tk_source tok)
                  [Directive DTSVersionHeader; Directive MemReserve; Directive Include;
                   Directive DeleteNode; Directive OmitIfNoRef; Slash; k_ref])
  end.
Fixpoint t_file_loop (fuel : nat) (acc : list primary) : TM (list primary) :=
  match fuel with
  | O => t_no_fuel
  | S f =>
    let^ t := t_peek in
    match t with
    | None => t_ret acc
    | Some _ => let^ p := t_p_primary f in t_file_loop f (acc ++ [p])
    end
  end.
Definition t_p_file (fuel : nat) : TM dts_file :=
  let^ els := t_file_loop fuel [] in
  let^ src := t_source in
  t_ret (mkFile els src).
End Tok.
