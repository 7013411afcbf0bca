(** parser.rs and the error-reporting part of PeekingLexer (lexer.rs:410-474) *)
From Verif Require Export Lexer Diag Ast.

(** parser.rs:22-29 [Parser]: lexer, diagnostics (in the order they were pushed), include paths *)
Record pstate := mkPS { ps_lex : plexer; ps_diags : list diag; ps_incl : list fpath }.

(** Result of a parser function: [Ok], [Err] (both with the state afterwards), panic, out of fuel. *)
Inductive res (A : Type) : Type :=
| ROk (a : A) (s : pstate)
| RErr (d : diag) (s : pstate)
| RPanic
| RNoFuel.
Arguments ROk {A} a s.
Arguments RErr {A} d s.
Arguments RPanic {A}.
Arguments RNoFuel {A}.

Definition M (A : Type) := pstate -> res A.
Definition ret {A} (a : A) : M A := fun s => ROk a s.
Definition throw {A} (d : diag) : M A := fun s => RErr d s.
Definition no_fuel {A} : M A := fun _ => RNoFuel.
Definition panic {A} : M A := fun _ => RPanic.
Definition bind {A B} (m : M A) (f : A -> M B) : M B := fun s =>
  match m s with
  | ROk a s' => f a s'
  | RErr d s' => RErr d s'
  | RPanic => RPanic
  | RNoFuel => RNoFuel
  end.
(** [match m { Ok(a) => .., Err(d) => .. }] *)
Definition catch {A B} (m : M A) (f : A -> M B) (g : diag -> M B) : M B := fun s =>
  match m s with
  | ROk a s' => f a s'
  | RErr d s' => g d s'
  | RPanic => RPanic
  | RNoFuel => RNoFuel
  end.
Notation "'let!' x := m 'in' k" := (bind m (fun x => k))
  (at level 200, x pattern, m at level 100, k at level 200, right associativity).
Notation "m1 ;; m2" := (bind m1 (fun _ => m2)) (at level 100, right associativity).

(** self.diagnostics.push *)
Definition push (d : diag) : M unit := fun s =>
  ROk tt (mkPS (ps_lex s) (ps_diags s ++ [d]) (ps_incl s)).
Definition push_opt (d : option diag) : M unit :=
  match d with Some d => push d | None => ret tt end.

Definition lift_pl {A} (f : plexer -> outcome (A * plexer)) : M A := fun s =>
  match f (ps_lex s) with
  | Done (a, pl) => ROk a (mkPS pl (ps_diags s) (ps_incl s))
  | Panic => RPanic
  | NoFuel => RNoFuel
  end.

(** lexer.rs:405-408, 482-487 *)
Definition peek : M (option token) := lift_pl pl_peek.
Definition next : M (option token) := lift_pl pl_next.
(** lexer.rs:393-395 *)
Definition source : M fpath := fun s => ROk (lx_src (pl_lex (ps_lex s))) s.
(** self.lexer.pos(), lexer.rs:78-80 *)
Definition cur_pos : M position := fun s => ROk (lex_pos (pl_lex (ps_lex s))) s.
(** lexer.rs:472-474 *)
Definition last_pos : M position := fun s => ROk (lx_last (pl_lex (ps_lex s))) s.
(** lexer.rs:468-470 *)
Definition insert_pseudo_kind (k : token_kind) : M unit := fun s =>
  ROk tt (mkPS (mkPL (lex_insert_pseudo_kind k (pl_lex (ps_lex s))) (pl_peeked (ps_lex s)))
               (ps_diags s) (ps_incl s)).
Definition include_paths : M (list fpath) := fun s => ROk (ps_incl s) s.

Definition eof_diag (p : position) (src : fpath) : diag :=
  diag_new (as_span p) src UnexpectedEOF (bs "Unexpected End of File").

(** lexer.rs:414-428 [peek_expect] *)
Definition peek_expect : M token :=
  let! p := cur_pos in
  let! src := source in
  let! t := peek in
  match t with
  | None => throw (eof_diag p src)
  | Some tok => ret tok
  end.

(** lexer.rs:430-452 [expect]; note that the diagnostic names the kind that was found *)
Definition expect (k : token_kind) : M token :=
  let! p := cur_pos in
  let! t := next in
  let! src := source in
  match t with
  | None => throw (eof_diag p src)
  | Some tok =>
    if kind_eqb (tk_kind tok) k then ret tok
    else throw (diag_expected (as_span p) src [tk_kind tok])
  end.

(** lexer.rs:454-466 [expect_next] *)
Definition expect_next : M token :=
  let! p := cur_pos in
  let! t := next in
  let! src := source in
  match t with
  | None => throw (eof_diag p src)
  | Some tok => ret tok
  end.

(** parser.rs:69-71 *)
Definition skip_tok : M unit := let! _ := next in ret tt.

(** parser.rs:84: the first character not satisfying the predicate, with its index *)
Fixpoint find_bad (pred : N -> bool) (i : N) (cs : list N) : option (N * N) :=
  match cs with
  | [] => None
  | c :: r => if pred c then find_bad pred (i + 1) r else Some (i, c)
  end.

(** parser.rs:73-119 [check_ident]: the diagnostic it pushes, if any *)
Definition check_ident_diag (sp : span) (s : str) (pred start : N -> bool) (ctx : name_context)
  (src : fpath) : option diag :=
  match find_bad pred 0 (chars s) with
  | Some (i, ch) =>
    Some (diag_new (as_char_span (pos_offset (span_start sp) i)) src IllegalChar
            (bs "Illegal char '" ++ encode_char ch ++ bs "' in " ++ show_name_context ctx))
  | None =>
    if 31 <? N.of_nat (length s) then
      Some (diag_new sp src NameTooLong
              (show_name_context ctx ++ bs " should only have 31 characters but has "
               ++ show_dec (N.of_nat (length s)) ++ bs " characters"))
    else
      match chars s with
      | [] => Some (diag_new sp src ExpectedName (bs "Expected " ++ show_name_context ctx))
      | c :: _ =>
        if start c then None
        else Some (diag_new sp src IllegalStart
                     (show_name_context ctx ++ bs " may not start with " ++ encode_char c))
      end
  end.
Definition check_ident (sp : span) (s : str) (pred start : N -> bool) (ctx : name_context)
  : M unit :=
  let! src := source in push_opt (check_ident_diag sp s pred start ctx src).

(** parser.rs:125-126 *)
Definition label_pred (c : N) : bool := is_alpha c || is_digit c || (c =? cUnder).
Definition label_start (c : N) : bool := is_alpha c || (c =? cUnder).
(** parser.rs:138, 146 *)
Definition node_pred (c : N) : bool :=
  is_alpha c || is_digit c || (c =? cComma) || (c =? cDot) || (c =? cUnder) || (c =? cPlus)
  || (c =? cMinus).
(** parser.rs:157 *)
Definition prop_pred (c : N) : bool := node_pred c || (c =? cQuest) || (c =? cHash).
Definition any_char (_ : N) : bool := true.

(** parser.rs:121-129 *)
Definition check_is_label (sp : span) (s : str) : M unit :=
  check_ident sp s label_pred label_start CtxLabel.

(** parser.rs:131-151 *)
Definition check_is_node_name (sp : span) (n : node_name) : M unit :=
  if match nn_addr n with None => str_eqb (nn_name n) (bs "__symbols__") | Some _ => false end
  then ret tt
  else
    check_ident sp (nn_name n) node_pred is_alpha CtxNodeName ;;
    match nn_addr n with
    | Some a => check_ident sp a node_pred any_char CtxNodeName
    | None => ret tt
    end.

(** parser.rs:153-161 *)
Definition check_is_property_name (sp : span) (s : str) : M unit :=
  check_ident sp s prop_pred any_char CtxPropertyName.

(** parser.rs:182-184 *)
Fixpoint check_path (sp : span) (p : npath) : M unit :=
  match p with
  | [] => ret tt
  | n :: r => check_is_node_name sp n ;; check_path sp r
  end.

(** parser.rs:163-188 [reference] *)
Definition p_reference (tok : token) (r : tref) : M (wtok reference) :=
  match r with
  | TRefSimple s => check_is_label (tk_span tok) s ;; ret (mkWT (RefLabel s) tok)
  | TRefPath s =>
    (match s with
     | [] => push (diag_from_token tok PathCannotBeEmpty (bs "Path cannot be empty"))
     | _ => ret tt
     end) ;;
    check_path (tk_span tok) (npath_of s) ;;
    ret (mkWT (RefPath (npath_of s)) tok)
  end.

(** parser.rs:197-205, 245-253: the number syntax shared by the 32 and 64 bit readers *)
Definition parse_number (lim : N) (s : str) : int_result :=
  match s with
  | [_] => from_str_radix lim 10 s
  | _ =>
    if starts_with (bs "0x") s then from_str_radix lim 16 (skipn 2 s)
    else if starts_with (bs "0") s then from_str_radix lim 8 (skipn 1 s)
    else from_str_radix lim 10 s
  end.

(** parser.rs:316-347 [skip_expression_starting_with_paren] *)
Fixpoint skip_expression (fuel : nat) (depth : N) : M unit :=
  match fuel with
  | O => no_fuel
  | S f =>
    let! t := peek in
    match t with
    | None => ret tt
    | Some tok =>
      match tk_kind tok with
      | OpenParen => skip_tok ;; skip_expression f (depth + 1)
      | CloseParen =>
        skip_tok ;; (if depth =? 1 then ret tt else skip_expression f (depth - 1))
      | _ => skip_tok ;; skip_expression f depth
      end
    end
  end.

Definition k_num : token_kind := UnparsedNumber [].
Definition k_ref : token_kind := Ref (TRefSimple []).
Definition k_ident : token_kind := Ident [].
Definition k_string : token_kind := TString [].

(** parser.rs:190-239 [number_u32] *)
Definition number_u32 (fuel : nat) : M cell :=
  let! tok := expect_next in
  match tk_kind tok with
  | Ref r => let! w := p_reference tok r in ret (CReference w)
  | UnparsedNumber s =>
    match parse_number u32_lim s with
    | IntOk n => ret (CNumber (mkWT n tok))
    | IntErr e =>
      push (diag_int_error (tk_span tok) (tk_source tok) e) ;; ret (CNumber (mkWT 0 tok))
    end
  | OpenParen =>
    skip_expression fuel 1 ;;
    let! t := peek in
    (match t with
     | None => push (diag_from_token tok UnbalancedParentheses (bs "Unbalanced parentheses"))
     | Some _ => ret tt
     end) ;;
    ret CExpression
  | _ => throw (diag_expected (tk_span tok) (tk_source tok) [k_num; k_ref; OpenParen])
  end.

(** parser.rs:241-272 [memreserve_number_u64] *)
Definition memreserve_number : M (wtok N) :=
  let! tok := expect_next in
  match tk_kind tok with
  | UnparsedNumber s =>
    match parse_number u64_lim s with
    | IntOk n => ret (mkWT n tok)
    | IntErr e =>
      push (diag_int_error (tk_span tok) (tk_source tok) e) ;; ret (mkWT 0 tok)
    end
  | _ =>
    let! p := last_pos in
    let! src := source in
    throw (diag_expected (as_span (pos_offset p 1)) src [k_num])
  end.

(** parser.rs:287-299: decode pairs of digits; [std::str::from_utf8(..).unwrap()] may panic *)
Fixpoint decode_pairs (s : str) : outcome (str + int_error) :=
  match s with
  | a :: b :: r =>
    obind (from_utf8 [to_lower a; to_lower b]) (fun p =>
      match from_str_radix u8_lim 16 p with
      | IntErr e => Done (inr e)
      | IntOk v =>
        obind (decode_pairs r) (fun x =>
          Done (match x with inl l => inl (v :: l) | inr e => inr e end))
      end)
  | _ => Done (inl [])
  end.

(** parser.rs:274-314 [byte_string] *)
Definition byte_string : M (wtok str) :=
  let! tok := expect_next in
  match tk_kind tok with
  | UnparsedNumber s | Ident s =>
    if negb (Nat.even (length s)) then
      push (diag_from_token tok OddNumberOfBytestringElements
              (bs "Number of elements in byte string must be even")) ;;
      ret (mkWT [] tok)
    else
      match decode_pairs s with
      | Done (inl b) => ret (mkWT b tok)
      | Done (inr e) =>
        push (diag_int_error (tk_span tok) (tk_source tok) e) ;; ret (mkWT [] tok)
      | Panic => panic
      | NoFuel => no_fuel
      end
  | _ =>
    push (diag_expected (tk_span tok) (tk_source tok) [k_num; k_ident]) ;; ret (mkWT [] tok)
  end.

(** parser.rs:420-430 *)
Definition skip_optional_label : M unit :=
  let! t := peek in
  match t with
  | Some tok => match tk_kind tok with Label _ => skip_tok | _ => ret tt end
  | None => ret tt
  end.

(** parser.rs:375-386: the loop over cells; returns the cells and the closing token *)
Fixpoint cells_loop (fuel : nat) (acc : list cell) : M (list cell * token) :=
  match fuel with
  | O => no_fuel
  | S f =>
    skip_optional_label ;;
    let! t := peek_expect in
    if kind_eqb (tk_kind t) ChevronRight then
      let! e := expect_next in ret (acc, e)
    else
      catch (number_u32 f)
        (fun c => cells_loop f (acc ++ [c]))
        (fun d => push d ;; cells_loop f acc)
  end.

(** parser.rs:395-404 *)
Fixpoint bytes_loop (fuel : nat) (acc : list (wtok str)) : M (list (wtok str) * token) :=
  match fuel with
  | O => no_fuel
  | S f =>
    skip_optional_label ;;
    let! t := peek_expect in
    if kind_eqb (tk_kind t) CloseBracket then
      skip_tok ;; ret (acc, t)
    else
      let! b := byte_string in bytes_loop f (acc ++ [b])
  end.

(** parser.rs:350-366: the optional /bits/ prefix *)
Definition bits_prefix : M unit :=
  let! t := peek in
  match t with
  | Some tok =>
    if kind_eqb (tk_kind tok) (Directive Bits) then
      skip_tok ;;
      let! width := expect_next in
      match tk_kind width with
      | UnparsedNumber _ => ret tt
      | _ => push (diag_expected (tk_span width) (tk_source width) [k_num])
      end
    else ret tt
  | None => ret tt
  end.

(** parser.rs:349-418 [property_value] *)
Definition property_value (fuel : nat) : M prop_value :=
  bits_prefix ;;
  let! tok := expect_next in
  match tk_kind tok with
  | TString s => ret (PVString (mkWT s tok))
  | ChevronLeft =>
    let! (cells, e) := cells_loop fuel [] in ret (PVCells tok cells e)
  | Ref r => let! w := p_reference tok r in ret (PVReference w)
  | OpenBracket =>
    let! (strings, e) := bytes_loop fuel [] in ret (PVBytes tok strings e)
  | _ => throw (diag_expected (tk_span tok) (tk_source tok)
                  [k_string; ChevronLeft; k_ref; OpenBracket])
  end.

(** parser.rs:432-445 [property_values] *)
Fixpoint property_values (fuel : nat) (acc : list prop_value) : M (list prop_value) :=
  match fuel with
  | O => no_fuel
  | S f =>
    skip_optional_label ;;
    let! v := property_value f in
    skip_optional_label ;;
    let! t := peek_expect in
    if kind_eqb (tk_kind t) Comma then skip_tok ;; property_values f (acc ++ [v])
    else ret (acc ++ [v])
  end.

(** parser.rs:447-458 *)
Definition p_property_name : M (wtok str) :=
  let! tok := expect_next in
  match tk_kind tok with
  | Ident s => check_is_property_name (tk_span tok) s ;; ret (mkWT s tok)
  | _ => throw (diag_expected (tk_span tok) (tk_source tok) [k_ident])
  end.

(** parser.rs:460-472 *)
Definition p_node_name : M (wtok node_name) :=
  let! tok := expect_next in
  match tk_kind tok with
  | Ident s =>
    check_is_node_name (tk_span tok) (node_name_of s) ;; ret (mkWT (node_name_of s) tok)
  | _ => throw (diag_expected (tk_span tok) (tk_source tok) [k_ident])
  end.

(** parser.rs:622-640: the kinds that are skipped where a semicolon is missing *)
Definition semicolon_skips (k : token_kind) : bool :=
  match k with
  | Unknown _ | Comment _ => true
  | _ => false
  end.

(** parser.rs:608-654 [expect_semicolon] *)
Definition expect_semicolon : M (option token) :=
  let! t := peek in
  match t with
  | None =>
    let! p := last_pos in
    let! src := source in
    push (diag_expected (as_span p) src [Semicolon]) ;; ret None
  | Some tok =>
    match tk_kind tok with
    | Semicolon => next
    | k =>
      let! sp :=
        (if semicolon_skips k then
           let! t2 := expect_next in
           insert_pseudo_kind Semicolon ;; ret (tk_span t2)
         else
           let! p := last_pos in ret (as_char_span p)) in
      let! src := source in
      push (diag_expected sp src [Semicolon]) ;; ret None
    end
  end.

Definition or_token (o : option token) (t : token) : token :=
  match o with Some x => x | None => t end.

(** parser.rs:543-550, 579-586 *)
Definition check_omit (omit : option token) : M unit :=
  match omit with
  | Some t =>
    let! src := source in
    push (diag_new (tk_span t) src IncorrectDirective
            (bs "The /omit-if-no-ref/ directive can only be used on nodes"))
  | None => ret tt
  end.

(** parser.rs:557-564, 571-578 *)
Definition check_order (node_discovered : bool) (p : property) : M unit :=
  if node_discovered then
    let! src := source in
    push (diag_new (prop_span p) src PropertyAfterNode
            (bs "Properties must be placed before nodes"))
  else ret tt.

(** parser.rs:479-602: the loop of [node_payload] over the items, after the opening brace *)
Fixpoint payload_loop (fuel : nat) (items : list item) (node_discovered : bool) : M payload :=
  match fuel with
  | O => no_fuel
  | S f =>
    let! tok := expect_next in
    if kind_eqb (tk_kind tok) (Directive DeleteNode) then
      let! n := p_node_name in
      expect_semicolon ;;
      payload_loop f (items ++ [IDeletedNode tok n]) node_discovered
    else if kind_eqb (tk_kind tok) (Directive DeleteProperty) then
      let! n := p_property_name in
      expect_semicolon ;;
      payload_loop f (items ++ [IDeletedProperty tok n]) node_discovered
    else
      let! (tok, omit) :=
        (if kind_eqb (tk_kind tok) (Directive OmitIfNoRef) then
           let! t := expect_next in ret (t, Some tok)
         else ret (tok, None)) in
      let! (tok, label) :=
        (match tk_kind tok with
         | Label s =>
           check_is_label (tk_span tok) s ;;
           let! t := expect_next in ret (t, Some (mkWT s tok))
         | _ => ret (tok, None)
         end) in
      match tk_kind tok with
      | Ident s =>
        let! t2 := peek_expect in
        match tk_kind t2 with
        | OpenBrace =>
          let name := mkWT (node_name_of s) tok in
          check_is_node_name (tk_span tok) (node_name_of s) ;;
          expect OpenBrace ;;
          let! pl := payload_loop f [] false in
          payload_loop f (items ++ [INode (mkNode label name pl omit)]) true
        | Equal =>
          skip_tok ;;
          check_is_property_name (tk_span tok) s ;;
          let! values := property_values f [] in
          let! e := expect_semicolon in
          check_omit omit ;;
          let p := mkProp label (mkWT s tok) values (or_token e t2) in
          check_order node_discovered p ;;
          payload_loop f (items ++ [IProperty p]) node_discovered
        | Semicolon =>
          skip_tok ;;
          check_is_property_name (tk_span tok) s ;;
          let p := mkProp label (mkWT s tok) [] t2 in
          check_order node_discovered p ;;
          check_omit omit ;;
          payload_loop f (items ++ [IProperty p]) node_discovered
        | _ =>
          let! p := last_pos in
          let! src := source in
          throw (diag_expected (as_span p) src
                   [Semicolon; Equal; OpenBrace; Directive OmitIfNoRef])
        end
      | CloseBrace =>
        let! e := expect_semicolon in ret (mkPayload items (or_token e tok))
      | _ => throw (diag_expected (tk_span tok) (tk_source tok) [k_ident; CloseBrace])
      end
  end.

(** parser.rs:474-604 [node_payload] *)
Definition node_payload (fuel : nat) : M payload :=
  expect OpenBrace ;; payload_loop fuel [] false.

(** parser.rs:667-678 *)
Definition parse_reference : M (wtok reference) :=
  let! tok := expect_next in
  match tk_kind tok with
  | Ref r => p_reference tok r
  | _ => throw (diag_expected (tk_span tok) (tk_source tok) [k_ref])
  end.

(** parser.rs:680-785 [primary] *)
Definition p_primary (fuel : nat) : M primary :=
  let! tok := expect_next in
  match tk_kind tok with
  | Directive DTSVersionHeader =>
    expect_semicolon ;; ret (PDirective (ADtsHeader tok))
  | Directive Plugin =>
    expect_semicolon ;; ret (PDirective (APlugin tok))
  | Directive MemReserve =>
    let! address := memreserve_number in
    let! length := memreserve_number in
    expect_semicolon ;;
    ret (PDirective (AMemreserve address length))
  | Ident s =>
    if str_eqb s (bs "#include") then
      let! t := expect_next in
      match tk_kind t with
      | TString f => ret (PCStyleInclude f)
      | _ => throw (diag_expected (tk_span t) (tk_source t) [k_string])
      end
    else throw (diag_expected (tk_span tok) (tk_source tok)
                  [Directive DTSVersionHeader; Directive MemReserve; Directive Include;
                   Directive DeleteNode; Directive OmitIfNoRef; Slash; k_ref])
  | Directive Include =>
    let! t := expect_next in
    match tk_kind t with
    | TString f =>
      let! t2 := peek in
      (match t2 with
       | Some tok2 =>
         if kind_eqb (tk_kind tok2) Semicolon then
           let! tok3 := expect_next in
           push (diag_from_token tok3 ParserError
                   (bs "Include directive must not end with a semicolon"))
         else ret tt
       | None => ret tt
       end) ;;
      let! paths := include_paths in
      ret (PDirective (AInclude (mkInclude tok (mkWT f t) paths)))
    | _ => throw (diag_expected (tk_span t) (tk_source t) [k_string])
    end
  | Slash =>
    let! pl := node_payload fuel in
    ret (PRoot (mkNode None (mkWT (mkNN (bs "/") None) tok) pl None))
  | Ref r =>
    let! w := p_reference tok r in
    let! pl := node_payload fuel in
    ret (PReferencedNode (mkRefNode w pl))
  | Directive DeleteNode =>
    let! w := parse_reference in
    expect_semicolon ;;
    ret (PDirective (ADeletedNode tok w))
  | Directive OmitIfNoRef =>
    let! w := parse_reference in
    expect_semicolon ;;
    ret (PDirective (AOmitIfNoRef tok w))
  | _ => throw (diag_expected (tk_span tok) (tk_source tok)
                  [Directive DTSVersionHeader; Directive MemReserve; Directive Include;
                   Directive DeleteNode; Directive OmitIfNoRef; Slash; k_ref])
  end.

(** parser.rs:656-665 [file] *)
Fixpoint file_loop (fuel : nat) (acc : list primary) : M (list primary) :=
  match fuel with
  | O => no_fuel
  | S f =>
    let! t := peek in
    match t with
    | None => ret acc
    | Some _ => let! p := p_primary f in file_loop f (acc ++ [p])
    end
  end.
Definition p_file (fuel : nat) : M dts_file :=
  let! els := file_loop fuel [] in
  let! src := source in
  ret (mkFile els src).

(** parser.rs:37-43, 47-58 [Parser::new] on a text *)
Definition parser_new (incl : list fpath) (text : list N) (src : fpath) : pstate :=
  mkPS (pl_of (lexer_new (reader_of text) src)) [] incl.

(** The whole of parsing a text: Parser::from_text(..).file(), with enough fuel (C09) *)
Definition parse_text (incl : list fpath) (text : list N) (src : fpath) : res dts_file :=
  p_file (S (S (length text))) (parser_new incl text src).
