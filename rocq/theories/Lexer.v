(** tokens/lexer.rs *)
From Verif Require Export Token Reader.

(** lexer.rs:10-13 *)
Inductive lexer_state := ExpectingNodeOrPropertyName | OtherState.

(** lexer.rs:15-23 *)
Record lexer := mkLexer {
  lx_rd : reader;
  lx_src : fpath;
  lx_state : lexer_state;
  lx_last : position
}.

(** lexer.rs:35-42 *)
Definition lexer_new (r : reader) (src : fpath) : lexer :=
  mkLexer r src ExpectingNodeOrPropertyName pos_zero.

(** lexer.rs:62-76 [read_while] *)
Fixpoint read_while_go (cond : N -> bool) (rest : list N) (p : position) : list N * reader :=
  match rest with
  | [] => ([], mkReader [] p)
  | c :: r =>
    if cond c then
      let '(v, rd) := read_while_go cond r (advance p c) in (c :: v, rd)
    else ([], mkReader rest p)
  end.
Definition read_while (cond : N -> bool) (r : reader) : list N * reader :=
  read_while_go cond (rd_rest r) (rd_pos r).

(** lexer.rs:58-60 [skip_whitespace] *)
Definition skip_whitespace (r : reader) : reader := snd (read_while is_ws r).

(** lexer.rs:100 label characters *)
Definition is_label_char (c : N) : bool := is_digit c || is_alpha c || (c =? cUnder).
(** lexer.rs:120, 134 identifier characters *)
Definition is_ident_char (c : N) : bool :=
  is_digit c || is_alpha c || (c =? cComma) || (c =? cDot) || (c =? cUnder) || (c =? cPlus)
  || (c =? cQuest) || (c =? cHash) || (c =? cMinus).
(** lexer.rs:299 characters starting a name where a name is expected *)
Definition is_name_start (c : N) : bool :=
  is_alpha c || (c =? cComma) || (c =? cDot) || (c =? cUnder) || (c =? cPlus) || (c =? cMinus)
  || (c =? cHash) || (c =? cQuest).

(** lexer.rs:85-114 [path_or_reference]; the cursor is past '&' *)
Definition path_or_reference (src : fpath) (start : position) (r : reader)
  : outcome (option token * reader) :=
  match rd_peek r with
  | None => Done (None, r)
  | Some ch =>
    if ch =? cLBrace then
      let '(path, r2) := read_while (fun c => negb (c =? cRBrace)) (rd_skip r) in
      match rd_consume r2 with
      | (None, r3) => Done (None, r3)
      | (Some _, r3) =>
        obind (from_utf8 path) (fun p =>
          Done (Some (mkToken (Ref (TRefPath p)) (pos_to start (rd_pos r3)) src), r3))
      end
    else if is_alpha ch then
      let '(label, r2) := read_while is_label_char r in
      obind (from_utf8 label) (fun l =>
        Done (Some (mkToken (Ref (TRefSimple l)) (pos_to start (rd_pos r2)) src), r2))
    else Done (Some (mkToken (Ref (TRefSimple [])) (pos_to start (rd_pos r)) src), r)
  end.

(** lexer.rs:119-147 [ident_or_label] *)
Definition ident_or_label (src : fpath) (start : position) (r : reader)
  : outcome (option token * reader) :=
  let '(value, r2) := read_while is_ident_char r in
  match rd_peek r2 with
  | Some ch =>
    if ch =? cColon then
      let r3 := rd_skip r2 in
      obind (from_utf8 value) (fun v =>
        Done (Some (mkToken (Label v) (pos_to start (rd_pos r3)) src), r3))
    else if ch =? cAt then
      let '(value2, r4) := read_while is_ident_char (rd_skip r2) in
      obind (from_utf8 (value ++ [cAt] ++ value2)) (fun v =>
        Done (Some (mkToken (Ident v) (pos_to start (rd_pos r4)) src), r4))
    else
      obind (from_utf8 value) (fun v =>
        Done (Some (mkToken (Ident v) (pos_to start (rd_pos r2)) src), r2))
  | None =>
    obind (from_utf8 value) (fun v =>
      Done (Some (mkToken (Ident v) (pos_to start (rd_pos r2)) src), r2))
  end.

(** lexer.rs:152-160 [line_comment]; the cursor is past the second slash *)
Definition line_comment (src : fpath) (start : position) (r : reader)
  : outcome (option token * reader) :=
  let '(comment, r2) := read_while (fun c => negb (c =? cNL)) r in
  obind (from_utf8 comment) (fun s =>
    Done (Some (mkToken (Comment s) (pos_to start (rd_pos r2)) src), r2)).

(** lexer.rs:165-186 [multi_line_comment]: the buffer, or [None] at the end of the text *)
Fixpoint multi_line_go (rest : list N) (p : position) : option (list N) * reader :=
  match rest with
  | [] => (None, mkReader [] p)
  | c :: r =>
    let p1 := advance p c in
    match r with
    | [] => (None, mkReader [] p1)
    | d :: r' =>
      if (c =? cStar) && (d =? cSlash) then (Some [], mkReader r' (advance p1 d))
      else let '(buf, rd) := multi_line_go r p1 in (option_map (cons c) buf, rd)
    end
  end.
Definition multi_line_comment (src : fpath) (start : position) (r : reader)
  : outcome (option token * reader) :=
  match multi_line_go (rd_rest r) (rd_pos r) with
  | (None, r2) => Done (None, r2)
  | (Some buf, r2) =>
    obind (from_utf8 buf) (fun s =>
      Done (Some (mkToken (Comment s) (pos_to start (rd_pos r2)) src), r2))
  end.

(** lexer.rs:196-206 *)
Definition directive_of (s : str) : directive :=
  if str_eqb s (bs "dts-v1") then DTSVersionHeader
  else if str_eqb s (bs "plugin") then Plugin
  else if str_eqb s (bs "memreserve") then MemReserve
  else if str_eqb s (bs "bits") then Bits
  else if str_eqb s (bs "delete-property") then DeleteProperty
  else if str_eqb s (bs "delete-node") then DeleteNode
  else if str_eqb s (bs "omit-if-no-ref") then OmitIfNoRef
  else if str_eqb s (bs "include") then Include
  else DirOther s.

(** lexer.rs:191-212 [compiler_directive]; the cursor is past the first slash *)
Definition compiler_directive (src : fpath) (start : position) (r : reader)
  : outcome (option token * reader) :=
  let '(d, r2) := read_while (fun c => negb (c =? cSlash)) r in
  let r3 := rd_skip r2 in
  obind (from_utf8 d) (fun s =>
    Done (Some (mkToken (Directive (directive_of s)) (pos_to start (rd_pos r3)) src), r3)).

(** lexer.rs:217-251 [string]: the value, or [None] at the end of the text. [str.push(ch as char)]
    pushes the scalar value of the byte (Latin-1), i.e. two bytes for a non-ASCII byte. *)
Fixpoint string_go (rest : list N) (p : position) (escaped : bool) : option str * reader :=
  match rest with
  | [] => (None, mkReader [] p)
  | c :: r =>
    let p1 := advance p c in
    if c =? cBackslash then
      if escaped then
        let '(v, rd) := string_go r p1 false in (option_map (app [cBackslash]) v, rd)
      else string_go r p1 true
    else if c =? cQuote then
      if escaped then
        let '(v, rd) := string_go r p1 false in (option_map (app [cQuote]) v, rd)
      else (Some [], mkReader r p1)
    else
      let '(v, rd) := string_go r p1 false in (option_map (app (encode_char c)) v, rd)
  end.
Definition lex_string (src : fpath) (start : position) (r : reader)
  : outcome (option token * reader) :=
  match string_go (rd_rest r) (rd_pos r) false with
  | (None, r2) => Done (None, r2)
  | (Some s, r2) => Done (Some (mkToken (TString s) (pos_to start (rd_pos r2)) src), r2)
  end.

(** lexer.rs:253-261 [number] *)
Definition lex_number (src : fpath) (start : position) (r : reader)
  : outcome (option token * reader) :=
  let '(buf, r2) := read_while is_alnum r in
  obind (from_utf8 buf) (fun s =>
    Done (Some (mkToken (UnparsedNumber s) (pos_to start (rd_pos r2)) src), r2)).

(** lexer.rs:289-296 [simple_token] *)
Definition simple_token (k : token_kind) (src : fpath) (start : position) (r : reader)
  : outcome (option token * reader) :=
  let r2 := rd_skip r in
  Done (Some (mkToken k (pos_to start (rd_pos r2)) src), r2).

(** lexer.rs:315-340: a slash has been peeked *)
Definition lex_slash (src : fpath) (start : position) (r : reader)
  : outcome (option token * reader) :=
  let r1 := rd_skip r in
  match rd_peek r1 with
  | None => Done (Some (mkToken Slash (pos_to start (rd_pos r1)) src), r1)
  | Some ch =>
    if ch =? cSlash then line_comment src start (rd_skip r1)
    else if ch =? cStar then multi_line_comment src start (rd_skip r1)
    else if is_alpha ch then compiler_directive src start r1
    else Done (Some (mkToken Slash (pos_to start (rd_pos r1)) src), r1)
  end.

(** the state after the token that starts with byte [ch]: lexer.rs:342, 346, 354 *)
Definition state_after (ch : N) (st : lexer_state) : lexer_state :=
  if ch =? cSemi then ExpectingNodeOrPropertyName
  else if ch =? cEq then OtherState
  else if ch =? cLBrace then ExpectingNodeOrPropertyName
  else st.

(** lexer.rs:297-362: the token that starts with the peeked byte [ch] *)
Definition lex_token (ch : N) (st : lexer_state) (src : fpath) (start : position) (r : reader)
  : outcome (option token * reader) :=
  if match st with ExpectingNodeOrPropertyName => is_name_start ch | OtherState => false end
  then ident_or_label src start r
  else if is_alpha ch || (ch =? cUnder) then ident_or_label src start r
  else if is_digit ch then lex_number src start r
  else if ch =? cAmp then path_or_reference src start (rd_skip r)
  else if ch =? cQuote then lex_string src start (rd_skip r)
  else if ch =? cSlash then lex_slash src start r
  else if ch =? cSemi then simple_token Semicolon src start r
  else if ch =? cEq then simple_token Equal src start r
  else if ch =? cLBracket then simple_token OpenBracket src start r
  else if ch =? cRBracket then simple_token CloseBracket src start r
  else if ch =? cLPar then simple_token OpenParen src start r
  else if ch =? cRPar then simple_token CloseParen src start r
  else if ch =? cLBrace then simple_token OpenBrace src start r
  else if ch =? cRBrace then simple_token CloseBrace src start r
  else if ch =? cLt then simple_token ChevronLeft src start r
  else if ch =? cGt then simple_token ChevronRight src start r
  else if ch =? cComma then simple_token Comma src start r
  else simple_token (Unknown ch) src start r.

(** lexer.rs:283-363 [consume] (comments included) *)
Definition lex_consume (lx : lexer) : outcome (option token * lexer) :=
  let last := rd_pos (lx_rd lx) in
  let r := skip_whitespace (lx_rd lx) in
  match rd_peek r with
  | None => Done (None, mkLexer r (lx_src lx) (lx_state lx) last)
  | Some ch =>
    obind (lex_token ch (lx_state lx) (lx_src lx) (rd_pos r) r) (fun '(t, r2) =>
      Done (t, mkLexer r2 (lx_src lx) (state_after ch (lx_state lx)) last))
  end.

Definition is_comment (k : token_kind) : bool :=
  match k with Comment _ => true | _ => false end.

(** lexer.rs:496-503 [next]: the next token that is not a comment. Fuel: every token has at least
    one byte. *)
Fixpoint lex_next_fuel (fuel : nat) (lx : lexer) : outcome (option token * lexer) :=
  match fuel with
  | O => NoFuel
  | S f =>
    obind (lex_consume lx) (fun '(t, lx2) =>
      match t with
      | None => Done (None, lx2)
      | Some tok => if is_comment (tk_kind tok) then lex_next_fuel f lx2 else Done (Some tok, lx2)
      end)
  end.
Definition lex_next (lx : lexer) : outcome (option token * lexer) :=
  lex_next_fuel (S (length (rd_rest (lx_rd lx)))) lx.

(** lexer.rs:78-80 [pos] *)
Definition lex_pos (lx : lexer) : position := rd_pos (lx_rd lx).

(** lexer.rs:263-276 [insert_pseudo_kind] *)
Definition lex_insert_pseudo_kind (k : token_kind) (lx : lexer) : lexer :=
  let set st := mkLexer (lx_rd lx) (lx_src lx) st (lx_last lx) in
  match k with
  | Semicolon => set ExpectingNodeOrPropertyName
  | Equal => set OtherState
  | CloseParen => set ExpectingNodeOrPropertyName
  | _ => lx
  end.

(** ** Peeking lexer, lexer.rs:369-488 *)
Record plexer := mkPL { pl_lex : lexer; pl_peeked : option (option token) }.

(** lexer.rs:381-386 *)
Definition pl_of (lx : lexer) : plexer := mkPL lx None.

(** lexer.rs:405-408 [peek] *)
Definition pl_peek (pl : plexer) : outcome (option token * plexer) :=
  match pl_peeked pl with
  | Some t => Done (t, pl)
  | None => obind (lex_next (pl_lex pl)) (fun '(t, lx) => Done (t, mkPL lx (Some t)))
  end.

(** lexer.rs:482-487 [next] *)
Definition pl_next (pl : plexer) : outcome (option token * plexer) :=
  match pl_peeked pl with
  | Some t => Done (t, mkPL (pl_lex pl) None)
  | None => obind (lex_next (pl_lex pl)) (fun '(t, lx) => Done (t, mkPL lx None))
  end.

(** lexer.rs:490-504, collecting the iterator: all tokens of a lexer *)
Fixpoint lex_all_fuel (fuel : nat) (lx : lexer) : outcome (list token) :=
  match fuel with
  | O => NoFuel
  | S f =>
    obind (lex_next lx) (fun '(t, lx2) =>
      match t with
      | None => Done []
      | Some tok => obind (lex_all_fuel f lx2) (fun l => Done (tok :: l))
      end)
  end.
Definition lex_all (lx : lexer) : outcome (list token) :=
  lex_all_fuel (S (length (rd_rest (lx_rd lx)))) lx.

(** All tokens of a text: Lexer::from_text(text, source).collect() *)
Definition tokenize (text : list N) (src : fpath) : outcome (list token) :=
  lex_all (lexer_new (reader_of text) src).
