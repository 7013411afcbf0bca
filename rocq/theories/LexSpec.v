(** Specification of positions and of the lexical structure, independent of Reader.v/Lexer.v *)
From Verif Require Export Token.

(** ** Positions. Line = number of newlines before, column = bytes since the last newline. *)
Definition count_nl (l : list N) : N := N.of_nat (count_occ N.eq_dec l cNL).
Fixpoint since_nl (l : list N) : list N :=
  match l with
  | [] => []
  | c :: r => if existsb (N.eqb cNL) l then since_nl r else l
  end.
(** the position after the bytes [l] of a text have been read *)
Definition pos_after (l : list N) : position := mkPos (count_nl l) (N.of_nat (length (since_nl l))).

(** ** White space and comments *)
Definition ws_char (c : N) : Prop := In c [cSpace; cTab; cNL; cFF; cCR].

(** the text contains no "*/" *)
Definition no_close (b : list N) : Prop := forall x y, b <> x ++ [cStar; cSlash] ++ y.

Inductive gap : list N -> Prop :=
| gap_nil : gap []
| gap_ws c g : ws_char c -> gap g -> gap (c :: g)
| gap_line b g : ~ In cNL b -> gap g -> gap ([cSlash; cSlash] ++ b ++ [cNL] ++ g)
| gap_block b g : no_close b -> gap g -> gap ([cSlash; cStar] ++ b ++ [cStar; cSlash] ++ g).

(** a comment without the line end behind it; a text that ends with one *)
Definition comment (c : list N) : Prop :=
  (exists b, c = [cSlash; cSlash] ++ b /\ ~ In cNL b)
  \/ (exists b, c = [cSlash; cStar] ++ b ++ [cStar; cSlash] /\ no_close b).
Definition ends_comment (v : list N) : Prop := exists a c, v = a ++ c /\ comment c.

(** the end of a text: a gap, or a gap and a last line comment *)
Definition end_gap (t : list N) : Prop :=
  gap t \/ exists g b, gap g /\ ~ In cNL b /\ t = g ++ [cSlash; cSlash] ++ b.

(** ** Characters of names and numbers *)
Definition letter (c : N) : Prop := 97 <= c <= 122 \/ 65 <= c <= 90.
Definition digit (c : N) : Prop := 48 <= c <= 57.
(** letters, digits and , . _ + ? # - *)
Definition name_char (c : N) : Prop :=
  letter c \/ digit c \/ In c [cComma; cDot; cUnder; cPlus; cQuest; cHash; cMinus].
(** letters, digits and _ *)
Definition label_char (c : N) : Prop := letter c \/ digit c \/ c = cUnder.

(** ** Tokens. A lexer is either expecting a name (where , . + - # ? start one) or not. *)
Inductive mode := NameExpected | Elsewhere.

Definition name_start (m : mode) (c : N) : Prop :=
  letter c \/ c = cUnder \/ (m = NameExpected /\ In c [cComma; cDot; cPlus; cMinus; cHash; cQuest]).

(** contents of a string literal: escaped bytes stand for themselves; a byte is a Latin-1 character *)
Inductive string_body : list N -> str -> Prop :=
| sb_nil : string_body [] []
| sb_plain c b s : c <> cQuote -> c <> cBackslash -> string_body b s ->
    string_body (c :: b) (encode_char c ++ s)
| sb_escaped c b s : string_body b s -> string_body (cBackslash :: c :: b) (encode_char c ++ s).

Definition punctuation : list (N * token_kind) :=
  [(cSemi, Semicolon); (cEq, Equal); (cLBracket, OpenBracket); (cRBracket, CloseBracket);
   (cLPar, OpenParen); (cRPar, CloseParen); (cLBrace, OpenBrace); (cRBrace, CloseBrace);
   (cLt, ChevronLeft); (cGt, ChevronRight); (cComma, Comma)].

Definition known_directives : list (str * directive) :=
  [(bs "dts-v1", DTSVersionHeader); (bs "plugin", Plugin); (bs "memreserve", MemReserve);
   (bs "bits", Bits); (bs "delete-property", DeleteProperty); (bs "delete-node", DeleteNode);
   (bs "omit-if-no-ref", OmitIfNoRef); (bs "include", Include)].
Definition directive_named (s : str) (d : directive) : Prop :=
  In (s, d) known_directives \/ (d = DirOther s /\ forall d', ~ In (s, d') known_directives).

(** [spells m k u rest]: in mode [m], the bytes [u], followed by [rest], are a token of kind [k] *)
Inductive spells (m : mode) : token_kind -> list N -> list N -> Prop :=
| sp_name c s rest : name_start m c -> Forall name_char (c :: s) ->
    (forall x r, rest = x :: r -> ~ name_char x /\ x <> cColon /\ x <> cAt) ->
    spells m (Ident (c :: s)) (c :: s) rest
| sp_name_at c s a rest : name_start m c -> Forall name_char (c :: s) -> Forall name_char a ->
    (forall x r, rest = x :: r -> ~ name_char x) ->
    spells m (Ident ((c :: s) ++ [cAt] ++ a)) ((c :: s) ++ [cAt] ++ a) rest
| sp_label c s rest : name_start m c -> Forall name_char (c :: s) ->
    spells m (Label (c :: s)) ((c :: s) ++ [cColon]) rest
| sp_number c s rest : digit c -> Forall (fun x => letter x \/ digit x) (c :: s) ->
    (forall x r, rest = x :: r -> ~ (letter x \/ digit x)) ->
    spells m (UnparsedNumber (c :: s)) (c :: s) rest
| sp_ref c s rest : letter c -> Forall label_char (c :: s) ->
    (forall x r, rest = x :: r -> ~ label_char x) ->
    spells m (Ref (TRefSimple (c :: s))) (cAmp :: c :: s) rest
| sp_ref_empty x r : ~ letter x -> x <> cLBrace ->
    spells m (Ref (TRefSimple [])) [cAmp] (x :: r)
| sp_ref_path p rest : ~ In cRBrace p ->
    spells m (Ref (TRefPath p)) ([cAmp; cLBrace] ++ p ++ [cRBrace]) rest
| sp_string b s rest : string_body b s ->
    spells m (TString s) ([cQuote] ++ b ++ [cQuote]) rest
| sp_slash rest :
    (forall x r, rest = x :: r -> x <> cSlash /\ x <> cStar /\ ~ letter x) ->
    spells m Slash [cSlash] rest
| sp_directive c s d rest : letter c -> ~ In cSlash (c :: s) -> directive_named (c :: s) d ->
    spells m (Directive d) ([cSlash] ++ (c :: s) ++ [cSlash]) rest
| sp_directive_eof c s d : letter c -> ~ In cSlash (c :: s) -> directive_named (c :: s) d ->
    spells m (Directive d) ([cSlash] ++ (c :: s)) []
| sp_punct c k rest : ~ name_start m c -> In (c, k) punctuation ->
    spells m k [c] rest
| sp_unknown c rest : ~ ws_char c -> ~ name_start m c -> ~ digit c ->
    ~ In c [cAmp; cQuote; cSlash] -> (forall k, ~ In (c, k) punctuation) ->
    spells m (Unknown c) [c] rest.

(** constructs that reach the end of the text without being closed; the lexer takes the end of the
    text for the end of the file there *)
Inductive unterminated : list N -> Prop :=
| ut_amp : unterminated [cAmp]
| ut_path p : ~ In cRBrace p -> unterminated ([cAmp; cLBrace] ++ p)
| ut_string b : (forall u s v, b = u ++ [cQuote] ++ v -> ~ string_body u s) ->
    unterminated (cQuote :: b)
| ut_block b : no_close b -> unterminated ([cSlash; cStar] ++ b).

(** the mode after a token *)
Definition mode_after (k : token_kind) (m : mode) : mode :=
  match k with
  | Semicolon | OpenBrace => NameExpected
  | Equal => Elsewhere
  | _ => m
  end.

(** [lexed src m pre rest toks]: after the bytes [pre] of a text, in mode [m], the rest of the text
    consists of the tokens [toks] *)
Inductive lexed (src : fpath) : mode -> list N -> list N -> list token -> Prop :=
| lx_end m pre t : end_gap t -> lexed src m pre t []
| lx_unterminated m pre g u : gap g -> unterminated u -> lexed src m pre (g ++ u) []
| lx_token m pre g k u rest toks : gap g -> spells m k u rest ->
    lexed src (mode_after k m) (pre ++ g ++ u) rest toks ->
    lexed src m pre (g ++ u ++ rest)
      (mkToken k (mkSpan (pos_after (pre ++ g)) (pos_after (pre ++ g ++ u))) src :: toks).
