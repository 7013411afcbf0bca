(** tokens/token.rs *)
From Verif Require Export Data.

(** token.rs:47-58 [CompilerDirective] *)
Inductive directive :=
| DTSVersionHeader | MemReserve | DeleteNode | DeleteProperty | Plugin | Bits | OmitIfNoRef
| Include | DirOther (s : str).

(** token.rs:76-83 [Reference] of the token level *)
Inductive tref := TRefSimple (s : str) | TRefPath (s : str).

(** token.rs:7-45 [TokenKind] *)
Inductive token_kind :=
| Semicolon | Slash | Equal | OpenBracket | CloseBracket | OpenParen | CloseParen
| ChevronLeft | ChevronRight | Comma | OpenBrace | CloseBrace
| Ident (s : str) | Label (s : str) | TString (s : str) | UnparsedNumber (s : str)
| Directive (d : directive) | Ref (r : tref) | Comment (s : str) | Unknown (c : N).

(** token.rs:85-90 [Token] *)
Record token := mkToken { tk_kind : token_kind; tk_span : span; tk_source : fpath }.

Definition tk_start (t : token) : position := span_start (tk_span t).
Definition tk_end (t : token) : position := span_end (tk_span t).

Definition directive_eq_dec (a b : directive) : {a = b} + {a <> b}.
Proof. decide equality; apply str_eq_dec. Defined.
Definition tref_eq_dec (a b : tref) : {a = b} + {a <> b}.
Proof. decide equality; apply str_eq_dec. Defined.
(** derived [PartialEq] of TokenKind *)
Definition kind_eq_dec (a b : token_kind) : {a = b} + {a <> b}.
Proof.
  decide equality; first [apply str_eq_dec | apply directive_eq_dec | apply tref_eq_dec | apply N.eq_dec].
Defined.
Definition kind_eqb (a b : token_kind) : bool := if kind_eq_dec a b then true else false.

(** token.rs:60-74 Display for CompilerDirective *)
Definition directive_name (d : directive) : str :=
  match d with
  | DTSVersionHeader => bs "dts-v1"
  | MemReserve => bs "memreserve"
  | DeleteNode => bs "delete-node"
  | DeleteProperty => bs "delete-property"
  | Plugin => bs "plugin"
  | Bits => bs "bits"
  | OmitIfNoRef => bs "omit-if-no-ref"
  | Include => bs "include"
  | DirOther s => s
  end.
Definition show_directive (d : directive) : str := bs "/" ++ directive_name d ++ bs "/".

(** diagnostics.rs:47-72 Display for TokenKind *)
Definition show_kind (k : token_kind) : str :=
  match k with
  | Semicolon => bs "';'"
  | Slash => bs "'/'"
  | Equal => bs "'='"
  | OpenBracket => bs "'['"
  | CloseBracket => bs "']'"
  | OpenParen => bs "'('"
  | CloseParen => bs "')'"
  | ChevronLeft => bs "'<'"
  | ChevronRight => bs "'>'"
  | Comma => bs "','"
  | OpenBrace => bs "'{'"
  | CloseBrace => bs "'}'"
  | Ident _ => bs "identifier"
  | Label _ => bs "label"
  | TString _ => bs "string"
  | UnparsedNumber _ => bs "number"
  | Directive d => show_directive d
  | Ref _ => bs "reference"
  | Comment _ => bs "comment"
  | Unknown _ => bs "unknown"
  end.
