(** error_codes.rs and diagnostics.rs (the printer is in Printer.v) *)
From Verif Require Export Token.

(** error_codes.rs:8-31 *)
Inductive error_code :=
| UnexpectedEOF | Expected | ExpectedName | OddNumberOfBytestringElements | IntError | NonDtsV1
| NameTooLong | IllegalChar | IllegalStart | UnresolvedReference | PropertyReferencedByNode
| NonStringInCompatible | PathCannotBeEmpty | PropertyAfterNode | UnbalancedParentheses
| MisplacedDtsHeader | DuplicateDirective | IncorrectDirective | ParserError | IOError
| ErrorsInInclude | CyclicDependencyError.

Definition error_code_eq_dec (a b : error_code) : {a = b} + {a <> b}.
Proof. decide equality. Defined.
Definition error_code_eqb (a b : error_code) : bool := if error_code_eq_dec a b then true else false.

(** error_codes.rs:6-7, strum snake_case *)
Definition error_code_name (e : error_code) : str :=
  match e with
  | UnexpectedEOF => bs "unexpected_eof"
  | Expected => bs "expected"
  | ExpectedName => bs "expected_name"
  | OddNumberOfBytestringElements => bs "odd_number_of_bytestring_elements"
  | IntError => bs "int_error"
  | NonDtsV1 => bs "non_dts_v1"
  | NameTooLong => bs "name_too_long"
  | IllegalChar => bs "illegal_char"
  | IllegalStart => bs "illegal_start"
  | UnresolvedReference => bs "unresolved_reference"
  | PropertyReferencedByNode => bs "property_referenced_by_node"
  | NonStringInCompatible => bs "non_string_in_compatible"
  | PathCannotBeEmpty => bs "path_cannot_be_empty"
  | PropertyAfterNode => bs "property_after_node"
  | UnbalancedParentheses => bs "unbalanced_parentheses"
  | MisplacedDtsHeader => bs "misplaced_dts_header"
  | DuplicateDirective => bs "duplicate_directive"
  | IncorrectDirective => bs "incorrect_directive"
  | ParserError => bs "parser_error"
  | IOError => bs "io_error"
  | ErrorsInInclude => bs "errors_in_include"
  | CyclicDependencyError => bs "cyclic_dependency_error"
  end.

(** diagnostics.rs:19-24 *)
Inductive severity := SevError | SevWarning | SevHint.
Definition severity_eqb (a b : severity) : bool :=
  match a, b with
  | SevError, SevError | SevWarning, SevWarning | SevHint, SevHint => true
  | _, _ => false
  end.
(** diagnostics.rs:26-35 *)
Definition show_severity (s : severity) : str :=
  match s with
  | SevError => bs "error"
  | SevWarning => bs "warning"
  | SevHint => bs "hint"
  end.

(** error_codes.rs:38-42: an EnumMap is a total function on the error codes *)
Definition severity_map := error_code -> severity.

(** error_codes.rs:44-73 [SeverityMap::default] *)
Definition default_severities : severity_map := fun e =>
  match e with
  | UnexpectedEOF | Expected | ExpectedName | OddNumberOfBytestringElements | IntError | NonDtsV1
  | IllegalChar | IllegalStart | UnresolvedReference | PropertyReferencedByNode
  | PathCannotBeEmpty | PropertyAfterNode | UnbalancedParentheses | MisplacedDtsHeader
  | ParserError | IOError | ErrorsInInclude | CyclicDependencyError | IncorrectDirective => SevError
  | NameTooLong | NonStringInCompatible | DuplicateDirective => SevWarning
  end.

(** diagnostics.rs:74-80 *)
Record diag := mkDiag { dg_kind : error_code; dg_span : span; dg_source : fpath; dg_msg : str }.

(** diagnostics.rs:83-95 *)
Definition diag_new (sp : span) (src : fpath) (k : error_code) (msg : str) : diag :=
  mkDiag k sp src msg.

(** diagnostics.rs:97-99 *)
Definition diag_io_error (sp : span) (src : fpath) (err : str) : diag := diag_new sp src IOError err.

(** diagnostics.rs:101-108 *)
Definition diag_from_token (t : token) (k : error_code) (msg : str) : diag :=
  mkDiag k (tk_span t) (tk_source t) msg.

(** diagnostics.rs:110-112 *)
Definition diag_int_error (sp : span) (src : fpath) (e : int_error) : diag :=
  diag_new sp src IntError (int_error_msg e).

(** diagnostics.rs:114-130; path.display() is the path itself for UTF-8 paths *)
Definition diag_cyclic (sp : span) (src : fpath) (cycle : list fpath) : diag :=
  diag_new sp src CyclicDependencyError (bs "Cyclic include: " ++ join (bs " -> ") cycle).

(** diagnostics.rs:132-142 *)
Definition diag_expected (sp : span) (src : fpath) (kinds : list token_kind) : diag :=
  let msg := match kinds with
             | [k] => bs "Expected " ++ show_kind k
             | _ => bs "Expected one of " ++ join (bs ", ") (map show_kind kinds)
             end in
  diag_new sp src Expected msg.

(** diagnostics.rs:148-150 *)
Definition diag_severity (m : severity_map) (d : diag) : severity := m (dg_kind d).

(** diagnostics.rs:12-17, 37-45 *)
Inductive name_context := CtxLabel | CtxNodeName | CtxPropertyName.
Definition show_name_context (c : name_context) : str :=
  match c with
  | CtxLabel => bs "label"
  | CtxNodeName => bs "node name"
  | CtxPropertyName => bs "property"
  end.
