(** data.rs: positions, spans, file types. *)
From Verif Require Export Base.

(** data.rs:69-73 [Position]. u32 fields are unbounded here; see C54 for the bound. *)
Record position := mkPos { pos_line : N; pos_char : N }.

(** data.rs:97-99 *)
Definition pos_zero : position := mkPos 0 0.

(** data.rs:69 derived [Ord]: lexicographic *)
Definition pos_ltb (a b : position) : bool :=
  (pos_line a <? pos_line b) || ((pos_line a =? pos_line b) && (pos_char a <? pos_char b)).
Definition pos_leb (a b : position) : bool :=
  (pos_line a <? pos_line b) || ((pos_line a =? pos_line b) && (pos_char a <=? pos_char b)).
Definition pos_lt (a b : position) : Prop :=
  pos_line a < pos_line b \/ (pos_line a = pos_line b /\ pos_char a < pos_char b).
Definition pos_le (a b : position) : Prop :=
  pos_line a < pos_line b \/ (pos_line a = pos_line b /\ pos_char a <= pos_char b).

(** data.rs:165-168 [Span] *)
Record span := mkSpan { span_start : position; span_end : position }.

(** data.rs:115-118 [Position::to]; the debug_assert is not part of release builds (C03, C17 show
    that it holds wherever the code calls [to]) *)
Definition pos_to (a b : position) : span := mkSpan a b.

(** data.rs:125-135 [offset_by_char] for a non-negative offset *)
Definition pos_offset (p : position) (n : N) : position := mkPos (pos_line p) (pos_char p + n).

(** data.rs:145-147 *)
Definition as_span (p : position) : span := mkSpan p p.

(** data.rs:157-159 *)
Definition as_char_span (p : position) : span := mkSpan p (pos_offset p 1).

(** data.rs:183-185 [Span::contains] *)
Definition span_contains (s : span) (p : position) : bool :=
  pos_leb (span_start s) p && pos_ltb p (span_end s).

(** data.rs:15-21 *)
Inductive file_type := DtSource | DtSourceInclude | DtSourceOverlay | FtUnknown.

Definition file_type_eqb (a b : file_type) : bool :=
  match a, b with
  | DtSource, DtSource | DtSourceInclude, DtSourceInclude
  | DtSourceOverlay, DtSourceOverlay | FtUnknown, FtUnknown => true
  | _, _ => false
  end.

(** data.rs:46-53 *)
Definition from_file_ending (e : str) : file_type :=
  if str_eqb e (bs "dts") then DtSource
  else if str_eqb e (bs "dtsi") then DtSourceInclude
  else if str_eqb e (bs "dtso") || str_eqb e (bs "overlay") then DtSourceOverlay
  else FtUnknown.

(** Paths are byte strings with Unix semantics. *)
Definition fpath := str.

(** std::path::Path::file_name for the paths that occur here: the part after the last '/'; [None]
    if it is empty or ".." (trailing slashes and "." components do not occur in canonical paths) *)
Fixpoint last_component (p : str) : str :=
  match p with
  | [] => []
  | c :: r =>
    if existsb (fun x => x =? cSlash) p then last_component r else p
  end.
Definition path_file_name (p : fpath) : option str :=
  let n := last_component p in
  if str_eqb n [] || str_eqb n (bs "..") then None else Some n.

(** split at the last '.', if any *)
Fixpoint rsplit_dot (s : str) : option (str * str) :=
  match s with
  | [] => None
  | c :: r =>
    match rsplit_dot r with
    | Some (p, q) => Some (c :: p, q)
    | None => if c =? cDot then Some ([], r) else None
    end
  end.

(** std::path::Path::extension: after the last dot of the file name unless that dot is its first
    character *)
Definition path_extension (p : fpath) : option str :=
  match path_file_name p with
  | None => None
  | Some n =>
    match rsplit_dot n with
    | Some (b :: bs', e) => Some e
    | _ => None
    end
  end.

(** data.rs:56-64 [FileType::from(&Path)]; to_str() fails only for non-UTF-8 paths, not modelled *)
Definition file_type_of_path (p : fpath) : file_type :=
  match path_extension p with
  | Some e => from_file_ending e
  | None => FtUnknown
  end.
