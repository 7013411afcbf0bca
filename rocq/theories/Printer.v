(** diagnostics.rs:165-227 [DiagnosticPrinter], and str::lines *)
From Verif Require Export Diag.

(** char::is_ascii_whitespace *)
Definition blank_char (c : N) : N := if is_ws c then c else cSpace.

Definition repeat_char (c : N) (n : N) : str := repeat c (N.to_nat n).

(** diagnostics.rs:201-205: the number of carets. u32 subtraction panics on underflow if overflow
    checks are on ([dbg], as is the debug_assert in line 175) and wraps otherwise. *)
Definition caret_count (dbg : bool) (sp : span) : outcome N :=
  let s := pos_char (span_start sp) in
  let e := pos_char (span_end sp) in
  if s =? e then Done 1
  else if s <=? e then Done (e - s)
  else if dbg then Panic
  else Done (u32_lim + e - s).

(** diagnostics.rs:172-215 [fmt_diagnostic] *)
Definition fmt_diagnostic (dbg : bool) (code : list str) (m : severity_map) (d : diag)
  : outcome str :=
  let s := span_start (dg_span d) in
  let e := span_end (dg_span d) in
  if dbg && negb (pos_line s =? pos_line e) then Panic
  else
    let line := nth (N.to_nat (pos_line s)) code [] in
    let line_empty :=
      concat (map encode_char
                (firstn (N.to_nat (pos_char s)) (map blank_char (chars line)))) in
    let prefix := show_dec (pos_line s + 1) in
    let prefix_empty := repeat_char cSpace (N.of_nat (length prefix)) in
    obind (caret_count dbg (dg_span d)) (fun len =>
      Done (show_severity (diag_severity m d) ++ bs " --> " ++ dg_source d ++ bs ":"
            ++ show_dec (pos_line s + 1) ++ bs ":" ++ show_dec (pos_char s + 1) ++ [cNL]
            ++ prefix_empty ++ bs " |" ++ [cNL]
            ++ prefix ++ bs " | " ++ line ++ [cNL]
            ++ prefix_empty ++ bs " | " ++ line_empty ++ repeat_char 94 len
            ++ bs " " ++ dg_msg d)).

(** diagnostics.rs:218-227 *)
Fixpoint fmt_diagnostics (dbg : bool) (code : list str) (m : severity_map) (ds : list diag)
  : outcome str :=
  match ds with
  | [] => Done []
  | d :: r =>
    obind (fmt_diagnostic dbg code m d) (fun s =>
      obind (fmt_diagnostics dbg code m r) (fun t => Done (s ++ [cNL; cNL] ++ t)))
  end.

(** str::lines: split at '\n', a trailing '\r' of a terminated line is dropped, and a text ending
    in '\n' has no empty last line *)
Definition strip_cr (l : str) : str :=
  match rev l with
  | 13 :: r => rev r
  | _ => l
  end.
Fixpoint lines_go (cur : str) (s : str) : list str :=
  match s with
  | [] => match cur with [] => [] | _ => [cur] end
  | c :: r => if c =? cNL then strip_cr cur :: lines_go [] r else lines_go (cur ++ [c]) r
  end.
Definition lines (s : str) : list str := lines_go [] s.
