(** ginko/src/main.rs *)
From Verif Require Export Project Printer.

(** main.rs:22-37: the loop over the files, in iteration order; [has_errors] and the output *)
Fixpoint print_files (dbg : bool) (fs : list (fpath * pfile)) : outcome (bool * str) :=
  match fs with
  | [] => Done (false, [])
  | (_, f) :: r =>
    match pf_diags f with
    | [] => print_files dbg r
    | ds =>
      obind (fmt_diagnostics dbg (lines (pf_text f)) default_severities ds) (fun s =>
        obind (print_files dbg r) (fun '(_, t) => Done (true, s ++ [cNL] ++ t)))
    end
  end.

Definition ok_message : str := bs "OK; No issues found" ++ [cNL].

(** main.rs:15-45: exit status and standard output. A failing [add_file] makes [main] return an
    error, which exits with status 1 (its message goes to standard error). [ofiles] is the
    iteration order of project_files(). *)
Definition cli_main (dbg : bool) (fuel : nat) (o : oracle)
  (ofiles : list (fpath * pfile) -> list (fpath * pfile)) (fs : fsys)
  (includes : list str) (file : str) : outcome (N * str) :=
  let pj := set_include_paths fs includes project_new in
  obind (add_file fuel o fs file pj) (fun r =>
    match r with
    | inl _ => Done (1, [])
    | inr pj' =>
      obind (print_files dbg (ofiles (pj_files pj'))) (fun '(errs, out) =>
        if errs then Done (0, out ++ ok_message) else Done (1, out))
    end).
