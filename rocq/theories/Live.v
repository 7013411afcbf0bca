(** The same operations on a disk that other programs change in the meantime. [D t] is the disk at moment [t]; every call of the
    operating system (dunce::canonicalize, fs::read_to_string) happens at a moment of its own, and the next one at a later moment. What
    does not ask the operating system is that of Project.v, Analysis.v, Cli.v and Server.v. *)
From Verif Require Import Base Parser Analysis Project Cli Server Session.

Section Live.
  Context (D : nat -> fsys).

  Definition live_canon (p : fpath) (t : nat) : (fpath + str) * nat := (fs_canon (D t) p, S t).
  Definition live_read (p : fpath) (t : nat) : (str + str) * nat := (read_to_string (D t) p, S t).

  (** ast.rs:473-486 [Include::path]: [find_map] stops at the first directory *)
  Fixpoint live_resolve (dirs : list fpath) (name : str) (t : nat) : option fpath * nat :=
    match dirs with
    | [] => (None, t)
    | d :: r =>
      match live_canon (path_join d name) t with
      | (inl p, t1) => (Some p, t1)
      | (inr _, t1) => live_resolve r name t1
      end
    end.
  Definition live_include_path (i : include) (t : nat) : (fpath + str) * nat :=
    match live_resolve (in_paths i) (wt_item (in_file_name i)) t with
    | (Some p, t1) => (inl p, t1)
    | (None, t1) => live_canon (wt_item (in_file_name i)) t1
    end.

  (** project.rs:268-290 [parse_included_file] for the includes of a file one after the other (project.rs:252-255); [rec] is [parse_file] *)
  Section Loop.
    Context (rec : fpath -> str -> file_type -> list (fpath * pfile) -> nat -> outcome (list (fpath * pfile) * nat)).
    Fixpoint live_loop (is : list include) (ds : list diag) (files : list (fpath * pfile)) (t : nat)
      : outcome ((list diag * list (fpath * pfile)) * nat) :=
      match is with
      | [] => Done ((ds, files), t)
      | i :: r =>
        match live_include_path i t with
        | (inr e, t1) => live_loop r (ds ++ [diag_io_error (include_span i) (include_source i) e]) files t1
        | (inl p, t1) =>
          if m_mem str_eq_dec p files then live_loop r ds files t1
          else
            match live_read p t1 with
            | (inl text, t2) => obind (rec p text (file_type_of_path p) files t2) (fun '(files1, t3) => live_loop r ds files1 t3)
            | (inr e, t2) => live_loop r (ds ++ [diag_io_error (include_span i) (include_source i) e]) files t2
            end
        end
      end.
  End Loop.
  (** project.rs:240-266 [parse_file] *)
  Fixpoint live_parse_file (fuel : nat) (incl : list fpath) (name : fpath) (text : str) (ft : file_type)
    (files : list (fpath * pfile)) (t : nat) : outcome (list (fpath * pfile) * nat) :=
    match fuel with
    | O => NoFuel
    | S fl =>
      match parse_text (include_dirs incl name) text name with
      | RPanic => Panic
      | RNoFuel => NoFuel
      | RErr d _ => Done (m_insert str_eq_dec name (pf_unrecoverable d text ft) files, t)
      | ROk file st =>
        obind (live_loop (live_parse_file fl incl) (includes_of file) (ps_diags st) (m_insert str_eq_dec name pf_default files) t)
          (fun '((ds, files'), t') => Done (m_insert str_eq_dec name (pf_parsed ds file ft text) files', t'))
      end
    end.

  (** project.rs:137-146: the includes of one file, all of them resolved before the map is changed *)
  Fixpoint live_resolved (is : list include) (t : nat) : list fpath * nat :=
    match is with
    | [] => ([], t)
    | i :: r =>
      let '(p, t1) := live_include_path i t in
      let '(ps, t2) := live_resolved r t1 in
      (match p with inl q => q :: ps | inr _ => ps end, t2)
    end.
  (** project.rs:132-146 *)
  Fixpoint live_includer_map (files : list (fpath * pfile)) (m : list (fpath * list fpath)) (t : nat) : list (fpath * list fpath) * nat :=
    match files with
    | [] => (m, t)
    | kv :: r =>
      match pf_file (snd kv) with
      | None => live_includer_map r m t
      | Some f =>
        let '(ps, t1) := live_resolved (includes_of f) t in
        live_includer_map r (fold_left (fun m i => map_push i (fst kv) m) ps (map_touch (fst kv) m)) t1
      end
    end.
  (** project.rs:130-159 [compute_key_order] *)
  Definition live_key_order (o : oracle) (files : list (fpath * pfile)) (t : nat) : outcome (list fpath * nat) :=
    let files' := o_files o files in
    let '(m, t1) := live_includer_map files' [] t in
    obind (order_loop (o_map o m) (m_keys files')) (fun order => Done (order, t1)).

  (** project.rs:292-297 [get_file] *)
  Definition live_get_file (pj : project) (p : fpath) (t : nat) : option pfile * nat :=
    match live_canon p t with
    | (inl q, t1) => (m_get str_eq_dec q (pj_files pj), t1)
    | (inr _, t1) => (None, t1)
    end.
  (** analysis.rs:174-208 [analyze_include] *)
  Definition live_analyze_include (o : an_oracle) (pj : project) (parent : dts_file) (i : include) (a : analysis) (c : fctx) (t : nat)
    : outcome ((analysis * fctx) * nat) :=
    match live_include_path i t with
    | (inr e, t1) => Done ((a, add_diag (diag_io_error (include_span i) (include_source i) e) c), t1)
    | (inl path, t1) =>
      obind (guard_add str_eq_dec (o_guard o (an_tick a)) path [fl_source parent] (an_guard a))
        (fun '(r, g) =>
           let a' := mkAnalysis g (S (an_tick a)) in
           match r with
           | Some cycle => Done ((a', add_diag (diag_cyclic (include_span i) (include_source i) cycle) c), t1)
           | None =>
             match live_get_file pj path t1 with
             | (None, t2) => Done ((a', c), t2)
             | (Some f, t2) =>
               let c1 := if has_errors (pj_sev pj) f then
                           add_diag (diag_new (include_span i) (include_source i) ErrorsInInclude (bs "Included file contains errors")) c
                         else c in
               match pf_ctx f with
               | Some ac =>
                 Done ((a', set_labels (m_extend str_eq_dec (fc_labels c1) (ac_labels ac))
                              (set_flat (m_extend npath_eq_dec (fc_flat c1) (ac_flat ac)) c1)), t2)
               | None => Done ((a', c1), t2)
               end
             end
           end)
    end.
  (** analysis.rs:121-161: an include asks the operating system, the other elements do not *)
  Definition live_primary (o : an_oracle) (pj : project) (file : dts_file) (p : primary) (a : analysis) (c : fctx) (t : nat)
    : outcome ((analysis * fctx) * nat) :=
    match p with
    | PDirective (AInclude i) => live_analyze_include o pj file i a c t
    | _ => obind (analyze_primary o (D t) pj file p a c) (fun r => Done (r, t))
    end.
  Fixpoint live_primaries (o : an_oracle) (pj : project) (file : dts_file) (ps : list primary) (a : analysis) (c : fctx) (t : nat)
    : outcome ((analysis * fctx) * nat) :=
    match ps with
    | [] => Done ((a, c), t)
    | p :: r => obind (live_primary o pj file p a c t) (fun '((a', c'), t1) => live_primaries o pj file r a' c' t1)
    end.
  (** analysis.rs:104-172 [analyze_file] *)
  Definition live_analyze_file (o : an_oracle) (pj : project) (file : dts_file) (ft : file_type) (a : analysis) (t : nat)
    : outcome (((actx * list diag) * analysis) * nat) :=
    obind (live_primaries o pj file (fl_elements file) a (fctx_new ft) t) (fun '((a', c), t1) =>
      let c' := resolve_references (check_header file c) in
      Done (((mkActx (fc_labels c') (fc_flat c'), fc_diags c'), a'), t1)).
  (** project.rs:116-127 *)
  Fixpoint live_keys (o : an_oracle) (keys : list fpath) (a : analysis) (pj : project) (t : nat) : outcome (project * nat) :=
    match keys with
    | [] => Done (pj, t)
    | k :: r =>
      match m_get str_eq_dec k (pj_files pj) with
      | None => Panic
      | Some f =>
        match pf_file f with
        | None => live_keys o r a pj t
        | Some file =>
          obind (live_analyze_file o pj file (pf_type f) a t) (fun '((res, a'), t1) =>
            live_keys o r a' (set_files (m_update k (store_result res f) (pj_files pj)) pj) t1)
        end
      end
    end.

  (** project.rs:96-128 [add_file_with_text] *)
  Definition live_add_text (fuel : nat) (o : oracle) (name : fpath) (text : str) (ft : file_type) (pj : project) (t : nat)
    : outcome (project * nat) :=
    match live_canon name t with
    | (inr _, _) => Panic
    | (inl p, t1) =>
      obind (live_parse_file fuel (pj_incl pj) p text ft (pj_files pj) t1) (fun '(files, t2) =>
        obind (live_key_order o files t2) (fun '(keys, t3) => live_keys (o_an o) keys analysis_new (set_files files pj) t3))
    end.
  (** project.rs:89-95 [add_file] *)
  Definition live_add_file (fuel : nat) (o : oracle) (name : str) (pj : project) (t : nat) : outcome ((str + project) * nat) :=
    match live_canon name t with
    | (inr e, t1) => Done (inl e, t1)
    | (inl p, t1) =>
      match live_read p t1 with
      | (inr e, t2) => Done (inl e, t2)
      | (inl text, t2) => obind (live_add_text fuel o p text (file_type_of_path p) pj t2) (fun '(pj', t3) => Done (inr pj', t3))
      end
    end.
  (** project.rs:82-87 [set_include_paths] *)
  Fixpoint live_dirs (ps : list str) (t : nat) : list fpath * nat :=
    match ps with
    | [] => ([], t)
    | p :: r =>
      let '(c, t1) := live_canon p t in
      let '(qs, t2) := live_dirs r t1 in
      ((match c with inl q => q | inr _ => [] end) :: qs, t2)
    end.
  Definition live_set_include_paths (ps : list str) (pj : project) (t : nat) : project * nat :=
    let '(qs, t1) := live_dirs ps t in (mkProject (pj_files pj) qs (pj_sev pj), t1).
  (** project.rs:161-165 [remove_file] *)
  Definition live_remove_file (p : fpath) (pj : project) (t : nat) : project * nat :=
    match live_canon p t with
    | (inl q, t1) => (set_files (m_remove str_eq_dec q (pj_files pj)) pj, t1)
    | (inr _, t1) => (pj, t1)
    end.

  (** main.rs:15-45; printing asks for nothing *)
  Definition live_cli (dbg : bool) (fuel : nat) (o : oracle) (ofiles : list (fpath * pfile) -> list (fpath * pfile))
    (includes : list str) (file : str) (t : nat) : outcome ((N * str) * nat) :=
    let '(pj, t1) := live_set_include_paths includes project_new t in
    obind (live_add_file fuel o file pj t1) (fun '(r, t2) =>
      match r with
      | inl _ => Done ((1, []), t2)
      | inr pj' =>
        obind (print_files dbg (ofiles (pj_files pj'))) (fun '(errs, out) =>
          if errs then Done ((0, out ++ ok_message), t2) else Done ((1, out), t2))
      end).

  (** server.rs:88-106 [publish_diagnostics]: [get_diagnostics] canonicalises each path *)
  Fixpoint live_publish_all (pj : project) (files : list fpath) (t : nat) : outcome (list publication * nat) :=
    match files with
    | [] => Done ([], t)
    | f :: r =>
      let '(v, t1) := live_get_file pj f t in
      match from_file_path f with
      | None => Panic
      | Some u =>
        obind (live_publish_all pj r t1) (fun '(ps, t2) =>
          Done ((u, map (to_lsp default_severities) (match v with Some w => pf_diags w | None => [] end)) :: ps, t2))
      end
    end.
  Definition live_publish (ok : list fpath -> list fpath) (sv : server) (t : nat) : outcome (server * nat) :=
    obind (live_publish_all (sv_project sv) (ok (m_keys (pj_files (sv_project sv)))) t) (fun '(ps, t1) =>
      Done (mkServer (sv_project sv) (sv_sent sv ++ ps), t1)).
  (** server.rs:145-151, 158-164: the common part of [did_open] and [did_change] *)
  Definition live_edit (fuel : nat) (o : oracle) (ok : list fpath -> list fpath) (p : fpath) (text : str) (sv : server) (t : nat)
    : outcome (server * nat) :=
    obind (live_add_text fuel o p text (file_type_of_path p) (sv_project sv) t) (fun '(pj, t1) =>
      live_publish ok (mkServer pj (sv_sent sv)) t1).
  (** server.rs:110-174: the notifications *)
  Definition live_handle (fuel : nat) (o : oracle) (ok : list fpath -> list fpath) (n : note) (sv : server) (t : nat)
    : outcome (server * nat) :=
    match n with
    | NInitialize dirs =>
      let '(pj, t1) := live_set_include_paths dirs (sv_project sv) t in Done (mkServer pj (sv_sent sv), t1)
    | NConfigure dirs =>
      let '(pj, t1) := live_set_include_paths dirs (sv_project sv) t in live_publish ok (mkServer pj (sv_sent sv)) t1
    | NOpen u text =>
      match to_file_path u with
      | None => Done (sv, t)
      | Some p => live_edit fuel o ok p text sv t
      end
    | NChange u texts =>
      match to_file_path u with
      | None => Done (sv, t)
      | Some p => match texts with [] => Panic | text :: _ => live_edit fuel o ok p text sv t end
      end
    | NClose u =>
      match to_file_path u with
      | None => Done (sv, t)
      | Some p => let '(pj, t1) := live_remove_file p (sv_project sv) t in Done (mkServer pj (sv_sent sv), t1)
      end
    end.
End Live.
