(** Specification of adding a file to a project. Uses the parser, the file system and the data types of Project.v. *)
From Verif Require Export Project AnalysisSpec.

(** finitely many canonical paths can be read *)
Definition finite_fs (fs : fsys) (u : list fpath) : Prop :=
  forall x p t, fs_canon fs x = inl p -> fs_read fs p = inl t -> In p u.

Section Load.
  Context (fs : fsys) (incl : list fpath).
  (** the added file, its text, and the files present before *)
  Context (root : fpath) (text : str) (present : list fpath).

  (** a file that is read gives its text, the added file has its own *)
  Definition text_of (p : fpath) : option str :=
    if str_eq_dec p root then Some text
    else match read_to_string fs p with inl t => Some t | inr _ => None end.
  Definition readable (p : fpath) : Prop := exists t, read_to_string fs p = inl t.

  (** [includes p q]: the text of [p] parses and includes [q] *)
  Definition includes (p q : fpath) : Prop :=
    exists t f s i, text_of p = Some t /\ parse_text (include_dirs incl p) t p = ROk f s
      /\ In (PDirective (AInclude i)) (fl_elements f) /\ include_path fs i = inl q.

  (** the files the addition parses *)
  Inductive loaded : fpath -> Prop :=
  | ld_root : loaded root
  | ld_include p q : loaded p -> includes p q -> ~ In q present -> readable q -> loaded q.

  (** diagnostics of an include that cannot be followed *)
  Definition include_diags (i : include) : list diag :=
    match include_path fs i with
    | inr e => [mkDiag IOError (include_span i) (include_source i) e]
    | inl p =>
      if in_dec str_eq_dec p (root :: present) then []
      else match read_to_string fs p with
           | inl _ => []
           | inr e => [mkDiag IOError (include_span i) (include_source i) e]
           end
    end.
  Definition element_diags (p : primary) : list diag :=
    match p with PDirective (AInclude i) => include_diags i | _ => [] end.

  (** what is stored for a parsed file *)
  Definition stored (p : fpath) (t : str) (ft : file_type) (v : pfile) : Prop :=
    pf_text v = t /\ pf_type v = ft /\ pf_ctx v = None /\ pf_adiags v = []
    /\ ((exists f s, parse_text (include_dirs incl p) t p = ROk f s /\ pf_file v = Some f
           /\ pf_pdiags v = ps_diags s ++ flat_map element_diags (fl_elements f))
        \/ (exists d s, parse_text (include_dirs incl p) t p = RErr d s /\ pf_file v = None /\ pf_pdiags v = [d])).
End Load.

(** what an addition leaves alone: everything but the results of the analysis *)
Definition same_source (v w : pfile) : Prop :=
  pf_pdiags v = pf_pdiags w /\ pf_file v = pf_file w /\ pf_type v = pf_type w /\ pf_text v = pf_text w.

(** ** Include graph of the stored files *)
Definition stored_includes (fs : fsys) (files : list (fpath * pfile)) (p q : fpath) : Prop :=
  exists v f i, m_get str_eq_dec p files = Some v /\ pf_file v = Some f
    /\ In (PDirective (AInclude i)) (fl_elements f) /\ include_path fs i = inl q.
