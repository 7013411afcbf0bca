(** project.rs *)
From Verif Require Export Parser Analysis Visitor.

(** project.rs:16 derived Default *)
Definition pf_default : pfile := mkPF [] [] None None FtUnknown [].
(** project.rs:27-41 *)
Definition pf_parsed (ds : list diag) (f : dts_file) (ft : file_type) (text : str) : pfile :=
  mkPF ds [] (Some f) None ft text.
(** project.rs:43-52 *)
Definition pf_unrecoverable (d : diag) (text : str) (ft : file_type) : pfile :=
  mkPF [d] [] None None ft text.

Definition project_new : project := mkProject [] [] default_severities.

Definition set_files (fs : list (fpath * pfile)) (pj : project) : project :=
  mkProject fs (pj_incl pj) (pj_sev pj).

(** project.rs:82-87 *)
Definition set_include_paths (fs : fsys) (ps : list str) (pj : project) : project :=
  mkProject (pj_files pj)
    (map (fun p => match fs_canon fs p with inl q => q | inr _ => [] end) ps) (pj_sev pj).

(** Path::parent of a canonical absolute path *)
Fixpoint strip_last (p : str) : str :=
  match p with
  | [] => []
  | c :: r => if existsb (fun x => x =? cSlash) r then c :: strip_last r else []
  end.
Definition path_parent (p : fpath) : option fpath :=
  match p with
  | [] => None
  | [47] => None
  | 47 :: r => if existsb (fun x => x =? cSlash) r then Some (47 :: strip_last r) else Some [47]
  | _ => Some (strip_last p)
  end.

Definition includes_of (f : dts_file) : list include :=
  fold_right (fun p acc => match as_include p with Some i => i :: acc | None => acc end) []
    (fl_elements f).

(** project.rs:243-247 *)
Definition include_dirs (incl : list fpath) (name : fpath) : list fpath :=
  match path_parent name with
  | Some d => d :: incl
  | None => incl
  end.

(** project.rs:240-290 [parse_file] and [parse_included_file]; the state is the map of files.
    Fuel bounds the recursion depth (C35). *)
Fixpoint parse_file (fuel : nat) (fs : fsys) (incl : list fpath) (name : fpath) (text : str)
  (ft : file_type) (files : list (fpath * pfile)) : outcome (list (fpath * pfile)) :=
  match fuel with
  | O => NoFuel
  | S fl =>
    match parse_text (include_dirs incl name) text name with
    | RPanic => Panic
    | RNoFuel => NoFuel
    | RErr d _ => Done (m_insert str_eq_dec name (pf_unrecoverable d text ft) files)
    | ROk file st =>
      obind
        ((fix go (is : list include) (ds : list diag) (files : list (fpath * pfile))
            : outcome (list diag * list (fpath * pfile)) :=
            match is with
            | [] => Done (ds, files)
            | i :: r =>
              match include_path fs i with
              | inr e =>
                go r (ds ++ [diag_io_error (include_span i) (include_source i) e]) files
              | inl p =>
                if m_mem str_eq_dec p files then go r ds files
                else
                  match read_to_string fs p with
                  | inl t =>
                    obind (parse_file fl fs incl p t (file_type_of_path p) files) (go r ds)
                  | inr e =>
                    go r (ds ++ [diag_io_error (include_span i) (include_source i) e]) files
                  end
              end
            end)
           (includes_of file) (ps_diags st) (m_insert str_eq_dec name pf_default files))
        (fun '(ds, files') => Done (m_insert str_eq_dec name (pf_parsed ds file ft text) files'))
    end
  end.

(** Iteration orders used while adding a file *)
Record oracle := mkPOracle {
  (** iteration of [self.files] in compute_key_order (both loops see the same order) *)
  o_files : list (fpath * pfile) -> list (fpath * pfile);
  (** iteration of the local [map] in compute_key_order *)
  o_map : list (fpath * list fpath) -> list (fpath * list fpath);
  o_an : an_oracle
}.

(** project.rs:133-146: the map from a file to the files that include it *)
Definition map_push (k v : fpath) (m : list (fpath * list fpath)) : list (fpath * list fpath) :=
  m_insert str_eq_dec k
    (match m_get str_eq_dec k m with Some l => l | None => [] end ++ [v]) m.
Definition map_touch (k : fpath) (m : list (fpath * list fpath)) : list (fpath * list fpath) :=
  match m_get str_eq_dec k m with Some _ => m | None => m_insert str_eq_dec k [] m end.
Definition resolved_includes (fs : fsys) (f : dts_file) : list fpath :=
  fold_right (fun i acc => match include_path fs i with inl p => p :: acc | inr _ => acc end) []
    (includes_of f).
Definition includer_map (fs : fsys) (files : list (fpath * pfile)) : list (fpath * list fpath) :=
  fold_left (fun m kv =>
    match pf_file (snd kv) with
    | None => m
    | Some f =>
      fold_left (fun m i => map_push i (fst kv) m) (resolved_includes fs f) (map_touch (fst kv) m)
    end) files [].

(** Iterator::position *)
Fixpoint position_of (x : fpath) (l : list fpath) : option nat :=
  match l with
  | [] => None
  | y :: r => if str_eq_dec y x then Some 0%nat else option_map S (position_of x r)
  end.
(** slice::swap *)
Fixpoint set_nth {A} (i : nat) (x : A) (l : list A) : list A :=
  match l, i with
  | [], _ => []
  | _ :: r, O => x :: r
  | y :: r, S j => y :: set_nth j x r
  end.
Definition swap_nth (i j : nat) (l : list fpath) : list fpath :=
  match nth_error l i, nth_error l j with
  | Some a, Some b => set_nth i b (set_nth j a l)
  | _, _ => l
  end.

(** project.rs:149-157: the inner loop; [key_idx] is not recomputed after a swap *)
Fixpoint swap_values (key_idx : nat) (vs : list fpath) (order : list fpath)
  : outcome (list fpath) :=
  match vs with
  | [] => Done order
  | v :: r =>
    match position_of v order with
    | None => Panic
    | Some value_idx =>
      swap_values key_idx r
        (if Nat.ltb value_idx key_idx then swap_nth key_idx value_idx order else order)
    end
  end.
Fixpoint order_loop (m : list (fpath * list fpath)) (order : list fpath) : outcome (list fpath) :=
  match m with
  | [] => Done order
  | (k, vs) :: r =>
    match position_of k order with
    | None => Panic
    | Some key_idx => obind (swap_values key_idx vs order) (order_loop r)
    end
  end.

(** project.rs:130-159 [compute_key_order] *)
Definition compute_key_order (o : oracle) (fs : fsys) (files : list (fpath * pfile))
  : outcome (list fpath) :=
  let files' := o_files o files in
  order_loop (o_map o (includer_map fs files')) (m_keys files').

(** project.rs:116-127: analyse the files in the given order *)
Definition store_result (r : actx * list diag) (f : pfile) : pfile :=
  mkPF (pf_pdiags f) (snd r) (pf_file f) (Some (fst r)) (pf_type f) (pf_text f).
(** HashMap::get_mut: update in place *)
Definition m_update (k : fpath) (v : pfile) (m : list (fpath * pfile)) : list (fpath * pfile) :=
  map (fun kv => if str_eq_dec k (fst kv) then (fst kv, v) else kv) m.
Fixpoint analyze_keys (o : an_oracle) (fs : fsys) (keys : list fpath) (a : analysis) (pj : project)
  : outcome project :=
  match keys with
  | [] => Done pj
  | k :: r =>
    match m_get str_eq_dec k (pj_files pj) with
    | None => Panic
    | Some f =>
      match pf_file f with
      | None => analyze_keys o fs r a pj
      | Some file =>
        obind (analyze_file o fs pj file (pf_type f) a) (fun '(res, a') =>
          analyze_keys o fs r a' (set_files (m_update k (store_result res f) (pj_files pj)) pj))
      end
    end
  end.

(** project.rs:96-128 [add_file_with_text] *)
Definition add_file_with_text (fuel : nat) (o : oracle) (fs : fsys) (name : fpath) (text : str)
  (ft : file_type) (pj : project) : outcome project :=
  match fs_canon fs name with
  | inr _ => Panic
  | inl p =>
    obind (parse_file fuel fs (pj_incl pj) p text ft (pj_files pj)) (fun files =>
      obind (compute_key_order o fs files) (fun keys =>
        analyze_keys (o_an o) fs keys analysis_new (set_files files pj)))
  end.

(** project.rs:89-95 [add_file] *)
Definition add_file (fuel : nat) (o : oracle) (fs : fsys) (name : str) (pj : project)
  : outcome (str + project) :=
  match fs_canon fs name with
  | inr e => Done (inl e)
  | inl p =>
    match read_to_string fs p with
    | inr e => Done (inl e)
    | inl text =>
      obind (add_file_with_text fuel o fs p text (file_type_of_path p) pj)
        (fun pj' => Done (inr pj'))
    end
  end.

(** project.rs:161-165 [remove_file] *)
Definition remove_file (fs : fsys) (p : fpath) (pj : project) : project :=
  match fs_canon fs p with
  | inl q => set_files (m_remove str_eq_dec q (pj_files pj)) pj
  | inr _ => pj
  end.

(** project.rs:167-172 [get_diagnostics] *)
Definition get_diagnostics (fs : fsys) (pj : project) (p : fpath) : list diag :=
  match get_file fs pj p with
  | Some f => pf_diags f
  | None => []
  end.

(** project.rs:186-191 [get_analysis] *)
Definition get_analysis (fs : fsys) (pj : project) (p : fpath) : option actx :=
  match get_file fs pj p with
  | Some f => pf_ctx f
  | None => None
  end.

(** project.rs:209-215 [find_at_pos] *)
Definition find_at_pos (fs : fsys) (pj : project) (p : fpath) (c : position)
  : option item_at_cursor :=
  match get_file fs pj p with
  | Some f => match pf_file f with Some file => file_at file c | None => None end
  | None => None
  end.

(** project.rs:217-220 [document_reference] *)
Definition document_reference (fs : fsys) (pj : project) (p : fpath) (r : reference)
  : option str :=
  match get_analysis fs pj p with
  | Some c => option_map (fun n => bs "Node " ++ nn_name (wt_item (nd_name n))) (get_referenced c r)
  | None => None
  end.

(** project.rs:222-229 [get_node_position] *)
Definition get_node_position (fs : fsys) (pj : project) (p : fpath) (r : reference)
  : option (span * fpath) :=
  match get_analysis fs pj p with
  | Some c => option_map (fun n => (wt_span (nd_name n), wt_source (nd_name n))) (get_referenced c r)
  | None => None
  end.

(** project.rs:231-238 [get_root] *)
Definition get_root (fs : fsys) (pj : project) (p : fpath) : option dts_file :=
  match get_file fs pj p with
  | Some f => pf_file f
  | None => None
  end.
