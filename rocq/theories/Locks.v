(** ginko_ls/src/server.rs: the handlers as programs that take and release the lock around the project *)
From Verif Require Export Server.

(** ** Programs. [self.project] (server.rs:17) is a parking_lot RwLock; [Lock true] is [write()], [Lock false] is [read()],
    [Unlock] the drop of the guard. [Look] reads the project, [Store] changes it. [Send] is
    [client.publish_diagnostics(..).await], [Tell] is [client.show_message(..).await]; both leave the thread. [Crash] is a
    panic. *)
Inductive reply := RpGoto (r : option (uri * span)) | RpHover (r : option str) | RpSymbols (r : option (list symbol)).
Inductive prog :=
| Lock (w : bool) (p : prog)
| Unlock (p : prog)
| Look (k : project -> prog)
| Store (u : project -> project) (p : prog)
| Send (m : publication) (p : prog)
| Tell (p : prog)
| Return (r : option (nat * reply))
| Crash.

(** server.rs:95-106 the loop over the paths: the guard lives until the end of the let statement, before the await *)
Fixpoint publish_each (fs : fsys) (files : list fpath) : prog :=
  match files with
  | [] => Return None
  | f :: r =>
    Lock false (Look (fun pj =>
      let ds := map (to_lsp default_severities) (get_diagnostics fs pj f) in
      Unlock (match from_file_path f with
              | None => Crash
              | Some u => Send (u, ds) (publish_each fs r)
              end)))
  end.
(** server.rs:88-106 [publish_diagnostics]; [ok] is the iteration order of the files *)
Definition publish_prog (ok : list fpath -> list fpath) (fs : fsys) : prog :=
  Lock false (Look (fun pj => Unlock (publish_each fs (ok (m_keys (pj_files pj)))))).

(** project.rs:116-127: the results of the analysis are stored file by file *)
Fixpoint analyse_prog (o : an_oracle) (fs : fsys) (keys : list fpath) (a : analysis) (p : prog) : prog :=
  match keys with
  | [] => p
  | k :: r => Look (fun pj =>
    match m_get str_eq_dec k (pj_files pj) with
    | None => Crash
    | Some f =>
      match pf_file f with
      | None => analyse_prog o fs r a p
      | Some file =>
        match analyze_file o fs pj file (pf_type f) a with
        | Done (res, a') => Store (fun pj => set_files (m_update k (store_result res f) (pj_files pj)) pj) (analyse_prog o fs r a' p)
        | _ => Crash
        end
      end
    end)
  end.
(** project.rs:96-128 [add_file_with_text]; the insertions of parse_file are one store *)
Definition add_prog (fuel : nat) (o : oracle) (fs : fsys) (name : fpath) (text : str) (ft : file_type) (p : prog) : prog :=
  match fs_canon fs name with
  | inr _ => Crash
  | inl q => Look (fun pj =>
    match parse_file fuel fs (pj_incl pj) q text ft (pj_files pj) with
    | Done files => Store (set_files files) (Look (fun pj =>
      match compute_key_order o fs (pj_files pj) with
      | Done keys => analyse_prog (o_an o) fs keys analysis_new p
      | _ => Crash
      end))
    | _ => Crash
    end)
  end.

(** The messages of the client, with the iteration orders met while they are handled *)
Inductive job :=
| JInitialize (dirs : list str)
| JConfigure (ok : list fpath -> list fpath) (dirs : list str)
| JOpen (o : oracle) (ok : list fpath -> list fpath) (u : uri) (text : str)
| JChange (o : oracle) (ok : list fpath -> list fpath) (u : uri) (texts : list str)
| JClose (u : uri)
| JGoto (id : nat) (u : uri) (pos : position)
| JHover (id : nat) (u : uri) (pos : position)
| JSymbols (id : nat) (u : uri).

(** server.rs:73-86 [url_to_file_path]: no await on the good path *)
Definition with_path (u : uri) (other : option (nat * reply)) (k : fpath -> prog) : prog :=
  match to_file_path u with
  | Some p => k p
  | None => Tell (Return other)
  end.

Definition answer (id : nat) (r : reply) : prog := Unlock (Return (Some (id, r))).
Definition job_prog (fuel : nat) (fs : fsys) (j : job) : prog :=
  match j with
  (* server.rs:110-127 *)
  | JInitialize dirs => Lock true (Store (set_include_paths fs dirs) (Unlock (Return None)))
  (* server.rs:129-133 *)
  | JConfigure ok dirs => Lock true (Store (set_include_paths fs dirs) (Unlock (publish_prog ok fs)))
  (* server.rs:141-152 *)
  | JOpen o ok u text => with_path u None (fun p =>
      Lock true (add_prog fuel o fs p text (file_type_of_path p) (Unlock (publish_prog ok fs))))
  (* server.rs:154-165; the argument is evaluated after the lock has been taken *)
  | JChange o ok u texts => with_path u None (fun p =>
      Lock true (match texts with
                 | [] => Crash
                 | text :: _ => add_prog fuel o fs p text (file_type_of_path p) (Unlock (publish_prog ok fs))
                 end))
  (* server.rs:169-174 *)
  | JClose u => with_path u None (fun p => Lock true (Store (remove_file fs p) (Unlock (Return None))))
  (* server.rs:176-216; [project] is borrowed twice under the same guard *)
  | JGoto id u pos => with_path u (Some (id, RpGoto None)) (fun p =>
      Lock false (Look (fun pj =>
        match find_at_pos fs pj p pos with
        | Some (AtReference r) => Look (fun pj =>
          match get_node_position fs pj p r with
          | Some (sp, src) =>
            match from_file_path src with
            | Some u' => answer id (RpGoto (Some (u', sp)))
            | None => Crash
            end
          | None => answer id (RpGoto None)
          end)
        | Some (AtInclude i) =>
          match include_path fs i with
          | inl q =>
            match from_file_path q with
            | Some u' => answer id (RpGoto (Some (u', include_span i)))
            | None => answer id (RpGoto None)
            end
          | inr _ => answer id (RpGoto None)
          end
        | _ => answer id (RpGoto None)
        end)))
  (* server.rs:218-246 *)
  | JHover id u pos => with_path u (Some (id, RpHover None)) (fun p =>
      Lock false (Look (fun pj =>
        match find_at_pos fs pj p pos with
        | Some (AtReference r) => Look (fun pj => answer id (RpHover (document_reference fs pj p r)))
        | Some (AtLabel l) => answer id (RpHover (Some (wt_item l)))
        | Some (AtInclude i) => answer id (RpHover (Some (wt_item (in_file_name i))))
        | None => answer id (RpHover None)
        end)))
  (* server.rs:248-373 *)
  | JSymbols id u => with_path u (Some (id, RpSymbols None)) (fun p =>
      Lock false (Look (fun pj => answer id (RpSymbols (option_map file_symbols (get_root fs pj p))))))
  end.

(** ** Running handlers on [n] threads. A handler is on a thread or waits to be polled; it holds no lock, the shared
    ([Some false]) or the exclusive one ([Some true]). *)
Record handler := mkH { h_on : bool; h_hold : option bool; h_prog : prog }.
Record world := mkW { w_pj : project; w_sent : list publication; w_out : list (nat * reply); w_crashed : bool; w_hs : list handler }.

Definition on_threads (hs : list handler) : nat := length (filter h_on hs).
Definition holds (w : bool) (h : handler) : bool :=
  match h_hold h with Some x => Bool.eqb x w | None => false end.
(** whether the lock can be given: exclusively if nobody holds it, shared if nobody holds it exclusively *)
Definition free (w : bool) (hs : list handler) : bool :=
  negb (existsb (holds true) hs) && (if w then negb (existsb (holds false) hs) else true).
(** a handler that is on a thread and about to take the exclusive lock *)
Definition wants_write (h : handler) : bool :=
  h_on h && match h_prog h with Lock true _ => true | _ => false end.

(** [refuse] says when readers have to wait although the lock could be given (parking_lot lets waiting writers go first);
    a handler that asks for the lock while it holds it waits for ever *)
Inductive step (n : nat) (refuse : list handler -> bool) : world -> world -> Prop :=
| s_poll pj sent out cr pre post hold p : (on_threads (pre ++ mkH false hold p :: post) < n)%nat ->
    step n refuse (mkW pj sent out cr (pre ++ mkH false hold p :: post)) (mkW pj sent out cr (pre ++ mkH true hold p :: post))
| s_lock pj sent out cr pre post w p : free w (pre ++ post) = true ->
    (w = false -> refuse (pre ++ mkH true None (Lock w p) :: post) = false) ->
    step n refuse (mkW pj sent out cr (pre ++ mkH true None (Lock w p) :: post)) (mkW pj sent out cr (pre ++ mkH true (Some w) p :: post))
| s_unlock pj sent out cr pre post hold p :
    step n refuse (mkW pj sent out cr (pre ++ mkH true hold (Unlock p) :: post)) (mkW pj sent out cr (pre ++ mkH true None p :: post))
| s_look pj sent out cr pre post hold k :
    step n refuse (mkW pj sent out cr (pre ++ mkH true hold (Look k) :: post)) (mkW pj sent out cr (pre ++ mkH true hold (k pj) :: post))
| s_store pj sent out cr pre post hold u p :
    step n refuse (mkW pj sent out cr (pre ++ mkH true hold (Store u p) :: post)) (mkW (u pj) sent out cr (pre ++ mkH true hold p :: post))
| s_send pj sent out cr pre post hold m p :
    step n refuse (mkW pj sent out cr (pre ++ mkH true hold (Send m p) :: post)) (mkW pj (sent ++ [m]) out cr (pre ++ mkH false hold p :: post))
| s_tell pj sent out cr pre post hold p :
    step n refuse (mkW pj sent out cr (pre ++ mkH true hold (Tell p) :: post)) (mkW pj sent out cr (pre ++ mkH false hold p :: post))
| s_return pj sent out cr pre post hold r :
    step n refuse (mkW pj sent out cr (pre ++ mkH true hold (Return r) :: post))
      (mkW pj sent (out ++ match r with Some x => [x] | None => [] end) cr (pre ++ post))
| s_crash pj sent out cr pre post hold :
    step n refuse (mkW pj sent out cr (pre ++ mkH true hold Crash :: post)) (mkW pj sent out true (pre ++ post)).

Inductive steps (n : nat) (refuse : list handler -> bool) : world -> world -> Prop :=
| ss_refl w : steps n refuse w w
| ss_step w w1 w2 : steps n refuse w w1 -> step n refuse w1 w2 -> steps n refuse w w2.

(** all messages have arrived and none has been looked at *)
Definition arrived (fuel : nat) (fs : fsys) (js : list job) (pj : project) : world :=
  mkW pj [] [] false (map (fun j => mkH false None (job_prog fuel fs j)) js).
