(** The requests of the editor on a disk that other programs change in the meantime (see Live.v): [D t] is the disk at moment [t] *)
From Verif Require Import Base Parser Analysis Project Visitor Server Live.

Section Ask.
  Context (D : nat -> fsys).
  (** project.rs:209-215 [find_at_pos] *)
  Definition live_find_at_pos (pj : project) (p : fpath) (c : position) (t : nat) : option item_at_cursor * nat :=
    let '(v, t1) := live_get_file D pj p t in
    (match v with
     | Some f => match pf_file f with Some file => file_at file c | None => None end
     | None => None
     end, t1).
  (** project.rs:186-191 [get_analysis] *)
  Definition live_get_analysis (pj : project) (p : fpath) (t : nat) : option actx * nat :=
    let '(v, t1) := live_get_file D pj p t in (match v with Some f => pf_ctx f | None => None end, t1).
  (** server.rs:176-216 [goto_definition]; project.rs:222-229 [get_node_position] *)
  Definition live_goto (u : uri) (c : position) (sv : server) (t : nat) : outcome (option (uri * span) * nat) :=
    match to_file_path u with
    | None => Done (None, t)
    | Some p =>
      match live_find_at_pos (sv_project sv) p c t with
      | (Some (AtReference r), t1) =>
        let '(a, t2) := live_get_analysis (sv_project sv) p t1 in
        match a with
        | Some x =>
          match get_referenced x r with
          | Some n =>
            match from_file_path (wt_source (nd_name n)) with
            | Some u' => Done (Some (u', wt_span (nd_name n)), t2)
            | None => Panic
            end
          | None => Done (None, t2)
          end
        | None => Done (None, t2)
        end
      | (Some (AtInclude i), t1) =>
        match live_include_path D i t1 with
        | (inl q, t2) =>
          match from_file_path q with
          | Some u' => Done (Some (u', include_span i), t2)
          | None => Done (None, t2)
          end
        | (inr _, t2) => Done (None, t2)
        end
      | (_, t1) => Done (None, t1)
      end
    end.
  (** server.rs:218-246 [hover]; project.rs:217-220 [document_reference] *)
  Definition live_hover (u : uri) (c : position) (sv : server) (t : nat) : option str * nat :=
    match to_file_path u with
    | None => (None, t)
    | Some p =>
      match live_find_at_pos (sv_project sv) p c t with
      | (Some (AtReference r), t1) =>
        let '(a, t2) := live_get_analysis (sv_project sv) p t1 in
        (match a with
         | Some x => option_map (fun n => bs "Node " ++ nn_name (wt_item (nd_name n))) (get_referenced x r)
         | None => None
         end, t2)
      | (Some (AtLabel l), t1) => (Some (wt_item l), t1)
      | (Some (AtInclude i), t1) => (Some (wt_item (in_file_name i)), t1)
      | (None, t1) => (None, t1)
      end
    end.
  (** server.rs:248-373 [document_symbol]; project.rs:231-238 [get_root] *)
  Definition live_symbols (u : uri) (sv : server) (t : nat) : option (list symbol) * nat :=
    match to_file_path u with
    | None => (None, t)
    | Some p =>
      let '(v, t1) := live_get_file D (sv_project sv) p t in
      (match v with Some f => option_map file_symbols (pf_file f) | None => None end, t1)
    end.
End Ask.
