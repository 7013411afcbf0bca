(** import_guard.rs *)
From Verif Require Export Base.

Section ImportGuard.
  Context {V : Type} (eq_dec : forall a b : V, {a = b} + {a <> b}).

  (** import_guard.rs:23-30; a HashSet is a duplicate-free list *)
  Record guard := mkGuard { ig_nodes : list (V * list V); ig_back : list (V * list V) }.
  Definition guard_empty : guard := mkGuard [] [].

  (** HashSet::insert *)
  Definition s_insert (x : V) (s : list V) : list V := if in_dec eq_dec x s then s else x :: s.
  (** HashSet::extend *)
  Definition s_extend (s l : list V) : list V := fold_left (fun acc x => s_insert x acc) l s.
  (** HashMap::entry(k).or_default() *)
  Definition m_entry (k : V) (m : list (V * list V)) : list V :=
    match m_get eq_dec k m with Some s => s | None => [] end.

  (** import_guard.rs:43-53, without the check *)
  Definition guard_insert (element : V) (deps : list V) (g : guard) : guard :=
    mkGuard
      (m_insert eq_dec element (s_extend (m_entry element (ig_nodes g)) deps) (ig_nodes g))
      (fold_left (fun m d => m_insert eq_dec d (s_insert element (m_entry d m)) m) deps (ig_back g)).

  (** import_guard.rs:83-90: one pass over the neighbours; returns stack and parent map *)
  Fixpoint push_neighbors (node : V) (ns : list V) (stack : list V) (parent : list (V * V))
    : list V * list (V * V) :=
    match ns with
    | [] => (stack, parent)
    | n :: r =>
      if m_mem eq_dec n parent then push_neighbors node r stack parent
      else push_neighbors node r (n :: stack) (m_insert eq_dec n node parent)
    end.

  (** import_guard.rs:70-76: follow the parents from [p]; pushes onto [cycle] *)
  Fixpoint cycle_loop (fuel : nat) (node : V) (parent : list (V * V)) (prev : option V)
    (cycle : list V) : outcome (list V) :=
    match prev with
    | None => Done cycle
    | Some p =>
      match fuel with
      | O => NoFuel
      | S f =>
        if eq_dec p node then Done (cycle ++ [p])
        else cycle_loop f node parent (m_get eq_dec p parent) (cycle ++ [p])
      end
    end.

  (** import_guard.rs:57-94 [check_for_cyclic_dependencies]. [ord n s] is the order in which the
      neighbour set [s] of node [n] is iterated. [Done None] is Ok(()), [Done (Some c)] the error
      with cycle [c]. *)
  Fixpoint check_loop (fuel : nat) (ord : V -> list V -> list V) (nodes : list (V * list V))
    (visited stack : list V) (parent : list (V * V)) : outcome (option (list V)) :=
    match stack with
    | [] => Done None
    | node :: stack' =>
      match fuel with
      | O => NoFuel
      | S f =>
        if in_dec eq_dec node visited then
          obind (cycle_loop (S (length parent)) node parent (m_get eq_dec node parent) [node])
            (fun c => Done (Some (rev c)))
        else
          let '(stack2, parent2) :=
            match m_get eq_dec node nodes with
            | Some ns => push_neighbors node (ord node ns) stack' parent
            | None => (stack', parent)
            end in
          check_loop f ord nodes (node :: visited) stack2 parent2
      end
    end.

  Definition edge_count (nodes : list (V * list V)) : nat :=
    fold_right (fun kv acc => (length (snd kv) + acc)%nat) 0%nat nodes.

  Definition check_cyclic (ord : V -> list V -> list V) (g : guard) (start : V)
    : outcome (option (list V)) :=
    check_loop (S (S (edge_count (ig_nodes g)))) ord (ig_nodes g) [] [start] [].

  (** import_guard.rs:43-55 [add] *)
  Definition guard_add (ord : V -> list V -> list V) (element : V) (deps : list V) (g : guard)
    : outcome (option (list V) * guard) :=
    let g' := guard_insert element deps g in
    obind (check_cyclic ord g' element) (fun r => Done (r, g')).
End ImportGuard.
Arguments guard V : clear implicits.
