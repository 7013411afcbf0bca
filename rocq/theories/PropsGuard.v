(** Property theorems C23-C25: the import guard *)
From Verif Require Import ImportGuard GuardProofs GuardSteer.
From Coq Require Import Permutation Relations.Relation_Operators.

(** The order in which a hash set is iterated is an arbitrary permutation ([ord]). *)

(** C23 *)
Theorem C23_cycle_iff : forall (V : Type) (eq_dec : forall a b : V, {a = b} + {a <> b}) ord,
  (forall n s, Permutation (ord n s) s) ->
  forall h e deps,
  exists r, guard_add eq_dec ord e deps (guard_after eq_dec h)
            = Done (r, guard_after eq_dec (h ++ [(e, deps)]))
    /\ ((exists c, r = Some c) <-> on_cycle (depends (h ++ [(e, deps)])) e).
Proof. exact @guard_add_iff. Qed.
Print Assumptions C23_cycle_iff.

(** C24 *)
Theorem C24_reported_cycle_is_real : forall (V : Type) (eq_dec : forall a b : V, {a = b} + {a <> b}) ord,
  (forall n s, Permutation (ord n s) s) ->
  forall h e deps c g,
  guard_add eq_dec ord e deps (guard_after eq_dec h) = Done (Some c, g) ->
  exists mid, c = e :: mid ++ [e] /\ chain (depends (h ++ [(e, deps)])) c /\ NoDup (e :: mid)
    /\ direct (depends (h ++ [(e, deps)])) c.
Proof. exact @guard_add_real. Qed.
Print Assumptions C24_reported_cycle_is_real.

(** the cycles that are named for some order of iteration are the cycles through the element that
    repeat no node and have no shortcut: no node of the cycle depends on a later one that does not
    come next *)
Theorem C24_exact : forall (V : Type) (eq_dec : forall a b : V, {a = b} + {a <> b}) h e deps c,
  (exists ord g, (forall n s, Permutation (ord n s) s)
    /\ guard_add eq_dec ord e deps (guard_after eq_dec h) = Done (Some c, g))
  <-> (exists mid, c = e :: mid ++ [e] /\ chain (depends (h ++ [(e, deps)])) c /\ NoDup (e :: mid)
       /\ direct (depends (h ++ [(e, deps)])) c).
Proof.
  intros V eq_dec h e deps c. split.
  - intros (ord & g & Ho & E). exact (guard_add_real eq_dec ord Ho h e deps c g E).
  - intros H. exists (steer eq_dec c), (guard_after eq_dec (h ++ [(e, deps)])).
    split; [apply steer_perm|]. exact (guard_add_named eq_dec h e deps c H).
Qed.
Print Assumptions C24_exact.

(** C25 *)
Theorem C25_silent_iff_acyclic : forall (V : Type) (eq_dec : forall a b : V, {a = b} + {a <> b}) ord,
  (forall n s, Permutation (ord n s) s) ->
  forall h, exists rs,
    guard_run eq_dec ord h guard_empty = Done (rs, guard_after eq_dec h)
    /\ ((forall r, In r rs -> r = None) <-> acyclic (depends h)).
Proof. exact @guard_silent_iff. Qed.
Print Assumptions C25_silent_iff_acyclic.

(** a cycle of length three is found by the third addition, with the identity order *)
Example C23_example :
  guard_add N.eq_dec (fun _ s => s) 3 [1] (guard_after N.eq_dec [(1, [2]); (2, [3])])
  = Done (Some [3; 1; 2; 3], guard_after N.eq_dec [(1, [2]); (2, [3]); (3, [1])])
  /\ on_cycle (depends [(1, [2]); (2, [3]); (3, [1])]) 3
  /\ (forall n s : list N, Permutation ((fun _ s => s) n s) s).
Proof.
  split; [reflexivity|]. split; [|intros; apply Permutation_refl].
  assert (E : forall a b ds, In (a, ds) [(1, [2]); (2, [3]); (3, [1])] -> In b ds ->
    clos_trans N (depends [(1, [2]); (2, [3]); (3, [1])]) a b).
  { intros a b ds H1 H2. apply t_step. exists ds. auto. }
  apply t_trans with 1; [|apply t_trans with 2].
  - apply (E 3 1 [1]); cbn; auto.
  - apply (E 1 2 [2]); cbn; auto.
  - apply (E 2 3 [3]); cbn; auto.
Qed.

(** 1 -> 2 -> 4 -> 1 and 1 -> 3 -> 4 -> 1: either is named, depending on the order; the cycle
    1 -> 2 -> 3 -> 1 with the shortcut 1 -> 3 is named for no order *)
Example C24_either :
  guard_add N.eq_dec (fun _ s => rev s) 1 [2; 3] (guard_after N.eq_dec [(2, [4]); (3, [4]); (4, [1])])
  = Done (Some [1; 3; 4; 1], guard_after N.eq_dec [(2, [4]); (3, [4]); (4, [1]); (1, [2; 3])])
  /\ guard_add N.eq_dec (fun _ s => s) 1 [2; 3] (guard_after N.eq_dec [(2, [4]); (3, [4]); (4, [1])])
  = Done (Some [1; 2; 4; 1], guard_after N.eq_dec [(2, [4]); (3, [4]); (4, [1]); (1, [2; 3])]).
Proof. split; vm_compute; reflexivity. Qed.
Example C24_no_shortcut : ~ direct (depends [(2, [3]); (3, [1]); (1, [2; 3])]) [1; 2; 3; 1].
Proof.
  intros H. specialize (H [] 1 [2] 3 [1] eq_refl). discriminate H. exists [2; 3]. split; [right; right; left; reflexivity|right; left; reflexivity].
Qed.
