(** C117: the requests of the editor while other programs write files *)
From Verif Require Import Base Parser Analysis Project Visitor Server Session Live LiveAsk LiveProofs PropsLive Tests.
From Coq Require Import Lia.

(** Requests read no file: while names lead to the same paths, every request is answered as on the disk at its beginning, whatever the files become. *)
Theorem C117_request : forall D u c sv t, names_stand D ->
  (exists t', (t <= t')%nat
     /\ live_goto D u c sv t = match goto_definition (D t) u c sv with Done a => Done (a, t') | Panic => Panic | NoFuel => NoFuel end)
  /\ (exists t', (t <= t')%nat /\ live_hover D u c sv t = (hover (D t) u c sv, t'))
  /\ (exists t', (t <= t')%nat /\ live_symbols D u sv t = (document_symbol (D t) u sv, t')).
Proof.
  intros D u c sv t Hn. set (fs := D t).
  assert (H : forall s p, fs_canon (D s) p = fs_canon fs p) by (intros s p; unfold fs; rewrite (Hn s), (Hn t); reflexivity).
  assert (F : forall p s, live_find_at_pos D (sv_project sv) p c s = (find_at_pos fs (sv_project sv) p c, S s)).
  { intros p s. unfold live_find_at_pos, find_at_pos. rewrite (still_get D fs H). destruct (get_file fs (sv_project sv) p); reflexivity. }
  assert (A : forall p s, live_get_analysis D (sv_project sv) p s = (get_analysis fs (sv_project sv) p, S s)).
  { intros p s. unfold live_get_analysis, get_analysis. rewrite (still_get D fs H). destruct (get_file fs (sv_project sv) p); reflexivity. }
  unfold live_goto, live_hover, live_symbols, goto_definition, hover, document_symbol.
  destruct (to_file_path u) as [p|]; [|repeat split; exists t; split; auto].
  rewrite (F p t), (still_get D fs H).
  split; [|split].
  - destruct (find_at_pos fs (sv_project sv) p c) as [[r|l|i]|] eqn:E.
    + rewrite A. unfold get_node_position. destruct (get_analysis fs (sv_project sv) p) as [x|].
      * destruct (get_referenced x r) as [n|]; cbn [option_map].
        -- destruct (from_file_path (wt_source (nd_name n))); exists (S (S t)); split; auto.
        -- exists (S (S t)). split; auto.
      * exists (S (S t)). split; auto.
    + exists (S t). split; auto.
    + destruct (still_include D fs H i (S t)) as (t2 & -> & L).
      exists t2. split; [lia|]. destruct (include_path fs i) as [q|e]; [|reflexivity].
      destruct (from_file_path q); reflexivity.
    + exists (S t). split; auto.
  - destruct (find_at_pos fs (sv_project sv) p c) as [[r|l|i]|] eqn:E.
    + rewrite A. unfold document_reference. exists (S (S t)). split; [lia|]. reflexivity.
    + exists (S t). split; auto.
    + exists (S t). split; auto.
    + exists (S t). split; auto.
  - exists (S t). split; [lia|]. unfold get_root. destruct (get_file fs (sv_project sv) p) as [f|]; reflexivity.
Qed.
Print Assumptions C117_request.

(** a server with a document, on a disk whose files change at every moment: the outline, the definition of a reference and its description *)
Definition text117a : str := bs "/dts-v1/; / { n: m { }; p = &n; };".
Definition sv117a : outcome server := did_open 4 id_oracle (fun l => l) (D117 O) (FileUri (bs "/a.dts")) text117a server_new.
Example C117_request_case : names_stand D117 /\ exists sv, sv117a = Done sv
  /\ live_goto D117 (FileUri (bs "/a.dts")) (mkPos 0 29) sv O = Done (Some (FileUri (bs "/a.dts"), mkSpan (mkPos 0 17) (mkPos 0 18)), 2%nat)
  /\ live_hover D117 (FileUri (bs "/a.dts")) (mkPos 0 29) sv O = (Some (bs "Node m"), 2%nat)
  /\ exists s, live_symbols D117 (FileUri (bs "/a.dts")) sv O = (Some s, 1%nat) /\ length s = 1%nat.
Proof.
  split; [exact D117_stands|]. eexists. split; [vm_compute; reflexivity|].
  split; [vm_compute; reflexivity|]. split; [vm_compute; reflexivity|]. eexists. split; [vm_compute; reflexivity|]. reflexivity.
Qed.
