(** Windows line ends: the language server *)
From Verif Require Import Project Server Session CrLf CrLfProject.
From Coq Require Import List.
Import ListNotations.

Definition same_server (sv sv' : server) : Prop :=
  same_project (sv_project sv) (sv_project sv') /\ sv_sent sv' = sv_sent sv.
(** the same message, with other line ends in the texts it brings *)
Definition note_alike (n n' : note) : Prop :=
  match n, n' with
  | NInitialize d, NInitialize d' | NConfigure d, NConfigure d' => d' = d
  | NOpen u t, NOpen u' t' => u' = u /\ fine t t'
  | NChange u ts, NChange u' ts' => u' = u /\ Forall2 fine ts ts'
  | NClose u, NClose u' => u' = u
  | _, _ => False
  end.

Section Disks.
Variables fs fs' : fsys.
Hypothesis SD : same_disk fs fs'.

Lemma same_diagnostics pj pj' p : same_project pj pj' ->
  get_diagnostics fs' pj' p = get_diagnostics fs pj p.
Proof.
  intros H. pose proof (same_get fs fs' SD _ _ p H) as G. unfold get_diagnostics.
  destruct (get_file fs pj p) as [f|], (get_file fs' pj' p) as [f'|]; try contradiction; [|reflexivity].
  destruct G as (A & B & _). unfold pf_diags. congruence.
Qed.

Lemma same_publish ok sv sv' : same_server sv sv' ->
  orel same_server (publish ok fs sv) (publish ok fs' sv').
Proof.
  intros [H E]. unfold publish. rewrite (alike_keys _ _ _ (proj1 H)), E.
  assert (G : forall l, publish_all fs' (sv_project sv') l = publish_all fs (sv_project sv) l).
  { induction l as [|f l IH]; [reflexivity|]. cbn [publish_all].
    rewrite IH, (same_diagnostics _ _ f H). reflexivity. }
  rewrite G. destruct (publish_all fs (sv_project sv) _) as [ps| |]; cbn [obind orel]; auto.
  split; [exact H|reflexivity].
Qed.

Lemma same_remove p pj pj' : same_project pj pj' ->
  same_project (remove_file fs p pj) (remove_file fs' p pj').
Proof.
  intros H. unfold remove_file. rewrite (d_canon fs fs' SD). destruct (fs_canon fs p); [|exact H].
  destruct H as (H1 & H2 & H3). split; [|split; assumption]. apply alike_remove, H1.
Qed.

Lemma same_handle fuel o ok n n' sv sv' : by_name (o_files o) -> note_alike n n' ->
  note_valid n -> note_valid n' -> same_server sv sv' ->
  orel same_server (handle fuel o ok fs n sv) (handle fuel o ok fs' n' sv').
Proof.
  intros B N V V' [H E].
  assert (C : forall d, same_server (mkServer (set_include_paths fs d (sv_project sv)) (sv_sent sv))
                          (mkServer (set_include_paths fs' d (sv_project sv')) (sv_sent sv'))).
  { intros d. split; [apply same_include_paths; assumption|exact E]. }
  assert (T : forall u t t', fine t t' -> valid_utf8 t = true -> valid_utf8 t' = true ->
    orel same_server (did_open fuel o ok fs u t sv) (did_open fuel o ok fs' u t' sv')).
  { intros u t t' F W W'. unfold did_open. destruct (to_file_path u) as [p|]; [|split; assumption].
    eapply orel_bind; [apply (same_add_text fs fs' SD); eassumption|]. intros a a' Ha.
    apply same_publish. split; assumption. }
  destruct n as [d|d|u t|u ts|u], n' as [d'|d'|u' t'|u' ts'|u']; cbn [note_alike] in N; try contradiction;
    cbn [handle].
  - subst d'. apply C.
  - subst d'. apply same_publish, C.
  - destruct N as [-> F]. apply T; assumption.
  - destruct N as [-> F]. unfold did_change. destruct F as [|t t' ts ts' F _].
    + destruct (to_file_path u); [exact I|]. split; assumption.
    + cbn [note_valid] in V, V'. inversion V; subst. inversion V'; subst. apply (T u t t'); assumption.
  - subst u'. cbn [orel]. unfold did_close. destruct (to_file_path u); [|split; assumption].
    split; [apply same_remove, H|exact E].
Qed.

Lemma same_find pj pj' p c : same_project pj pj' -> find_at_pos fs' pj' p c = find_at_pos fs pj p c.
Proof.
  intros H. pose proof (same_get fs fs' SD _ _ p H) as G. unfold find_at_pos.
  destruct (get_file fs pj p) as [f|], (get_file fs' pj' p) as [f'|]; try contradiction; [|reflexivity].
  destruct G as (_ & _ & -> & _). reflexivity.
Qed.
Lemma same_analysis pj pj' p : same_project pj pj' -> get_analysis fs' pj' p = get_analysis fs pj p.
Proof.
  intros H. pose proof (same_get fs fs' SD _ _ p H) as G. unfold get_analysis.
  destruct (get_file fs pj p) as [f|], (get_file fs' pj' p) as [f'|]; try contradiction; [|reflexivity].
  destruct G as (_ & _ & _ & -> & _). reflexivity.
Qed.
Lemma same_root pj pj' p : same_project pj pj' -> get_root fs' pj' p = get_root fs pj p.
Proof.
  intros H. pose proof (same_get fs fs' SD _ _ p H) as G. unfold get_root.
  destruct (get_file fs pj p) as [f|], (get_file fs' pj' p) as [f'|]; try contradiction; [|reflexivity].
  destruct G as (_ & _ & -> & _). reflexivity.
Qed.

Lemma same_answers sv sv' u c : same_server sv sv' ->
  goto_definition fs' u c sv' = goto_definition fs u c sv
  /\ hover fs' u c sv' = hover fs u c sv
  /\ document_symbol fs' u sv' = document_symbol fs u sv.
Proof.
  intros [H _]. unfold goto_definition, hover, document_symbol.
  destruct (to_file_path u) as [p|]; [|auto].
  rewrite (same_find _ _ p c H), (same_root _ _ p H).
  unfold get_node_position, document_reference. rewrite (same_analysis _ _ p H).
  split; [|split]; try reflexivity.
  destruct (find_at_pos fs (sv_project sv) p c) as [[r|l|i]|]; try reflexivity.
  rewrite (d_include fs fs' SD). reflexivity.
Qed.
End Disks.
