(** C102, C103: handlers that run concurrently *)
From Coq Require Import Permutation.
From Verif Require Import Parser Analysis Project Server Locks Tests PropsServer.

(** ** Discipline: one lock at a time, the project is touched under the lock only, no await under the lock *)
Fixpoint tidy (hold : option bool) (p : prog) : Prop :=
  match p with
  | Lock w p => hold = None /\ tidy (Some w) p
  | Unlock p => hold <> None /\ tidy None p
  | Look k => hold <> None /\ forall pj, tidy hold (k pj)
  | Store _ p => hold = Some true /\ tidy hold p
  | Send _ p | Tell p => hold = None /\ tidy None p
  | Return _ => hold = None
  | Crash => True
  end.
Definition tidy_h (h : handler) : Prop := tidy (h_hold h) (h_prog h) /\ (h_hold h <> None -> h_on h = true).

Lemma publish_each_tidy fs files : tidy None (publish_each fs files).
Proof.
  induction files as [|f r IH]; cbn [publish_each tidy]; [reflexivity|]. split; [reflexivity|]. split; [discriminate|]. intros pj.
  split; [discriminate|]. destruct (from_file_path f); cbn [tidy]; auto.
Qed.
Lemma publish_tidy ok fs : tidy None (publish_prog ok fs).
Proof. unfold publish_prog. cbn [tidy]. split; [reflexivity|]. split; [discriminate|]. intros pj. split; [discriminate|]. apply publish_each_tidy. Qed.
Lemma analyse_tidy o fs keys p : tidy (Some true) p -> forall a, tidy (Some true) (analyse_prog o fs keys a p).
Proof.
  intros Hp. induction keys as [|k r IH]; intros a; cbn [analyse_prog tidy]; [exact Hp|]. split; [discriminate|]. intros pj.
  destruct (m_get str_eq_dec k (pj_files pj)) as [f|]; [|exact I]. destruct (pf_file f) as [file|]; [|apply IH].
  destruct (analyze_file o fs pj file (pf_type f) a) as [[res a']| |]; try exact I. cbn [tidy]. split; [reflexivity|apply IH].
Qed.
Lemma add_tidy fuel o fs name text ft p : tidy (Some true) p -> tidy (Some true) (add_prog fuel o fs name text ft p).
Proof.
  intros Hp. unfold add_prog. destruct (fs_canon fs name) as [q|]; [|exact I]. cbn [tidy]. split; [discriminate|]. intros pj.
  destruct (parse_file _ _ _ _ _ _ _); try exact I. cbn [tidy]. split; [reflexivity|]. split; [discriminate|]. intros pj'.
  destruct (compute_key_order _ _ _); try exact I. apply analyse_tidy, Hp.
Qed.
Lemma job_tidy fuel fs j : tidy None (job_prog fuel fs j).
Proof.
  assert (A : forall id r, tidy (Some false) (answer id r)) by (intros; cbn; split; [discriminate|reflexivity]).
  destruct j; cbn [job_prog]; unfold with_path; try destruct (to_file_path u) as [p|]; cbn [tidy]; try (split; reflexivity).
  - repeat (split; try reflexivity; try discriminate).
  - split; [reflexivity|]. split; [reflexivity|]. split; [discriminate|]. apply publish_tidy.
  - split; [reflexivity|]. apply add_tidy. cbn [tidy]. split; [discriminate|]. apply publish_tidy.
  - split; [reflexivity|]. destruct texts as [|t r]; [exact I|]. apply add_tidy. cbn [tidy]. split; [discriminate|]. apply publish_tidy.
  - repeat (split; try reflexivity; try discriminate).
  - split; [reflexivity|]. split; [discriminate|]. intros pj. destruct (find_at_pos fs pj p pos) as [[r|l|i]|]; try apply A.
    + cbn [tidy]. split; [discriminate|]. intros pj'. destruct (get_node_position fs pj' p r) as [[sp src]|]; [|apply A].
      destruct (from_file_path src); [apply A|exact I].
    + destruct (include_path fs i) as [q|]; [|apply A]. destruct (from_file_path q); apply A.
  - split; [reflexivity|]. split; [discriminate|]. intros pj. destruct (find_at_pos fs pj p pos) as [[r|l|i]|]; try apply A.
    cbn [tidy]. split; [discriminate|]. intros pj'. apply A.
  - split; [reflexivity|]. split; [discriminate|]. intros pj. apply A.
Qed.

(** ** The lock *)
Definition count (w : bool) (hs : list handler) : nat := length (filter (holds w) hs).
Definition exclusive (hs : list handler) : Prop := count true hs = 0%nat \/ (count true hs = 1%nat /\ count false hs = 0%nat).
Definition well (w : world) : Prop := Forall tidy_h (w_hs w) /\ exclusive (w_hs w).

Lemma count_app w a b : count w (a ++ b) = (count w a + count w b)%nat.
Proof. unfold count. rewrite filter_app. apply app_length. Qed.
Lemma count_mid w pre h post : count w (pre ++ h :: post) = ((if holds w h then 1 else 0) + count w (pre ++ post))%nat.
Proof. rewrite !count_app. unfold count. cbn [filter]. destruct (holds w h); cbn [length]; lia. Qed.
Lemma free_counts w hs : free w hs = true <-> count true hs = 0%nat /\ (w = true -> count false hs = 0%nat).
Proof.
  assert (G : forall x, existsb (holds x) hs = false <-> count x hs = 0%nat).
  { intros x. unfold count. induction hs as [|h r IH]; cbn [existsb filter]; [split; reflexivity|].
    destruct (holds x h); cbn [orb length]; [split; discriminate|exact IH]. }
  unfold free. rewrite andb_true_iff, negb_true_iff, G. destruct w; [rewrite negb_true_iff, G|]; intuition discriminate.
Qed.
Lemma mid_app {A} (P : A -> Prop) pre x post : Forall P (pre ++ x :: post) <-> P x /\ Forall P (pre ++ post).
Proof. rewrite !Forall_app. split; [intros [H1 H2]; inversion H2; auto|intros (H1 & H2 & H3); auto]. Qed.

Lemma step_well n refuse w w' : step n refuse w w' -> well w -> well w'.
Proof.
  intros H [T X]. unfold well, exclusive in *. destruct H; cbn [w_hs] in *; rewrite mid_app in T; destruct T as [[T1 T2] T]; cbn [h_hold h_prog h_on tidy] in T1, T2;
    rewrite ?count_mid in *; cbn [holds h_hold] in X |- *; try (rewrite mid_app; unfold tidy_h; cbn [h_hold h_prog h_on tidy]).
  - split; [|exact X]. split; [split; [exact T1|reflexivity]|exact T].
  - destruct T1 as [_ T1]. apply free_counts in H. destruct H as [F1 F2]. split; [split; [split; [exact T1|reflexivity]|exact T]|].
    destruct w; cbn [Bool.eqb]; [right; rewrite F1, (F2 eq_refl); auto|left; rewrite F1; reflexivity].
  - destruct T1 as [_ T1]. split; [split; [split; [exact T1|contradiction]|exact T]|].
    destruct hold as [[]|]; cbn [Bool.eqb] in X; lia.
  - destruct T1 as [_ T1]. split; [|exact X]. split; [split; [apply T1|reflexivity]|exact T].
  - destruct T1 as [_ T1]. split; [|exact X]. split; [split; [exact T1|reflexivity]|exact T].
  - destruct T1 as [-> T1]. split; [|exact X]. split; [split; [exact T1|contradiction]|exact T].
  - destruct T1 as [-> T1]. split; [|exact X]. split; [split; [exact T1|contradiction]|exact T].
  - split; [exact T|]. rewrite T1 in X. exact X.
  - split; [exact T|]. destruct hold as [[]|]; cbn [Bool.eqb] in X; lia.
Qed.
Lemma steps_well n refuse w w' : steps n refuse w w' -> well w -> well w'.
Proof. induction 1; intros; eauto using step_well. Qed.
Lemma arrived_well fuel fs js pj : well (arrived fuel fs js pj).
Proof.
  split; cbn [arrived w_hs].
  - apply Forall_forall. intros h H. apply in_map_iff in H. destruct H as (j & <- & _). split; cbn; [apply job_tidy|contradiction].
  - left. unfold count. induction js; [reflexivity|exact IHjs].
Qed.

(** ** C102 *)
(** readers are made to wait only while a writer is waiting *)
Definition polite (refuse : list handler -> bool) : Prop := forall hs, refuse hs = true -> existsb wants_write hs = true.

Lemma holder_steps n refuse pj sent out cr pre post w p : tidy (Some w) p ->
  exists w', step n refuse (mkW pj sent out cr (pre ++ mkH true (Some w) p :: post)) w'.
Proof.
  destruct p; cbn [tidy]; intros H; try (destruct H; discriminate); try discriminate; eexists; constructor.
Qed.
Lemma find_split {A} (f : A -> bool) l : existsb f l = true -> exists pre x post, l = pre ++ x :: post /\ f x = true.
Proof. intros H. apply existsb_exists in H. destruct H as (x & Hx & E). apply in_split in Hx. destruct Hx as (a & b & ->). eauto. Qed.

Lemma never_stuck n refuse w : (0 < n)%nat -> polite refuse -> well w -> w_hs w <> [] -> exists w', step n refuse w w'.
Proof.
  intros Hn Hr [T X] Hne. destruct w as [pj sent out cr hs]. cbn [w_hs] in *.
  destruct (existsb (fun h => holds true h || holds false h) hs) eqn:E1.
  { destruct (find_split _ _ E1) as (pre & [on hold p] & post & -> & Hh). rewrite mid_app in T. destruct T as [[T1 T2] _]. cbn [h_hold h_prog h_on] in *.
    destruct hold as [w|]; [|discriminate Hh]. rewrite (T2 ltac:(discriminate)). apply holder_steps, T1. }
  assert (F : forall h, In h hs -> h_hold h = None).
  { intros [on hold p] Hh. destruct hold as [w|]; [|reflexivity]. exfalso. assert (E : existsb (fun h => holds true h || holds false h) hs = true); [|congruence].
    apply existsb_exists. exists (mkH on (Some w) p). split; [exact Hh|]. destruct w; reflexivity. }
  assert (Fr : forall w pre h post, hs = pre ++ h :: post -> free w (pre ++ post) = true).
  { intros w pre h post ->. assert (Z : forall x l, (forall h, In h l -> h_hold h = None) -> count x l = 0%nat).
    { intros x l. unfold count. induction l as [|y l IH]; intros G; [reflexivity|]. cbn [filter]. unfold holds at 1. rewrite (G y (or_introl eq_refl)).
      apply IH. intros z Hz. apply G. right. exact Hz. }
    assert (G : forall h0, In h0 (pre ++ post) -> h_hold h0 = None).
    { intros y Hy. apply F. apply in_app_or in Hy. apply in_or_app. destruct Hy; [left|right; right]; assumption. }
    apply free_counts. split; intros; apply Z, G. }
  destruct (existsb h_on hs) eqn:E2.
  - destruct (existsb wants_write hs) eqn:E3.
    + destruct (find_split _ _ E3) as (pre & [on hold p] & post & E & Hh). unfold wants_write in Hh. cbn [h_on h_prog] in Hh.
      destruct on; [|discriminate Hh]. destruct p as [[]| | | | | | |]; try discriminate Hh.
      assert (hold = None) as -> by (apply (F (mkH true hold (Lock true p))); rewrite E; apply in_elt).
      pose proof (Fr true _ _ _ E) as G. rewrite E. eexists. apply s_lock; [exact G|discriminate].
    + destruct (find_split _ _ E2) as (pre & [on hold p] & post & E & Hh). cbn [h_on] in Hh. subst on.
      assert (hold = None) as -> by (apply (F (mkH true hold p)); rewrite E; apply in_elt).
      assert (R : refuse hs = false) by (destruct (refuse hs) eqn:R; [rewrite (Hr _ R) in E3; discriminate|reflexivity]).
      destruct p; try (rewrite E; eexists; constructor; fail).
      pose proof (Fr w _ _ _ E) as G. rewrite E in R |- *. eexists. apply s_lock; [exact G|intros _; exact R].
  - destruct hs as [|[on hold p] hs]; [contradiction|]. assert (Z : on_threads (mkH on hold p :: hs) = 0%nat).
    { unfold on_threads. revert E2. generalize (mkH on hold p :: hs). induction l as [|y l IH]; cbn [existsb filter]; [reflexivity|].
      destruct (h_on y); [discriminate|exact IH]. }
    cbn [existsb h_on] in E2. destruct on; [discriminate|]. eexists. apply (s_poll _ _ _ _ _ _ []). cbn [app]. rewrite Z. exact Hn.
Qed.

(** in every state that can be reached some handler can go on, until all are through *)
Theorem C102_never_blocked : forall n refuse fuel fs js pj w, (0 < n)%nat -> polite refuse ->
  steps n refuse (arrived fuel fs js pj) w -> w_hs w <> [] -> exists w', step n refuse w w'.
Proof.
  intros n refuse fuel fs js pj w Hn Hr H Hne. exact (never_stuck n refuse w Hn Hr (steps_well _ _ _ _ H (arrived_well _ _ _ _)) Hne).
Qed.
Print Assumptions C102_never_blocked.

(** nor do they go on for ever *)
Inductive sub : prog -> prog -> Prop :=
| sb_lock w p : sub p (Lock w p) | sb_unlock p : sub p (Unlock p) | sb_look k pj : sub (k pj) (Look k) | sb_store u p : sub p (Store u p)
| sb_send m p : sub p (Send m p) | sb_tell p : sub p (Tell p).
Lemma sub_wf : forall p, Acc sub p.
Proof.
  induction p; constructor; intros q Hq; inversion Hq; subst; auto.
Qed.
Inductive less : handler -> handler -> Prop :=
| le_poll hold p : less (mkH true hold p) (mkH false hold p)
| le_sub on hold hold' p q : sub q p -> less (mkH on hold' q) (mkH true hold p).
Lemma less_wf : forall h, Acc less h.
Proof.
  assert (G : forall p on hold, Acc less (mkH on hold p)).
  { intros p. induction (sub_wf p) as [p _ IH].
    assert (T : forall hold, Acc less (mkH true hold p)).
    { intros hold. constructor. intros y Hy. inversion Hy; subst. apply IH. assumption. }
    intros [] hold; [apply T|]. constructor. intros y Hy. inversion Hy; subst. apply T. }
  intros []. apply G.
Qed.
Inductive fewer : list handler -> list handler -> Prop :=
| fw_less pre h h' post : less h' h -> fewer (pre ++ h' :: post) (pre ++ h :: post)
| fw_gone pre h post : fewer (pre ++ post) (pre ++ h :: post).
Lemma fewer_wf : forall l, Acc fewer l.
Proof.
  induction l as [|h l IH]; [constructor; intros y Hy; inversion Hy; destruct pre; discriminate|].
  pose proof (less_wf h) as Hh. revert l IH. induction Hh as [h _ IHh]. intros l Hl. induction Hl as [l Hl IHl].
  constructor. intros y Hy. inversion Hy as [pre x x' post Hx E1 E2|pre x post E1 E2]; subst; destruct pre as [|z pre]; cbn [app] in *; injection E2 as -> E2; subst.
  - apply IHh; [exact Hx|constructor; exact Hl].
  - apply IHl. constructor. exact Hx.
  - constructor. exact Hl.
  - apply IHl. constructor.
Qed.
Lemma step_fewer n refuse w w' : step n refuse w w' -> fewer (w_hs w') (w_hs w).
Proof. destruct 1; cbn [w_hs]; try apply fw_gone; apply fw_less; constructor; constructor. Qed.

Theorem C102_no_endless_run : forall n refuse (run : nat -> world), ~ forall i, step n refuse (run i) (run (S i)).
Proof.
  intros n refuse run H. assert (G : forall l, Acc fewer l -> forall i, w_hs (run i) = l -> False).
  { induction 1 as [l _ IH]. intros i E. apply (IH (w_hs (run (S i)))) with (i := S i); [|reflexivity]. rewrite <- E. apply (step_fewer n refuse), H. }
  exact (G _ (fewer_wf _) 0%nat eq_refl).
Qed.
Print Assumptions C102_no_endless_run.

(** a guard that lives over an await blocks the only thread: the claim is about the handlers, not about the lock *)
Example C102_needs_discipline : exists pj w, let p := Lock false (Tell (Unlock (Return None))) in let q := Lock true (Unlock (Return None)) in
  steps 1 (fun _ => false) (mkW pj [] [] false [mkH false None p; mkH false None q]) w /\ w_hs w <> []
  /\ ~ exists w', step 1 (fun _ => false) w w'.
Proof.
  exists project_new. set (q := Lock true (Unlock (Return None))).
  exists (mkW project_new [] [] false [mkH false (Some false) (Unlock (Return None)); mkH true None q]).
  intros p q'. split; [|split; [discriminate|]].
  - eapply ss_step; [eapply ss_step; [eapply ss_step; [eapply ss_step; [apply ss_refl|]|]|]|].
    + apply (s_poll _ _ _ _ _ _ []). cbn. lia.
    + apply (s_lock _ _ _ _ _ _ []); reflexivity.
    + apply (s_tell _ _ _ _ _ _ []).
    + apply (s_poll _ _ _ _ _ _ [mkH false (Some false) (Unlock (Return None))] []). cbn. lia.
  - intros [w' H]. match type of H with step _ _ ?w _ => remember w as w0 eqn:Ew end.
    destruct H as [? ? ? ? pre post ? ? Hc|? ? ? ? pre post ? ? Hf ?|? ? ? ? pre post|? ? ? ? pre post|? ? ? ? pre post|? ? ? ? pre post|? ? ? ? pre post|? ? ? ? pre post|? ? ? ? pre post];
      injection Ew as _ _ _ _ E; destruct pre as [|a [|b [|c pre]]]; cbn [app] in E; try discriminate E; injection E; intros; subst; try discriminate.
    cbn in Hc. lia.
Qed.

(** ** C103: what handlers do under the lock appears as one step *)

(** what a message does when it is handled alone: the new project and the answer *)
Definition job_run (fuel : nat) (fs : fsys) (j : job) (pj : project) : outcome (project * option (nat * reply)) :=
  match j with
  | JInitialize dirs | JConfigure _ dirs => Done (set_include_paths fs dirs pj, None)
  | JOpen o _ (FileUri p) text | JChange o _ (FileUri p) (text :: _) =>
    obind (add_file_with_text fuel o fs p text (file_type_of_path p) pj) (fun pj' => Done (pj', None))
  | JChange _ _ (FileUri p) [] => Panic
  | JOpen _ _ (OtherUri _) _ | JChange _ _ (OtherUri _) _ => Done (pj, None)
  | JClose u => Done (sv_project (did_close fs u (mkServer pj [])), None)
  | JGoto id u pos => obind (goto_definition fs u pos (mkServer pj [])) (fun r => Done (pj, Some (id, RpGoto r)))
  | JHover id u pos => Done (pj, Some (id, RpHover (hover fs u pos (mkServer pj []))))
  | JSymbols id u => Done (pj, Some (id, RpSymbols (document_symbol fs u (mkServer pj []))))
  end.
Definition said (x : option (nat * reply)) : list (nat * reply) := match x with Some a => [a] | None => [] end.
(** the messages handled one after the other *)
Fixpoint run_seq (fuel : nat) (fs : fsys) (js : list job) (pj : project) : outcome (project * list (nat * reply)) :=
  match js with
  | [] => Done (pj, [])
  | j :: r => obind (job_run fuel fs j pj) (fun '(pj', x) => obind (run_seq fuel fs r pj') (fun '(pj2, out) => Done (pj2, said x ++ out)))
  end.

(** programs with critical sections in one step *)
Fixpoint section (p : prog) (pj : project) : project * prog :=
  match p with
  | Look k => section (k pj) pj
  | Store u p => section p (u pj)
  | Unlock p => (pj, p)
  | p => (pj, p)
  end.
Record atomic := mkA { a_pj : project; a_sent : list publication; a_out : list (nat * reply); a_crashed : bool; a_ps : list prog }.
Inductive astep : atomic -> atomic -> Prop :=
| as_section pj sent out cr pre post w p : astep (mkA pj sent out cr (pre ++ Lock w p :: post)) (mkA (fst (section p pj)) sent out cr (pre ++ snd (section p pj) :: post))
| as_send pj sent out cr pre post m p : astep (mkA pj sent out cr (pre ++ Send m p :: post)) (mkA pj (sent ++ [m]) out cr (pre ++ p :: post))
| as_tell pj sent out cr pre post p : astep (mkA pj sent out cr (pre ++ Tell p :: post)) (mkA pj sent out cr (pre ++ p :: post))
| as_return pj sent out cr pre post r : astep (mkA pj sent out cr (pre ++ Return r :: post)) (mkA pj sent (out ++ said r) cr (pre ++ post))
| as_crash pj sent out cr pre post : astep (mkA pj sent out cr (pre ++ Crash :: post)) (mkA pj sent out true (pre ++ post)).
Inductive asteps : atomic -> atomic -> Prop :=
| ass_refl a : asteps a a
| ass_step a a1 a2 : astep a a1 -> asteps a1 a2 -> asteps a a2.
Lemma asteps_trans a b c : asteps a b -> asteps b c -> asteps a c.
Proof. induction 1; intros; [assumption|]. econstructor; [eassumption|auto]. Qed.
Lemma asteps_one a b : astep a b -> asteps a b.
Proof. intros. econstructor; [eassumption|apply ass_refl]. Qed.

Lemma read_section p pj : tidy (Some false) p -> fst (section p pj) = pj.
Proof. induction p; cbn [tidy section]; intros T; try reflexivity; [match goal with H : forall p, _ -> _ |- _ => apply H, T end|destruct T; discriminate]. Qed.

(** ** Refinement *)
Definition relh (s a : project) (h : handler) (p : prog) : Prop :=
  match h_hold h with
  | None => p = h_prog h
  | Some w => exists q, p = Lock w q /\ section q a = section (h_prog h) s
  end.
Definition refines (w : world) (a : atomic) : Prop :=
  w_sent w = a_sent a /\ w_out w = a_out a /\ w_crashed w = a_crashed a
  /\ Forall2 (relh (w_pj w) (a_pj a)) (w_hs w) (a_ps a) /\ (count true (w_hs w) = 0%nat -> w_pj w = a_pj a).

Lemma F2_mid {A B} (R : A -> B -> Prop) pre x post l : Forall2 R (pre ++ x :: post) l ->
  exists pre' y post', l = pre' ++ y :: post' /\ Forall2 R pre pre' /\ R x y /\ Forall2 R post post'.
Proof.
  intros H. apply Forall2_app_inv_l in H. destruct H as (a & b & H1 & H2 & ->). inversion H2; subst. eauto 10.
Qed.
Lemma F2_join {A B} (R : A -> B -> Prop) pre x post pre' y post' : Forall2 R pre pre' -> R x y -> Forall2 R post post' ->
  Forall2 R (pre ++ x :: post) (pre' ++ y :: post').
Proof. intros. apply Forall2_app; [assumption|constructor; assumption]. Qed.
(** the others do not notice a change of the project while they hold nothing *)
Lemma relh_idle s a s' a' hs ps : count true hs = 0%nat -> count false hs = 0%nat -> Forall2 (relh s a) hs ps -> Forall2 (relh s' a') hs ps.
Proof.
  intros C1 C2 H. revert C1 C2. induction H as [|h p hs ps Hh _ IH]; intros C1 C2; [constructor|].
  change (h :: hs) with ([] ++ h :: hs) in C1, C2. rewrite count_mid in C1, C2. cbn [app] in *.
  unfold holds in C1, C2. destruct (h_hold h) as [[]|] eqn:E; cbn [Bool.eqb] in C1, C2; try lia.
  constructor; [|apply IH; lia]. unfold relh in *. rewrite E in *. exact Hh.
Qed.

Ltac fields := unfold refines; cbn [w_sent w_out w_crashed w_hs w_pj a_sent a_out a_crashed a_ps a_pj]; split; [reflexivity|]; split; [reflexivity|]; split; [reflexivity|]; split.
Lemma step_refines n refuse w w' a : step n refuse w w' -> well w -> refines w a -> exists a', asteps a a' /\ refines w' a'.
Proof.
  intros H [T X] (R1 & R2 & R3 & R4 & R5). destruct a as [apj asent aout acr ps]. cbn [a_sent a_out a_crashed a_ps a_pj] in *.
  assert (XX : forall pre h post, w_hs w = pre ++ h :: post -> tidy_h h /\ (h_hold h = Some true -> count true (pre ++ post) = 0%nat /\ count false (pre ++ post) = 0%nat)
    /\ (h_hold h = Some false -> count true (pre ++ post) = 0%nat)).
  { intros pre h post E. rewrite E in T, X. rewrite mid_app in T. split; [apply T|]. unfold exclusive in X. rewrite !count_mid in X. unfold holds in X.
    split; intros Hh; rewrite Hh in X; cbn [Bool.eqb] in X; lia. }
  destruct H; cbn [w_sent w_out w_crashed w_hs w_pj] in *; subst; destruct (XX _ _ _ eq_refl) as ([T1 T2] & X1 & X2); cbn [h_hold h_prog h_on tidy] in T1, T2, X1, X2;
    destruct (F2_mid _ _ _ _ _ R4) as (pre' & p' & post' & -> & P1 & P2 & P3); rewrite count_mid in R5; unfold relh in P2; cbn [h_hold h_prog] in P2.
  - exists (mkA apj asent aout acr (pre' ++ p' :: post')). split; [apply ass_refl|]. fields; [apply F2_join; auto|rewrite count_mid; exact R5].
  - subst p'. apply free_counts in H. destruct H as [F1 F2]. cbn [holds h_hold] in R5. rewrite F1 in R5. rewrite (R5 eq_refl) in *.
    exists (mkA apj asent aout acr (pre' ++ Lock w p :: post')). split; [apply ass_refl|]. fields; [|reflexivity].
    apply F2_join; auto. exists p. auto.
  - destruct hold as [w|]; [|destruct T1; contradiction]. destruct P2 as (q & -> & Eq). cbn [section] in Eq.
    exists (mkA pj asent aout acr (pre' ++ p :: post')). split.
    + apply asteps_one. pose proof (as_section apj asent aout acr pre' post' w q) as S. rewrite Eq in S. exact S.
    + fields; [|reflexivity]. apply F2_join; [| reflexivity |].
      * destruct w; [destruct (X1 eq_refl) as [C1 C2]; rewrite count_app in C1, C2; apply (relh_idle pj apj); auto; lia|].
        cbn [holds h_hold Bool.eqb] in R5. rewrite (X2 eq_refl) in R5. rewrite <- (R5 eq_refl) in P1. exact P1.
      * destruct w; [destruct (X1 eq_refl) as [C1 C2]; rewrite count_app in C1, C2; apply (relh_idle pj apj); auto; lia|].
        cbn [holds h_hold Bool.eqb] in R5. rewrite (X2 eq_refl) in R5. rewrite <- (R5 eq_refl) in P3. exact P3.
  - destruct hold as [w|]; [|destruct T1; contradiction]. destruct P2 as (q & -> & Eq). cbn [section] in Eq.
    exists (mkA apj asent aout acr (pre' ++ Lock w q :: post')). split; [apply ass_refl|]. fields; [|rewrite count_mid; exact R5].
    apply F2_join; auto. exists q. auto.
  - destruct T1 as [-> T1]. destruct P2 as (q & -> & Eq). cbn [section] in Eq. destruct (X1 eq_refl) as [C1 C2]. rewrite count_app in C1, C2.
    exists (mkA apj asent aout acr (pre' ++ Lock true q :: post')). split; [apply ass_refl|]. fields.
    + apply F2_join; [apply (relh_idle pj apj); auto; lia|exists q; auto|apply (relh_idle pj apj); auto; lia].
    + rewrite count_mid. discriminate.
  - destruct T1 as [-> T1]. subst p'. exists (mkA apj (asent ++ [m]) aout acr (pre' ++ p :: post')). split; [apply asteps_one, as_send|].
    fields; [apply F2_join; auto; reflexivity|]. rewrite count_mid. exact R5.
  - destruct T1 as [-> T1]. subst p'. exists (mkA apj asent aout acr (pre' ++ p :: post')). split; [apply asteps_one, as_tell|].
    fields; [apply F2_join; auto; reflexivity|]. rewrite count_mid. exact R5.
  - subst hold. subst p'. exists (mkA apj asent (aout ++ said r) acr (pre' ++ post')). split; [apply asteps_one, as_return|].
    fields; [apply Forall2_app; auto|exact R5].
  - destruct hold as [w|].
    + destruct P2 as (q & -> & Eq). cbn [section] in Eq. exists (mkA pj asent aout true (pre' ++ post')). split.
      * eapply ass_step; [apply as_section|]. rewrite Eq. apply asteps_one, as_crash.
      * fields; [|reflexivity].
        assert (P : Forall2 (relh pj apj) (pre ++ post) (pre' ++ post')) by (apply Forall2_app; auto).
        destruct w; [destruct (X1 eq_refl) as [C1 C2]; exact (relh_idle _ _ _ _ _ _ C1 C2 P)|].
        cbn [holds h_hold Bool.eqb] in R5. rewrite (X2 eq_refl) in R5. rewrite <- (R5 eq_refl) in P. exact P.
    + subst p'. exists (mkA apj asent aout true (pre' ++ post')). split; [apply asteps_one, as_crash|]. fields; [apply Forall2_app; auto|exact R5].
Qed.
Lemma steps_refine n refuse w w' a : steps n refuse w w' -> well w -> refines w a -> exists a', asteps a a' /\ refines w' a'.
Proof.
  induction 1 as [w|w w1 w2 H1 IH H2]; intros W R; [exists a; split; [apply ass_refl|exact R]|].
  destruct (IH W R) as (a1 & S1 & R1). destruct (step_refines _ _ _ _ _ H2 (steps_well _ _ _ _ H1 W) R1) as (a2 & S2 & R2).
  exists a2. split; [exact (asteps_trans _ _ _ S1 S2)|exact R2].
Qed.
Lemma finished_atomic n refuse fuel fs js pj w : steps n refuse (arrived fuel fs js pj) w -> w_hs w = [] ->
  asteps (mkA pj [] [] false (map (job_prog fuel fs) js)) (mkA (w_pj w) (w_sent w) (w_out w) (w_crashed w) []).
Proof.
  intros H E. destruct (steps_refine _ _ _ _ (mkA pj [] [] false (map (job_prog fuel fs) js)) H (arrived_well _ _ _ _)) as (a & S & R1 & R2 & R3 & R4 & R5).
  - fields; [|reflexivity]. clear. cbn [arrived w_hs w_pj]. induction js; constructor; [reflexivity|exact IHjs].
  - destruct a as [apj asent aout acr ps]. cbn [a_sent a_out a_crashed a_ps a_pj] in *. rewrite E in *. inversion R4; subst. rewrite (R5 eq_refl). exact S.
Qed.

(** ** Serial order *)
(** the rest of a handler behind its section: it changes nothing and answers [x] *)
Inductive late (x : option (nat * reply)) : prog -> Prop :=
| la_return : late x (Return x)
| la_tell p : late x p -> late x (Tell p)
| la_send m p : late x p -> late x (Send m p)
| la_read p : (forall pj, fst (section p pj) = pj /\ (late x (snd (section p pj)) \/ snd (section p pj) = Crash)) -> late x (Lock false p).
Lemma publish_each_late fs files : late None (publish_each fs files).
Proof.
  induction files as [|f r IH]; cbn [publish_each]; [apply la_return|]. apply la_read. intros pj. cbn [section fst snd]. split; [reflexivity|].
  destruct (from_file_path f); [left; apply la_send, IH|right; reflexivity].
Qed.
Lemma publish_late ok fs : late None (publish_prog ok fs).
Proof. apply la_read. intros pj. cbn [section fst snd]. split; [reflexivity|]. left. apply publish_each_late. Qed.

Lemma analyse_section o fs k keys : forall a pj,
  match analyze_keys o fs keys a pj with
  | Done pj' => section (analyse_prog o fs keys a (Unlock k)) pj = (pj', k)
  | _ => snd (section (analyse_prog o fs keys a (Unlock k)) pj) = Crash
  end.
Proof.
  induction keys as [|key r IH]; intros a pj; cbn [analyze_keys analyse_prog section]; [reflexivity|].
  destruct (m_get str_eq_dec key (pj_files pj)) as [f|]; [|reflexivity]. destruct (pf_file f) as [file|]; [|apply IH].
  destruct (analyze_file o fs pj file (pf_type f) a) as [[res a']| |]; cbn [obind]; try reflexivity. cbn [section]. apply IH.
Qed.
Lemma add_section fuel o fs p text ft k pj :
  match add_file_with_text fuel o fs p text ft pj with
  | Done pj' => section (add_prog fuel o fs p text ft (Unlock k)) pj = (pj', k)
  | _ => snd (section (add_prog fuel o fs p text ft (Unlock k)) pj) = Crash
  end.
Proof.
  unfold add_file_with_text, add_prog. destruct (fs_canon fs p) as [q|]; [|reflexivity]. cbn [section].
  destruct (parse_file fuel fs (pj_incl pj) q text ft (pj_files pj)) as [files| |]; cbn [obind]; try reflexivity.
  cbn [section]. change (pj_files (set_files files pj)) with files.
  destruct (compute_key_order o fs files) as [keys| |]; cbn [obind]; try reflexivity. apply analyse_section.
Qed.

(** the first step of a handler does all it does to the project *)
Definition opens_with (fuel : nat) (fs : fsys) (j : job) : Prop :=
  (exists x, job_prog fuel fs j = Tell (Return x) /\ forall pj, job_run fuel fs j pj = Done (pj, x))
  \/ exists w p, job_prog fuel fs j = Lock w p /\ forall pj,
       (exists pj' x p', section p pj = (pj', p') /\ job_run fuel fs j pj = Done (pj', x) /\ late x p') \/ snd (section p pj) = Crash.
Lemma job_opens fuel fs j : opens_with fuel fs j.
Proof.
  unfold opens_with. destruct j; cbn [job_prog job_run]; unfold with_path.
  - right. do 2 eexists. split; [reflexivity|]. intros pj. left. do 3 eexists. split; [reflexivity|]. split; [reflexivity|apply la_return].
  - right. do 2 eexists. split; [reflexivity|]. intros pj. left. do 3 eexists. split; [reflexivity|]. split; [reflexivity|apply publish_late].
  - destruct u as [p|s]; cbn [to_file_path]; [right|left; eexists; split; reflexivity]. do 2 eexists. split; [reflexivity|]. intros pj.
    pose proof (add_section fuel o fs p text (file_type_of_path p) (publish_prog ok fs) pj) as S.
    destruct (add_file_with_text _ _ _ _ _ _ _) as [pj'| |]; cbn [obind]; [left|right; exact S|right; exact S].
    do 3 eexists. split; [exact S|]. split; [reflexivity|apply publish_late].
  - destruct u as [p|s]; cbn [to_file_path]; [right|left; eexists; split; [reflexivity|destruct texts; reflexivity]]. do 2 eexists. split; [reflexivity|]. intros pj.
    destruct texts as [|text r]; [right; reflexivity|].
    pose proof (add_section fuel o fs p text (file_type_of_path p) (publish_prog ok fs) pj) as S.
    destruct (add_file_with_text _ _ _ _ _ _ _) as [pj'| |]; cbn [obind]; [left|right; exact S|right; exact S].
    do 3 eexists. split; [exact S|]. split; [reflexivity|apply publish_late].
  - destruct u as [p|s]; cbn [to_file_path]; [right|left; eexists; split; reflexivity]. do 2 eexists. split; [reflexivity|]. intros pj. left.
    do 3 eexists. split; [reflexivity|]. split; [reflexivity|apply la_return].
  - unfold goto_definition. destruct u as [p|s]; cbn [to_file_path]; [right|left; eexists; split; reflexivity]. do 2 eexists. split; [reflexivity|]. intros pj.
    cbn [section sv_project].
    assert (A : forall r, exists pj' x p', section (answer id r) pj = (pj', p') /\ Done (pj, Some (id, r)) = Done (pj', x) /\ late x p')
      by (intros r; do 3 eexists; split; [reflexivity|]; split; [reflexivity|apply la_return]).
    destruct (find_at_pos fs pj p pos) as [[r|l|i]|]; try (left; apply A).
    + cbn [section]. destruct (get_node_position fs pj p r) as [[sp src]|]; [|left; apply A]. destruct (from_file_path src); [left; apply A|right; reflexivity].
    + destruct (include_path fs i) as [q|]; [|left; apply A]. destruct (from_file_path q); left; apply A.
  - unfold hover. destruct u as [p|s]; cbn [to_file_path]; [right|left; eexists; split; reflexivity]. do 2 eexists. split; [reflexivity|]. intros pj. left.
    cbn [section sv_project].
    assert (A : forall r, exists pj' x p', section (answer id r) pj = (pj', p') /\ Done (pj, Some (id, r)) = Done (pj', x) /\ late x p')
      by (intros r; do 3 eexists; split; [reflexivity|]; split; [reflexivity|apply la_return]).
    destruct (find_at_pos fs pj p pos) as [[r|l|i]|]; apply A.
  - unfold document_symbol. destruct u as [p|s]; cbn [to_file_path]; [right|left; eexists; split; reflexivity]. do 2 eexists. split; [reflexivity|]. intros pj. left.
    do 3 eexists. split; [reflexivity|]. split; [reflexivity|apply la_return].
Qed.

Lemma run_seq_snoc fuel fs js j pj pj1 out pj2 x : run_seq fuel fs js pj = Done (pj1, out) -> job_run fuel fs j pj1 = Done (pj2, x) ->
  run_seq fuel fs (js ++ [j]) pj = Done (pj2, out ++ said x).
Proof.
  revert pj out. induction js as [|k r IH]; intros pj out H Hj; cbn [run_seq app] in *.
  - injection H as -> <-. rewrite Hj. cbn [obind]. rewrite app_nil_r. reflexivity.
  - destruct (job_run fuel fs k pj) as [[pj' y]| |]; cbn [obind] in *; try discriminate.
    destruct (run_seq fuel fs r pj') as [[pj'' out']| |] eqn:E; cbn [obind] in H; try discriminate. injection H as -> <-.
    rewrite (IH _ _ E Hj). cbn [obind]. rewrite app_assoc. reflexivity.
Qed.

(** each handler still to be run is fresh (of a message) or late (with the answer it is going to give) *)
Definition tag := (job + option (nat * reply))%type.
Definition tagged (fuel : nat) (fs : fsys) (p : prog) (t : tag) : Prop :=
  match t with inl j => p = job_prog fuel fs j | inr x => late x p end.
Definition fresh (ts : list tag) : list job := flat_map (fun t => match t with inl j => [j] | inr _ => [] end) ts.
Definition owed (ts : list tag) : list (nat * reply) := flat_map (fun t => match t with inl _ => [] | inr x => said x end) ts.
Definition doomed (a : atomic) : Prop := a_crashed a = true \/ In Crash (a_ps a).
Definition serial (fuel : nat) (fs : fsys) (js : list job) (pj0 : project) (a : atomic) : Prop :=
  doomed a \/ exists ts order outs, Forall2 (tagged fuel fs) (a_ps a) ts /\ Permutation js (order ++ fresh ts)
    /\ run_seq fuel fs order pj0 = Done (a_pj a, outs) /\ Permutation outs (a_out a ++ owed ts).

Lemma doomed_step a a' : astep a a' -> doomed a -> doomed a'.
Proof.
  intros H [D|D]; destruct H; unfold doomed; cbn [a_crashed a_ps] in *; try (left; assumption); try (left; reflexivity);
    try (right; apply in_app_or in D; apply in_or_app; destruct D as [D|[D|D]]; [left; exact D|discriminate D|right; try right; exact D]).
Qed.
Lemma flat_mid {A B} (f : A -> list B) pre x post : Permutation (flat_map f (pre ++ x :: post)) (f x ++ flat_map f (pre ++ post)).
Proof. rewrite !flat_map_app. cbn [flat_map]. rewrite !app_assoc. apply Permutation_app_tail, Permutation_app_comm. Qed.

Lemma serial_step fuel fs js pj0 a a' : astep a a' -> serial fuel fs js pj0 a -> serial fuel fs js pj0 a'.
Proof.
  intros H [D|(ts & order & outs & F & P & R & Q)]; [left; exact (doomed_step _ _ H D)|].
  assert (K : forall pre post pre' post' pj sent out cr p, Forall2 (tagged fuel fs) pre pre' -> Forall2 (tagged fuel fs) post post' ->
    forall x order outs, late x p -> Permutation js (order ++ fresh (pre' ++ post')) -> run_seq fuel fs order pj0 = Done (pj, outs) ->
      Permutation outs (out ++ said x ++ owed (pre' ++ post')) -> serial fuel fs js pj0 (mkA pj sent out cr (pre ++ p :: post))).
  { intros pre post pre' post' pj sent out cr p F1 F2 x ord os L P1 R1 Q1. right. exists (pre' ++ (inr x : tag) :: post'), ord, os. cbn [a_ps a_pj a_out].
    split; [apply F2_join; [exact F1|exact L|exact F2]|]. unfold fresh, owed in *.
    split; [etransitivity; [exact P1|]; apply Permutation_app_head; symmetry; apply (flat_mid (fun t : tag => match t with inl j => [j] | inr _ => [] end))|]. split; [exact R1|].
    etransitivity; [exact Q1|]. apply Permutation_app_head. symmetry. apply (flat_mid (fun t : tag => match t with inl _ => [] | inr x => said x end)). }
  assert (J : forall pre t post, Permutation (fresh (pre ++ t :: post)) (match t with inl j => [j] | inr _ => [] end ++ fresh (pre ++ post)))
    by (intros; apply (flat_mid (fun t : tag => match t with inl j => [j] | inr _ => [] end))).
  assert (O : forall pre t post, Permutation (owed (pre ++ t :: post)) (match t with inl _ => [] | inr x => said x end ++ owed (pre ++ post)))
    by (intros; apply (flat_mid (fun t : tag => match t with inl _ => [] | inr x => said x end))).
  destruct H; cbn [a_ps a_pj a_out] in *; destruct (F2_mid _ _ _ _ _ F) as (pre' & t & post' & -> & F1 & Ht & F2); rewrite J in P; rewrite O in Q;
    destruct t as [j|x]; cbn [tagged app] in *.
  - destruct (job_opens fuel fs j) as [(x & E & _)|(w' & p' & E & G)]; rewrite E in Ht; [discriminate|]. injection Ht as _ ->.
    destruct (G pj) as [(pj' & x & k & S & Rj & L)|S].
    + rewrite S. cbn [fst snd]. apply (K pre post pre' post' pj' sent out cr k F1 F2 x (order ++ [j]) (outs ++ said x) L); [| |].
      * etransitivity; [exact P|]. rewrite <- app_assoc. reflexivity.
      * exact (run_seq_snoc _ _ _ _ _ _ _ _ _ R Rj).
      * rewrite Q, <- app_assoc. apply Permutation_app_head, Permutation_app_comm.
    + left. right. cbn [a_ps]. rewrite S. apply in_elt.
  - inversion Ht as [| | |p' G]; subst. destruct (G pj) as [G1 [G2|G2]]; rewrite G1.
    + apply (K pre post pre' post' pj sent out cr _ F1 F2 x order outs G2); auto.
    + left. right. cbn [a_ps]. rewrite G2. apply in_elt.
  - destruct (job_opens fuel fs j) as [(x & E & _)|(w' & p' & E & _)]; rewrite E in Ht; discriminate.
  - inversion Ht; subst. apply (K pre post pre' post' pj _ out cr p F1 F2 x order outs); auto.
  - destruct (job_opens fuel fs j) as [(x & E & G)|(w' & p' & E & _)]; rewrite E in Ht; [|discriminate]. injection Ht as ->.
    apply (K pre post pre' post' pj sent out cr _ F1 F2 x (order ++ [j]) (outs ++ said x)); [apply la_return| | |].
    + etransitivity; [exact P|]. rewrite <- app_assoc. reflexivity.
    + exact (run_seq_snoc _ _ _ _ _ _ _ _ _ R (G pj)).
    + rewrite Q, <- app_assoc. apply Permutation_app_head, Permutation_app_comm.
  - inversion Ht; subst. apply (K pre post pre' post' pj sent out cr p F1 F2 x order outs); auto.
  - destruct (job_opens fuel fs j) as [(x & E & _)|(w' & p' & E & _)]; rewrite E in Ht; discriminate.
  - inversion Ht; subst. right. exists (pre' ++ post'), order, outs. split; [apply Forall2_app; assumption|]. split; [exact P|]. split; [exact R|].
    rewrite Q, app_assoc. reflexivity.
  - destruct (job_opens fuel fs j) as [(x & E & _)|(w' & p' & E & _)]; rewrite E in Ht; discriminate.
  - inversion Ht.
Qed.
Lemma serial_steps fuel fs js pj0 a a' : asteps a a' -> serial fuel fs js pj0 a -> serial fuel fs js pj0 a'.
Proof. induction 1; intros; eauto using serial_step. Qed.

(** Whatever the schedule, the number of threads and the fairness of the lock: the project and the answers are those of
    the messages handled one after the other, in some order. *)
Theorem C103_serial : forall n refuse fuel fs js pj w, steps n refuse (arrived fuel fs js pj) w -> w_hs w = [] -> w_crashed w = false ->
  exists order outs, Permutation js order /\ run_seq fuel fs order pj = Done (w_pj w, outs) /\ Permutation outs (w_out w).
Proof.
  intros n refuse fuel fs js pj w H E C. pose proof (finished_atomic _ _ _ _ _ _ _ H E) as S.
  destruct (serial_steps fuel fs js pj _ _ S) as [[D|D]|(ts & order & outs & F & P & R & Q)].
  - right. exists (map inl js), [], []. cbn [a_ps a_pj a_out run_seq app]. split; [|split; [|split; [reflexivity|]]].
    + clear. induction js; constructor; [reflexivity|assumption].
    + clear. induction js as [|j r IH]; [constructor|]. cbn. constructor. exact IH.
    + clear. induction js as [|j r IH]; [constructor|exact IH].
  - cbn in D. congruence.
  - destruct D.
  - cbn [a_ps a_pj a_out] in *. inversion F; subst. cbn [fresh owed flat_map] in *. rewrite app_nil_r in *. exists order, outs. auto.
Qed.
Print Assumptions C103_serial.

(** ** Messages handled in the order of their arrival. tower-lsp polls the handlers of a connection from one task: one
    thread, and a handler is polled for the first time before the next message is read. *)
Inductive qstep (fuel : nat) (fs : fsys) (n : nat) (refuse : list handler -> bool) : list job * world -> list job * world -> Prop :=
| q_arrive j q w : (on_threads (w_hs w) < n)%nat ->
    qstep fuel fs n refuse (j :: q, w) (q, mkW (w_pj w) (w_sent w) (w_out w) (w_crashed w) (w_hs w ++ [mkH true None (job_prog fuel fs j)]))
| q_step q w w' : step n refuse w w' -> qstep fuel fs n refuse (q, w) (q, w').
Inductive qsteps (fuel : nat) (fs : fsys) (n : nat) (refuse : list handler -> bool) : list job * world -> list job * world -> Prop :=
| qs_refl x : qsteps fuel fs n refuse x x
| qs_step x y z : qsteps fuel fs n refuse x y -> qstep fuel fs n refuse y z -> qsteps fuel fs n refuse x z.

Definition off (h : handler) : Prop := h_on h = false.
Definition lateh (pj : project) (h : handler) (x : option (nat * reply)) : Prop :=
  match h_hold h with
  | None => late x (h_prog h)
  | Some w => w = false /\ (late x (snd (section (h_prog h) pj)) \/ snd (section (h_prog h) pj) = Crash)
  end.
Definition owing (xs : list (option (nat * reply))) : list (nat * reply) := flat_map said xs.
(** the newest handler is in its opening: [pj1] is the project before it *)
Definition opening (fuel : nat) (fs : fsys) (pj1 pj : project) (j : job) (h : handler) : Prop :=
  h_on h = true /\
  match h_hold h with
  | None => h_prog h = job_prog fuel fs j /\ pj1 = pj
  | Some w => exists q, job_prog fuel fs j = Lock w q /\ section q pj1 = section (h_prog h) pj
  end.
Definition gone_wrong (w : world) : Prop := w_crashed w = true \/ exists h, In h (w_hs w) /\ h_prog h = Crash.
Definition ordered (fuel : nat) (fs : fsys) (js : list job) (pj0 : project) (s : list job * world) : Prop :=
  let '(q, w) := s in
  (on_threads (w_hs w) <= 1)%nat /\
  (gone_wrong w
   \/ (exists done outs xs, js = done ++ q /\ run_seq fuel fs done pj0 = Done (w_pj w, outs)
        /\ Forall2 (lateh (w_pj w)) (w_hs w) xs /\ Permutation outs (w_out w ++ owing xs))
   \/ (exists done outs j pre h post xs ys pj1, js = done ++ j :: q /\ run_seq fuel fs done pj0 = Done (pj1, outs)
        /\ w_hs w = pre ++ h :: post /\ opening fuel fs pj1 (w_pj w) j h /\ Forall off (pre ++ post)
        /\ Forall2 (lateh (w_pj w)) pre xs /\ Forall2 (lateh (w_pj w)) post ys /\ Permutation outs (w_out w ++ owing xs ++ owing ys))).

Lemma on_app a b : on_threads (a ++ b) = (on_threads a + on_threads b)%nat.
Proof. unfold on_threads. rewrite filter_app. apply app_length. Qed.
Lemma on_mid pre h post : on_threads (pre ++ h :: post) = ((if h_on h then 1 else 0) + on_threads (pre ++ post))%nat.
Proof. rewrite !on_app. unfold on_threads. cbn [filter]. destruct (h_on h); cbn [length]; lia. Qed.
Lemma on_none l : on_threads l = 0%nat <-> Forall off l.
Proof.
  unfold on_threads. induction l as [|h l IH]; cbn [filter]; [split; constructor|]. unfold off in *.
  destruct (h_on h) eqn:E; cbn [length]; [split; [discriminate|intros H; inversion H; congruence]|]. rewrite IH. split; [constructor; auto|intros H; inversion H; auto].
Qed.
Lemma off_late pj pj' l xs : Forall tidy_h l -> Forall off l -> Forall2 (lateh pj) l xs -> Forall2 (lateh pj') l xs.
Proof.
  intros T O H. revert T O. induction H as [|h x l xs Hx _ IH]; intros T O; [constructor|]. inversion T as [|? ? [_ T2]]; inversion O; subst.
  constructor; [|auto]. unfold lateh in *. destruct (h_hold h); [unfold off in *; rewrite T2 in *; discriminate|exact Hx].
Qed.
(** the only handler on the thread *)
Lemma same_split pre h post pre' h' post' : pre ++ h :: post = pre' ++ h' :: post' -> Forall off (pre ++ post) -> h_on h' = true ->
  pre = pre' /\ h = h' /\ post = post'.
Proof.
  revert pre'. induction pre as [|a pre IH]; intros [|b pre'] E O H; cbn [app] in *; injection E as E1 E2; subst.
  - auto.
  - rewrite Forall_forall in O. specialize (O h' (in_elt _ _ _)). unfold off in O. congruence.
  - inversion O; subst. unfold off in *. congruence.
  - inversion O; subst. destruct (IH _ E2 ltac:(assumption) H) as (-> & -> & ->). auto.
Qed.

Lemma wrong_step n refuse w w' : step n refuse w w' -> gone_wrong w -> gone_wrong w'.
Proof.
  intros H [D|(x & Hx & E)]; destruct H; unfold gone_wrong; cbn [w_crashed w_hs] in *; try (left; assumption); try (left; reflexivity);
    apply in_app_or in Hx; destruct Hx as [Hx|[<-|Hx]]; cbn [h_prog] in *; try discriminate E;
    try (right; exists x; split; [apply in_or_app; auto|exact E]; fail);
    try (right; exists x; split; [apply in_or_app; right; right; exact Hx|exact E]; fail).
  right. eexists. split; [apply in_elt|exact E].
Qed.

Lemma step_threads n refuse w w' : step n refuse w w' -> (on_threads (w_hs w) <= n)%nat -> (on_threads (w_hs w') <= n)%nat.
Proof. destruct 1; cbn [w_hs]; rewrite ?on_mid in *; cbn [h_on] in *; lia. Qed.
Lemma owing_mid pre x post : Permutation (owing (pre ++ x :: post)) (said x ++ owing (pre ++ post)).
Proof. apply (flat_mid said). Qed.

Lemma late_step fuel fs js pj0 q refuse w w' done outs xs : step 1 refuse w w' -> well w ->
  js = done ++ q -> run_seq fuel fs done pj0 = Done (w_pj w, outs) -> Forall2 (lateh (w_pj w)) (w_hs w) xs -> Permutation outs (w_out w ++ owing xs) ->
  gone_wrong w' \/ exists xs, run_seq fuel fs done pj0 = Done (w_pj w', outs) /\ Forall2 (lateh (w_pj w')) (w_hs w') xs /\ Permutation outs (w_out w' ++ owing xs).
Proof.
  intros H [T _] Ej R F P.
  destruct H; cbn [w_pj w_hs w_out] in *; rewrite mid_app in T; destruct T as [[T1 _] T]; cbn [h_hold h_prog tidy] in T1;
    destruct (F2_mid _ _ _ _ _ F) as (xs1 & x & xs2 & -> & F1 & Fx & F2); unfold lateh in Fx; cbn [h_hold h_prog] in Fx.
  - right. exists (xs1 ++ x :: xs2). split; [exact R|]. split; [|exact P]. apply F2_join; auto.
  - right. exists (xs1 ++ x :: xs2). split; [exact R|]. split; [|exact P]. apply F2_join; auto. inversion Fx as [| | |p' G]; subst.
    unfold lateh. cbn [h_hold h_prog]. split; [reflexivity|]. apply G.
  - destruct hold as [w|]; [|destruct T1; contradiction]. destruct Fx as [-> Fx]. cbn [section snd] in Fx. destruct Fx as [Fx| ->].
    + right. exists (xs1 ++ x :: xs2). split; [exact R|]. split; [|exact P]. apply F2_join; auto.
    + left. right. eexists. split; [apply in_elt|reflexivity].
  - destruct hold as [w|]; [|destruct T1; contradiction]. cbn [section] in Fx. right. exists (xs1 ++ x :: xs2). split; [exact R|]. split; [|exact P]. apply F2_join; auto.
  - destruct T1 as [-> _]. destruct Fx as [F' _]. discriminate F'.
  - destruct T1 as [-> _]. right. exists (xs1 ++ x :: xs2). split; [exact R|]. split; [|exact P]. apply F2_join; auto. inversion Fx; subst. assumption.
  - destruct T1 as [-> _]. right. exists (xs1 ++ x :: xs2). split; [exact R|]. split; [|exact P]. apply F2_join; auto. inversion Fx; subst. assumption.
  - subst hold. inversion Fx; subst. right. exists (xs1 ++ xs2). split; [exact R|]. split; [apply Forall2_app; auto|].
    rewrite P, owing_mid, app_assoc. reflexivity.
  - left. left. reflexivity.
Qed.

Lemma ordered_step fuel fs js pj0 refuse s s' : qstep fuel fs 1 refuse s s' -> well (snd s) -> ordered fuel fs js pj0 s -> ordered fuel fs js pj0 s'.
Proof.
  intros H W. destruct H as [j q w Hn|q w w' H]; unfold ordered; intros [L O]; cbn [snd] in W.
  - cbn [w_hs w_pj w_out]. split; [rewrite on_app; cbn; lia|]. destruct O as [[D|(x & Hx & D)]|[(done & outs & xs & E & R & F & P)|O]].
    + left. left. exact D.
    + left. right. exists x. split; [cbn [w_hs]; apply in_or_app; left; exact Hx|exact D].
    + right. right. exists done, outs, j, (w_hs w), (mkH true None (job_prog fuel fs j)), [], xs, [], (w_pj w). cbn [w_hs w_pj w_out].
      split; [exact E|]. split; [exact R|]. split; [reflexivity|]. split; [split; [reflexivity|split; reflexivity]|].
      split; [rewrite app_nil_r; apply on_none; lia|]. split; [exact F|]. split; [constructor|]. cbn [owing flat_map]. rewrite app_nil_r. exact P.
    + destruct O as (done & outs & i & pre & h & post & xs & ys & pj1 & _ & _ & E & [Hh _] & _). rewrite E, on_mid, Hh in Hn. lia.
  - split; [exact (step_threads _ _ _ _ H L)|]. destruct O as [D|[(done & outs & xs & E & R & F & P)|O]].
    + left. exact (wrong_step _ _ _ _ H D).
    + destruct (late_step fuel fs js pj0 q refuse w w' done outs xs H W E R F P) as [D|(xs' & R' & F' & P')]; [left; exact D|].
      right. left. exists done, outs, xs'. auto.
    + destruct O as (done & outs & j & pre & h & post & xs & ys & pj1 & E & R & Eh & [Hon Hop] & Off & F1 & F2 & P).
      assert (Fin : forall pj' sent out cr on hold p x, run_seq fuel fs (done ++ [j]) pj0 = Done (pj', outs ++ said x) ->
        lateh pj' (mkH on hold p) x -> Permutation (outs) (out ++ owing xs ++ owing ys) -> Forall2 (lateh pj') pre xs -> Forall2 (lateh pj') post ys ->
        exists done outs xs, js = done ++ q /\ run_seq fuel fs done pj0 = Done (w_pj (mkW pj' sent out cr (pre ++ mkH on hold p :: post)), outs)
        /\ Forall2 (lateh (w_pj (mkW pj' sent out cr (pre ++ mkH on hold p :: post)))) (w_hs (mkW pj' sent out cr (pre ++ mkH on hold p :: post))) xs
        /\ Permutation outs (w_out (mkW pj' sent out cr (pre ++ mkH on hold p :: post)) ++ owing xs)).
      { intros pj' sent out cr on hold p x R' L' P' G1 G2. exists (done ++ [j]), (outs ++ said x), (xs ++ x :: ys). cbn [w_pj w_hs w_out].
        split; [rewrite <- app_assoc; exact E|]. split; [exact R'|]. split; [apply F2_join; assumption|].
        rewrite owing_mid, P', <- app_assoc. apply Permutation_app_head. unfold owing. rewrite flat_map_app. apply Permutation_app_comm. }
      assert (Tw : Forall tidy_h (pre ++ post)) by (destruct W as [T _]; rewrite Eh, mid_app in T; apply T).
      assert (Th : tidy_h h) by (destruct W as [T _]; rewrite Eh, mid_app in T; apply T).
      assert (Mv : forall pj', Forall2 (lateh pj') pre xs /\ Forall2 (lateh pj') post ys).
      { intros pj'. apply Forall_app in Tw, Off. destruct Tw, Off. split; apply (off_late (w_pj w)); assumption. }
      destruct H; cbn [w_pj w_hs w_out] in *;
        [|destruct (same_split _ _ _ _ _ _ (eq_sym Eh) Off ltac:(reflexivity)) as (-> & -> & ->) ..];
        cbn [h_on h_hold h_prog] in *; try (destruct Th as [Th _]; cbn [h_hold h_prog tidy] in Th).
      * match goal with Hc : (on_threads _ < 1)%nat |- _ => rewrite Eh, on_mid, Hon in Hc end. lia.
      * destruct Hop as [Hop ->]. right. right. exists done, outs, j, pre0, (mkH true (Some w) p), post0, xs, ys, pj.
        split; [exact E|]. split; [exact R|]. split; [reflexivity|]. split; [split; [reflexivity|exists p; auto]|]. auto.
      * destruct hold as [w|]; [|destruct Th; contradiction]. destruct Hop as (q' & Ej & Es). cbn [section] in Es.
        destruct (job_opens fuel fs j) as [(x & Ej' & _)|(w' & p' & Ej' & G)]; rewrite Ej in Ej'; [discriminate|]. injection Ej' as _ <-.
        destruct (G pj1) as [(pj' & x & k & S & Rj & La)|S]; rewrite Es in S.
        -- injection S as <- <-. right. left. apply (Fin pj sent out cr true None p x); auto. exact (run_seq_snoc _ _ _ _ _ _ _ _ _ R Rj).
        -- cbn [snd] in S. subst p. left. right. eexists. split; [apply in_elt|reflexivity].
      * destruct hold as [w|]; [|destruct Th; contradiction]. destruct Hop as (q' & Ej & Es). cbn [section] in Es. right. right.
        exists done, outs, j, pre0, (mkH true (Some w) (k pj)), post0, xs, ys, pj1.
        split; [exact E|]. split; [exact R|]. split; [reflexivity|]. split; [split; [reflexivity|exists q'; auto]|]. auto.
      * destruct Th as [-> Th]. destruct Hop as (q' & Ej & Es). cbn [section] in Es. right. right.
        exists done, outs, j, pre0, (mkH true (Some true) p), post0, xs, ys, pj1.
        split; [exact E|]. split; [exact R|]. split; [reflexivity|]. split; [split; [reflexivity|exists q'; auto]|]. destruct (Mv (u pj)). auto.
      * destruct Th as [-> Th]. destruct Hop as [Hop _]. destruct (job_opens fuel fs j) as [(x & Ej' & _)|(w' & p' & Ej' & G)]; rewrite <- Hop in Ej'; discriminate.
      * destruct Th as [-> Th]. destruct Hop as [Hop ->]. destruct (job_opens fuel fs j) as [(x & Ej' & G)|(w' & p' & Ej' & G)]; rewrite <- Hop in Ej'; [|discriminate].
        injection Ej' as ->. right. left. apply (Fin pj sent out cr false None (Return x) x); auto; [exact (run_seq_snoc _ _ _ _ _ _ _ _ _ R (G pj))|apply la_return].
      * subst hold. destruct Hop as [Hop _]. destruct (job_opens fuel fs j) as [(x & Ej' & _)|(w' & p' & Ej' & G)]; rewrite <- Hop in Ej'; discriminate.
      * left. left. reflexivity.
Qed.
Lemma qsteps_ordered fuel fs js pj0 refuse s s' : qsteps fuel fs 1 refuse s s' -> well (snd s) -> ordered fuel fs js pj0 s ->
  well (snd s') /\ ordered fuel fs js pj0 s'.
Proof.
  induction 1 as [|x y z H IH Hs]; intros W O; [auto|]. destruct (IH W O) as [W1 O1]. split; [|exact (ordered_step _ _ _ _ _ _ _ Hs W1 O1)].
  destruct Hs as [j q w Hn|q w w' Hs]; cbn [snd] in *; [|exact (step_well _ _ _ _ Hs W1)].
  destruct W1 as [T X]. split; cbn [w_hs].
  - apply Forall_app. split; [exact T|]. constructor; [|constructor]. split; [apply job_tidy|contradiction].
  - unfold exclusive in *. rewrite !count_app. cbn. rewrite !Nat.add_0_r. exact X.
Qed.

(** one thread: the project and the answers are those of the messages handled in the order of their arrival *)
Theorem C103_in_order : forall fuel fs refuse js pj w, qsteps fuel fs 1 refuse (js, mkW pj [] [] false []) ([], w) ->
  w_hs w = [] -> w_crashed w = false ->
  exists outs, run_seq fuel fs js pj = Done (w_pj w, outs) /\ Permutation outs (w_out w).
Proof.
  intros fuel fs refuse js pj w H E C. destruct (qsteps_ordered fuel fs js pj refuse _ _ H) as [_ [_ O]].
  - split; [constructor|left; reflexivity].
  - cbn. split; [lia|]. right. left. exists [], [], []. cbn. auto.
  - cbn [snd] in O. destruct O as [[D|(x & Hx & _)]|[(done & outs & xs & Ej & R & F & P)|(done & outs & j & pre & h & post & _ & _ & _ & _ & _ & Eh & _)]].
    + congruence.
    + rewrite E in Hx. destruct Hx.
    + rewrite app_nil_r in Ej. subst done. rewrite E in F. inversion F; subst. cbn [owing flat_map] in P. rewrite app_nil_r in P. exists outs. auto.
    + rewrite E in Eh. destruct pre; discriminate.
Qed.
Print Assumptions C103_in_order.

(** two threads would not do: the second message can get the lock first *)
Example C103_one_thread_needed : exists js pj w, qsteps 0 (mkFs inl (fun _ => inr [])) 2 (fun _ => false) (js, mkW pj [] [] false []) ([], w)
  /\ w_hs w = [] /\ w_crashed w = false /\ js = [JInitialize [bs "/a"]; JInitialize [bs "/b"]] /\ pj_incl (w_pj w) = [bs "/a"].
Proof.
  exists [JInitialize [bs "/a"]; JInitialize [bs "/b"]], project_new. eexists. split; [|split; [|split; [|split]]; cycle 2; [reflexivity|..]].
  - set (fs := mkFs inl (fun _ => inr [])). eapply qs_step; [eapply qs_step; [eapply qs_step; [eapply qs_step; [eapply qs_step; [eapply qs_step; [eapply qs_step; [eapply qs_step; [eapply qs_step; [eapply qs_step; [apply qs_refl|]|]|]|]|]|]|]|]|]|].
    + apply q_arrive. cbn. lia.
    + apply q_arrive. cbn. lia.
    + cbn [app w_hs job_prog w_pj w_sent w_out w_crashed]. apply q_step. apply (s_lock _ _ _ _ _ _ [_] []); reflexivity.
    + apply q_step. apply (s_store _ _ _ _ _ _ [_] []).
    + apply q_step. apply (s_unlock _ _ _ _ _ _ [_] []).
    + apply q_step. apply (s_return _ _ _ _ _ _ [_] []).
    + cbn [app]. apply q_step. apply (s_lock _ _ _ _ _ _ [] []); reflexivity.
    + apply q_step. apply (s_store _ _ _ _ _ _ [] []).
    + apply q_step. apply (s_unlock _ _ _ _ _ _ [] []).
    + apply q_step. apply (s_return _ _ _ _ _ _ [] []).
  - reflexivity.
  - reflexivity.
  - reflexivity.
Qed.

(** ** C52 for handlers with locks: the runs considered there are all there are *)
Definition publishes (j : job) : Prop :=
  match j with
  | JConfigure ok _ | JOpen _ ok (FileUri _) _ | JChange _ ok (FileUri _) _ => forall l, ok l = l
  | _ => False
  end.
Definition update_of (fuel : nat) (fs : fsys) (j : job) (pj : project) : project :=
  match job_run fuel fs j pj with Done (pj', _) => pj' | _ => pj end.
Definition plays (fs : fsys) (p : prog) (t : task) : Prop :=
  match t with
  | TUpdate f => exists b ok, p = Lock true b /\ (forall l, ok l = l) /\ forall pj, section b pj = (f pj, publish_prog ok fs) \/ snd (section b pj) = Crash
  | TSnapshot => exists ok, p = publish_prog ok fs /\ forall l, ok l = l
  | TLoop l => p = publish_each fs l
  | TSend u ds r => p = Send (u, ds) (publish_each fs r)
  end.
Lemma job_plays fuel fs j : publishes j -> plays fs (job_prog fuel fs j) (TUpdate (update_of fuel fs j)).
Proof.
  destruct j; cbn [publishes]; try contradiction; try (destruct u as [p|]; try contradiction); intros Hk; cbn [plays job_prog];
    unfold with_path; cbn [to_file_path]; do 2 eexists; (split; [reflexivity|]); (split; [exact Hk|]); intros pj; unfold update_of; cbn [job_run].
  - left. reflexivity.
  - pose proof (add_section fuel o fs p text (file_type_of_path p) (publish_prog ok fs) pj) as S.
    destruct (add_file_with_text _ _ _ _ _ _ _); cbn [obind]; auto.
  - destruct texts as [|text r]; [right; reflexivity|].
    pose proof (add_section fuel o fs p text (file_type_of_path p) (publish_prog ok fs) pj) as S.
    destruct (add_file_with_text _ _ _ _ _ _ _); cbn [obind]; auto.
Qed.
Lemma doomed_steps a a' : asteps a a' -> doomed a -> doomed a'.
Proof. induction 1; intros; eauto using doomed_step. Qed.
Lemma atomic_exec fs a a' : asteps a a' -> a_ps a' = [] -> a_crashed a' = false -> forall ts, Forall2 (plays fs) (a_ps a) ts ->
  exec fs (mkServer (a_pj a) (a_sent a)) ts (mkServer (a_pj a') (a_sent a')).
Proof.
  induction 1 as [a|a a1 a2 H Hs IH]; intros E C ts F.
  - rewrite E in F. inversion F; subst. apply exec_done.
  - assert (D : doomed a1 -> False).
    { intros D. destruct (doomed_steps _ _ Hs D) as [D'|D']; [congruence|]. rewrite E in D'. destruct D'. }
    specialize (IH E C). destruct H; cbn [a_ps a_pj a_sent] in *; destruct (F2_mid _ _ _ _ _ F) as (pre' & t & post' & -> & F1 & Ft & F2).
    + destruct t as [f| |l|u ds r]; cbn [plays] in Ft.
      * destruct Ft as (b & ok & Eb & Hk & G). injection Eb as -> ->. destruct (G pj) as [S|S].
        -- apply (exec_step fs _ (mkServer (f pj) sent) _ pre' _ post' (Some TSnapshot)); [reflexivity|]. cbn [app]. rewrite S in IH. cbn [fst snd] in IH.
           apply IH. apply F2_join; auto. exists ok. auto.
        -- exfalso. apply D. right. cbn [a_ps]. rewrite S. apply in_elt.
      * destruct Ft as (ok & Ep & Hk). injection Ep as -> ->. cbn [section fst snd] in IH. rewrite Hk in IH.
        apply (exec_step fs _ (mkServer pj sent) _ pre' _ post' (Some (TLoop (m_keys (pj_files pj))))); [reflexivity|]. cbn [app]. apply IH. apply F2_join; auto. reflexivity.
      * destruct l as [|f r]; cbn [publish_each] in Ft; [discriminate|]. injection Ft as -> ->. cbn [section fst snd] in IH, D.
        destruct (from_file_path f) as [u|] eqn:Eu; [|exfalso; apply D; right; apply in_elt].
        apply (exec_step fs _ (mkServer pj sent) _ pre' _ post' (Some (TSend u (map (to_lsp default_severities) (get_diagnostics fs pj f)) r)));
          [cbn [task_step sv_project]; rewrite Eu; reflexivity|]. cbn [app]. apply IH. apply F2_join; auto. reflexivity.
      * discriminate Ft.
    + destruct t as [f| |l|u ds r]; cbn [plays] in Ft.
      * destruct Ft as (b & ok & Eb & _). discriminate.
      * destruct Ft as (ok & Ep & _). discriminate.
      * destruct l; discriminate.
      * injection Ft as -> ->. apply (exec_step fs _ (mkServer pj (sent ++ [(u, ds)])) _ pre' _ post' (Some (TLoop r))); [reflexivity|]. cbn [app]. apply IH. apply F2_join; auto. reflexivity.
    + destruct t as [f| |[|x l]|u ds r]; cbn [plays] in Ft; [destruct Ft as (b & ok & Eb & _); discriminate|destruct Ft as (ok & Ep & _)| | |]; discriminate.
    + destruct t as [f| |[|x l]|u ds r']; cbn [plays] in Ft; [destruct Ft as (b & ok & Eb & _); discriminate|destruct Ft as (ok & Ep & _); discriminate| |discriminate|discriminate].
      apply (exec_step fs _ (mkServer pj sent) _ pre' _ post' None); [reflexivity|]. cbn [app]. apply IH. apply Forall2_app; auto.
    + exfalso. apply D. left. reflexivity.
Qed.
Theorem C52_runs_with_locks : forall n refuse fuel fs js pj w, Forall publishes js ->
  steps n refuse (arrived fuel fs js pj) w -> w_hs w = [] -> w_crashed w = false ->
  exec fs (mkServer pj []) (map TUpdate (map (update_of fuel fs) js)) (mkServer (w_pj w) (w_sent w)).
Proof.
  intros n refuse fuel fs js pj w Hp H E C. pose proof (finished_atomic _ _ _ _ _ _ _ H E) as S.
  apply (atomic_exec fs _ _ S); [reflexivity|exact C|]. cbn [a_ps]. clear -Hp. induction Hp as [|j r Hj _ IH]; cbn [map]; constructor; [exact (job_plays fuel fs j Hj)|exact IH].
Qed.
Print Assumptions C52_runs_with_locks.

(** ** Cases. A scheduler that lets the [i]-th handler take a step. *)
Definition fire (n : nat) (w : world) (i : nat) : option world :=
  let '(mkW pj sent out cr hs) := w in
  let pre := firstn i hs in
  match skipn i hs with
  | [] => None
  | mkH on hold p :: post =>
    if on then
      match p with
      | Lock b p' =>
        match hold with
        | None => if free b (pre ++ post) then Some (mkW pj sent out cr (pre ++ mkH true (Some b) p' :: post)) else None
        | Some _ => None
        end
      | Unlock p' => Some (mkW pj sent out cr (pre ++ mkH true None p' :: post))
      | Look k => Some (mkW pj sent out cr (pre ++ mkH true hold (k pj) :: post))
      | Store u p' => Some (mkW (u pj) sent out cr (pre ++ mkH true hold p' :: post))
      | Send m p' => Some (mkW pj (sent ++ [m]) out cr (pre ++ mkH false hold p' :: post))
      | Tell p' => Some (mkW pj sent out cr (pre ++ mkH false hold p' :: post))
      | Return r => Some (mkW pj sent (out ++ match r with Some x => [x] | None => [] end) cr (pre ++ post))
      | Crash => Some (mkW pj sent out true (pre ++ post))
      end
    else if Nat.ltb (on_threads hs) n then Some (mkW pj sent out cr (pre ++ mkH true hold p :: post)) else None
  end.
Lemma fire_step n w i w' : fire n w i = Some w' -> step n (fun _ => false) w w'.
Proof.
  destruct w as [pj sent out cr hs]. unfold fire. pose proof (firstn_skipn i hs) as E. set (pre := firstn i hs) in *.
  destruct (skipn i hs) as [|[on hold p] post]; [discriminate|]. rewrite <- E. destruct on.
  - destruct p; try (intros H; injection H as <-; constructor; fail). destruct hold; [discriminate|].
    destruct (free w (pre ++ post)) eqn:F; [|discriminate]. intros H. injection H as <-. constructor; [exact F|reflexivity].
  - destruct (Nat.ltb_spec (on_threads (pre ++ mkH false hold p :: post)) n); [|discriminate]. intros H'. injection H' as <-. constructor. assumption.
Qed.
Fixpoint play (n : nat) (w : world) (is : list nat) : option world :=
  match is with
  | [] => Some w
  | i :: r => match fire n w i with Some w' => play n w' r | None => None end
  end.
Lemma play_steps n w is w' : play n w is = Some w' -> steps n (fun _ => false) w w'.
Proof.
  assert (G : forall w0 w, steps n (fun _ => false) w0 w -> play n w is = Some w' -> steps n (fun _ => false) w0 w'); [|intros H; exact (G w w (ss_refl _ _ _) H)].
  induction is as [|i r IH]; intros w0 v S H; cbn [play] in H; [injection H as <-; exact S|].
  destruct (fire n v i) as [v'|] eqn:E; [|discriminate]. apply (IH w0 v'); [|exact H]. eapply ss_step; [exact S|exact (fire_step _ _ _ _ E)].
Qed.
Definition ex102 : list (fpath * str) := [(bs "/a.dts", bs "")].
Definition jobs102 : list job :=
  [JOpen id_oracle (fun l => l) (FileUri (bs "/a.dts")) (bs "/dts-v1/; / { p = <&l>; l: n { }; };");
   JHover 7 (FileUri (bs "/a.dts")) (mkPos 0 20); JClose (OtherUri (bs "x"))].
(** a request waits for the lock while the document is analysed *)
Example C102_case : exists w, steps 2 (fun _ => false) (arrived 5 (mem_fs ex102) jobs102 project_new) w
  /\ length (w_hs w) = 3%nat /\ map h_hold (w_hs w) = [Some true; None; None] /\ map h_on (w_hs w) = [true; true; false] /\ fire 2 w 1 = None.
Proof.
  destruct (play 2 (arrived 5 (mem_fs ex102) jobs102 project_new) [0; 1; 0; 0; 0; 0; 0]%nat) as [w|] eqn:E; [|vm_compute in E; discriminate E].
  exists w. split; [exact (play_steps _ _ _ _ E)|].
  assert (K : match play 2 (arrived 5 (mem_fs ex102) jobs102 project_new) [0; 1; 0; 0; 0; 0; 0]%nat with
    | Some w => length (w_hs w) = 3%nat /\ map h_hold (w_hs w) = [Some true; None; None] /\ map h_on (w_hs w) = [true; true; false] /\ fire 2 w 1 = None
    | None => False end) by (vm_compute; auto).
  rewrite E in K. exact K.
Qed.
(** the request is answered between the publications of the opened document *)
Example C103_case : exists w, steps 2 (fun _ => false) (arrived 5 (mem_fs ex102) jobs102 project_new) w
  /\ w_hs w = [] /\ w_crashed w = false /\ w_out w = [(7%nat, RpHover (Some (bs "Node n")))] /\ length (w_sent w) = 1%nat.
Proof.
  set (is := [0;1;0;0;0;0;0;0;0;1;1;0;1;1;0;0;1;0;0;0;0;0;0;0;0;0;0]%nat).
  destruct (play 2 (arrived 5 (mem_fs ex102) jobs102 project_new) is) as [w|] eqn:E; [|vm_compute in E; discriminate E].
  exists w. split; [exact (play_steps _ _ _ _ E)|].
  assert (K : match play 2 (arrived 5 (mem_fs ex102) jobs102 project_new) is with
    | Some w => w_hs w = [] /\ w_crashed w = false /\ w_out w = [(7%nat, RpHover (Some (bs "Node n")))] /\ length (w_sent w) = 1%nat
    | None => False end) by (vm_compute; auto).
  rewrite E in K. exact K.
Qed.
Fixpoint qplay (fuel : nat) (fs : fsys) (n : nat) (s : list job * world) (is : list (option nat)) : option (list job * world) :=
  match is with
  | [] => Some s
  | Some i :: r => match fire n (snd s) i with Some w' => qplay fuel fs n (fst s, w') r | None => None end
  | None :: r =>
    match fst s with
    | [] => None
    | j :: q =>
      let w := snd s in
      if Nat.ltb (on_threads (w_hs w)) n
      then qplay fuel fs n (q, mkW (w_pj w) (w_sent w) (w_out w) (w_crashed w) (w_hs w ++ [mkH true None (job_prog fuel fs j)])) r
      else None
    end
  end.
Lemma qplay_steps fuel fs n s is s' : qplay fuel fs n s is = Some s' -> qsteps fuel fs n (fun _ => false) s s'.
Proof.
  assert (G : forall s0 s, qsteps fuel fs n (fun _ => false) s0 s -> qplay fuel fs n s is = Some s' -> qsteps fuel fs n (fun _ => false) s0 s'); [|intros H; exact (G s s (qs_refl _ _ _ _ _) H)].
  induction is as [|[i|] r IH]; intros s0 [q w] S H; cbn [qplay fst snd] in H; [injection H as <-; exact S| |].
  - destruct (fire n w i) as [v'|] eqn:E; [|discriminate]. apply (IH s0 (q, v')); [|exact H]. eapply qs_step; [exact S|apply q_step; exact (fire_step _ _ _ _ E)].
  - destruct q as [|j q]; [discriminate|]. destruct (Nat.ltb_spec (on_threads (w_hs w)) n) as [L|]; [|discriminate].
    apply (IH s0 _ (qs_step _ _ _ _ _ _ _ S (q_arrive _ _ _ _ _ _ _ L)) H).
Qed.
(** the request arrives while the diagnostics are being sent *)
Example C103_in_order_case : exists w, qsteps 5 (mem_fs ex102) 1 (fun _ => false) (jobs102, mkW project_new [] [] false []) ([], w)
  /\ w_hs w = [] /\ w_crashed w = false /\ w_out w = [(7%nat, RpHover (Some (bs "Node n")))].
Proof.
  set (is := None :: repeat (Some 0%nat) 14 ++ None :: repeat (Some 1%nat) 5 ++ [None] ++ repeat (Some 1%nat) 1 ++ repeat (Some 0%nat) 2 ++ repeat (Some 0%nat) 2).
  destruct (qplay 5 (mem_fs ex102) 1 (jobs102, mkW project_new [] [] false []) is) as [[q w]|] eqn:E; [|vm_compute in E; discriminate E].
  assert (K : match qplay 5 (mem_fs ex102) 1 (jobs102, mkW project_new [] [] false []) is with
    | Some (q, w) => q = [] /\ w_hs w = [] /\ w_crashed w = false /\ w_out w = [(7%nat, RpHover (Some (bs "Node n")))]
    | None => False end) by (vm_compute; auto).
  rewrite E in K. destruct K as (-> & K). exists w. split; [exact (qplay_steps _ _ _ _ _ _ E)|exact K].
Qed.
