(** What the language server publishes and answers, from the first message on: C109 *)
From Verif Require Import Base Analysis AnalysisSpec AnalysisProofs Project ProjectSpec ProjectProofs2 ProjectHistory PropsAnalysis PropsRealise
  PropsHistory PropsProject Parser Server ServerProofs PropsServer Whole PropsWhole Session Tests.
From Coq Require Import Permutation.

Definition fair (fuel : nat) (m : fsys * note) : Prop := disk (fst m) fuel /\ note_valid (snd m).

Lemma conversation_spec fuel ms sv : conversation fuel ms sv -> Forall (fair fuel) ms ->
  session_of ms (pj_incl (sv_project sv)) (pj_files (sv_project sv)) (sv_sent sv) /\ server_inv (sv_project sv) /\ pj_sev (sv_project sv) = default_severities.
Proof.
  induction 1 as [|ms sv fs n o ok sv' _ IH Ho Hk E]; intros Hf.
  - split; [constructor|]. split; [apply new_server_inv|reflexivity].
  - apply Forall_app in Hf. destruct Hf as [Hf Hm]. inversion Hm as [|? ? [Hd Hv] _]; subst. cbn [fst snd] in Hd, Hv. destruct (IH Hf) as (S & I & Es).
    assert (None_sent : forall i T, reply fs n (pj_incl (sv_project sv)) (pj_files (sv_project sv)) i T [] -> session_of (ms ++ [(fs, n)]) i T (sv_sent sv)).
    { intros i T R. rewrite <- (app_nil_r (sv_sent sv)). eapply so_next; eassumption. }
    assert (Edit : forall p text, valid_utf8 text = true -> did_open fuel o ok fs (FileUri p) text sv = Done sv' ->
      (forall T' pubs, edited fs (pj_incl (sv_project sv)) p text (pj_files (sv_project sv)) T' pubs ->
         reply fs n (pj_incl (sv_project sv)) (pj_files (sv_project sv)) (pj_incl (sv_project sv)) T' pubs) ->
      session_of (ms ++ [(fs, n)]) (pj_incl (sv_project sv')) (pj_files (sv_project sv')) (sv_sent sv') /\ server_inv (sv_project sv')
      /\ pj_sev (sv_project sv') = default_severities).
    { intros p text Hx E1 R. destruct (open_edited _ _ _ _ _ _ _ _ Hd Ho Hk Hx I Es E1) as (more & E2 & E3 & E4 & E5 & E6).
      split; [|split; [exact E6|exact E5]]. rewrite E3, E4. eapply so_next; [exact S|]. apply R. exact E2. }
    destruct n as [dirs|dirs|u text|u texts|u]; cbn [handle note_valid] in E, Hv.
    + injection E as <-. split; [|split; [apply dirs_server_inv, I|exact Es]]. exact (None_sent _ _ (rp_initialize fs dirs _ _)).
    + unfold did_change_configuration in E. apply publish_announced in E; [|exact Hk|apply dirs_server_inv, I]. destruct E as (more & An & ->).
      split; [|split; [apply dirs_server_inv, I|exact Es]]. cbn [sv_project sv_sent]. eapply so_next; [exact S|]. exact (rp_configure fs dirs _ _ _ An).
    + destruct u as [p|s].
      * eapply Edit; [exact Hv|exact E|]. intros. apply rp_open. assumption.
      * injection E as <-. split; [|auto]. exact (None_sent _ _ (rp_open_other fs s text _ _)).
    + destruct u as [p|s].
      * destruct texts as [|text texts]; [discriminate E|]. inversion Hv; subst. eapply (Edit p text); [assumption|exact E|]. intros. apply rp_change. assumption.
      * injection E as <-. split; [|auto]. exact (None_sent _ _ (rp_change_other fs s texts _ _)).
    + injection E as <-. unfold did_close. destruct u as [p|s]; cbn [to_file_path].
      * cbn [sv_project sv_sent]. split; [|split; [apply remove_server_inv, I|]]; unfold remove_file; destruct (fs_canon fs p) as [q|e] eqn:Ec; try exact Es.
        -- exact (None_sent _ _ (rp_close fs p q _ _ Ec)).
        -- exact (None_sent _ _ (rp_close_unknown fs p e _ _ Ec)).
      * split; [|auto]. exact (None_sent _ _ (rp_close_other fs s _ _)).
Qed.

Lemma session_spec fuel ms incl T pubs : session_of ms incl T pubs -> Forall (fair fuel) ms ->
  exists sv, conversation fuel ms sv /\ sv_sent sv = pubs /\ alike_table T (pj_files (sv_project sv)) /\ NoDup (keys T)
    /\ pj_incl (sv_project sv) = incl /\ pj_sev (sv_project sv) = default_severities /\ server_inv (sv_project sv).
Proof.
  induction 1 as [|ms fs n incl T pubs incl' T' more _ IH R]; intros Hf.
  - exists server_new. split; [constructor|]. split; [reflexivity|]. split; [intros k; exact I|]. split; [constructor|]. split; [reflexivity|]. split; [reflexivity|apply new_server_inv].
  - apply Forall_app in Hf. destruct Hf as [Hf Hm]. inversion Hm as [|? ? [Hd Hv] _]; subst. cbn [fst snd] in Hd, Hv.
    destruct (IH Hf) as (sv & Cv & Es & At & N & Ei & Ev & Inv).
    assert (Next : forall o ok sv', order_ok o -> shuffle ok -> handle fuel o ok fs n sv = Done sv' -> sv_sent sv' = pubs ++ more ->
      alike_table T' (pj_files (sv_project sv')) -> NoDup (keys T') -> pj_incl (sv_project sv') = incl' -> pj_sev (sv_project sv') = default_severities ->
      server_inv (sv_project sv') -> exists sv', conversation fuel (ms ++ [(fs, n)]) sv' /\ sv_sent sv' = pubs ++ more /\ alike_table T' (pj_files (sv_project sv'))
        /\ NoDup (keys T') /\ pj_incl (sv_project sv') = incl' /\ pj_sev (sv_project sv') = default_severities /\ server_inv (sv_project sv')).
    { intros o ok sv' H1 H2 H3 H4 H5 H6 H7 H8 H9. exists sv'. split; [eapply cv_next; eassumption|]. auto 10. }
    assert (Quiet : more = [] -> forall sv', handle fuel id_oracle (fun l => l) fs n sv = Done sv' -> sv_sent sv' = sv_sent sv ->
      alike_table T' (pj_files (sv_project sv')) -> NoDup (keys T') -> pj_incl (sv_project sv') = incl' -> pj_sev (sv_project sv') = default_severities ->
      server_inv (sv_project sv') -> exists sv', conversation fuel (ms ++ [(fs, n)]) sv' /\ sv_sent sv' = pubs ++ more /\ alike_table T' (pj_files (sv_project sv'))
        /\ NoDup (keys T') /\ pj_incl (sv_project sv') = incl' /\ pj_sev (sv_project sv') = default_severities /\ server_inv (sv_project sv')).
    { intros -> sv' H3 H4. rewrite app_nil_r in *. apply (Next id_oracle (fun l => l)); [apply id_order_ok|intros l; apply Permutation_refl|exact H3|congruence]. }
    assert (Edit : forall p text, valid_utf8 text = true -> edited fs incl p text T T' more -> incl' = incl ->
      (forall o ok, handle fuel o ok fs n sv = did_open fuel o ok fs (FileUri p) text sv) ->
      exists sv', conversation fuel (ms ++ [(fs, n)]) sv' /\ sv_sent sv' = pubs ++ more /\ alike_table T' (pj_files (sv_project sv'))
        /\ NoDup (keys T') /\ pj_incl (sv_project sv') = incl' /\ pj_sev (sv_project sv') = default_severities /\ server_inv (sv_project sv')).
    { intros p text Hx Ed -> Eh. destruct (edited_open fuel fs p text T T' incl more sv Hd Hx Inv Ev Ei N At Ed) as (o & ok & pj' & Ho & Hk & E & A & B & C & D & F).
      eapply (Next o ok); [exact Ho|exact Hk|rewrite Eh; exact E|cbn [sv_sent]; congruence| | | | |]; assumption. }
    destruct R as [dirs incl T|dirs incl T pubs' An|p text incl T T' pubs' Ed|p text rest incl T T' pubs' Ed|p q incl T Ec|p e incl T Ec|s text incl T|s ts incl T|s incl T]; cbn [note_valid] in Hv.
    + apply (Quiet eq_refl _ eq_refl eq_refl); [exact At|exact N|reflexivity|exact Ev|apply dirs_server_inv, Inv].
    + pose proof (dirs_server_inv fs dirs _ Inv) as Inv'.
      assert (NU : NoDup (keys (pj_files (sv_project sv)))) by apply (pi_nodup _ (reached_inv _ (si_reached _ Inv))).
      destruct (announced_publish fs (mkServer (set_include_paths fs dirs (sv_project sv)) (sv_sent sv)) pubs' Inv' (announced_alike fs _ _ _ N NU At An)) as (ok & Hk & E).
      eapply (Next id_oracle ok); [apply id_order_ok|exact Hk|exact E|cbn [sv_sent]; congruence|exact At|exact N|reflexivity|exact Ev|exact Inv'].
    + exact (Edit p text Hv Ed eq_refl (fun _ _ => eq_refl)).
    + inversion Hv; subst. refine (Edit p text _ Ed eq_refl (fun _ _ => eq_refl)). assumption.
    + assert (Er : remove_file fs p (sv_project sv) = set_files (m_remove str_eq_dec q (pj_files (sv_project sv))) (sv_project sv)) by (unfold remove_file; rewrite Ec; reflexivity).
      apply (Quiet eq_refl (mkServer (remove_file fs p (sv_project sv)) (sv_sent sv)) eq_refl); cbn [sv_project sv_sent];
        [reflexivity|rewrite Er; exact (remove_alike q _ _ At)|exact (m_nodup_remove str_eq_dec q _ N)|rewrite Er; exact Ei|rewrite Er; exact Ev|apply remove_server_inv, Inv].
    + assert (Er : remove_file fs p (sv_project sv) = sv_project sv) by (unfold remove_file; rewrite Ec; reflexivity).
      apply (Quiet eq_refl (mkServer (remove_file fs p (sv_project sv)) (sv_sent sv)) eq_refl); cbn [sv_project sv_sent]; rewrite ?Er; first [reflexivity|assumption].
    + apply (Quiet eq_refl _ eq_refl); first [reflexivity|assumption].
    + apply (Quiet eq_refl _ eq_refl); first [reflexivity|assumption].
    + apply (Quiet eq_refl _ eq_refl); first [reflexivity|assumption].
Qed.

(** ** C109: over all iteration orders of the hash maps, what the server publishes in a session is exactly what the spec allows. *)
Theorem C109_published : forall fuel ms pubs, Forall (fair fuel) ms ->
  (exists sv, conversation fuel ms sv /\ sv_sent sv = pubs) <-> exists incl T, session_of ms incl T pubs.
Proof.
  intros fuel ms pubs Hf. split.
  - intros (sv & C & <-). eexists. eexists. exact (proj1 (conversation_spec _ _ _ C Hf)).
  - intros (incl & T & S). destruct (session_spec _ _ _ _ _ S Hf) as (sv & C & E & _). exists sv. auto.
Qed.
Print Assumptions C109_published.


(** ** The requests *)
Definition tidy (T : table) : Prop := forall k v c, fget k T = Some v -> pf_ctx v = Some c -> ctx_ok c.
Lemma walk_tidy fs incl sev order h T T' : walk fs incl sev order h T T' -> tidy T -> tidy T'.
Proof.
  induction 1 as [|k r h T T' v _ _ _ IH|k r h T T' v f ds h' es c Hv Hf _ Hc _ IH]; intros Ht; [exact Ht|exact (IH Ht)|]. apply IH.
  intros q w d Hw Hd. rewrite update_get in Hw. destruct (str_eq_dec k q) as [<-|]; [|exact (Ht q w d Hw Hd)].
  rewrite Hv in Hw. injection Hw as <-. cbn [store_result pf_ctx fst] in Hd. injection Hd as <-. apply Hc.
Qed.
Lemma edited_tidy fs incl p text T T' pubs : edited fs incl p text T T' pubs -> tidy T -> tidy T'.
Proof.
  intros [root T1 order pubs' _ (_ & _ & A) _ W _] Ht. apply (walk_tidy _ _ _ _ _ _ _ W). intros k v c Hk Hc.
  destruct (A k v Hk) as [(_ & (_ & _ & N & _))|[(_ & G)|(_ & _ & t & _ & (_ & _ & N & _))]]; [congruence|exact (Ht k v c G Hc)|congruence].
Qed.
Lemma session_tidy ms incl T pubs : session_of ms incl T pubs -> tidy T.
Proof.
  induction 1 as [|ms fs n incl T pubs incl' T' more _ IH R]; [intros k v c E; discriminate E|].
  inversion R; subst; try exact IH; try (eapply edited_tidy; eassumption).
  intros k v c Hk Hc. change (filter _ T) with (m_remove str_eq_dec q T) in Hk. destruct (str_eq_dec k q) as [->|Hne].
  - rewrite m_get_remove_eq in Hk. discriminate Hk.
  - rewrite m_get_remove_neq in Hk by exact Hne. exact (IH k v c Hk Hc).
Qed.
Lemma answers_alike fs T incl s1 s2 sv u pos : alike_table T (pj_files (sv_project sv)) -> server_inv (sv_project sv) -> tidy T ->
  goto_definition fs u pos sv = goto_definition fs u pos (mkServer (mkProject T incl s1) s2)
  /\ hover fs u pos sv = hover fs u pos (mkServer (mkProject T incl s1) s2)
  /\ document_symbol fs u sv = document_symbol fs u (mkServer (mkProject T incl s1) s2).
Proof.
  intros At Inv Ht. set (pj := sv_project sv) in *. set (pj2 := mkProject T incl s1).
  assert (F : forall p, find_at_pos fs pj p pos = find_at_pos fs pj2 p pos /\ get_root fs pj p = get_root fs pj2 p
    /\ forall r, get_node_position fs pj p r = get_node_position fs pj2 p r /\ document_reference fs pj p r = document_reference fs pj2 p r).
  { intros p. unfold find_at_pos, get_root, get_node_position, document_reference, get_analysis, get_file. destruct (fs_canon fs p) as [q|]; [|auto].
    pose proof (At q) as Hq. cbn [pj2 pj_files]. destruct (m_get str_eq_dec q T) as [v|] eqn:Ev, (m_get str_eq_dec q (pj_files pj)) as [w|] eqn:Ew; try contradiction; [|auto].
    destruct Hq as ((_ & Hq & _) & _ & Hc). split; [rewrite Hq; reflexivity|]. split; [congruence|]. unfold ctx_alike in Hc.
    destruct (pf_ctx v) as [c|] eqn:Ecv, (pf_ctx w) as [d|] eqn:Ecw; try contradiction; [|auto]. intros r. rewrite (same_answers_get c d); [auto|exact (Ht q v c Ev Ecv)| |exact Hc].
    eapply (pi_ok _ (reached_inv _ (si_reached _ Inv))); [apply (m_get_in str_eq_dec); exact Ew|exact Ecw]. }
  unfold goto_definition, hover, document_symbol. fold pj. cbn [sv_project]. fold pj2. destruct (to_file_path u) as [p|]; [|auto].
  destruct (F p) as (F1 & F2 & F3). rewrite F1, F2. split; [|split; [|reflexivity]]; (destruct (find_at_pos fs pj2 p pos) as [[r|l|i]|]; try reflexivity).
  - rewrite (proj1 (F3 r)). reflexivity.
  - apply F3.
Qed.
(** and the answers to requests after these messages are exactly those for the files of the spec *)
Theorem C109_answered : forall fuel ms pubs fs u pos definition text symbols, Forall (fair fuel) ms ->
  (exists sv, conversation fuel ms sv /\ sv_sent sv = pubs
     /\ goto_definition fs u pos sv = definition /\ hover fs u pos sv = text /\ document_symbol fs u sv = symbols)
  <-> exists incl T, session_of ms incl T pubs
     /\ let sv := mkServer (mkProject T incl default_severities) [] in
        goto_definition fs u pos sv = definition /\ hover fs u pos sv = text /\ document_symbol fs u sv = symbols.
Proof.
  intros fuel ms pubs fs u pos definition text symbols Hf. split.
  - intros (sv & C & <- & G & H & D). destruct (conversation_spec _ _ _ C Hf) as (S & Inv & Es). exists (pj_incl (sv_project sv)), (pj_files (sv_project sv)).
    split; [exact S|]. cbv zeta. assert (E : mkProject (pj_files (sv_project sv)) (pj_incl (sv_project sv)) default_severities = sv_project sv)
      by (rewrite <- Es; destruct (sv_project sv); reflexivity). rewrite E. auto.
  - intros (incl & T & S & G & H & D). destruct (session_spec _ _ _ _ _ S Hf) as (sv & C & E & At & _ & _ & _ & Inv). exists sv. split; [exact C|]. split; [exact E|].
    destruct (answers_alike fs T incl default_severities [] sv u pos At Inv (session_tidy _ _ _ _ S)) as (X & Y & Z). rewrite X, Y, Z. auto.
Qed.
Print Assumptions C109_answered.

(** five messages: a file is opened, its include is opened with a better text than on the disk, the file is closed, and the directories change *)
Definition ms109 : list note :=
  [NInitialize []; NOpen (FileUri (bs "/a.dts")) text47; NOpen (FileUri (bs "/b.dtsi")) (bs "/ { l: n { }; };"); NClose (FileUri (bs "/a.dts")); NConfigure [bs "/inc"]].
Fixpoint run109 (ns : list note) (sv : server) : outcome server :=
  match ns with [] => Done sv | n :: r => obind (handle 5 id_oracle (fun l => l) (mem_fs ex47) n sv) (run109 r) end.
Lemma run_conversation ns : forall ms sv sv', conversation 5 ms sv -> run109 ns sv = Done sv' -> conversation 5 (ms ++ map (fun n => (mem_fs ex47, n)) ns) sv'.
Proof.
  induction ns as [|n ns IH]; intros ms sv sv' C E; cbn [run109 map] in *.
  - rewrite app_nil_r. injection E as <-. exact C.
  - destruct (handle 5 id_oracle (fun l => l) (mem_fs ex47) n sv) as [sv1| |] eqn:E1; cbn [obind] in E; try discriminate E.
    change ((mem_fs ex47, n) :: map (fun n => (mem_fs ex47, n)) ns) with ([(mem_fs ex47, n)] ++ map (fun n => (mem_fs ex47, n)) ns). rewrite app_assoc.
    apply (IH _ sv1); [|exact E]. eapply cv_next; [exact C|apply id_order_ok| |exact E1]. intros l. apply Permutation_refl.
Qed.
Example C109_case : exists pubs, Forall (fair 5) (map (fun n => (mem_fs ex47, n)) ms109)
  /\ (exists incl T, session_of (map (fun n => (mem_fs ex47, n)) ms109) incl T pubs)
  /\ map fst pubs = [FileUri (bs "/a.dts"); FileUri (bs "/b.dtsi"); FileUri (bs "/b.dtsi"); FileUri (bs "/a.dts"); FileUri (bs "/b.dtsi")]
  /\ map (fun p => length (snd p)) pubs = [2; 1; 0; 0; 0]%nat.
Proof.
  assert (F : Forall (fair 5) (map (fun n => (mem_fs ex47, n)) ms109)).
  { apply Forall_forall. intros m Hm. apply in_map_iff in Hm. destruct Hm as (n & <- & Hn). split; [cbn [fst]; apply mem_disk; [reflexivity|cbn; lia]|].
    cbn [snd]. repeat (destruct Hn as [<-|Hn]; [cbn [note_valid]; first [exact I|vm_compute; reflexivity]|]). destruct Hn. }
  remember (run109 ms109 server_new) as r eqn:Er.
  assert (K : match r with Done sv => map fst (sv_sent sv) = [FileUri (bs "/a.dts"); FileUri (bs "/b.dtsi"); FileUri (bs "/b.dtsi"); FileUri (bs "/a.dts"); FileUri (bs "/b.dtsi")]
    /\ map (fun p => length (snd p)) (sv_sent sv) = [2; 1; 0; 0; 0]%nat | _ => False end) by (rewrite Er; vm_compute; split; reflexivity).
  destruct r as [sv| |]; [|contradiction|contradiction]. exists (sv_sent sv). split; [exact F|]. split; [|exact K].
  apply (C109_published 5 _ _ F). exists sv. split; [|reflexivity]. exact (run_conversation ms109 [] server_new sv (cv_start 5) (eq_sym Er)).
Qed.
