(** C116: in another layout, the same place of a document still leads to the same definition *)
From Verif Require Import Base DisplayProofs TreeProofs LexSpec LexerProofs2 Parser Analysis AnalysisSpec AnalysisProofs Visitor PropsVisitor Project ProjectSpec ProjectProofs2 ProjectHistory
  PropsAnalysis PropsHistory PropsReformat PropsLayout PropsProject Server ServerProofs PropsServer Whole PropsWhole Session PropsSession Relaid PropsRelaid PropsRelaidSession PropsRelaidHover Tests.
From Coq Require Import Permutation.

(** ** The same target in two layouts *)
(** [same_target seen f g c c' a a']: the answers name the same file, and in it the name of the same node of two texts that the file had at the same time; or
    the cursors are on an include of that file (then the answer gives the range of the include itself); or there is no answer in either *)
Inductive same_target (seen : fpath -> str -> str -> Prop) (p : dts_file -> dts_file -> Prop) (c c' : position) : option (uri * span) -> option (uri * span) -> Prop :=
| st_none : same_target seen p c c' None None
| st_node k f g i n m : readings seen k f g -> nth_error (file_nodes f) i = Some n -> nth_error (file_nodes g) i = Some m ->
    same_target seen p c c' (Some (FileUri k, wt_span (nd_name n))) (Some (FileUri k, wt_span (nd_name m)))
| st_include f g i j k : p f g -> In (SInclude i) (file_spots f) -> on_spot c (SInclude i) -> In (SInclude j) (file_spots g) -> on_spot c' (SInclude j) ->
    wt_item (in_file_name i) = wt_item (in_file_name j) ->
    same_target seen p c c' (Some (FileUri k, include_span i)) (Some (FileUri k, include_span j)).

Lemma referenced_twin {LK : likeness} c d r : ctx_ok c -> ctx_ok d -> ctx_like c d ->
  match get_referenced c r, get_referenced d r with Some n, Some m => lk n m | None, None => True | _, _ => False end.
Proof.
  intros [C1 C2] [D1 D2] [[A1 A2] [B1 B2]]. destruct r as [l|p]; cbn [get_referenced].
  - unfold get_node_by_label. destruct (m_get str_eq_dec l (ac_labels c)) as [x|] eqn:X.
    + destruct (A1 l x (m_get_in _ _ _ _ X)) as (y & Y & E). apply (m_in_get str_eq_dec) in Y; [|exact D1]. rewrite Y.
      destruct x, y; try contradiction; [exact E|exact I].
    + destruct (m_get str_eq_dec l (ac_labels d)) as [y|] eqn:Y; [|exact I]. destruct (B1 l y (m_get_in _ _ _ _ Y)) as (x & X' & _).
      apply (m_in_get str_eq_dec) in X'; [congruence|exact C1].
  - unfold get_node_by_path. destruct (m_get npath_eq_dec p (ac_flat c)) as [x|] eqn:X.
    + destruct (A2 p x (m_get_in _ _ _ _ X)) as (y & Y & E). apply (m_in_get npath_eq_dec) in Y; [|exact D2]. rewrite Y. exact E.
    + destruct (m_get npath_eq_dec p (ac_flat d)) as [y|] eqn:Y; [|exact I]. destruct (B2 p y (m_get_in _ _ _ _ Y)) as (x & X' & _).
      apply (m_in_get npath_eq_dec) in X'; [congruence|exact C2].
Qed.
Lemma referenced_known c r n : ctx_known c -> get_referenced c r = Some n -> ServerProofs.known n.
Proof.
  intros [A B]. destruct r as [l|p]; cbn [get_referenced].
  - unfold get_node_by_label. destruct (m_get str_eq_dec l (ac_labels c)) as [[x|x]|] eqn:X; try discriminate. intros E. injection E as <-. exact (A l x (m_get_in _ _ _ _ X)).
  - unfold get_node_by_path. intros E. exact (B p n (m_get_in _ _ _ _ E)).
Qed.
Lemma include_spot f c i : file_at f c = Some (AtInclude i) -> In (SInclude i) (file_spots f) /\ on_spot c (SInclude i).
Proof.
  intros E. destruct (C44_found f c _ E) as [(s & H1 & H2 & H3)|(pre & x & r & post & _ & _ & _ & H & _)]; [|discriminate H].
  destruct s as [a|a|a]; try discriminate H2. injection H2 as ->. auto.
Qed.

Lemma goto_like fs fs' seen T U i s1 s2 i' s1' s2' p c c' : relaid fs fs' -> @relaid_table (twin_likeness seen) T U -> tidy T -> tidy U ->
  (forall k v c, fget k T = Some v -> pf_ctx v = Some c -> ctx_known c) -> canon_absolute fs ->
  (forall f g, get_root fs (mkProject T i s1) p = Some f -> get_root fs' (mkProject U i' s1') p = Some g -> same_place f g c c') ->
  exists a a', goto_definition fs (FileUri p) c (mkServer (mkProject T i s1) s2) = Done a
    /\ goto_definition fs' (FileUri p) c' (mkServer (mkProject U i' s1') s2') = Done a'
    /\ same_target seen (fun f g => get_root fs (mkProject T i s1) p = Some f /\ get_root fs' (mkProject U i' s1') p = Some g) c c' a a'.
Proof.
  intros Hr R Ht Hu Hk Ha Hp. unfold goto_definition. cbn [to_file_path sv_project]. unfold find_at_pos, get_node_position, get_analysis, get_root, get_file in *. cbn [pj_files] in *.
  assert (None_ : forall P, exists a a', Done (@None (uri * span)) = Done a /\ Done (@None (uri * span)) = Done a' /\ same_target seen P c c' a a')
    by (intros P; exists None, None; split; [reflexivity|split; [reflexivity|constructor]]).
  rewrite <- (proj1 Hr) in *. destruct (fs_canon fs p) as [q|]; [|apply None_]. specialize (R q).
  destruct (m_get str_eq_dec q T) as [v|] eqn:Ev, (m_get str_eq_dec q U) as [w|] eqn:Ew; try contradiction; [|apply None_].
  destruct R as [_ _ Hf _ Hc]. unfold tree_like in Hf. destruct (pf_file v) as [f|] eqn:Efv, (pf_file w) as [g|] eqn:Efw; try contradiction; [|apply None_].
  pose proof (file_at_like f g c c' (proj1 Hf) (Hp f g eq_refl eq_refl)) as E.
  destruct (file_at f c) as [[r|l|j]|] eqn:Ef, (file_at g c') as [[r'|l'|j']|] eqn:Eg; try discriminate E; try apply None_; cbn [option_map bare_found] in E; injection E as E.
  - subst r'. unfold context_like in Hc. destruct (pf_ctx v) as [a|] eqn:Ea, (pf_ctx w) as [b|] eqn:Eb; try contradiction; [|apply None_].
    pose proof (@referenced_twin (twin_likeness seen) a b r (Ht q v a Ev Ea) (Hu q w b Ew Eb) Hc) as X.
    destruct (get_referenced a r) as [n|] eqn:En, (get_referenced b r) as [m|]; try contradiction; [|apply None_]. cbn [option_map].
    destruct X as (k & f0 & g0 & ix & Rd & Xn & Xm).
    assert (Sn : wt_source (nd_name n) = k /\ wt_source (nd_name m) = k).
    { destruct Rd as (dirs & t & t' & st & st' & V & V' & _ & _ & P & P'). split.
      - apply (origin_tok n k t). exists dirs, f0, st. split; [exact V|]. split; [exact P|]. exact (nth_error_In _ _ Xn).
      - apply (origin_tok m k t'). exists dirs, g0, st'. split; [exact V'|]. split; [exact P'|]. exact (nth_error_In _ _ Xm). }
    destruct Sn as [Sn Sm]. destruct (referenced_known a r n (Hk q v a Ev Ea) En) as (k' & t & Ab & O). destruct (origin_tok n k' t O) as [_ Ek]. rewrite Sn in Ek. subst k'.
    rewrite Sn, Sm, (from_absolute k Ab). do 2 eexists. split; [reflexivity|]. split; [reflexivity|]. eapply st_node; eassumption.
  - assert (E1 : wt_item (in_file_name j) = wt_item (in_file_name j')) by exact E.
    assert (E2 : in_paths j = in_paths j') by assumption.
    rewrite <- (include_relaid fs fs' (proj1 Hr) j j' E1 E2). destruct (include_path fs j) as [z|e] eqn:Ez; [|apply None_].
    destruct (include_canon fs j z Ez) as [x Hx]. rewrite (from_absolute z (Ha x z Hx)).
    do 2 eexists. split; [reflexivity|]. split; [reflexivity|]. destruct (include_spot _ _ _ Ef) as [I1 I2]. destruct (include_spot _ _ _ Eg) as [J1 J2].
    eapply (st_include _ _ _ _ f g); auto.
Qed.

(** *** C116: if the documents of a session are laid out differently, there is a session with the same remarks, outlines and hover texts in which going to the
    definition from the same place leads to the same place: the same file, and in it the name of the node that is the same by its number in both layouts of a text
    that the file had during the sessions. *)
Theorem C116_definition : forall fuel ms ms' sv, Forall (fair fuel) ms -> Forall (fair fuel) ms' -> Forall2 relaid_message ms ms' -> conversation fuel ms sv ->
  exists sv', conversation fuel ms' sv' /\ same_publications (sv_sent sv) (sv_sent sv')
    /\ forall fs fs' p, relaid fs fs' -> canon_absolute fs ->
       forall c c', (forall f g, get_root fs (sv_project sv) p = Some f -> get_root fs' (sv_project sv') p = Some g -> same_place f g c c') ->
       exists a a', goto_definition fs (FileUri p) c sv = Done a /\ goto_definition fs' (FileUri p) c' sv' = Done a'
         /\ same_target (exchanged ms ms') (fun f g => get_root fs (sv_project sv) p = Some f /\ get_root fs' (sv_project sv') p = Some g) c c' a a'.
Proof.
  intros fuel ms ms' sv Hf Hf' F C. destruct (conversation_spec _ _ _ C Hf) as (S & Inv & Es).
  destruct (session_relaid (LK := twin_likeness (exchanged ms ms')) _ _ _ _ S ms' (messages_exchanged _ _ F)) as (U & pubs' & S' & P & N & SP);
    [eapply Forall_impl; [|exact Hf]; intros m [_ H]; exact H|eapply Forall_impl; [|exact Hf']; intros m [_ H]; exact H|].
  destruct (session_spec _ _ _ _ _ S' Hf') as (sv' & C' & E & At & _ & _ & _ & Inv'). exists sv'. split; [exact C'|]. split; [rewrite E; exact SP|].
  intros fs fs' p Hr Ha. pose proof (paired_table _ _ P) as R.
  assert (Root : get_root fs' (sv_project sv') p = get_root fs' (mkProject U (pj_incl (sv_project sv)) default_severities) p).
  { unfold get_root, get_file. destruct (fs_canon fs' p) as [q|]; [|reflexivity]. pose proof (At q) as Aq. cbn [pj_files].
    destruct (m_get str_eq_dec q U) as [v|], (m_get str_eq_dec q (pj_files (sv_project sv'))) as [w|]; try contradiction; [|reflexivity]. destruct Aq as ((_ & Eq & _) & _). congruence. }
  intros c c' Hp. rewrite Root in *.
  destruct (answers_alike fs' U (pj_incl (sv_project sv)) default_severities [] sv' (FileUri p) c' At Inv' (session_tidy _ _ _ _ S')) as (-> & _).
  assert (Esv : sv = mkServer (mkProject (pj_files (sv_project sv)) (pj_incl (sv_project sv)) (pj_sev (sv_project sv))) (sv_sent sv)) by (destruct sv as [[a b d] e]; reflexivity).
  assert (Epj : sv_project sv = mkProject (pj_files (sv_project sv)) (pj_incl (sv_project sv)) (pj_sev (sv_project sv))) by (destruct sv as [[a b d] e]; reflexivity).
  refine (_ (goto_like fs fs' (exchanged ms ms') (pj_files (sv_project sv)) U (pj_incl (sv_project sv)) (pj_sev (sv_project sv)) (sv_sent sv)
    (pj_incl (sv_project sv)) default_severities [] p c c' Hr R (session_tidy _ _ _ _ S) (session_tidy _ _ _ _ S') (si_ctx _ Inv) Ha _)).
  - rewrite <- Esv, <- Epj. exact (fun H => H).
  - rewrite <- Epj. exact Hp.
Qed.
Print Assumptions C116_definition.

(** the reference of C114 leads to the node of the other file, at the end of its only line and in its second line *)
Example C116_case : exists sv sv' f g, conversation 5 (map (fun n => (mem_fs ex47, n)) ms114) sv /\ conversation 5 (map (fun n => (mem_fs ex113, n)) ms114') sv'
  /\ canon_absolute (mem_fs ex47) /\ relaid (mem_fs ex47) (mem_fs ex113)
  /\ get_root (mem_fs ex47) (sv_project sv) (bs "/a.dts") = Some f /\ get_root (mem_fs ex113) (sv_project sv') (bs "/a.dts") = Some g
  /\ same_place f g (mkPos 0 40) (mkPos 3 8)
  /\ goto_definition (mem_fs ex47) (FileUri (bs "/a.dts")) (mkPos 0 40) sv = Done (Some (FileUri (bs "/b.dtsi"), mkSpan (mkPos 0 7) (mkPos 0 8)))
  /\ goto_definition (mem_fs ex113) (FileUri (bs "/a.dts")) (mkPos 3 8) sv' = Done (Some (FileUri (bs "/b.dtsi"), mkSpan (mkPos 1 5) (mkPos 1 6))).
Proof.
  remember (run114 (mem_fs ex47) ms114 server_new) as r eqn:Er. remember (run114 (mem_fs ex113) ms114' server_new) as r' eqn:Er'.
  assert (K : match r, r' with
    | Done sv, Done sv' => match get_root (mem_fs ex47) (sv_project sv) (bs "/a.dts"), get_root (mem_fs ex113) (sv_project sv') (bs "/a.dts") with
        | Some f, Some g => map (onb (mkPos 0 40)) (file_spots f) = map (onb (mkPos 3 8)) (file_spots g)
        | _, _ => False end
      /\ goto_definition (mem_fs ex47) (FileUri (bs "/a.dts")) (mkPos 0 40) sv = Done (Some (FileUri (bs "/b.dtsi"), mkSpan (mkPos 0 7) (mkPos 0 8)))
      /\ goto_definition (mem_fs ex113) (FileUri (bs "/a.dts")) (mkPos 3 8) sv' = Done (Some (FileUri (bs "/b.dtsi"), mkSpan (mkPos 1 5) (mkPos 1 6)))
    | _, _ => False end) by (rewrite Er, Er'; vm_compute; auto).
  destruct r as [sv| |]; try contradiction. destruct r' as [sv'| |]; try contradiction. destruct K as (K & H1 & H2).
  destruct (get_root (mem_fs ex47) (sv_project sv) (bs "/a.dts")) as [f|] eqn:Ef; [|contradiction].
  destruct (get_root (mem_fs ex113) (sv_project sv') (bs "/a.dts")) as [g|] eqn:Eg; [|contradiction].
  exists sv, sv', f, g. split; [exact (run114_conversation _ ms114 [] server_new sv (cv_start 5) (eq_sym Er))|].
  split; [exact (run114_conversation _ ms114' [] server_new sv' (cv_start 5) (eq_sym Er'))|].
  split; [assert (M : disk (mem_fs ex47) 5) by (apply mem_disk; [reflexivity|cbn; lia]); exact (proj1 M)|]. split.
  - apply mem_relaid. unfold ex47, ex113. constructor; [|constructor; [|constructor]]; (split; [reflexivity|split; [|split; vm_compute; reflexivity]]); apply relaid_check; vm_compute; auto.
  - split; [exact Ef|split; [exact Eg|split; [apply place_check, K|split; assumption]]].
Qed.
