(** Property theorems on the texts that the parser refuses: C106 *)
From Verif Require Import Parser LexSpec ReaderProofs Utf8 LexerProofs LexerProofs2 LexerProofs3 ParserBase ParserSafe ParserSafe2
  Grammar NameProofs NumProofs TokParser ParserSim GrammarComplete GrammarSound TreeSpec TreeProofs PropsParser PropsGrammar
  Utf8Adequacy PropsReport PropsPlaces NameReport PropsNames PropsSemicolon Forgiving PropsForgiving Rejected.

(** ** C106 *)
(** at the token, or in the white space and comments in front of it *)
Definition at_token (text : list N) (t : token) (sp : span) : Prop := sp = tk_span t
  \/ exists x g r, text = x ++ g ++ r /\ gap g /\ tk_start t = pos_after (x ++ g)
       /\ pos_le (pos_after x) (span_start sp) /\ pos_le (span_start sp) (tk_end t).
Definition complains (text : list N) (src : fpath) (st : stop) (d : diag) : Prop := dg_source d = src /\ match st with
  | AtEnd => dg_kind d = UnexpectedEOF /\ dg_msg d = bs "Unexpected End of File"
  | AtToken t what => dg_kind d = Expected /\ dg_msg d = what /\ at_token text t (dg_span d)
  end.
(** the tokens of the text cannot be continued past [st] *)
Definition refused (incl : list fpath) (text : list N) (src : fpath) (st : stop) : Prop := exists toks,
  lexed src NameExpected [] text toks /\ x_file src incl (resumes_in text src) toks st.

Lemma stop_complains incl text src d s d' st : valid_utf8 text = true -> parse_text incl text src = RErr d s ->
  err_sim text d d' -> halts src st d' -> complains text src st d.
Proof.
  intros Hv E [(H1 & H2 & H3 & _) Hn] Hh.
  split; [eapply C16_diagnostics_inside; [exact Hv|rewrite E; cbn [all_diags]; apply in_app_iff; right; left; reflexivity]|].
  destruct st as [|t what]; cbn [halts] in Hh.
  - destruct Hh as (K1 & _ & K2). split; congruence.
  - destruct Hh as (K1 & K2 & _ & K3). split; [congruence|]. split; [congruence|].
    destruct Hn as [Hn|[Hn|Hn]]; [exfalso; congruence|left; congruence|]. rewrite K2 in Hn. right. exact Hn.
Qed.

(** A text that gives no tree is refused by the grammar of refusals, and the error is the one that it names. *)
Theorem C106_error_derived : forall incl text src d s,
  valid_utf8 text = true -> parse_text incl text src = RErr d s ->
  exists st, refused incl text src st /\ complains text src st d.
Proof.
  intros incl text src d s Hv E. destruct (tokenize_total text src Hv) as [toks Ht].
  pose proof (parse_behind incl text src toks Hv Ht) as H. rewrite E in H. unfold t_parse in H.
  apply (tokenize_iff text src toks Hv) in Ht.
  assert (Ho : Forall (fun t => tok_ok t /\ tok_at text src t) toks)
    by (apply both; [eapply lexed_ok; [exact Ht|exact Hv]|eapply lexed_at; [exact Ht|reflexivity]]).
  assert (Hr : forall p, Forall (fun t => tok_ok t /\ tok_at text src t) (relex text src p))
    by (intros p; apply both; [apply relex_ok; exact Hv|apply relex_at; exact Hv]).
  pose proof (f_file src incl (resumes_in text src) (relex text src) (tok_at text src) Hr (resumes_relex text src Hv)
    (S (S (length text))) toks Ho []) as G.
  destruct (t_p_file src incl (relex text src) _ (mkTS toks [])) as [f' st|d' st|]; try contradiction.
  destruct H as [Hd _], G as (x & Hx & K). exists x. split; [exists toks; split; [exact Ht|exact K]|].
  eapply stop_complains; eassumption.
Qed.
Print Assumptions C106_error_derived.

(** And whatever that grammar refuses gives no tree, and that error. *)
Theorem C106_derived_error : forall incl text src st,
  valid_utf8 text = true -> refused incl text src st ->
  exists d s, parse_text incl text src = RErr d s /\ complains text src st d.
Proof.
  intros incl text src st Hv (toks & Ht & K). pose proof Ht as Hl. apply (tokenize_iff text src toks Hv) in Hl.
  pose proof (parse_behind incl text src toks Hv Hl) as H. unfold t_parse in H.
  assert (Ho : Forall (fun t => tok_ok t /\ tok_at text src t) toks)
    by (apply both; [eapply lexed_ok; [exact Ht|exact Hv]|eapply lexed_at; [exact Ht|reflexivity]]).
  assert (Hr : forall p, Forall (fun t => tok_ok t /\ tok_at text src t) (relex text src p))
    by (intros p; apply both; [apply relex_ok; exact Hv|apply relex_at; exact Hv]).
  destruct (s_file src incl (resumes_in text src) (relex text src) (tok_at text src) Hr (resumes_relex text src Hv)
    (S (S (length text))) toks st K Ho []) as [E|(d' & s' & E & Hh)]; rewrite E in H;
    destruct (parse_text incl text src) as [f s|d s| |] eqn:Ep; try contradiction.
  destruct H as [Hd _]. exists d, s. split; [reflexivity|]. eapply stop_complains; eassumption.
Qed.
Print Assumptions C106_derived_error.

(** So the two grammars divide all texts between them. *)
Theorem C106_divided : forall incl text src, valid_utf8 text = true ->
  ((exists els rs, reads_as incl text src els rs) \/ (exists st, refused incl text src st))
  /\ ~ ((exists els rs, reads_as incl text src els rs) /\ (exists st, refused incl text src st)).
Proof.
  intros incl text src Hv. split.
  - destruct (tokenize_total text src Hv) as [toks Ht]. pose proof (parse_behind incl text src toks Hv Ht) as B.
    destruct (parse_text incl text src) as [f s|d s| |] eqn:E; [| |destruct (t_parse incl text src toks); contradiction..].
    + left. destruct (C105_tree_derived incl text src f (ps_diags s) Hv) as (_ & rs & K & _); [exists s; split; [exact E|reflexivity]|]. eauto.
    + right. destruct (C106_error_derived _ _ _ _ _ Hv E) as (st & K & _). eauto.
  - intros [(els & rs & K) (st & K')]. destruct (C105_derived_tree _ _ _ _ _ Hv K) as (ds & (s & E & _) & _).
    destruct (C106_derived_error _ _ _ _ Hv K') as (d & s' & E' & _). rewrite E in E'. discriminate E'.
Qed.
Print Assumptions C106_divided.
(** And there is one refusal of a text, up to the kind of the token. *)
Definition same_stop (st st' : stop) : Prop := match st, st' with
  | AtEnd, AtEnd => True
  | AtToken t what, AtToken t' what' => tk_span t = tk_span t' /\ what = what'
  | _, _ => False
  end.
Theorem C106_unambiguous : forall incl text src st st', valid_utf8 text = true ->
  refused incl text src st -> refused incl text src st' -> same_stop st st'.
Proof.
  intros incl text src st st' Hv (toks & Ht & K) (toks' & Ht' & K').
  assert (toks = toks') as <- by (eapply (lexed_fun text src Hv NameExpected [] text); [reflexivity|exact Ht|exact Ht']).
  pose proof Ht as Hl. apply (tokenize_iff text src toks Hv) in Hl.
  pose proof (parse_behind incl text src toks Hv Hl) as H. unfold t_parse in H.
  assert (Ho : Forall (fun t => tok_ok t /\ tok_at text src t) toks)
    by (apply both; [eapply lexed_ok; [exact Ht|exact Hv]|eapply lexed_at; [exact Ht|reflexivity]]).
  assert (Hr : forall p, Forall (fun t => tok_ok t /\ tok_at text src t) (relex text src p))
    by (intros p; apply both; [apply relex_ok; exact Hv|apply relex_at; exact Hv]).
  destruct (s_file src incl (resumes_in text src) (relex text src) (tok_at text src) Hr (resumes_relex text src Hv)
    (S (S (length text))) toks st K Ho []) as [E|(d & s & E & Hh)].
  { rewrite E in H. destruct (parse_text incl text src); contradiction. }
  destruct (s_file src incl (resumes_in text src) (relex text src) (tok_at text src) Hr (resumes_relex text src Hv)
    (S (S (length text))) toks st' K' Ho []) as [E'|(d' & s' & E' & Hh')]; rewrite E in E'; [discriminate E'|]. injection E' as <- <-.
  destruct st, st'; cbn [halts same_stop] in *; [exact I|exfalso; destruct Hh, Hh'; congruence|exfalso; destruct Hh, Hh'; congruence|].
  destruct Hh as (_ & H1 & _ & H2), Hh' as (_ & H1' & _ & H2'). split; congruence.
Qed.
Print Assumptions C106_unambiguous.

(** many tolerated mistakes and then a refusal; and the end of the text inside an expression *)
Definition refused_text : str := bs "/ { p = <99 ""s"" > $ a-l: q = ""x""; n { r = 7; }; };".
Definition broken_text : str := bs "/ { ,,; p = <1 (2 + (3)".
Example C106_case : exists st d s, refused [] refused_text [] st /\ parse_text [] refused_text [] = RErr d s /\ complains refused_text [] st d
  /\ dg_msg d = bs "Expected one of string, '<', reference, '['" /\ pos_char (span_start (dg_span d)) = 42
  /\ map dg_kind (ps_diags s) = [Expected; Expected; IllegalChar].
Proof.
  assert (V : valid_utf8 refused_text = true) by (vm_compute; reflexivity).
  remember (parse_text [] refused_text []) as p eqn:Ep.
  assert (K : match p with RErr d s => dg_msg d = bs "Expected one of string, '<', reference, '['" /\ pos_char (span_start (dg_span d)) = 42
    /\ map dg_kind (ps_diags s) = [Expected; Expected; IllegalChar] | _ => False end)
    by (rewrite Ep; vm_compute; split; [|split]; reflexivity).
  destruct p as [f s|d s| |]; try contradiction.
  destruct (C106_error_derived [] refused_text [] d s V (eq_sym Ep)) as (st & H1 & H2). exists st, d, s.
  split; [exact H1|]. split; [reflexivity|]. split; [exact H2|exact K].
Qed.
Example C106_end : refused [] broken_text [] AtEnd.
Proof.
  assert (V : valid_utf8 broken_text = true) by (vm_compute; reflexivity).
  remember (parse_text [] broken_text []) as p eqn:Ep.
  assert (K : match p with RErr d s => dg_kind d = UnexpectedEOF | _ => False end) by (rewrite Ep; vm_compute; reflexivity).
  destruct p as [f s|d s| |]; try contradiction.
  destruct (C106_error_derived [] broken_text [] d s V (eq_sym Ep)) as (st & H1 & H2). destruct st as [|t w]; [exact H1|].
  destruct H2 as (_ & H2 & _). rewrite K in H2. discriminate H2.
Qed.
