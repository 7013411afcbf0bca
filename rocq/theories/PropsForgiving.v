(** Property theorems on what the parser makes of every text: C105 *)
From Verif Require Import Parser LexSpec ReaderProofs Utf8 LexerProofs LexerProofs2 LexerProofs3 ParserBase ParserSafe ParserSafe2
  Grammar NameProofs NumProofs TokParser ParserSim GrammarComplete GrammarSound TreeSpec TreeProofs PropsParser PropsGrammar
  Utf8Adequacy PropsReport PropsPlaces NameReport PropsNames PropsSemicolon Forgiving.

(** ** C105 *)
Section Text.
  Context (text : list N) (src : fpath).
  (** reading starts again directly behind the unknown character *)
  Definition resumes_in (u : token) (l : list token) : Prop := exists a b,
    text = a ++ b /\ tk_end u = pos_after a /\ lexed src NameExpected a b l.
  Definition said (r : remark) (d : diag) : Prop := match r with
    | Exactly d' => d = d'
    | NoSemicolon => missing_semicolon src d /\ semi_place text (dg_span d)
    end.
  Hypothesis valid : valid_utf8 text = true.
  Lemma resumes_relex u l : tok_at text src u -> (resumes_in u l <-> l = relex text src (tk_end u)).
  Proof.
    intros (m & a & v & rest & Et & _ & Eu). assert (Ep : tk_end u = pos_after (a ++ v)) by (rewrite Eu; reflexivity).
    rewrite app_assoc in Et. split.
    - intros (a' & b' & Et' & Ep' & L).
      destruct (pos_after_prefix_inj a' (a ++ v) b' rest) as [-> ->]; [congruence|congruence|].
      eapply (lexed_fun text src valid); [exact Et|exact L|]. rewrite Ep. apply relex_spec; assumption.
    - intros ->. exists (a ++ v), rest. split; [exact Et|]. split; [exact Ep|]. rewrite Ep. apply relex_spec; assumption.
  Qed.
  Lemma said_all incl f s rs new ds toks : parse_text incl text src = ROk f s -> (forall d, In d ds -> In d (ps_diags s)) ->
    Forall2 (push_sim text src toks) ds new -> Forall2 (heeds src) rs new -> Forall2 said rs ds.
  Proof.
    intros Ep Hin Hd. revert rs. induction Hd as [|d d' ds ds' H1 _ IH]; intros rs Hn; inversion Hn as [|r ? rs' ? Hr Hn']; subst; constructor;
      [|apply IH; [intros x Hx; apply Hin; right; exact Hx|exact Hn']].
    destruct H1 as (((H1 & H2 & H3 & H4) & A) & _). destruct r as [x|]; cbn [said heeds] in *.
    - destruct Hr as (-> & K1 & K2). destruct A as [A|[A|A]]; [contradiction|contradiction|exact A].
    - destruct Hr as [sp ->]. cbn [dg_kind dg_source dg_msg diag_expected] in *. split; [repeat split; assumption|].
      eapply C67_missing_semicolon_place; [exact valid|exact Ep|apply Hin; left; reflexivity|exact H1|exact H3].
  Qed.
End Text.
(** the tokens of the text form, with the remarks [rs], the elements [els] *)
Definition reads_as (incl : list fpath) (text : list N) (src : fpath) (els : list primary) (rs : list remark) : Prop := exists toks,
  lexed src NameExpected [] text toks /\ k_file src incl (resumes_in text src) toks els rs.

(** A text that gives a tree gives what the grammar derives, and the diagnostics are the remarks, in order. *)
Theorem C105_tree_derived : forall incl text src f ds,
  valid_utf8 text = true -> parses incl text src f ds ->
  fl_source f = src /\ exists rs, reads_as incl text src (fl_elements f) rs /\ Forall2 (said text src) rs ds.
Proof.
  intros incl text src f ds Hv (s & E & <-). destruct (tokenize_total text src Hv) as [toks Ht].
  pose proof (parse_behind incl text src toks Hv Ht) as H. rewrite E in H. unfold t_parse in H.
  apply (tokenize_iff text src toks Hv) in Ht.
  assert (Ho : Forall (fun t => tok_ok t /\ tok_at text src t) toks)
    by (apply both; [eapply lexed_ok; [exact Ht|exact Hv]|eapply lexed_at; [exact Ht|reflexivity]]).
  assert (Hr : forall p, Forall (fun t => tok_ok t /\ tok_at text src t) (relex text src p))
    by (intros p; apply both; [apply relex_ok; exact Hv|apply relex_at; exact Hv]).
  pose proof (gives_file src incl (resumes_in text src) (relex text src) (tok_at text src) Hr (resumes_relex text src Hv)
    (S (S (length text))) toks Ho []) as G.
  destruct (t_p_file src incl (relex text src) _ (mkTS toks [])) as [f' st|d st|]; try contradiction.
  destruct H as [<- Hd], G as (new & rs & E' & F & ps & Ef & K). cbn [app] in E'. rewrite E' in Hd. rewrite Ef. cbn [fl_source fl_elements].
  split; [reflexivity|]. exists rs. split; [exists toks; split; [exact Ht|exact K]|].
  eapply said_all; [exact Hv|exact E|auto|exact Hd|exact F].
Qed.
Print Assumptions C105_tree_derived.

(** And whatever the grammar derives is what the parser gives. *)
Theorem C105_derived_tree : forall incl text src els rs,
  valid_utf8 text = true -> reads_as incl text src els rs ->
  exists ds, parses incl text src (mkFile els src) ds /\ Forall2 (said text src) rs ds.
Proof.
  intros incl text src els rs Hv (toks & Ht & K). pose proof Ht as Hl. apply (tokenize_iff text src toks Hv) in Hl.
  pose proof (parse_behind incl text src toks Hv Hl) as H. unfold t_parse in H.
  assert (Ho : Forall (fun t => tok_ok t /\ tok_at text src t) toks)
    by (apply both; [eapply lexed_ok; [exact Ht|exact Hv]|eapply lexed_at; [exact Ht|reflexivity]]).
  assert (Hr : forall p, Forall (fun t => tok_ok t /\ tok_at text src t) (relex text src p))
    by (intros p; apply both; [apply relex_ok; exact Hv|apply relex_at; exact Hv]).
  destruct (y_file src incl (resumes_in text src) (relex text src) (tok_at text src) Hr (resumes_relex text src Hv)
    toks els rs (S (S (length text))) K Ho) as [_ Y].
  destruct (Y []) as [E|(new & E & F)]; rewrite E in H; destruct (parse_text incl text src) as [f s|d s| |] eqn:Ep; try contradiction.
  cbn [t_diags app] in H. destruct H as [-> Hd]. exists (ps_diags s). split; [exists s; split; [exact Ep|reflexivity]|].
  eapply said_all; [exact Hv|exact Ep|auto|exact Hd|exact F].
Qed.
Print Assumptions C105_derived_tree.

(** So a text gives no tree, and one error, exactly when nothing is derived; and at most one thing is derived. *)
Theorem C105_rejected_iff : forall incl text src,
  valid_utf8 text = true ->
  ((exists d s, parse_text incl text src = RErr d s) <-> forall els rs, ~ reads_as incl text src els rs).
Proof.
  intros incl text src Hv. split.
  - intros (d & s & E) els rs K. destruct (C105_derived_tree _ _ _ _ _ Hv K) as (ds & (s' & E' & _) & _). rewrite E in E'. discriminate E'.
  - intros H. destruct (tokenize_total text src Hv) as [toks Ht]. pose proof (parse_behind incl text src toks Hv Ht) as B.
    destruct (parse_text incl text src) as [f s|d s| |] eqn:E; [|exists d, s; reflexivity|destruct (t_parse incl text src toks); contradiction..].
    exfalso. destruct (C105_tree_derived incl text src f (ps_diags s) Hv) as (_ & rs & K & _); [exists s; split; [exact E|reflexivity]|].
    exact (H _ _ K).
Qed.
Print Assumptions C105_rejected_iff.
Theorem C105_unambiguous : forall incl text src els rs els' rs',
  valid_utf8 text = true -> reads_as incl text src els rs -> reads_as incl text src els' rs' ->
  els = els' /\ length rs = length rs' /\ exists ds, Forall2 (said text src) rs ds /\ Forall2 (said text src) rs' ds.
Proof.
  intros incl text src els rs els' rs' Hv K K'.
  destruct (C105_derived_tree _ _ _ _ _ Hv K) as (ds & (s & E & <-) & F). destruct (C105_derived_tree _ _ _ _ _ Hv K') as (ds' & (s' & E' & <-) & F').
  rewrite E in E'. injection E' as <- <-. split; [reflexivity|]. split; [|exists (ps_diags s); split; assumption].
  assert (L : forall rs0 ds, Forall2 (said text src) rs0 ds -> length rs0 = length ds).
  { intros rs0 ds H. induction H as [|x y xs ys _ _ IH]; [reflexivity|cbn [length]; f_equal; exact IH]. }
  rewrite (L _ _ F), (L _ _ F'). reflexivity.
Qed.
Print Assumptions C105_unambiguous.

(** a number too large, a string among cells, an odd and a bad byte string, a name with an illegal first character,
    an unknown character for a semicolon, a property after a node, an illegal label, a missing semicolon *)
Definition many : str := bs "/ { p = <99999999999 ""s"" &l>, [abc zz]; ,n { } $ a-l: q = /bits/ ""x"" <1> }".
Example C105_case : exists els rs ds, reads_as [] many [] els rs /\ Forall2 (said many []) rs ds
  /\ map (fun d => (dg_kind d, pos_char (span_start (dg_span d)))) ds
     = [(IntError, 9); (Expected, 21); (OddNumberOfBytestringElements, 31); (IntError, 35); (IllegalStart, 40); (Expected, 47);
        (IllegalChar, 50); (Expected, 65); (Expected, 72); (PropertyAfterNode, 49); (Expected, 74)].
Proof.
  assert (V : valid_utf8 many = true) by (vm_compute; reflexivity).
  remember (parse_text [] many []) as p eqn:Ep.
  assert (K : match p with ROk f s => map (fun d => (dg_kind d, pos_char (span_start (dg_span d)))) (ps_diags s)
     = [(IntError, 9); (Expected, 21); (OddNumberOfBytestringElements, 31); (IntError, 35); (IllegalStart, 40); (Expected, 47);
        (IllegalChar, 50); (Expected, 65); (Expected, 72); (PropertyAfterNode, 49); (Expected, 74)] | _ => False end)
    by (rewrite Ep; vm_compute; reflexivity).
  destruct p as [f s|d s| |]; [|contradiction..].
  destruct (C105_tree_derived [] many [] f (ps_diags s) V) as (_ & rs & H1 & H2); [exists s; split; [symmetry; exact Ep|reflexivity]|].
  exists (fl_elements f), rs, (ps_diags s). split; [exact H1|]. split; [exact H2|exact K].
Qed.
