(** Property theorems on mistakes that are tolerated: C94 *)
From Verif Require Import Parser LexSpec ReaderProofs Utf8 LexerProofs LexerProofs2 LexerProofs3 ParserBase ParserSafe ParserSafe2
  Grammar NameProofs TokParser ParserSim GrammarComplete GrammarSound TreeSpec TreeProofs PropsParser PropsGrammar
  PropsPlaces Tolerated.

(** ** C94 *)
Definition said (src : fpath) (r : remark) (d : diag) : Prop :=
  match r with Exactly d' => d = d' | NoSemicolon => missing_semicolon src d end.
(** A text with any number of the tolerated mistakes gives the tree, and in order one diagnostic for each mistake. *)
Theorem C94_tolerated : forall incl text src toks els rs,
  valid_utf8 text = true -> lexed src NameExpected [] text toks -> h_file src incl toks els rs ->
  exists ds, parses incl text src (mkFile els src) ds /\ Forall2 (said src) rs ds.
Proof.
  intros incl text src toks els rs Hv Hl Hg. apply (tokenize_iff text src toks Hv) in Hl.
  pose proof (parse_sim incl text src toks Hv Hl) as H. unfold t_parse in H.
  destruct (told_file src incl (relex text src) toks els rs (S (S (length text))) [] Hg) as [E|(new & E & Hn)];
    rewrite E in H; destruct (parse_text incl text src) as [f s|d s| |] eqn:Ep; try contradiction.
  cbn [t_diags app] in H. destruct H as [-> Hd]. exists (ps_diags s). split; [exists s; split; [exact Ep|reflexivity]|].
  clear - Hd Hn. revert rs Hn. induction Hd as [|d d' ds ds' H1 _ IH]; intros rs Hn; inversion Hn as [|r ? rs' ? Hr Hn']; subst; constructor; [|auto].
  destruct H1 as (H1 & H2 & H3 & H4). destruct r as [x|]; cbn [said heeds] in *.
  - destruct Hr as (-> & K1 & K2). destruct d as [k sp so m], x as [k' sp' so' m']. cbn [dg_kind dg_source dg_msg dg_span] in *.
    destruct H4 as [H4|[H4|H4]]; congruence.
  - destruct Hr as [sp ->]. unfold missing_semicolon. rewrite H1, H2, H3. auto.
Qed.
Print Assumptions C94_tolerated.

(** In every text, whatever becomes of it: the two codes occur only so. *)
Theorem C94_only_there : forall incl text src d,
  valid_utf8 text = true ->
  match parse_text incl text src with
  | ROk _ s => In d (ps_diags s)
  | RErr d' s => In d (d' :: ps_diags s)
  | _ => False
  end ->
  (dg_kind d = IncorrectDirective -> exists t, tok_at text src t /\ is (Directive OmitIfNoRef) t
     /\ d = mkDiag IncorrectDirective (tk_span t) src (bs "The /omit-if-no-ref/ directive can only be used on nodes"))
  /\ (dg_kind d = ParserError -> exists t, tok_at text src t /\ is Semicolon t
     /\ d = mkDiag ParserError (tk_span t) src (bs "Include directive must not end with a semicolon")).
Proof. intros incl text src d Hv Hd. exact (proj2 (all_placed incl text src d Hv Hd)). Qed.
Print Assumptions C94_only_there.

(** all four mistakes in one text *)
Definition mistakes : str := bs "/include/ ""x""; / { n { }; /omit-if-no-ref/ a; }".
Example C94_case : exists toks els rs, lexed [] NameExpected [] mistakes toks /\ h_file [] [] toks els rs
  /\ map (fun r => match r with Exactly d => Some (dg_kind d, pos_char (span_start (dg_span d))) | NoSemicolon => None end) rs
     = [Some (ParserError, 13); Some (PropertyAfterNode, 43); Some (IncorrectDirective, 26); None].
Proof.
  eexists _, _, _. split; [apply tokenize_iff; [reflexivity|vm_compute; reflexivity]|]. split.
  - eapply hf_cons; [eapply hp_include; reflexivity|]. eapply hf_cons; [|constructor]. eapply hp_root; [reflexivity|reflexivity|].
    eapply (hbo _ _ _ _ _ None _ None _ _ None _ 1).
    + eapply (hi_node _ _ _ None _ None _ (bs "n") (mkNN (bs "n") None)); [apply go_none|apply gl_none|reflexivity| | |reflexivity| |].
      * apply nt_plain. intros [E|[]]. discriminate E.
      * right. split; [split; [discriminate|cbn; lia]|]. split; [constructor; [|constructor]; left; left; split; vm_compute; discriminate|].
        split; [exists 110, []; split; [reflexivity|left; split; vm_compute; discriminate]|]. discriminate.
      * eapply (hbo _ _ _ _ _ None _ None _ _ (Some _) _ 0); [apply hi_nil|apply go_none|apply gl_none|reflexivity|].
        apply ge_semicolon. reflexivity.
      * eapply (hi_empty_property _ _ _ (Some _) _ None _ (bs "a")); [apply go_some; reflexivity|apply gl_none|reflexivity| |reflexivity|apply hi_nil].
        split; [split; [discriminate|cbn; lia]|]. constructor; [|constructor]. left. left. split; vm_compute; discriminate.
    + apply go_none.
    + apply gl_none.
    + reflexivity.
    + apply ge_missing. intros t r E. discriminate E.
  - vm_compute. reflexivity.
Qed.
