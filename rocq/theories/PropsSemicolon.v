(** Property theorems about the places of parser diagnostics: C67 *)
From Verif Require Import Parser LexSpec ReaderProofs Utf8 LexerProofs LexerProofs2 LexerProofs3
  ParserBase ParserSafe ParserSafe2 PropsParser Grammar GrammarComplete PropsGrammar.

(** ** C67 *)
(** [semi_place]: behind the last token (or the comments after it) when another token follows, on an
    unknown token that follows, at the end when nothing follows. The diagnostics of a successful parse. *)
Theorem C67_missing_semicolon_place : forall incl text src f s d,
  valid_utf8 text = true -> parse_text incl text src = ROk f s -> In d (ps_diags s) ->
  dg_kind d = Expected -> dg_msg d = bs "Expected ';'" -> semi_place text (dg_span d).
Proof.
  intros incl text src f s d Hv E Hin Hk Hm. pose proof (parse_safe text src Hv incl) as H. unfold wp in H.
  unfold parse_text in E. rewrite E in H. destruct H as ((p & toks & _ & (ds & Ed & F & _) & _) & _).
  rewrite Ed in Hin. cbn [parser_new ps_diags app] in Hin. rewrite Forall_forall in F.
  destruct (F d Hin) as (_ & _ & Hp). assert (Hs : says_semicolon d) by (split; assumption).
  destruct Hp as [t Hn|t Hn|t1 t2 Hd|q Hn|q Hd|_ Hp]; try contradiction.
  - rewrite Hk in Hd. discriminate.
  - rewrite Hm in Hd. discriminate.
  - exact Hp.
Qed.
Print Assumptions C67_missing_semicolon_place.

(** The diagnostics of every parse: on a token, inside a token (illegal characters), across a property, at
    a [point], one column behind one, or at the place of a missing semicolon. Only the error that ends a
    parse may claim to expect a semicolon where there is one. *)
Theorem C67_places : forall incl text src,
  valid_utf8 text = true ->
  match parse_text incl text src with
  | ROk _ s => Forall (place text src) (ps_diags s)
  | RErr d s => Forall (place text src) (ps_diags s) /\ (place text src d \/ misnamed text src d)
  | _ => False
  end.
Proof.
  intros incl text src Hv. pose proof (parse_safe text src Hv incl) as H. unfold wp in H. unfold parse_text.
  assert (G : forall ds, Forall (diag_ok text src) ds -> Forall (place text src) ds).
  { intros ds. apply Forall_impl. intros d (_ & _ & Hp). exact Hp. }
  destruct (p_file _ _) as [f s|d s| |]; try contradiction.
  - destruct H as ((p & toks & _ & (ds & E & F & _) & _) & _). rewrite E. apply G, F.
  - destruct H as (p & toks & _ & (_ & _ & Hd) & (ds & E & F & _) & _). rewrite E. split; [apply G, F|exact Hd].
Qed.
Print Assumptions C67_places.

(** with C19: a file that is grammatical but for [n] missing semicolons has [n] diagnostics, all in
    such places *)
Theorem C67_recovered_places : forall incl text src toks els n,
  valid_utf8 text = true -> lexed src NameExpected [] text toks -> g_file incl toks els n ->
  exists ds, parses incl text src (mkFile els src) ds /\ length ds = n
    /\ Forall (fun d => dg_msg d = bs "Expected ';'" /\ semi_place text (dg_span d)) ds.
Proof.
  intros incl text src toks els n Hv Hl Hg. destruct (relaxed_parse _ _ _ _ _ _ Hv Hl Hg) as (ds & Hp & Hn & Hd).
  exists ds. split; [exact Hp|]. split; [exact Hn|]. destruct Hp as (s & E & <-).
  apply Forall_forall. intros d Hin. rewrite Forall_forall in Hd. destruct (Hd d Hin) as (H1 & _ & H3).
  split; [exact H3|]. exact (C67_missing_semicolon_place _ _ _ _ _ d Hv E Hin H1 H3).
Qed.
Print Assumptions C67_recovered_places.

(** the example of README.md:8-35 *)
Definition readme : list N :=
  bs "/dts-v1/;" ++ [cNL; cNL] ++ bs "/ {" ++ [cNL] ++ bs "    pic@10000000 {" ++ [cNL]
  ++ bs "        phandle = <1>;" ++ [cNL] ++ bs "        interrupt-controller;" ++ [cNL]
  ++ bs "        reg = <0x10000000 0x100>;" ++ [cNL] ++ bs "    }" ++ [cNL] ++ bs "};" ++ [cNL].
Example C67_readme : valid_utf8 readme = true
  /\ exists f s d, parse_text [] readme (bs "test.dts") = ROk f s /\ ps_diags s = [d]
     /\ says_semicolon d /\ dg_span d = mkSpan (mkPos 7 5) (mkPos 7 6).
Proof.
  split; [reflexivity|]. eexists _, _, _. split; [vm_compute; reflexivity|]. split; [reflexivity|].
  split; [split; reflexivity|reflexivity].
Qed.
(** behind the comments, on an unknown token, at the end, and the misnamed one *)
Example C67_cases :
  map (fun t => map (fun d => (dg_span d, dg_msg d)) (all_diags (parse_text [] (bs t) [])))
      ["/dts-v1/ /* a */  /plugin/;"; "/dts-v1/ % /plugin/;"; "/dts-v1/  "; "/dts-v1/; &a ;"]%string
  = [[(mkSpan (mkPos 0 16) (mkPos 0 17), bs "Expected ';'")];
     [(mkSpan (mkPos 0 9) (mkPos 0 10), bs "Expected ';'")];
     [(mkSpan (mkPos 0 8) (mkPos 0 8), bs "Expected ';'")];
     [(mkSpan (mkPos 0 12) (mkPos 0 12), bs "Expected ';'")]].
Proof. vm_compute. reflexivity. Qed.
