(** C107: a text that ends too early can be continued to one that gives a tree, whatever mistakes it contains *)
From Verif Require Import Parser LexSpec Utf8 ReaderProofs LexerProofs LexerProofs2 LexerProofs3 ParserBase ParserSafe ParserSafe2 Grammar NameProofs NumProofs TokParser ParserSim
  GrammarComplete GrammarSound PropsParser PropsGrammar PropsConcat GrammarDet Complete DisplayProofs LexGrow PropsStable PropsComplete
  Utf8Adequacy PropsReport PropsPlaces NameReport PropsNames PropsSemicolon Forgiving PropsForgiving Rejected PropsRejected Viable.

(** ** The words as a text *)
Definition written (k : token_kind) : str := match k with CloseParen => bs ")" | _ => spelling k end.
Definition script (ks : list token_kind) : str := flat_map (fun k => written k ++ [cSpace]) ks.
Lemma helpful_spells k : helpful k -> forall m rest, spells m k (written k) (cSpace :: rest) /\ Forall (fun c => c < 128) (written k).
Proof.
  intros [H| ->] m rest.
  - assert (E : written k = spelling k) by (unfold word in H; cbn [In] in H; repeat (destruct H as [<-|H]; [reflexivity|]); contradiction).
    rewrite E. apply word_spells, H.
  - change (written CloseParen) with [41]. split; [|repeat constructor; lia]. apply sp_punct; [intros [K|[K|[_ K]]]; revert K; not_class|cbn [In punctuation]; tauto].
Qed.
(** where they stand *)
Fixpoint typed (src : fpath) (pre : list N) (ks : list token_kind) : list token :=
  match ks with
  | [] => []
  | k :: ks => mkToken k (mkSpan (pos_after pre) (pos_after (pre ++ written k))) src :: typed src (pre ++ written k ++ [cSpace]) ks
  end.
Lemma typed_words src ks : forall pre, words ks (typed src pre ks).
Proof. induction ks as [|k ks IH]; intros pre; [reflexivity|]. unfold words in *. cbn [typed map tk_kind]. rewrite IH. reflexivity. Qed.
Lemma typed_lexed src ks : Forall helpful ks -> forall m pre, lexed src m pre (script ks) (typed src pre ks).
Proof.
  induction 1 as [|k ks Hk _ IH]; intros m pre; [apply lx_end; left; constructor|]. cbn [script flat_map typed]. rewrite <- app_assoc.
  pose proof (proj1 (helpful_spells k Hk m (script ks))) as Hs.
  assert (G : gap [cSpace]) by (apply gap_ws; [unfold ws_char; cbn [In]; tauto|apply gap_nil]).
  pose proof (lx_token src m pre [] k (written k) ([cSpace] ++ script ks) (typed src (pre ++ written k ++ [cSpace]) ks) gap_nil Hs) as H.
  cbn [app] in H. rewrite app_nil_r in H. apply H. apply (lexed_gap src [cSpace] G). rewrite <- app_assoc. apply IH.
Qed.
Lemma script_valid ks : Forall helpful ks -> valid_utf8 (script ks) = true.
Proof.
  intros H. apply valid_ascii. induction H as [|k ks Hk _ IH]; [constructor|]. cbn [script flat_map]. apply Forall_app. split; [|exact IH].
  apply Forall_app. split; [exact (proj2 (helpful_spells k Hk NameExpected []))|constructor; [lia|constructor]].
Qed.

(** ** Where reading can resume *)
Section Placed.
  Context (text : list N) (src : fpath) (valid : valid_utf8 text = true) (settled : ends_settled text = true).
  Definition placed (t : token) : Prop := (tok_ok t /\ tok_at text src t) /\ forall a b, text = a ++ b -> tk_end t = pos_after a -> ends_settled b = true.
  Lemma lexed_placed m pre t l : lexed src m pre t l -> text = pre ++ t -> ends_settled t = true ->
    Forall (fun u => forall a b, text = a ++ b -> tk_end u = pos_after a -> ends_settled b = true) l.
  Proof.
    induction 1 as [|m pre g u Hg Hu|m pre g k u rest toks Hg Hs _ IH]; intros Et Hst; [constructor|constructor|].
    rewrite (gap_run g Hg) in Hst. pose proof (spells_run _ _ _ _ Hs Hst) as Hr.
    constructor; [|apply IH; [rewrite Et, <- !app_assoc; reflexivity|exact Hr]].
    intros a b Ea Ep. cbn [tk_end tk_span span_end] in Ep.
    destruct (pos_after_prefix_inj a (pre ++ g ++ u) b rest) as [_ ->]; [rewrite <- Ea, Et, <- !app_assoc; reflexivity|symmetry; exact Ep|exact Hr].
  Qed.
  Lemma resumes_placed u l : placed u -> resumes_in text src u l -> Forall placed l.
  Proof.
    intros [[H1 H2] H3] H. pose proof (proj1 (resumes_relex text src valid u l H2) H) as E. destruct H as (a & b & Et & Ep & L). apply both.
    - rewrite E. apply both; [apply relex_ok; exact valid|apply relex_at; exact valid].
    - eapply lexed_placed; [exact L|exact Et|exact (H3 _ _ Et Ep)].
  Qed.
  Lemma lexed_all_placed toks : lexed src NameExpected [] text toks -> Forall placed toks.
  Proof.
    intros L. apply both; [apply both; [eapply lexed_ok; [exact L|exact valid]|eapply lexed_at; [exact L|reflexivity]]|].
    eapply lexed_placed; [exact L|reflexivity|exact settled].
  Qed.
  Lemma resumes_fits z more : (forall m, lexed src m (text ++ [cNL]) more z) -> fits (resumes_in text src) placed (resumes_in (text ++ [cNL] ++ more) src) z.
  Proof.
    intros Hz u l Hu H. split; [exact (resumes_placed _ _ Hu H)|]. destruct H as (a & b & Et & Ep & L).
    exists a, (b ++ [cNL] ++ more). split; [rewrite Et, <- app_assoc; reflexivity|]. split; [exact Ep|].
    pose proof (proj2 Hu _ _ Et Ep) as Hb. destruct (lexed_covered _ _ _ _ _ L) as [tail Hc]. pose proof (settled_covered _ _ _ _ _ _ Hc Hb) as ->.
    eapply lexed_settled; [exact Hc|reflexivity|exact Hb|]. rewrite app_assoc, <- Et. apply Hz.
  Qed.
End Placed.

(** ** C107 *)
Definition accepted (incl : list fpath) (text : str) (src : fpath) : Prop := exists f s, parse_text incl text src = ROk f s.
Definition ends_early (incl : list fpath) (text : str) (src : fpath) : Prop := exists d s, parse_text incl text src = RErr d s /\ dg_kind d = UnexpectedEOF.

(** What stops the parser is the end of the text, whatever it has complained about before: then some more lines make a text that gives a tree. *)
Theorem C107_continuable : forall incl src a, valid_utf8 a = true -> ends_settled a = true -> ends_early incl a src ->
  exists b, valid_utf8 b = true /\ accepted incl (a ++ [cNL] ++ b) src.
Proof.
  intros incl src a V Hst (d & s & E & Hd). destruct (C106_error_derived _ _ _ _ _ V E) as (st & (toks & L & X) & Hc).
  assert (st = AtEnd) as -> by (destruct st as [|t w]; [reflexivity|]; destruct Hc as (_ & K & _); rewrite Hd in K; discriminate K).
  destruct (m_file src incl (resumes_in a src) (placed a src) (fun t H => proj1 (proj1 H)) (resumes_placed a src V) toks _ X eq_refl
    (lexed_all_placed a src V Hst toks L)) as (ks & _ & Hh & Hk).
  exists (script ks). pose proof (script_valid ks Hh) as Vb. split; [exact Vb|]. pose proof (fun m => typed_lexed src ks Hh m (a ++ [cNL])) as Hz.
  specialize (Hk (typed src (a ++ [cNL]) ks) [] (resumes_in (a ++ [cNL] ++ script ks) src) (typed_words src ks _)). rewrite app_nil_r in Hk.
  destruct (Hk (resumes_fits a src V _ _ Hz) eq_refl) as (ps & r & K).
  destruct (C105_derived_tree incl (a ++ [cNL] ++ script ks) src ps r (valid_lines a _ V Vb)) as (ds & (s' & E' & _) & _); [|exists (mkFile ps src), s'; exact E'].
  exists (toks ++ typed src (a ++ [cNL]) ks). split; [|exact K].
  eapply lexed_settled; [exact (settled_all _ _ _ L Hst)|reflexivity|exact Hst|]. apply Hz.
Qed.
Print Assumptions C107_continuable.

(** So the texts on the way to a text that gives a tree are those that give one or end too early, and no others. *)
Lemma e_file src incl resumes P R : fits resumes P R [] -> forall l ps r, k_file src incl resumes l ps r -> Forall P l -> k_file src incl R l ps r.
Proof.
  intros HR l ps r H. induction H as [|l p l' r ps r' H _ IH]; intros HP; [constructor|].
  destruct (e_primary src incl resumes P R [] F0 HR _ _ _ _ H HP) as [G K]. rewrite !app_nil_r in K. eapply kf_cons; [exact K|exact (IH G)].
Qed.
Theorem C107_on_the_way : forall incl src a, valid_utf8 a = true -> ends_settled a = true ->
  ((exists b, valid_utf8 b = true /\ accepted incl (a ++ [cNL] ++ b) src) <-> accepted incl a src \/ ends_early incl a src).
Proof.
  intros incl src a V Hst. split; [intros (b & Vb & f & s & E); exact (C81_on_the_way _ _ _ _ _ _ V Vb Hst E)|].
  intros [(f & s & E)|H]; [|exact (C107_continuable _ _ _ V Hst H)]. exists []. split; [reflexivity|].
  destruct (C105_tree_derived incl a src f (ps_diags s) V) as (_ & rs & (toks & L & K) & _); [exists s; split; [exact E|reflexivity]|].
  assert (Hz : forall m, lexed src m (a ++ [cNL]) [] []) by (intros m; apply lx_end; left; constructor).
  destruct (C105_derived_tree incl (a ++ [cNL] ++ []) src (fl_elements f) rs (valid_lines a [] V eq_refl)) as (ds & (s' & E' & _) & _);
    [|exists (mkFile (fl_elements f) src), s'; exact E'].
  exists (toks ++ []). split; [eapply lexed_settled; [exact (settled_all _ _ _ L Hst)|reflexivity|exact Hst|apply Hz]|].
  rewrite (app_nil_r toks). eapply e_file; [apply resumes_fits; [exact V|exact Hz]|exact K|apply lexed_all_placed; assumption].
Qed.
Print Assumptions C107_on_the_way.
(** A text that is refused at a token is refused however it goes on; one that ends too early is not. *)
Theorem C107_hopeless_iff : forall incl src a, valid_utf8 a = true -> ends_settled a = true ->
  ((forall b, valid_utf8 b = true -> ~ accepted incl (a ++ [cNL] ++ b) src) <-> exists t what, refused incl a src (AtToken t what)).
Proof.
  intros incl src a V Hst. split.
  - intros H. destruct (C09_parse_total incl a src V) as [(f & s & E)|(d & s & E)].
    + exfalso. destruct (proj2 (C107_on_the_way incl src a V Hst)) as (b & Vb & K); [left; exists f, s; exact E|]. exact (H b Vb K).
    + destruct (C106_error_derived _ _ _ _ _ V E) as ([|t w] & Hr & Hc); [|exists t, w; exact Hr]. exfalso.
      destruct (C107_continuable incl src a V Hst) as (b & Vb & K); [exists d, s; split; [exact E|apply Hc]|]. exact (H b Vb K).
  - intros (t & w & Hr) b Vb K. destruct (C106_derived_error _ _ _ _ V Hr) as (d & s & E & _ & Hk & _).
    destruct (proj1 (C107_on_the_way incl src a V Hst)) as [(f & s' & E')|(d' & s' & E' & Hk')]; [exists b; auto|..]; rewrite E in E'; [discriminate E'|].
    injection E' as <- <-. rewrite Hk in Hk'. discriminate Hk'.
Qed.
Print Assumptions C107_hopeless_iff.

(** The restriction to settled texts: nothing helps behind an open string where none may stand *)
Theorem C107_unsettled_refuted : exists incl src a, valid_utf8 a = true /\ ends_early incl a src /\ ends_settled a = false
  /\ forall b, valid_utf8 b = true -> ~ accepted incl (a ++ [cNL] ++ b) src.
Proof.
  exists [], (bs "f"), (bs "/ { """). split; [reflexivity|]. split; [do 2 eexists; split; [vm_compute; reflexivity|reflexivity]|]. split; [reflexivity|].
  intros b Vb (f & s & E). pose proof (valid_lines (bs "/ { """) b eq_refl Vb) as V.
  destruct (lexed_total (bs "f") NameExpected (bs "/ {" ++ [cSpace]) (cQuote :: [cNL] ++ b)) as [z Hz0].
  assert (W : ws_char cSpace) by (unfold ws_char; cbn [In]; tauto).
  assert (G : gap [cSpace]) by (apply gap_ws; [exact W|apply gap_nil]).
  pose proof (lexed_gap _ _ G _ _ _ _ Hz0) as Hz. set (q := [cSpace] ++ cQuote :: [cNL] ++ b) in *.
  assert (H1 : lexed (bs "f") NameExpected (bs "/") (bs " {" ++ q)
    (mkToken OpenBrace (mkSpan (pos_after (bs "/ ")) (pos_after (bs "/ {"))) (bs "f") :: z)).
  { apply (lx_token (bs "f") NameExpected (bs "/") [cSpace] OpenBrace [cLBrace] q z); [exact G| |exact Hz].
    apply sp_punct; [intros [K|[K|[_ K]]]; revert K; not_class|cbn [In punctuation]; tauto]. }
  assert (H2 : lexed (bs "f") NameExpected [] (bs "/ {" ++ q) (mkToken Slash (mkSpan (pos_after []) (pos_after (bs "/"))) (bs "f")
    :: mkToken OpenBrace (mkSpan (pos_after (bs "/ ")) (pos_after (bs "/ {"))) (bs "f") :: z)).
  { apply (lx_token (bs "f") NameExpected [] [] Slash (bs "/") (bs " {" ++ q)); [apply gap_nil| |exact H1].
    apply sp_slash. intros x r K. injection K as <- _. not_class. }
  change (bs "/ {" ++ q) with (bs "/ { """ ++ [cNL] ++ b) in H2.
  assert (X : exists st, x_file (bs "f") [] (resumes_in (bs "/ { """ ++ [cNL] ++ b) (bs "f")) (mkToken Slash (mkSpan (pos_after []) (pos_after (bs "/"))) (bs "f")
    :: mkToken OpenBrace (mkSpan (pos_after (bs "/ ")) (pos_after (bs "/ {"))) (bs "f") :: z) st).
  { destruct (quote_first _ _ _ _ _ Hz0) as [->|(x & t & r & -> & Ht)].
    - exists AtEnd. apply xf_here, xp_root; [reflexivity|]. apply xk_body; [reflexivity|]. eapply xb; [apply ki_nil|apply xi_end].
    - eexists. apply xf_here, xp_root; [reflexivity|]. apply xk_body; [reflexivity|]. eapply xb; [apply ki_nil|].
      eapply xi_other; [apply go_none|apply kl_none|]. unfold is in *. split; [intros s0 K; congruence|]. split; [intros K; congruence|].
      split; [intros _ s0 K; congruence|]. intros _ _. split; [|split]; intros K; congruence. }
  destruct X as [st X]. destruct (C106_derived_error [] _ (bs "f") st V) as (d & s' & E' & _); [eexists; split; [exact H2|exact X]|].
  rewrite E in E'. discriminate E'.
Qed.
Print Assumptions C107_unsettled_refuted.

(** a text with a string among cells, an unknown character for a semicolon, a bad label, and two open parentheses at its end *)
Definition broken_off : str := bs "/ { p = <99 ""s"" > $ a-l: q = ""x"" n { r = [1], <7 (2 + (3)".
Example C107_case : valid_utf8 broken_off = true /\ ends_settled broken_off = true /\ ends_early [] broken_off []
  /\ accepted [] (broken_off ++ [cNL] ++ bs ") > } ; } ;") [].
Proof.
  split; [reflexivity|]. split; [reflexivity|]. split; [do 2 eexists; split; [vm_compute; reflexivity|reflexivity]|].
  eexists _, _. vm_compute. reflexivity.
Qed.
(** and one that has gone wrong for good *)
Example C107_hopeless : exists t what, refused [] (bs "/ { p = <1>; n { = 3; }; };") [] (AtToken t what).
Proof.
  destruct (parse_text [] (bs "/ { p = <1>; n { = 3; }; };") []) as [f s|d s| |] eqn:E; try (vm_compute in E; discriminate E).
  destruct (C106_error_derived [] (bs "/ { p = <1>; n { = 3; }; };") [] d s eq_refl E) as ([|t w] & H & Hc); [|exists t, w; exact H].
  destruct Hc as (_ & K & _). vm_compute in E. injection E as <- _. discriminate K.
Qed.
