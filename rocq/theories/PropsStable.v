(** C81: an error stands, whatever is written behind it. Also for C07: whatever ends a text unterminated is lost silently *)
From Verif Require Import Parser LexSpec Utf8 LexerProofs2 LexerProofs3 ParserBase ParserSafe ParserSafe2 Grammar PropsLexer PropsGrammar PropsParser PropsConcat LexGrow Prefix.

Lemma valid_lines a b : valid_utf8 a = true -> valid_utf8 b = true -> valid_utf8 (a ++ [cNL] ++ b) = true.
Proof. intros Va Vb. rewrite (valid_app _ _ Va). cbn [app]. rewrite valid_one; [exact Vb|reflexivity]. Qed.

(** Parsing stopped with an error other than "unexpected end of file", and the text does not break off inside a string, a block
    comment, a path or a directive (LexGrow.v): with any further lines behind it, parsing stops with the same error at the
    same place, and with the same diagnostics before it *)
Theorem C81_errors_stand : forall incl src a b d s,
  valid_utf8 a = true -> valid_utf8 b = true -> ends_settled a = true ->
  parse_text incl a src = RErr d s -> dg_kind d <> UnexpectedEOF ->
  exists s', parse_text incl (a ++ [cNL] ++ b) src = RErr d s' /\ ps_diags s' = ps_diags s.
Proof.
  intros incl src a b d s Va Vb Ho E Hk. pose proof (valid_lines a b Va Vb) as Hv. unfold parse_text in E.
  assert (Hf : fresh (parser_new incl a src)) by (split; [exact Ho|discriminate]).
  pose proof (v_file b (S (S (length a))) (S (S (length (a ++ [cNL] ++ b)))) _ Hf) as H. rewrite E in H.
  change (grow b (parser_new incl a src)) with (parser_new incl (a ++ [cNL] ++ b) src) in H.
  pose proof (C09_parse_total incl (a ++ [cNL] ++ b) src Hv) as Hs.
  change (p_file _ (parser_new incl (a ++ [cNL] ++ b) src)) with (parse_text incl (a ++ [cNL] ++ b) src) in H.
  destruct H as [H|[[_ H]|[_ H]]].
  - exfalso. destruct Hs as [(f & s' & Hs)|(d' & s' & Hs)]; rewrite Hs in H; exact H.
  - exists (grow b s). split; [exact H|reflexivity].
  - destruct (Hk H).
Qed.
Print Assumptions C81_errors_stand.

(** the way to an acceptable text leads through no other errors *)
Theorem C81_on_the_way : forall incl src a b f s,
  valid_utf8 a = true -> valid_utf8 b = true -> ends_settled a = true ->
  parse_text incl (a ++ [cNL] ++ b) src = ROk f s ->
  (exists f0 s0, parse_text incl a src = ROk f0 s0)
  \/ (exists d s0, parse_text incl a src = RErr d s0 /\ dg_kind d = UnexpectedEOF).
Proof.
  intros incl src a b f s Va Vb Ho E. destruct (C09_parse_total incl a src Va) as [H|(d & s0 & H)]; [left; exact H|right].
  exists d, s0. split; [exact H|]. destruct (error_code_eq_dec (dg_kind d) UnexpectedEOF) as [K|K]; [exact K|].
  destruct (C81_errors_stand incl src a b d s0 Va Vb Ho H K) as (s' & H1 & _). rewrite E in H1. discriminate H1.
Qed.
Print Assumptions C81_on_the_way.

(** A directive that is not closed takes the lines behind it for its name: there the error changes *)
Theorem C81_refuted : exists incl src a b d s d' s', valid_utf8 a = true /\ valid_utf8 b = true
  /\ parse_text incl a src = RErr d s /\ dg_kind d <> UnexpectedEOF
  /\ parse_text incl (a ++ [cNL] ++ b) src = RErr d' s' /\ dg_span d <> dg_span d' /\ ends_settled a = false.
Proof.
  exists [], (bs "f"), (bs "/delete-nod"), (bs "/ { };"). do 4 eexists. split; [reflexivity|]. split; [reflexivity|].
  split; [vm_compute; reflexivity|]. split; [discriminate|]. split; [vm_compute; reflexivity|]. split; [discriminate|reflexivity].
Qed.
Print Assumptions C81_refuted.

(** a text with an error, another one before it, and one that is only incomplete *)
Definition ex81a : str := bs "/ { a = <1> b; n { }; c = 1; }; // d".
Definition ex81b : str := bs "/dts-v1/;
/ { n@1 { a = ""x"", <(1 + 2".
Example C81_case : (exists d s, valid_utf8 ex81a = true /\ ends_settled ex81a = true /\ parse_text [] ex81a (bs "f") = RErr d s
    /\ dg_kind d = Expected /\ map dg_kind (ps_diags s) = [Expected])
  /\ (exists d s f s', valid_utf8 ex81b = true /\ ends_settled ex81b = true /\ parse_text [] ex81b (bs "f") = RErr d s
    /\ dg_kind d = UnexpectedEOF /\ map dg_kind (ps_diags s) = [UnbalancedParentheses]
    /\ parse_text [] (ex81b ++ [cNL] ++ bs ")>; }; };") (bs "f") = ROk f s' /\ ps_diags s' = []).
Proof.
  split; do 2 eexists; [|do 2 eexists]; (split; [reflexivity|split; [reflexivity|split; [vm_compute; reflexivity|split; [reflexivity|]]]]); [reflexivity|].
  split; [reflexivity|]. split; [vm_compute; reflexivity|reflexivity].
Qed.

(** ** C07 *)
(** whatever is unterminated behind a clean text is lost without a diagnostic *)
Theorem C07_tails_are_silent : forall incl src a f toks u,
  valid_utf8 a = true -> valid_utf8 u = true -> parses incl a src f [] -> covered src NameExpected [] a toks [] -> unterminated u ->
  parses incl (a ++ [cNL] ++ u) src f [].
Proof.
  intros incl src a f toks u Va Vu Pa Hc Hu.
  destruct (C10_clean_parse_derives _ _ _ _ Va Pa) as (Es & ta & La & Da).
  assert (ta = toks) as -> by (apply (C04_lossless a src ta Va) in La; apply covered_lexed, (C04_lossless a src toks Va) in Hc; congruence).
  destruct (file_end _ _ _ _ Da eq_refl) as [Hm Hf].
  assert (L : lexed src NameExpected [] (a ++ [cNL] ++ u) (toks ++ [])).
  { eapply lexed_append; [exact Hc|reflexivity|exact Hf|]. apply (lx_unterminated _ _ _ []); [apply gap_nil|exact Hu]. }
  rewrite app_nil_r in L. destruct f as [els fsrc]. cbn [fl_elements fl_source] in *.
  pose proof (proj1 (C11_grammatical_parses_clean incl _ src _ _ (valid_lines a u Va Vu) L Da)) as H.
  rewrite Es. exact H.
Qed.
Print Assumptions C07_tails_are_silent.
Example C07_tails : unterminated (bs "&") /\ unterminated (bs "&{/soc") /\ unterminated (bs """abc") /\ unterminated (bs "/* x").
Proof.
  split; [apply ut_amp|]. split; [apply (ut_path (bs "/soc")); cbn; intuition discriminate|]. split.
  - apply (ut_string (bs "abc")). intros u s v E _. destruct u as [|a [|b [|c [|d u]]]]; discriminate E.
  - apply (ut_block (bs " x")). intros x y E. destruct x as [|a [|b [|c x]]]; discriminate E.
Qed.
(** ** A settled text has no unterminated tail *)
Lemma gap_run g : gap g -> forall l, ends_settled (g ++ l) = ends_settled l.
Proof.
  induction 1 as [|c g Hw _ IH|x g Hn _ IH|x g Hn _ IH]; intros l.
  - reflexivity.
  - change ((c :: g) ++ l) with ([c] ++ g ++ l). rewrite (quiet_run is_ws [c]); [apply IH|exact q_ws|].
    constructor; [|constructor]. unfold ws_char in Hw. cbn [In] in Hw. unfold is_ws. repeat destruct Hw as [<-|Hw]; try reflexivity. destruct Hw.
  - rewrite <- (IH l). unfold ends_settled. rewrite <- !app_assoc. cbn [app]. rewrite !place_cons. cbn [step step_plain N.eqb Pos.eqb].
    rewrite place_app, (plain_run x InLine); [reflexivity|]. apply Forall_forall. intros c Hc. cbn [step]. destruct (N.eqb_spec c cNL); [subst; contradiction|reflexivity].
  - rewrite <- (IH l). unfold ends_settled. rewrite <- !app_assoc. cbn [app]. rewrite !place_cons. cbn [step step_plain N.eqb Pos.eqb]. f_equal.
    assert (G : forall x s, no_close x -> (s = InBlock \/ (s = InBlockStar /\ forall y, x <> cSlash :: y)) -> place_of (x ++ cStar :: cSlash :: g ++ l) s = place_of (g ++ l) Plain).
    { clear. induction x as [|c x IH]; intros s Hn Hs.
      - destruct Hs as [->|[-> _]]; reflexivity.
      - cbn [app]. rewrite place_cons. apply IH.
        + intros u v E. apply (Hn (c :: u) v). rewrite E. reflexivity.
        + destruct Hs as [->|[-> Hs]]; cbn [step].
          * destruct (N.eqb_spec c cStar) as [->|]; [right|left; reflexivity]. split; [reflexivity|]. intros y ->. exact (Hn [] y eq_refl).
          * destruct (N.eqb_spec c cSlash) as [->|]; [destruct (Hs x eq_refl)|].
            destruct (N.eqb_spec c cStar) as [->|]; [right|left; reflexivity]. split; [reflexivity|]. intros y ->. exact (Hn [] y eq_refl). }
    apply G; [exact Hn|left; reflexivity].
Qed.
Lemma plain_class (P : N -> Prop) v l : (forall c, P c -> step Plain c = Plain) -> Forall P v -> ends_settled (v ++ l) = ends_settled l.
Proof. intros H Hv. unfold ends_settled. rewrite place_app, (plain_run v Plain); [reflexivity|]. eapply Forall_impl; [exact H|exact Hv]. Qed.
Lemma name_plain c : name_char c -> step Plain c = Plain.
Proof.
  intros H. unfold step, step_plain. destruct (N.eqb_spec c cSlash) as [->|]; [revert H; unfold name_char, letter, digit; cbn [In]; lia|].
  destruct (N.eqb_spec c cQuote) as [->|]; [revert H; unfold name_char, letter, digit; cbn [In]; lia|].
  destruct (N.eqb_spec c cAmp) as [->|]; [revert H; unfold name_char, letter, digit; cbn [In]; lia|reflexivity].
Qed.
Lemma letter_alpha c : is_alpha c = true <-> letter c.
Proof. unfold is_alpha, is_lower, is_upper, letter. rewrite orb_true_iff, !andb_true_iff, !N.leb_le. tauto. Qed.
Lemma body_run x s : string_body x s -> forall l, place_of (x ++ cQuote :: l) InString = place_of l Plain.
Proof.
  induction 1 as [|c x s H1 H2 _ IH|c x s _ IH]; intros l; [reflexivity| |].
  - cbn [app]. rewrite place_cons. cbn [step]. destruct (N.eqb_spec c cBackslash); [contradiction|]. destruct (N.eqb_spec c cQuote); [contradiction|]. apply IH.
  - cbn [app]. rewrite !place_cons. apply IH.
Qed.
Lemma spells_run m k u rest : spells m k u rest -> ends_settled (u ++ rest) = true -> ends_settled rest = true.
Proof.
  intros H E. destruct H.
  - rewrite (plain_class name_char) in E; [exact E|exact name_plain|assumption].
  - rewrite <- !app_assoc in E. rewrite (plain_class name_char) in E; [|exact name_plain|assumption].
    change (ends_settled (a ++ rest) = true) in E. rewrite (plain_class name_char) in E; [exact E|exact name_plain|assumption].
  - rewrite <- app_assoc in E. rewrite (plain_class name_char) in E; [exact E|exact name_plain|assumption].
  - rewrite (plain_class name_char) in E; [exact E|exact name_plain|]. eapply Forall_impl; [|eassumption]. unfold name_char. tauto.
  - change (settled (place_of ((c :: s) ++ rest) AfterAmp) = true) in E. cbn [app] in E. rewrite amp_plain in E.
    + change (ends_settled ((c :: s) ++ rest) = true) in E. rewrite (plain_class name_char) in E; [exact E|exact name_plain|].
      eapply Forall_impl; [|eassumption]. unfold label_char, name_char. cbn [In]. intros x. intuition.
    + destruct (N.eqb_spec c cLBrace) as [->|]; [revert H; unfold letter; lia|reflexivity].
  - change (settled (place_of (x :: r) AfterAmp) = true) in E. rewrite amp_plain in E; [exact E|]. destruct (N.eqb_spec x cLBrace); [contradiction|reflexivity].
  - rewrite <- !app_assoc in E. change (settled (place_of (p ++ cRBrace :: rest) InPath) = true) in E. rewrite brace_run in E; [exact E|].
    apply Forall_forall. intros c Hc. destruct (N.eqb_spec c cRBrace); [subst; contradiction|reflexivity].
  - rewrite <- !app_assoc in E. change (settled (place_of (b ++ cQuote :: rest) InString) = true) in E. erewrite body_run in E; [exact E|eassumption].
  - change (settled (place_of rest AfterSlash) = true) in E. destruct rest as [|x r]; [reflexivity|]. destruct (H x r eq_refl) as (K1 & K2 & K3).
    rewrite place_cons in E. cbn [step] in E. destruct (N.eqb_spec x cSlash); [contradiction|]. destruct (N.eqb_spec x cStar); [contradiction|].
    destruct (is_alpha x) eqn:Ea; [apply letter_alpha in Ea; contradiction|]. exact E.
  - rewrite <- !app_assoc in E. cbn [app] in E. unfold ends_settled in E. rewrite !place_cons in E. cbn [step step_plain N.eqb Pos.eqb] in E.
    assert (c <> cSlash /\ c <> cStar) as [K1 K2] by (split; intros ->; revert H; unfold letter; lia).
    destruct (N.eqb_spec c cSlash); [contradiction|]. destruct (N.eqb_spec c cStar); [contradiction|]. rewrite (proj2 (letter_alpha c) H) in E.
    rewrite slash_run in E; [exact E|]. apply Forall_forall. intros y Hy. destruct (N.eqb_spec y cSlash); [subst; exfalso; apply H0; right; assumption|reflexivity].
  - reflexivity.
  - change (settled (place_of rest (step Plain c)) = true) in E. assert (K : step Plain c = Plain).
    { cbn [punctuation In] in H0. repeat destruct H0 as [H0|H0]; try (injection H0 as <- <-; reflexivity). destruct H0. }
    rewrite K in E. exact E.
  - change (settled (place_of rest (step Plain c)) = true) in E. assert (K : step Plain c = Plain).
    { cbn [step]. unfold step_plain. cbn [In] in H2. destruct (N.eqb_spec c cSlash); [subst; tauto|]. destruct (N.eqb_spec c cQuote); [subst; tauto|]. destruct (N.eqb_spec c cAmp); [subst; tauto|reflexivity]. }
    rewrite K in E. exact E.
Qed.
Lemma tail_unsettled u : unterminated u -> ends_settled u = false.
Proof.
  intros [|p Hp|x Hx|x Hx].
  - reflexivity.
  - unfold ends_settled. cbn [app]. rewrite !place_cons. cbn [step step_plain N.eqb Pos.eqb]. rewrite (plain_run p InPath); [reflexivity|].
    apply Forall_forall. intros c Hc. cbn [step]. destruct (N.eqb_spec c cRBrace); [subst; contradiction|reflexivity].
  - unfold ends_settled. rewrite place_cons. cbn [step step_plain N.eqb Pos.eqb].
    assert (G : forall n x, (length x <= n)%nat -> (forall u s v, x = u ++ [cQuote] ++ v -> ~ string_body u s) -> settled (place_of x InString) = false).
    { clear. induction n as [|n IH]; intros x Hl Hx; (destruct x as [|c x]; [reflexivity|]); cbn [length] in Hl; [lia|].
      rewrite place_cons. cbn [step]. destruct (N.eqb_spec c cBackslash) as [->|N1].
      - destruct x as [|d x]; [reflexivity|]. rewrite place_cons. cbn [step]. apply IH; [cbn [length] in Hl; lia|].
        intros u s v E Hb. eapply (Hx (cBackslash :: d :: u)); [rewrite E; reflexivity|]. apply sb_escaped, Hb.
      - destruct (N.eqb_spec c cQuote) as [->|N2]; [exfalso; apply (Hx [] [] x eq_refl), sb_nil|]. apply IH; [lia|].
        intros u s v E Hb. eapply (Hx (c :: u)); [rewrite E; reflexivity|]. apply sb_plain; eassumption. }
    exact (G _ x (le_n _) Hx).
  - unfold ends_settled. cbn [app]. rewrite !place_cons. cbn [step step_plain N.eqb Pos.eqb].
    assert (G : forall x s, no_close x -> (s = InBlock \/ (s = InBlockStar /\ forall y, x <> cSlash :: y)) -> settled (place_of x s) = false).
    { clear. induction x as [|c x IH]; intros s Hn Hs.
      - destruct Hs as [->|[-> _]]; reflexivity.
      - rewrite place_cons. apply IH.
        + intros u v E. apply (Hn (c :: u) v). rewrite E. reflexivity.
        + destruct Hs as [->|[-> Hs]]; cbn [step].
          * destruct (N.eqb_spec c cStar) as [->|]; [right|left; reflexivity]. split; [reflexivity|]. intros y ->. exact (Hn [] y eq_refl).
          * destruct (N.eqb_spec c cSlash) as [->|]; [destruct (Hs x eq_refl)|].
            destruct (N.eqb_spec c cStar) as [->|]; [right|left; reflexivity]. split; [reflexivity|]. intros y ->. exact (Hn [] y eq_refl). }
    apply G; [exact Hx|left; reflexivity].
Qed.
Lemma settled_covered src m pre t toks tail : covered src m pre t toks tail -> ends_settled t = true -> tail = [].
Proof.
  induction 1 as [m pre t Ht|m pre g u Hg Hu|m pre g k u rest toks tail Hg Hs _ IH]; intros E.
  - reflexivity.
  - rewrite (gap_run g Hg), (tail_unsettled u Hu) in E. discriminate E.
  - rewrite (gap_run g Hg) in E. apply IH, (spells_run _ _ _ _ Hs E).
Qed.
Lemma settled_all src a toks : lexed src NameExpected [] a toks -> ends_settled a = true -> covered src NameExpected [] a toks [].
Proof. intros H E. destruct (lexed_covered _ _ _ _ _ H) as [tail Hc]. pose proof (settled_covered _ _ _ _ _ _ Hc E) as ->. exact Hc. Qed.

(** C07, C78 for texts that do not break off *)
Theorem C07_settled : forall incl text src f, valid_utf8 text = true -> parses incl text src f [] -> ends_settled text = true ->
  exists toks, covered src NameExpected [] text toks [] /\ derives incl toks (fl_elements f).
Proof.
  intros incl text src f Hv H Ho. destruct (C10_clean_parse_derives _ _ _ _ Hv H) as (_ & toks & Hl & Hd).
  exists toks. split; [exact (settled_all _ _ _ Hl Ho)|exact Hd].
Qed.
Print Assumptions C07_settled.
Theorem C78_settled : forall incl src a b fa fb, valid_utf8 a = true -> valid_utf8 b = true -> ends_settled a = true ->
  parses incl a src fa [] -> parses incl b src fb [] ->
  parses incl (a ++ [cNL] ++ b) src (mkFile (fl_elements fa ++ map (move_primary (down (count_nl a + 1))) (fl_elements fb)) src) [].
Proof.
  intros incl src a b fa fb Va Vb Ho Pa Pb. destruct (C07_settled _ _ _ _ Va Pa Ho) as (toks & Hc & _).
  exact (C78_concatenation_partial _ _ _ _ _ _ _ Va Vb Pa Pb Hc).
Qed.
Print Assumptions C78_settled.
Example C78_settled_case : ends_settled ex78a = true /\ ends_settled (bs "/ { }; & /* x") = false.
Proof. split; reflexivity. Qed.
