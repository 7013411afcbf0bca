(** C82: a text that only ends too early can be completed, unless it breaks off in an item that is misplaced *)
From Verif Require Import Parser LexSpec Utf8 LexerProofs LexerProofs2 LexerProofs3 ParserBase ParserSafe2 Grammar NameProofs TokParser ParserSim
  GrammarComplete GrammarSound PropsGrammar PropsConcat GrammarDet Complete DisplayProofs LexGrow PropsStable.

(** ** Words as a text *)
Definition spelling (k : token_kind) : str :=
  match k with
  | Ident s | UnparsedNumber s => s
  | TString _ => bs """"""
  | Ref (TRefSimple s) => cAmp :: s
  | Semicolon => bs ";" | OpenBrace => bs "{" | CloseBrace => bs "}" | CloseBracket => bs "]" | ChevronRight => bs ">" | Equal => bs "="
  | _ => []
  end.
Definition sentence (ks : list token_kind) : str := flat_map (fun k => spelling k ++ [cSpace]) ks.
Ltac not_class := unfold name_char, label_char, letter, digit, name_start, ws_char; cbn [In]; lia.
Lemma word_spells k : word k -> forall m rest, spells m k (spelling k) (cSpace :: rest) /\ Forall (fun c => c < 128) (spelling k).
Proof.
  intros H m rest. unfold word in H. cbn [In] in H.
  assert (E : forall x r, cSpace :: rest = x :: r -> x = cSpace) by (intros x r K; injection K as <- _; reflexivity).
  assert (P : forall c k', (forall m, ~ name_start m c) -> In (c, k') punctuation -> spells m k' [c] (cSpace :: rest)) by (intros; apply sp_punct; auto).
  repeat (destruct H as [<-|H]); try contradiction; (split; [|cbn; repeat constructor; lia]).
  - apply (sp_name m 97 [] (cSpace :: rest)); [left; not_class|constructor; [left; not_class|constructor]|].
    intros x r K. rewrite (E x r K). not_class.
  - apply (sp_number m 48 [] (cSpace :: rest)); [not_class|constructor; [right; not_class|constructor]|].
    intros x r K. rewrite (E x r K). not_class.
  - apply (sp_string m [] [] (cSpace :: rest)). constructor.
  - apply (LexSpec.sp_ref m 97 [] (cSpace :: rest)); [not_class|constructor; [left; not_class|constructor]|].
    intros x r K. rewrite (E x r K). not_class.
  - match goal with |- context [spelling ?k] => let s := eval vm_compute in (spelling k) in change (spelling k) with s end. apply P; [intros m0 [K|[K|[_ K]]]; revert K; not_class|cbn [In punctuation]; tauto].
  - match goal with |- context [spelling ?k] => let s := eval vm_compute in (spelling k) in change (spelling k) with s end. apply P; [intros m0 [K|[K|[_ K]]]; revert K; not_class|cbn [In punctuation]; tauto].
  - match goal with |- context [spelling ?k] => let s := eval vm_compute in (spelling k) in change (spelling k) with s end. apply P; [intros m0 [K|[K|[_ K]]]; revert K; not_class|cbn [In punctuation]; tauto].
  - match goal with |- context [spelling ?k] => let s := eval vm_compute in (spelling k) in change (spelling k) with s end. apply P; [intros m0 [K|[K|[_ K]]]; revert K; not_class|cbn [In punctuation]; tauto].
  - match goal with |- context [spelling ?k] => let s := eval vm_compute in (spelling k) in change (spelling k) with s end. apply P; [intros m0 [K|[K|[_ K]]]; revert K; not_class|cbn [In punctuation]; tauto].
  - match goal with |- context [spelling ?k] => let s := eval vm_compute in (spelling k) in change (spelling k) with s end. apply P; [intros m0 [K|[K|[_ K]]]; revert K; not_class|cbn [In punctuation]; tauto].
Qed.
Lemma sentence_spelled ks : Forall word ks -> forall m, spelled m ks (sentence ks).
Proof.
  induction 1 as [|k ks Hk _ IH]; intros m; [constructor|]. cbn [sentence flat_map]. rewrite <- app_assoc.
  destruct (word_spells k Hk m (sentence ks)) as [H1 H2]. apply sd_tok; [exact H1|exact H2|]. apply sd_ws; [unfold ws_char; cbn [In]; tauto|apply IH].
Qed.

(** ** More lines behind a settled text *)
Lemma spells_line m k u z : spells m k u [] -> ends_settled u = true -> spells m k u (cNL :: z).
Proof.
  assert (N : forall x r, cNL :: z = x :: r -> x = cNL) by (intros x r K; injection K as <- _; reflexivity).
  intros H E. inversion H; subst; try (once (econstructor; eassumption));
    [apply sp_name|apply sp_name_at|apply sp_number|apply LexSpec.sp_ref|apply sp_slash|exfalso]; try assumption;
    try (intros x r K; rewrite (N x r K); not_class).
  revert E. unfold ends_settled. cbn [app]. rewrite !place_cons. cbn [step step_plain N.eqb Pos.eqb].
  assert (c <> cSlash /\ c <> cStar) as [K1 K2] by (split; intros ->; revert H0; unfold letter; lia).
  destruct (N.eqb_spec c cSlash); [contradiction|]. destruct (N.eqb_spec c cStar); [contradiction|]. rewrite (proj2 (letter_alpha c) H0).
  rewrite plain_run; [discriminate|]. apply Forall_forall. intros y Hy. cbn [step]. destruct (N.eqb_spec y cSlash); [subst; exfalso; apply H1; right; assumption|reflexivity].
Qed.
Lemma lexed_settled src z toksb m pre a toks tail : covered src m pre a toks tail -> tail = [] -> ends_settled a = true ->
  lexed src (mode_of m toks) (pre ++ a ++ [cNL]) z toksb -> lexed src m pre (a ++ [cNL] ++ z) (toks ++ toksb).
Proof.
  induction 1 as [m pre t Ht|m pre g u Hg Hu|m pre g k u rest toks tail Hg Hs Hc IH]; intros Et Hf Hz.
  - change ([] ++ toksb) with toksb. rewrite app_assoc.
    exact (lexed_gap _ _ (end_gap_line _ Ht) _ _ _ _ Hz).
  - subst u. inversion Hu.
  - rewrite (gap_run g Hg) in Hf. rewrite <- !app_assoc. apply lx_token; [exact Hg| |].
    + destruct rest as [|x rest]; [|apply spells_more, Hs]. apply spells_line; [exact Hs|]. rewrite app_nil_r in Hf. exact Hf.
    + apply IH; [exact Et|exact (spells_run _ _ _ _ Hs Hf)|].
      cbn [mode_of fold_left tk_kind] in Hz. replace ((pre ++ g ++ u) ++ rest ++ [cNL]) with (pre ++ (g ++ u ++ rest) ++ [cNL]) by (rewrite <- !app_assoc; reflexivity). exact Hz.
Qed.

(** ** C82 *)
Definition reads_clean (incl : list fpath) (text : str) (src : fpath) : Prop := exists f, parses incl text src f [].
(** reading stops at the end of the text, and nothing else is reported *)
Definition breaks_off (incl : list fpath) (text : str) (src : fpath) : Prop :=
  exists d s, parse_text incl text src = RErr d s /\ dg_kind d = UnexpectedEOF /\ ps_diags s = [].

(** [a] does not end inside a string, a block comment, a path or a directive, and the only complaint is that it ends too early:
    then some further lines make it a text without any complaint, unless it breaks off in an item that cannot stand there *)
Theorem C82_completable : forall incl src a toks, valid_utf8 a = true -> ends_settled a = true -> breaks_off incl a src ->
  lexed src NameExpected [] a toks ->
  (exists b, valid_utf8 b = true /\ reads_clean incl (a ++ [cNL] ++ b) src) \/ misplaced_file incl toks.
Proof.
  intros incl src a toks Va Ho (d & s & E & Hd & Hs) Hl. pose proof (proj2 (tokenize_iff a src toks Va) Hl) as Ht.
  pose proof (parse_sim incl a src toks Va Ht) as H. rewrite E in H.
  destruct (t_parse incl a src toks) as [f' st|d' [l' ds]|] eqn:Et; try contradiction. destruct H as [(Hk & _) Hds].
  rewrite Hs in Hds. cbn [t_diags] in Hds. assert (ds = []) as -> by (inversion Hds; reflexivity). unfold t_parse in Et.
  assert (Hlate : late (t_p_file src incl (relex a src) (S (S (length a)))) toks) by (exists [], d', l'; split; [exact Et|congruence]).
  destruct (late_file src incl _ _ _ Hlate (lexed_ok _ _ _ _ _ Hl Va)) as [(ks & Hw & Hc)|Hm]; [left|right; exact Hm].
  pose proof (sentence_spelled ks Hw (mode_of NameExpected toks)) as Hsp. pose proof (spelled_valid _ _ _ Hsp) as Vb.
  destruct (spelled_lexed src _ _ _ Hsp ([] ++ a ++ [cNL]) [] (Forall_nil _)) as (z & Hz & Ez).
  pose proof (lexed_settled src _ _ _ _ _ _ _ (settled_all _ _ _ Hl Ho) eq_refl Ho Hz) as Hlz.
  destruct (Hc z (conj Ez Hw)) as [ps Hps].
  exists (sentence ks). split; [exact Vb|]. eexists.
  exact (proj1 (C11_grammatical_parses_clean incl _ src _ _ (valid_lines a _ Va Vb) Hlz Hps)).
Qed.
Print Assumptions C82_completable.

(** and in that case nothing helps *)
Theorem C82_misplaced_stays : forall incl src a toks b, valid_utf8 a = true -> ends_settled a = true -> lexed src NameExpected [] a toks ->
  misplaced_file incl toks -> valid_utf8 b = true -> ~ reads_clean incl (a ++ [cNL] ++ b) src.
Proof.
  intros incl src a toks b Va Ho Hl Hm Vb (f & Hp). destruct (lexed_total src (mode_of NameExpected toks) ([] ++ a ++ [cNL]) b) as [z Hz].
  pose proof (lexed_settled src _ _ _ _ _ _ _ (settled_all _ _ _ Hl Ho) eq_refl Ho Hz) as Hlz.
  destruct (C10_clean_parse_derives _ _ _ _ (valid_lines a b Va Vb) Hp) as (_ & toks' & Hl' & Hd).
  assert (toks' = toks ++ z) as ->.
  { apply (proj2 (tokenize_iff _ src _ (valid_lines a b Va Vb))) in Hl'. apply (proj2 (tokenize_iff _ src _ (valid_lines a b Va Vb))) in Hlz. congruence. }
  exact (misplaced_file_stays _ _ Hm _ _ _ Hd eq_refl).
Qed.
Print Assumptions C82_misplaced_stays.

(** for texts that are read without complaint on the way, the two together *)
Theorem C82_exactly : forall incl src a toks, valid_utf8 a = true -> ends_settled a = true -> breaks_off incl a src ->
  lexed src NameExpected [] a toks ->
  ((exists b, valid_utf8 b = true /\ reads_clean incl (a ++ [cNL] ++ b) src) <-> ~ misplaced_file incl toks).
Proof.
  intros incl src a toks Va Ho Hb Hl. split.
  - intros (b & Vb & Hc) Hm. exact (C82_misplaced_stays _ _ _ _ _ Va Ho Hl Hm Vb Hc).
  - intros Hm. destruct (C82_completable _ _ _ _ Va Ho Hb Hl) as [H|H]; [exact H|contradiction].
Qed.
Print Assumptions C82_exactly.

(** The restriction to settled texts: behind an open string where none may stand, nothing helps either *)
Lemma quote_first src m pre z toks : lexed src m pre (cQuote :: z) toks -> toks = [] \/ exists s t r, toks = t :: r /\ is (TString s) t.
Proof.
  intros H. remember (cQuote :: z) as x eqn:E. destruct H as [m pre t Ht|m pre g u Hg Hu|m pre g k u rest toks Hg Hs Hl]; [left; reflexivity|left; reflexivity|right].
  assert (g = []) as ->.
  { destruct Hg as [|c g Hc Hg|x g _ _|x g _ _]; [reflexivity| |discriminate E|discriminate E].
    cbn [app] in E. injection E as -> _. exfalso. revert Hc. unfold ws_char. cbn [In]. lia. }
  cbn [app] in E. assert (Hk : exists s, k = TString s).
  { destruct Hs; cbn [app] in E; try (injection E; intros; subst; exfalso; match goal with K : name_start _ _ |- _ => destruct K as [K|[K|[_ K]]]; revert K; not_class end; fail);
      try (injection E; intros; subst; exfalso; match goal with K : digit _ |- _ => revert K; not_class end; fail);
      try discriminate E; try (eexists; reflexivity; fail).
    - exfalso. injection E as -> _. cbn [punctuation In] in *. repeat match goal with K : _ \/ _ |- _ => destruct K as [K|K] end; congruence || contradiction.
    - exfalso. injection E as -> _. cbn [In] in *. tauto. }
  destruct Hk as [s ->]. exists s. eexists _, _. split; [reflexivity|reflexivity].
Qed.
Theorem C82_unsettled_refuted : exists incl src a, valid_utf8 a = true /\ breaks_off incl a src /\ ends_settled a = false
  /\ forall b, valid_utf8 b = true -> ~ reads_clean incl (a ++ [cNL] ++ b) src.
Proof.
  exists [], (bs "f"), (bs "/ { """). split; [reflexivity|]. split; [do 2 eexists; split; [vm_compute; reflexivity|split; reflexivity]|]. split; [reflexivity|].
  intros b Vb (f & Hp). destruct (C10_clean_parse_derives _ _ _ _ (valid_lines (bs "/ { """) b eq_refl Vb) Hp) as (_ & toks & Hl & Hd).
  destruct (lexed_total (bs "f") NameExpected (bs "/ {" ++ [cSpace]) (cQuote :: [cNL] ++ b)) as [z Hz0].
  assert (W : ws_char cSpace) by (unfold ws_char; cbn [In]; tauto).
  assert (G : gap [cSpace]) by (apply gap_ws; [exact W|apply gap_nil]).
  pose proof (lexed_gap _ _ G _ _ _ _ Hz0) as Hz. set (q := [cSpace] ++ cQuote :: [cNL] ++ b) in *.
  assert (H1 : lexed (bs "f") NameExpected (bs "/") (bs " {" ++ q)
    (mkToken OpenBrace (mkSpan (pos_after (bs "/ ")) (pos_after (bs "/ {"))) (bs "f") :: z)).
  { apply (lx_token (bs "f") NameExpected (bs "/") [cSpace] OpenBrace [cLBrace] q z); [exact G| |exact Hz].
    apply sp_punct; [intros [K|[K|[_ K]]]; revert K; not_class|cbn [In punctuation]; tauto]. }
  assert (H2 : lexed (bs "f") NameExpected [] (bs "/ {" ++ q) (mkToken Slash (mkSpan (pos_after []) (pos_after (bs "/"))) (bs "f")
    :: mkToken OpenBrace (mkSpan (pos_after (bs "/ ")) (pos_after (bs "/ {"))) (bs "f") :: z)).
  { apply (lx_token (bs "f") NameExpected [] [] Slash (bs "/") (bs " {" ++ q)); [apply gap_nil| |exact H1].
    apply sp_slash. intros x r K. injection K as <- _. not_class. }
  change (bs "/ {" ++ q) with (bs "/ { """ ++ [cNL] ++ b) in H2.
  assert (E : toks = mkToken Slash (mkSpan (pos_after []) (pos_after (bs "/"))) (bs "f")
    :: mkToken OpenBrace (mkSpan (pos_after (bs "/ ")) (pos_after (bs "/ {"))) (bs "f") :: z).
  { pose proof (valid_lines (bs "/ { """) b eq_refl Vb) as V.
    apply (proj2 (tokenize_iff _ _ _ V)) in Hl. apply (proj2 (tokenize_iff _ _ _ V)) in H2. congruence. }
  subst toks. clear - Hz0 Hd. apply quote_first in Hz0. inversion Hd as [|? p l' m ps n Hp1 Hf]; subst. apply zero_sum in H1. destruct H1 as [-> ->].
  inversion Hp1; subst; try discriminate. match goal with K : g_body z _ _ _ |- _ => apply body_closes, closes_first in K; rename K into Hc end.
  destruct Hz0 as [->|(s & t & r & -> & Ht)].
  - destruct Hc; discriminate.
  - assert (Hs : strip (t :: r) = (false, t :: r)) by (apply strip_thing; thing_tac). destruct Hc; same_strip.
Qed.
Print Assumptions C82_unsettled_refuted.

(** ** Cases *)
(** a text that breaks off in a value in the second of two nodes *)
Definition ex82 : str := bs "/dts-v1/; // v
/ { a = <1>; n@1 { b; }; l: m { c = [01 x: 02], /bits/ 8 <1 (2 + 3) &{/n@1} // d".
Example C82_case : valid_utf8 ex82 = true /\ ends_settled ex82 = true /\ breaks_off [] ex82 (bs "f")
  /\ reads_clean [] (ex82 ++ [cNL] ++ bs "> ; } ; } ;") (bs "f").
Proof.
  split; [reflexivity|]. split; [reflexivity|]. split; [do 2 eexists; split; [vm_compute; reflexivity|split; reflexivity]|].
  eexists _, _. split; [vm_compute; reflexivity|reflexivity].
Qed.
(** a property begun behind a node: reported only once its semicolon has been read, but it cannot be mended *)
Definition ex82m : str := bs "/ { n { }; p = <1".
Definition ex82toks : list token := match tokenize ex82m (bs "f") with Done l => l | _ => [] end.
Example C82_misplaced_case : valid_utf8 ex82m = true /\ ends_settled ex82m = true /\ breaks_off [] ex82m (bs "f")
  /\ lexed (bs "f") NameExpected [] ex82m ex82toks /\ misplaced_file [] ex82toks.
Proof.
  split; [reflexivity|]. split; [reflexivity|]. split; [do 2 eexists; split; [vm_compute; reflexivity|split; reflexivity]|].
  split; [apply (tokenize_iff ex82m (bs "f") _ eq_refl); vm_compute; reflexivity|].
  let l := eval vm_compute in ex82toks in change ex82toks with l. apply mf_root; [reflexivity|reflexivity|].
  eapply (mi_after false _ _ []).
  - change 0%nat with (0 + 0)%nat. eapply (gi_node false _ None _ None _ (bs "n") (mkNN (bs "n") None)); try apply go_none; try apply gl_none; try reflexivity.
    + apply nt_plain. cbn. intuition discriminate.
    + right. cbn [nn_name nn_addr]. split; [split; [discriminate|cbn; lia]|]. split; [constructor; [left; vm_compute; intuition discriminate|constructor]|].
      split; [eexists _, _; split; [reflexivity|left; vm_compute; intuition discriminate]|discriminate].
    + change 0%nat with (0 + 0)%nat. eapply gbo; try apply gi_nil; try apply go_none; try apply gl_none; [reflexivity|]. apply ge_semicolon. reflexivity.
    + apply gi_nil.
  - eapply (mi_property _ _ None _ None); [apply go_none|apply gl_none|reflexivity|reflexivity|left; reflexivity].
Qed.
