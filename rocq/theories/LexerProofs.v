(** The lexer against the lexical specification of LexSpec.v *)
From Verif Require Import Reader Lexer LexSpec ReaderProofs Utf8.
From Coq Require Import ZifyBool.

(** ** Character classes *)
Lemma is_alpha_spec c : is_alpha c = true <-> letter c.
Proof. unfold is_alpha, is_lower, is_upper, letter. lia. Qed.
Lemma is_digit_spec c : is_digit c = true <-> digit c.
Proof. unfold is_digit, digit. lia. Qed.
Lemma is_alnum_spec c : is_alnum c = true <-> letter c \/ digit c.
Proof. unfold is_alnum. rewrite orb_true_iff, is_alpha_spec, is_digit_spec. tauto. Qed.
Lemma is_label_char_spec c : is_label_char c = true <-> label_char c.
Proof.
  unfold is_label_char, label_char. rewrite !orb_true_iff, is_alpha_spec, is_digit_spec, N.eqb_eq.
  tauto.
Qed.
Lemma is_ident_char_spec c : is_ident_char c = true <-> name_char c.
Proof.
  unfold is_ident_char, name_char. cbn [In].
  rewrite !orb_true_iff, is_alpha_spec, is_digit_spec, !N.eqb_eq. unfold letter, digit. lia.
Qed.
Lemma is_ws_spec c : is_ws c = true <-> ws_char c.
Proof. unfold is_ws, ws_char. cbn [In]. rewrite !orb_true_iff, !N.eqb_eq. lia. Qed.

Definition mode_of (st : lexer_state) : mode :=
  match st with ExpectingNodeOrPropertyName => NameExpected | OtherState => Elsewhere end.

(** the test of lexer.rs:299-300 *)
Definition starts_name (st : lexer_state) (ch : N) : bool :=
  match st with ExpectingNodeOrPropertyName => is_name_start ch | OtherState => false end
  || (is_alpha ch || (ch =? cUnder)).
Lemma starts_name_spec st c : starts_name st c = true <-> name_start (mode_of st) c.
Proof.
  unfold starts_name, name_start. destruct st; cbn [mode_of].
  - unfold is_name_start. rewrite !orb_true_iff, is_alpha_spec, !N.eqb_eq. cbn [In].
    unfold letter. split; [|intros [H|[H|[_ H]]]; lia].
    intros H. destruct (N.eq_dec c cUnder) as [->|E]; [auto|].
    assert (letter c \/ In c [cComma; cDot; cPlus; cMinus; cHash; cQuest]) as [H1|H1]
      by (unfold letter; cbn [In]; lia); auto.
  - rewrite !orb_true_iff, is_alpha_spec, N.eqb_eq. split; [intros [H|H]; [discriminate|tauto]|].
    intros [H|[H|[H _]]]; [tauto|tauto|discriminate].
Qed.

(** ** Reading a run of bytes *)
Definition stops (P : N -> Prop) (rest : list N) : Prop := forall x r, rest = x :: r -> ~ P x.

Lemma read_while_exact cond v rest p :
  Forall (fun c => cond c = true) v -> (forall x r, rest = x :: r -> cond x = false) ->
  read_while_go cond (v ++ rest) p = (v, mkReader rest (adv p v)).
Proof.
  intros Hv Hr. revert p. induction Hv as [|c v Hc Hv IH]; intros p; cbn [app].
  - destruct rest as [|c r]; cbn [read_while_go]; [reflexivity|].
    rewrite (Hr c r eq_refl). reflexivity.
  - cbn [read_while_go]. rewrite Hc, IH. reflexivity.
Qed.

(** [read_while] for a condition that decides [P] *)
Lemma read_while_dec cond (P : N -> Prop) v rest p :
  (forall c, cond c = true <-> P c) -> Forall P v -> stops P rest ->
  read_while cond (mkReader (v ++ rest) p) = (v, mkReader rest (adv p v)).
Proof.
  intros Hd Hv Hr. unfold read_while. cbn [rd_rest rd_pos]. apply read_while_exact.
  - eapply Forall_impl; [|exact Hv]. intros a Ha. apply Hd, Ha.
  - intros x r Hx. destruct (cond x) eqn:E; [|reflexivity]. apply Hd in E.
    contradiction (Hr x r Hx).
Qed.

(** every text splits into a maximal run and the rest *)
Lemma run_split (P : N -> Prop) (dec : forall c, {P c} + {~ P c}) l :
  exists v rest, l = v ++ rest /\ Forall P v /\ stops P rest.
Proof.
  induction l as [|c l IH].
  - exists [], []. split; [reflexivity|]. split; [constructor|]. intros x r H. discriminate.
  - destruct (dec c) as [Hc|Hc].
    + destruct IH as (v & rest & -> & Hv & Hr). exists (c :: v), rest.
      split; [reflexivity|]. split; [constructor; assumption|exact Hr].
    + exists [], (c :: l). split; [reflexivity|]. split; [constructor|].
      intros x r H. injection H as -> _. exact Hc.
Qed.
Lemma run_until (d : N) l :
  (~ In d l) \/ exists v rest, l = v ++ d :: rest /\ ~ In d v.
Proof.
  induction l as [|c l IH]; [left; intros []|].
  destruct (N.eq_dec c d) as [->|E].
  - right. exists [], l. split; [reflexivity|intros []].
  - destruct IH as [H|(v & rest & -> & H)].
    + left. intros [H1|H1]; congruence || contradiction.
    + right. exists (c :: v), rest. split; [reflexivity|]. intros [H1|H1]; congruence || contradiction.
Qed.

Lemma dec_of (cond : N -> bool) (P : N -> Prop) :
  (forall c, cond c = true <-> P c) -> forall c, {P c} + {~ P c}.
Proof.
  intros H c. destruct (cond c) eqn:E; [left; apply H, E|right].
  intros HP. apply H in HP. congruence.
Qed.

Lemma neqb_spec (d c : N) : negb (c =? d) = true <-> c <> d.
Proof. rewrite negb_true_iff, N.eqb_neq. tauto. Qed.
Lemma not_in_forall (d : N) l : ~ In d l -> Forall (fun c => c <> d) l.
Proof. intros H. apply Forall_forall. intros x Hx ->. contradiction. Qed.

(** ASCII classes *)
Lemma letter_ascii c : letter c -> c < 128.
Proof. unfold letter. lia. Qed.
Lemma name_char_ascii c : name_char c -> c < 128.
Proof. unfold name_char, letter, digit. cbn [In]. lia. Qed.
Lemma alnum_ascii c : letter c \/ digit c -> c < 128.
Proof. unfold letter, digit. lia. Qed.
Lemma label_char_ascii c : label_char c -> c < 128.
Proof. unfold label_char, letter, digit. lia. Qed.
Lemma valid_class (P : N -> Prop) l : (forall c, P c -> c < 128) -> Forall P l -> valid_utf8 l = true.
Proof. intros H Hl. apply valid_ascii. eapply Forall_impl; [exact H|exact Hl]. Qed.
Lemma from_utf8_valid v : valid_utf8 v = true -> from_utf8 v = Done v.
Proof. intros H. unfold from_utf8. rewrite H. reflexivity. Qed.

(** ** Block comments *)
Lemma no_close_cons c b :
  no_close (c :: b) <-> no_close b /\ ~ (c = cStar /\ exists y, b = cSlash :: y).
Proof.
  unfold no_close. split.
  - intros H. split.
    + intros x y E. apply (H (c :: x) y). rewrite E. reflexivity.
    + intros [-> [y ->]]. apply (H [] y). reflexivity.
  - intros [H1 H2] x y E. destruct x as [|d x]; cbn [app] in E.
    + injection E as -> ->. apply H2. split; [reflexivity|]. exists y. reflexivity.
    + injection E as -> E. exact (H1 x y E).
Qed.
Lemma no_close_nil : no_close [].
Proof. intros x y H. destruct x; discriminate. Qed.

Lemma multi_line_step c d r p :
  multi_line_go (c :: d :: r) p =
  if (c =? cStar) && (d =? cSlash) then (Some [], mkReader r (advance (advance p c) d))
  else let '(buf, rd) := multi_line_go (d :: r) (advance p c) in (option_map (cons c) buf, rd).
Proof. reflexivity. Qed.

Lemma multi_line_exact b rest p : no_close b ->
  multi_line_go (b ++ [cStar; cSlash] ++ rest) p
  = (Some b, mkReader rest (adv p (b ++ [cStar; cSlash]))).
Proof.
  revert p. induction b as [|c b IH]; intros p H.
  - reflexivity.
  - apply no_close_cons in H. destruct H as [Hb Hc]. cbn [app].
    destruct (b ++ cStar :: cSlash :: rest) as [|d r] eqn:E; [destruct b; discriminate|].
    rewrite multi_line_step.
    destruct ((c =? cStar) && (d =? cSlash)) eqn:Et.
    + exfalso. apply Hc. apply andb_true_iff in Et. destruct Et as [E1 E2].
      apply N.eqb_eq in E1. apply N.eqb_eq in E2. subst c d. split; [reflexivity|].
      destruct b as [|e b]; cbn [app] in E; [discriminate|]. injection E as -> E.
      exists b. reflexivity.
    + rewrite <- E. change (cStar :: cSlash :: rest) with ([cStar; cSlash] ++ rest).
      rewrite IH by exact Hb. reflexivity.
Qed.
Lemma multi_line_none b p : no_close b -> multi_line_go b p = (None, mkReader [] (adv p b)).
Proof.
  revert p. induction b as [|c b IH]; intros p H; [reflexivity|].
  apply no_close_cons in H. destruct H as [Hb Hc]. destruct b as [|d r]; [reflexivity|].
  rewrite multi_line_step.
  destruct ((c =? cStar) && (d =? cSlash)) eqn:Et.
  - exfalso. apply Hc. apply andb_true_iff in Et. destruct Et as [E1 E2].
    apply N.eqb_eq in E1. apply N.eqb_eq in E2. subst c d. split; [reflexivity|].
    exists r. reflexivity.
  - rewrite IH by exact Hb. reflexivity.
Qed.
Lemma close_split l :
  no_close l \/ exists b rest, l = b ++ [cStar; cSlash] ++ rest /\ no_close b.
Proof.
  induction l as [|c l IH]; [left; apply no_close_nil|].
  destruct l as [|d l].
  - left. apply no_close_cons. split; [apply no_close_nil|]. intros [_ [y H]]. discriminate.
  - destruct (N.eq_dec c cStar) as [->|Ec].
    + destruct (N.eq_dec d cSlash) as [->|Ed].
      * right. exists [], l. split; [reflexivity|apply no_close_nil].
      * destruct IH as [H|(b & rest & E & H)].
        -- left. apply no_close_cons. split; [exact H|]. intros [_ [y Hy]]. congruence.
        -- right. exists (cStar :: b), rest. split; [rewrite E; reflexivity|].
           apply no_close_cons. split; [exact H|]. intros [_ [y ->]]. cbn [app] in E. congruence.
    + destruct IH as [H|(b & rest & E & H)].
      * left. apply no_close_cons. split; [exact H|]. intros [E' _]. congruence.
      * right. exists (c :: b), rest. split; [rewrite E; reflexivity|].
        apply no_close_cons. split; [exact H|]. intros [E' _]. congruence.
Qed.

(** ** String literals *)
Lemma string_exact b s rest p : string_body b s ->
  string_go (b ++ [cQuote] ++ rest) p false = (Some s, mkReader rest (adv p (b ++ [cQuote]))).
Proof.
  intros H. revert p. induction H as [|c b s Hq Hb H IH|c b s H IH]; intros p.
  - reflexivity.
  - cbn [app string_go]. apply N.eqb_neq in Hq. apply N.eqb_neq in Hb. rewrite Hq, Hb.
    change (b ++ cQuote :: rest) with (b ++ [cQuote] ++ rest). rewrite IH. reflexivity.
  - cbn [app string_go]. rewrite N.eqb_refl.
    change (b ++ cQuote :: rest) with (b ++ [cQuote] ++ rest).
    destruct (N.eqb_spec c cBackslash) as [->|E1].
    + rewrite IH. reflexivity.
    + destruct (N.eqb_spec c cQuote) as [->|E2]; rewrite IH; reflexivity.
Qed.
(** a string body may end in the middle of an escape *)
Lemma string_none b p esc :
  (forall u s v, b = u ++ [cQuote] ++ v ->
     match esc, u with
     | false, _ => ~ string_body u s
     | true, [] => True
     | true, c :: u' => ~ string_body u' s
     end) ->
  string_go b p esc = (None, mkReader [] (adv p b)).
Proof.
  revert p esc. induction b as [|c b IH]; intros p esc H; [reflexivity|].
  cbn [string_go].
  assert (Hesc : esc = true -> forall u s v, b = u ++ [cQuote] ++ v -> ~ string_body u s).
  { intros -> u s v E. apply (H (c :: u) s v). rewrite E. reflexivity. }
  destruct (N.eqb_spec c cBackslash) as [->|E1].
  - destruct esc.
    + rewrite IH; [reflexivity|]. exact (Hesc eq_refl).
    + rewrite IH; [reflexivity|]. intros u s v E. destruct u as [|d u]; [exact I|].
      intros Hb. apply (H (cBackslash :: d :: u) (encode_char d ++ s) v); [rewrite E; reflexivity|].
      apply sb_escaped, Hb.
  - destruct (N.eqb_spec c cQuote) as [->|E2].
    + destruct esc.
      * rewrite IH; [reflexivity|]. exact (Hesc eq_refl).
      * exfalso. apply (H [] [] b eq_refl). constructor.
    + destruct esc.
      * rewrite IH; [reflexivity|]. exact (Hesc eq_refl).
      * rewrite IH; [reflexivity|]. intros u s v E Hb.
        apply (H (c :: u) (encode_char c ++ s) v); [rewrite E; reflexivity|].
        apply sb_plain; assumption.
Qed.
Lemma string_split l : (forall u s v, l = u ++ [cQuote] ++ v -> ~ string_body u s)
  \/ exists u s v, l = u ++ [cQuote] ++ v /\ string_body u s.
Proof.
  assert (G : forall n l, (length l < n)%nat ->
    (forall u s v, l = u ++ [cQuote] ++ v -> ~ string_body u s)
    \/ exists u s v, l = u ++ [cQuote] ++ v /\ string_body u s).
  2:{ apply (G (S (length l))). lia. }
  clear l. induction n as [|n IH]; intros l Hl; [lia|].
  destruct l as [|c l]; [left; intros u s v H; destruct u; discriminate|].
  destruct (N.eq_dec c cQuote) as [->|Eq].
  { right. exists [], [], l. split; [reflexivity|constructor]. }
  destruct (N.eq_dec c cBackslash) as [->|Eb].
  - destruct l as [|d l].
    + left. intros u s v H. destruct u as [|a u]; [discriminate|].
      cbn [app] in H. inversion H as [[E1 E2]]. destruct u; discriminate.
    + destruct (IH l) as [H|(u & s & v & -> & H)]; [cbn in Hl; lia| |].
      * left. intros u s v E Hs. inversion Hs; subst; cbn [app] in E.
        -- discriminate.
        -- inversion E; subst. congruence.
        -- inversion E; subst. eapply H; [reflexivity|eassumption].
      * right. exists (cBackslash :: d :: u), (encode_char d ++ s), v.
        split; [reflexivity|]. apply sb_escaped, H.
  - destruct (IH l) as [H|(u & s & v & -> & H)]; [cbn in Hl; lia| |].
    + left. intros u s v E Hs. inversion Hs; subst; cbn [app] in E.
      * inversion E; subst. congruence.
      * inversion E; subst. eapply H; [reflexivity|eassumption].
      * inversion E; subst. congruence.
    + right. exists (c :: u), (encode_char c ++ s), v. split; [reflexivity|].
      apply sb_plain; assumption.
Qed.

(** ** Directives *)
Lemma directive_of_spec s d : directive_named s d -> directive_of s = d.
Proof.
  unfold directive_of, str_eqb. intros [H|[-> H]].
  - cbn [known_directives In] in H.
    repeat match type of H with
           | (_, _) = (_, _) \/ _ => destruct H as [H|H]; [injection H as <- <-; reflexivity|]
           end.
    destruct H.
  - repeat match goal with
           | |- context [str_eq_dec s ?n] =>
             destruct (str_eq_dec s n) as [E|_];
             [exfalso; subst s; eapply H; cbn [known_directives In]; eauto 12 | ]
           end.
    reflexivity.
Qed.
Lemma directive_named_total s : exists d, directive_named s d.
Proof.
  destruct (in_dec str_eq_dec s (map fst known_directives)) as [H|H].
  - apply in_map_iff in H. destruct H as [[s' d] [E H]]. cbn [fst] in E. subst s'.
    exists d. left. exact H.
  - exists (DirOther s). right. split; [reflexivity|]. intros d' Hd. apply H.
    apply in_map_iff. exists (s, d'). auto.
Qed.

(** ** One piece of a text: a token, a comment, or an unterminated construct *)
Inductive piece (m : mode) : option token_kind -> list N -> list N -> Prop :=
| pc_token k u rest : spells m k u rest -> piece m (Some k) u rest
| pc_line b rest : ~ In cNL b -> (forall x r, rest = x :: r -> x = cNL) ->
    piece m (Some (Comment b)) ([cSlash; cSlash] ++ b) rest
| pc_block b rest : no_close b ->
    piece m (Some (Comment b)) ([cSlash; cStar] ++ b ++ [cStar; cSlash]) rest
| pc_unterminated u : unterminated u -> piece m None u [].

Definition head_ws_or_end (l : list N) : Prop := l = [] \/ exists c r, l = c :: r /\ ~ ws_char c.

Lemma name_start_char m c : name_start m c -> name_char c.
Proof. unfold name_start, name_char. cbn [In]. intros [H|[H|[_ H]]]; [auto|right;right;lia|right;right;lia]. Qed.

Lemma first_not_ws m o u rest : piece m o u rest -> exists c u', u = c :: u' /\ ~ ws_char c.
Proof.
  intros H. destruct H as [k u rest H|b rest _ _|b rest _|u H].
  - destruct H; try (eexists; eexists; split; [reflexivity|]);
      repeat match goal with
             | H : name_start m ?c |- ~ ws_char ?c => apply name_start_char in H; revert H
             | H : digit ?c |- ~ ws_char ?c => revert H
             | H : In (?c, _) punctuation |- ~ ws_char ?c => revert H
             end;
      unfold ws_char, name_char, letter, digit, punctuation in *; cbn [In] in *; try lia.
    intros H1. repeat (destruct H1 as [H1|H1]; [injection H1 as <- <-; lia|]). destruct H1.
  - eexists; eexists; split; [reflexivity|]. unfold ws_char. cbn [In]. lia.
  - eexists; eexists; split; [reflexivity|]. unfold ws_char. cbn [In]. lia.
  - destruct H; (eexists; eexists; split; [reflexivity|]); unfold ws_char; cbn [In]; lia.
Qed.

(** ** The lexer computes the piece *)
Definition tok_of (src : fpath) (p q : position) (k : token_kind) : token :=
  mkToken k (mkSpan p q) src.

Ltac neq_char := repeat match goal with
  | |- context [?a =? ?b] => let E := fresh in destruct (N.eqb_spec a b) as [E|E]; [exfalso|]
  end.

(** selecting the branch of [lex_token] *)
Lemma lex_token_name c st src p r : name_start (mode_of st) c ->
  lex_token c st src p r = ident_or_label src p r.
Proof.
  intros H. apply starts_name_spec in H. unfold starts_name in H. unfold lex_token.
  destruct (match st with ExpectingNodeOrPropertyName => is_name_start c | OtherState => false end);
    [reflexivity|]. cbn [orb] in H. rewrite H. reflexivity.
Qed.
Lemma lex_token_other c st src p r : ~ name_start (mode_of st) c ->
  lex_token c st src p r =
  (if is_digit c then lex_number src p r
  else if c =? cAmp then path_or_reference src p (rd_skip r)
  else if c =? cQuote then lex_string src p (rd_skip r)
  else if c =? cSlash then lex_slash src p r
  else if c =? cSemi then simple_token Semicolon src p r
  else if c =? cEq then simple_token Equal src p r
  else if c =? cLBracket then simple_token OpenBracket src p r
  else if c =? cRBracket then simple_token CloseBracket src p r
  else if c =? cLPar then simple_token OpenParen src p r
  else if c =? cRPar then simple_token CloseParen src p r
  else if c =? cLBrace then simple_token OpenBrace src p r
  else if c =? cRBrace then simple_token CloseBrace src p r
  else if c =? cLt then simple_token ChevronLeft src p r
  else if c =? cGt then simple_token ChevronRight src p r
  else if c =? cComma then simple_token Comma src p r
  else simple_token (Unknown c) src p r).
Proof.
  intros H. rewrite <- starts_name_spec in H. unfold starts_name in H. unfold lex_token.
  destruct (match st with ExpectingNodeOrPropertyName => is_name_start c | OtherState => false end);
    [exfalso; apply H; reflexivity|]. cbn [orb] in H.
  destruct (is_alpha c || (c =? cUnder)); [exfalso; apply H; reflexivity|]. reflexivity.
Qed.

Lemma not_name_start_fixed m c : In c [cAmp; cQuote; cSlash] -> ~ name_start m c.
Proof. unfold name_start, letter. cbn [In]. lia. Qed.
Lemma not_name_start_digit m c : digit c -> ~ name_start m c.
Proof. unfold name_start, letter, digit. cbn [In]. lia. Qed.

Lemma is_digit_false c : ~ digit c -> is_digit c = false.
Proof. intros H. destruct (is_digit c) eqn:E; [|reflexivity]. apply is_digit_spec in E. contradiction. Qed.
Lemma is_alpha_false c : ~ letter c -> is_alpha c = false.
Proof. intros H. destruct (is_alpha c) eqn:E; [|reflexivity]. apply is_alpha_spec in E. contradiction. Qed.

(** rd_skip of a reader that is not at the end *)
Lemma rd_skip_cons c r p : rd_skip (mkReader (c :: r) p) = mkReader r (advance p c).
Proof. reflexivity. Qed.
Lemma rd_skip_nil p : rd_skip (mkReader [] p) = mkReader [] p.
Proof. reflexivity. Qed.
Lemma rd_peek_cons c r p : rd_peek (mkReader (c :: r) p) = Some c.
Proof. reflexivity. Qed.

Lemma adv_cons p c l : adv p (c :: l) = adv (advance p c) l.
Proof. reflexivity. Qed.

Lemma lex_token_piece st src p o u rest pre :
  piece (mode_of st) o u rest -> valid_utf8 (pre ++ u ++ rest) = true ->
  exists c u', u = c :: u' /\ ~ ws_char c
  /\ lex_token c st src p (mkReader (u ++ rest) p)
     = Done (option_map (tok_of src p (adv p u)) o, mkReader rest (adv p u))
  /\ mode_of (state_after c st)
     = match o with Some k => mode_after k (mode_of st) | None => mode_of st end.
Proof.
  intros Hp Hv. destruct (first_not_ws _ _ _ _ Hp) as (c & u' & Eu & Hw).
  exists c, u'. split; [exact Eu|]. split; [exact Hw|].
  assert (Hst : ~ In c [cSemi; cEq; cLBrace] -> mode_of (state_after c st) = mode_of st).
  { intros H. cbn [In] in H. unfold state_after. neq_char; lia || reflexivity. }
  destruct Hp as [k u rest H|b rest H1 H2|b rest H|u H].
  - (* tokens *)
    destruct H as [c0 s rest Hs Hn Hr|c0 s a rest Hs Hn Ha Hr|c0 s rest Hs Hn|c0 s rest Hd Hn Hr
      |c0 s rest Hl Hn Hr|x r Hx1 Hx2|q rest Hq|b s rest Hb|rest Hr|c0 s d rest Hl Hs Hd
      |c0 s d Hl Hs Hd|c0 k rest Hn Hin|c0 rest Hw' Hn Hd Hf Hp].
    all: cbn [app] in Eu; injection Eu as <- <-.
    + (* name *)
      split.
      * rewrite lex_token_name by exact Hs. unfold ident_or_label.
        rewrite (read_while_dec _ name_char) ;
          [|exact is_ident_char_spec|exact Hn|intros x r E; apply (Hr x r E)].
        rewrite (from_utf8_valid (c0 :: s)) by exact (valid_class _ _ name_char_ascii Hn).
        unfold rd_peek. cbn [rd_rest obind]. destruct rest as [|x r]; [reflexivity|].
        destruct (Hr x r eq_refl) as (_ & H1 & H2).
        apply N.eqb_neq in H1. apply N.eqb_neq in H2. rewrite H1, H2. reflexivity.
      * cbn [mode_after]. apply Hst. cbn [In]. apply name_start_char in Hs. revert Hs.
        unfold name_char, letter, digit. cbn [In]. lia.
    + (* name with unit address *)
      split.
      * rewrite lex_token_name by exact Hs. unfold ident_or_label.
        rewrite <- !app_assoc.
        rewrite (read_while_dec _ name_char);
          [|exact is_ident_char_spec|exact Hn|intros x r E; injection E as <- _].
        2:{ unfold name_char, letter, digit. cbn [In]. lia. }
        cbn [app]. rewrite rd_peek_cons, rd_skip_cons.
        replace (cAt =? cColon) with false by reflexivity.
        replace (cAt =? cAt) with true by reflexivity.
        rewrite (read_while_dec _ name_char); [|exact is_ident_char_spec|exact Ha|exact Hr].
        rewrite from_utf8_valid.
        2:{ cbn [app]. rewrite app_comm_cons. apply valid_ascii. apply Forall_app. split.
            - eapply Forall_impl; [exact name_char_ascii|exact Hn].
            - constructor; [lia|]. eapply Forall_impl; [exact name_char_ascii|exact Ha]. }
        cbn [obind option_map]. unfold tok_of, pos_to.
        assert (E : forall p, adv (advance (adv p (c0 :: s)) cAt) a = adv p (c0 :: s ++ cAt :: a)).
        { intros q. change (c0 :: s ++ cAt :: a) with ((c0 :: s) ++ cAt :: a).
          rewrite (adv_app q (c0 :: s)). reflexivity. }
        cbn [rd_pos]. rewrite E. reflexivity.
      * cbn [mode_after app]. apply Hst. cbn [In]. apply name_start_char in Hs. revert Hs.
        unfold name_char, letter, digit. cbn [In]. lia.
    + (* label *)
      split.
      * rewrite lex_token_name by exact Hs. unfold ident_or_label.
        rewrite <- !app_assoc.
        rewrite (read_while_dec _ name_char);
          [|exact is_ident_char_spec|exact Hn|intros x r E; injection E as <- _].
        2:{ unfold name_char, letter, digit. cbn [In]. lia. }
        cbn [app]. rewrite rd_peek_cons, rd_skip_cons.
        replace (cColon =? cColon) with true by reflexivity.
        rewrite (from_utf8_valid (c0 :: s)) by exact (valid_class _ _ name_char_ascii Hn).
        cbn [obind option_map rd_pos]. unfold tok_of, pos_to.
        change (c0 :: s ++ [cColon]) with ((c0 :: s) ++ [cColon]).
        rewrite (adv_app p (c0 :: s)). reflexivity.
      * cbn [mode_after app]. apply Hst. cbn [In]. apply name_start_char in Hs. revert Hs.
        unfold name_char, letter, digit. cbn [In]. lia.
    + (* number *)
      split.
      * rewrite lex_token_other by exact (not_name_start_digit _ _ Hd).
        rewrite (proj2 (is_digit_spec c0) Hd). unfold lex_number.
        rewrite (read_while_dec _ (fun x => letter x \/ digit x));
          [|exact is_alnum_spec|exact Hn|exact Hr].
        rewrite (from_utf8_valid (c0 :: s)) by exact (valid_class _ _ alnum_ascii Hn). reflexivity.
      * cbn [mode_after]. apply Hst. cbn [In]. unfold digit in Hd. lia.
    + (* reference *)
      split.
      * rewrite lex_token_other by (apply not_name_start_fixed; cbn [In]; auto).
        replace (is_digit cAmp) with false by reflexivity.
        replace (cAmp =? cAmp) with true by reflexivity.
        cbn [app]. rewrite rd_skip_cons. unfold path_or_reference. rewrite rd_peek_cons.
        rewrite (proj2 (is_alpha_spec c0) Hl).
        destruct (N.eqb_spec c0 cLBrace) as [E|_]; [unfold letter in Hl; lia|].
        rewrite app_comm_cons.
        rewrite (read_while_dec _ label_char); [|exact is_label_char_spec|exact Hn|exact Hr].
        rewrite (from_utf8_valid (c0 :: s)) by exact (valid_class _ _ label_char_ascii Hn).
        reflexivity.
      * cbn [mode_after]. apply Hst. cbn [In]. lia.
    + (* empty reference *)
      split.
      * rewrite lex_token_other by (apply not_name_start_fixed; cbn [In]; auto).
        replace (is_digit cAmp) with false by reflexivity.
        replace (cAmp =? cAmp) with true by reflexivity.
        cbn [app]. rewrite rd_skip_cons. unfold path_or_reference. rewrite rd_peek_cons.
        rewrite (is_alpha_false x Hx1). apply N.eqb_neq in Hx2. rewrite Hx2. reflexivity.
      * cbn [mode_after]. apply Hst. cbn [In]. lia.
    + (* path *)
      split.
      * rewrite lex_token_other by (apply not_name_start_fixed; cbn [In]; auto).
        replace (is_digit cAmp) with false by reflexivity.
        replace (cAmp =? cAmp) with true by reflexivity.
        cbn [app]. rewrite rd_skip_cons. unfold path_or_reference. rewrite rd_peek_cons.
        replace (cLBrace =? cLBrace) with true by reflexivity.
        rewrite rd_skip_cons, <- app_assoc.
        rewrite (read_while_dec _ (fun x => x <> cRBrace));
          [|intros; apply neqb_spec|apply not_in_forall, Hq|intros x r E; cbn [app] in E; injection E; auto].
        cbn [app rd_consume rd_rest]. rewrite from_utf8_valid.
        2:{ apply (valid_segment (pre ++ [cAmp]) cLBrace q (cRBrace :: rest)).
            - lia.
            - cbn [app] in Hv. rewrite <- app_assoc in Hv. rewrite <- app_assoc. exact Hv.
            - right. exists cRBrace, rest. split; [reflexivity|lia]. }
        cbn [obind option_map rd_pos]. unfold tok_of, pos_to. rewrite !adv_cons, adv_app.
        reflexivity.
      * cbn [mode_after app]. apply Hst. cbn [In]. lia.
    + (* string *)
      split.
      * rewrite lex_token_other by (apply not_name_start_fixed; cbn [In]; auto).
        replace (is_digit cQuote) with false by reflexivity.
        replace (cQuote =? cAmp) with false by reflexivity.
        replace (cQuote =? cQuote) with true by reflexivity.
        cbn [app]. rewrite rd_skip_cons, <- app_assoc. unfold lex_string. cbn [rd_rest rd_pos].
        rewrite (string_exact b s rest _ Hb). reflexivity.
      * cbn [mode_after app]. apply Hst. cbn [In]. lia.
    + (* slash *)
      split.
      * rewrite lex_token_other by (apply not_name_start_fixed; cbn [In]; auto).
        replace (is_digit cSlash) with false by reflexivity.
        replace (cSlash =? cAmp) with false by reflexivity.
        replace (cSlash =? cQuote) with false by reflexivity.
        replace (cSlash =? cSlash) with true by reflexivity.
        unfold lex_slash. cbn [app]. rewrite rd_skip_cons. unfold rd_peek. cbn [rd_rest].
        destruct rest as [|x r]; [reflexivity|].
        destruct (Hr x r eq_refl) as (H1 & H2 & H3).
        apply N.eqb_neq in H1. apply N.eqb_neq in H2. rewrite H1, H2, (is_alpha_false x H3).
        reflexivity.
      * cbn [mode_after]. apply Hst. cbn [In]. lia.
    + (* directive *)
      split.
      * rewrite lex_token_other by (apply not_name_start_fixed; cbn [In]; auto).
        replace (is_digit cSlash) with false by reflexivity.
        replace (cSlash =? cAmp) with false by reflexivity.
        replace (cSlash =? cQuote) with false by reflexivity.
        replace (cSlash =? cSlash) with true by reflexivity.
        unfold lex_slash. cbn [app]. rewrite rd_skip_cons, rd_peek_cons.
        destruct (N.eqb_spec c0 cSlash) as [E|_]; [unfold letter in Hl; lia|].
        destruct (N.eqb_spec c0 cStar) as [E|_]; [unfold letter in Hl; lia|].
        rewrite (proj2 (is_alpha_spec c0) Hl). unfold compiler_directive.
        rewrite <- app_assoc, app_comm_cons.
        rewrite (read_while_dec _ (fun x => x <> cSlash));
          [|intros; apply neqb_spec|apply not_in_forall, Hs|intros x r E; cbn [app] in E; injection E; auto].
        cbn [app]. rewrite rd_skip_cons. rewrite (from_utf8_valid (c0 :: s)).
        2:{ apply (valid_segment pre cSlash (c0 :: s) (cSlash :: rest)).
            - lia.
            - cbn [app] in Hv. rewrite <- app_assoc in Hv. exact Hv.
            - right. exists cSlash, rest. split; [reflexivity|lia]. }
        cbn [obind option_map rd_pos]. rewrite (directive_of_spec _ _ Hd).
        unfold tok_of, pos_to. rewrite !adv_cons, adv_app. reflexivity.
      * cbn [mode_after app]. apply Hst. cbn [In]. lia.
    + (* directive at the end of the text *)
      split.
      * rewrite lex_token_other by (apply not_name_start_fixed; cbn [In]; auto).
        replace (is_digit cSlash) with false by reflexivity.
        replace (cSlash =? cAmp) with false by reflexivity.
        replace (cSlash =? cQuote) with false by reflexivity.
        replace (cSlash =? cSlash) with true by reflexivity.
        unfold lex_slash. cbn [app]. rewrite rd_skip_cons, rd_peek_cons.
        destruct (N.eqb_spec c0 cSlash) as [E|_]; [unfold letter in Hl; lia|].
        destruct (N.eqb_spec c0 cStar) as [E|_]; [unfold letter in Hl; lia|].
        rewrite (proj2 (is_alpha_spec c0) Hl). unfold compiler_directive.
        rewrite app_comm_cons.
        rewrite (read_while_dec _ (fun x => x <> cSlash));
          [|intros; apply neqb_spec|apply not_in_forall, Hs|intros x r E; discriminate].
        rewrite rd_skip_nil. rewrite (from_utf8_valid (c0 :: s)).
        2:{ apply (valid_segment pre cSlash (c0 :: s) []); [lia|exact Hv|left; reflexivity]. }
        cbn [obind option_map rd_pos]. rewrite (directive_of_spec _ _ Hd). reflexivity.
      * cbn [mode_after app]. apply Hst. cbn [In]. lia.
    + (* punctuation *)
      rewrite lex_token_other by exact Hn.
      cbn [punctuation In] in Hin.
      repeat (destruct Hin as [Hin|Hin]; [injection Hin as <- <-; split; [reflexivity|]; destruct st; reflexivity|]).
      destruct Hin.
    + (* unknown *)
      rewrite lex_token_other by exact Hn. rewrite (is_digit_false c0 Hd). cbn [In] in Hf.
      assert (Hk : forall a k, c0 = a -> In (a, k) punctuation -> False).
      { intros a k -> Hin. exact (Hp k Hin). }
      split.
      * neq_char; try lia;
          try (eapply Hk; [eassumption|cbn [punctuation In]; eauto 13]; fail).
        reflexivity.
      * cbn [mode_after]. apply Hst. cbn [In]. intros Hc.
        repeat (destruct Hc as [Hc|Hc]; [eapply (Hk c0); [reflexivity|rewrite <- Hc; cbn [punctuation In]; eauto 13]|]).
        destruct Hc.
  - (* line comment *)
    cbn [app] in Eu. injection Eu as <- <-. split.
    + rewrite lex_token_other by (apply not_name_start_fixed; cbn [In]; auto).
      replace (is_digit cSlash) with false by reflexivity.
      replace (cSlash =? cAmp) with false by reflexivity.
      replace (cSlash =? cQuote) with false by reflexivity.
      replace (cSlash =? cSlash) with true by reflexivity.
      unfold lex_slash. cbn [app]. rewrite rd_skip_cons, rd_peek_cons.
      replace (cSlash =? cSlash) with true by reflexivity.
      rewrite rd_skip_cons. unfold line_comment.
      rewrite (read_while_dec _ (fun x => x <> cNL));
        [|intros; apply neqb_spec|apply not_in_forall, H1|intros x r E; rewrite (H2 x r E); auto].
      rewrite from_utf8_valid; [reflexivity|].
      apply (valid_segment (pre ++ [cSlash]) cSlash b rest).
      * lia.
      * rewrite <- app_assoc. exact Hv.
      * destruct rest as [|x r]; [left; reflexivity|]. right. exists x, r.
        split; [reflexivity|]. rewrite (H2 x r eq_refl). lia.
    + cbn [mode_after]. apply Hst. cbn [In]. lia.
  - (* block comment *)
    cbn [app] in Eu. injection Eu as <- <-. split.
    + rewrite lex_token_other by (apply not_name_start_fixed; cbn [In]; auto).
      replace (is_digit cSlash) with false by reflexivity.
      replace (cSlash =? cAmp) with false by reflexivity.
      replace (cSlash =? cQuote) with false by reflexivity.
      replace (cSlash =? cSlash) with true by reflexivity.
      unfold lex_slash. cbn [app]. rewrite rd_skip_cons, rd_peek_cons.
      replace (cStar =? cSlash) with false by reflexivity.
      replace (cStar =? cStar) with true by reflexivity.
      rewrite rd_skip_cons. unfold multi_line_comment. cbn [rd_rest rd_pos].
      rewrite <- app_assoc, multi_line_exact by exact H.
      rewrite from_utf8_valid; [reflexivity|].
      apply (valid_segment (pre ++ [cSlash]) cStar b ([cStar; cSlash] ++ rest)).
      * lia.
      * cbn [app] in Hv. rewrite <- app_assoc in Hv. rewrite <- app_assoc. exact Hv.
      * right. exists cStar, (cSlash :: rest). split; [reflexivity|lia].
    + cbn [mode_after]. apply Hst. cbn [In]. lia.
  - (* unterminated *)
    destruct H as [|q Hq|b Hb|b Hb]; cbn [app] in Eu; injection Eu as <- <-;
      (split; [|apply Hst; cbn [In]; lia]);
      rewrite lex_token_other by (apply not_name_start_fixed; cbn [In]; auto).
    + reflexivity.
    + replace (is_digit cAmp) with false by reflexivity.
      replace (cAmp =? cAmp) with true by reflexivity.
      cbn [app]. rewrite rd_skip_cons. unfold path_or_reference. rewrite rd_peek_cons.
      replace (cLBrace =? cLBrace) with true by reflexivity.
      rewrite rd_skip_cons.
      rewrite (read_while_dec _ (fun x => x <> cRBrace));
        [|intros; apply neqb_spec|apply not_in_forall, Hq|intros x r E; discriminate].
      reflexivity.
    + replace (is_digit cQuote) with false by reflexivity.
      replace (cQuote =? cAmp) with false by reflexivity.
      replace (cQuote =? cQuote) with true by reflexivity.
      cbn [app]. rewrite rd_skip_cons, app_nil_r. unfold lex_string. cbn [rd_rest rd_pos].
      rewrite (string_none b _ false Hb). reflexivity.
    + replace (is_digit cSlash) with false by reflexivity.
      replace (cSlash =? cAmp) with false by reflexivity.
      replace (cSlash =? cQuote) with false by reflexivity.
      replace (cSlash =? cSlash) with true by reflexivity.
      unfold lex_slash. cbn [app]. rewrite rd_skip_cons, rd_peek_cons.
      replace (cStar =? cSlash) with false by reflexivity.
      replace (cStar =? cStar) with true by reflexivity.
      rewrite rd_skip_cons, app_nil_r. unfold multi_line_comment. cbn [rd_rest rd_pos].
      rewrite multi_line_none by exact Hb. reflexivity.
Qed.
