(** From pieces to tokens: [tokenize] computes exactly the relation [lexed] of LexSpec.v *)
From Verif Require Import Reader Lexer LexSpec ReaderProofs Utf8 LexerProofs.
From Coq Require Import ZifyBool.

(** ** Every text that does not start with white space starts with a piece *)
Lemma name_start_dec m c : {name_start m c} + {~ name_start m c}.
Proof.
  destruct m.
  - apply (dec_of (starts_name ExpectingNodeOrPropertyName)).
    intros x. apply (starts_name_spec ExpectingNodeOrPropertyName).
  - apply (dec_of (starts_name OtherState)). intros x. apply (starts_name_spec OtherState).
Qed.
Definition name_char_dec := dec_of _ _ is_ident_char_spec.
Definition alnum_dec := dec_of _ _ is_alnum_spec.
Definition label_char_dec := dec_of _ _ is_label_char_spec.
Definition letter_dec := dec_of _ _ is_alpha_spec.
Definition digit_dec := dec_of _ _ is_digit_spec.
Definition ws_dec := dec_of _ _ is_ws_spec.

Lemma punct_total c : {k | In (c, k) punctuation} + {forall k, ~ In (c, k) punctuation}.
Proof.
  destruct (find (fun x => fst x =? c) punctuation) as [[a k]|] eqn:E.
  - left. exists k. apply find_some in E. destruct E as [H1 H2]. apply N.eqb_eq in H2.
    cbn [fst] in H2. subst a. exact H1.
  - right. intros k H. apply (find_none _ _ E) in H. cbn [fst] in H.
    rewrite N.eqb_refl in H. discriminate.
Qed.

Lemma piece_total m c t : ~ ws_char c ->
  exists o u rest, c :: t = u ++ rest /\ piece m o u rest.
Proof.
  intros Hw. destruct (name_start_dec m c) as [Hn|Hn].
  { destruct (run_split name_char name_char_dec (c :: t)) as (v & rest & E & Hv & Hr).
    destruct v as [|c' v].
    { cbn [app] in E. exfalso. apply (Hr c t); [symmetry; exact E|]. apply (name_start_char m), Hn. }
    cbn [app] in E. injection E as <- ->.
    destruct rest as [|x r].
    { exists (Some (Ident (c :: v))), (c :: v), []. split; [reflexivity|]. apply pc_token, sp_name; auto.
      intros x r H. discriminate. }
    destruct (N.eq_dec x cColon) as [->|E1].
    { exists (Some (Label (c :: v))), ((c :: v) ++ [cColon]), r. split.
      - rewrite <- app_assoc. reflexivity.
      - apply pc_token, sp_label; auto. }
    destruct (N.eq_dec x cAt) as [->|E2].
    { destruct (run_split name_char name_char_dec r) as (a & rest & -> & Ha & Hr2).
      exists (Some (Ident ((c :: v) ++ [cAt] ++ a))), ((c :: v) ++ [cAt] ++ a), rest. split.
      - rewrite <- !app_assoc. reflexivity.
      - apply pc_token, sp_name_at; auto. }
    exists (Some (Ident (c :: v))), (c :: v), (x :: r). split; [reflexivity|].
    apply pc_token, sp_name; auto. intros y q H. injection H as <- <-. split; [|auto].
    apply (Hr x r eq_refl). }
  destruct (digit_dec c) as [Hd|Hd].
  { destruct (run_split _ alnum_dec t) as (v & rest & -> & Hv & Hr).
    exists (Some (UnparsedNumber (c :: v))), (c :: v), rest. split; [reflexivity|].
    apply pc_token, sp_number; auto. }
  destruct (N.eq_dec c cAmp) as [->|E1].
  { destruct t as [|x r].
    { exists None, [cAmp], []. split; [reflexivity|]. apply pc_unterminated, ut_amp. }
    destruct (N.eq_dec x cLBrace) as [->|E2].
    { destruct (run_until cRBrace r) as [H|(v & rest & -> & H)].
      - exists None, ([cAmp; cLBrace] ++ r), []. split; [rewrite app_nil_r; reflexivity|].
        apply pc_unterminated, ut_path, H.
      - exists (Some (Ref (TRefPath v))), ([cAmp; cLBrace] ++ v ++ [cRBrace]), rest. split.
        + rewrite <- !app_assoc. reflexivity.
        + apply pc_token, sp_ref_path, H. }
    destruct (letter_dec x) as [Hl|Hl].
    { destruct (run_split _ label_char_dec r) as (v & rest & -> & Hv & Hr).
      exists (Some (Ref (TRefSimple (x :: v)))), (cAmp :: x :: v), rest. split; [reflexivity|].
      apply pc_token, sp_ref; auto. constructor; [left; exact Hl|exact Hv]. }
    exists (Some (Ref (TRefSimple []))), [cAmp], (x :: r). split; [reflexivity|].
    apply pc_token, sp_ref_empty; auto. }
  destruct (N.eq_dec c cQuote) as [->|E2].
  { destruct (string_split t) as [H|(u & s & v & -> & H)].
    - exists None, (cQuote :: t), []. split; [rewrite app_nil_r; reflexivity|].
      apply pc_unterminated, ut_string, H.
    - exists (Some (TString s)), ([cQuote] ++ u ++ [cQuote]), v. split.
      + rewrite <- !app_assoc. reflexivity.
      + apply pc_token, sp_string, H. }
  destruct (N.eq_dec c cSlash) as [->|E3].
  { destruct t as [|x r].
    { exists (Some Slash), [cSlash], []. split; [reflexivity|]. apply pc_token, sp_slash.
      intros x r H. discriminate. }
    destruct (N.eq_dec x cSlash) as [->|E4].
    { destruct (run_until cNL r) as [H|(v & rest & -> & H)].
      - exists (Some (Comment r)), ([cSlash; cSlash] ++ r), []. split; [rewrite app_nil_r; reflexivity|].
        apply pc_line; [exact H|]. intros y q E. discriminate.
      - exists (Some (Comment v)), ([cSlash; cSlash] ++ v), (cNL :: rest). split; [reflexivity|].
        apply pc_line; [exact H|]. intros y q E. injection E as <- _. reflexivity. }
    destruct (N.eq_dec x cStar) as [->|E5].
    { destruct (close_split r) as [H|(b & rest & -> & H)].
      - exists None, ([cSlash; cStar] ++ r), []. split; [rewrite app_nil_r; reflexivity|].
        apply pc_unterminated, ut_block, H.
      - exists (Some (Comment b)), ([cSlash; cStar] ++ b ++ [cStar; cSlash]), rest. split.
        + rewrite <- !app_assoc. reflexivity.
        + apply pc_block, H. }
    destruct (letter_dec x) as [Hl|Hl].
    { destruct (run_until cSlash r) as [H|(v & rest & -> & H)].
      - destruct (directive_named_total (x :: r)) as [d Hd'].
        exists (Some (Directive d)), ([cSlash] ++ (x :: r)), []. split; [rewrite app_nil_r; reflexivity|].
        apply pc_token, sp_directive_eof; auto. intros [E|E]; congruence || contradiction.
      - destruct (directive_named_total (x :: v)) as [d Hd'].
        exists (Some (Directive d)), ([cSlash] ++ (x :: v) ++ [cSlash]), rest. split.
        + rewrite <- !app_assoc. reflexivity.
        + apply pc_token, sp_directive; auto. intros [E|E]; congruence || contradiction. }
    exists (Some Slash), [cSlash], (x :: r). split; [reflexivity|]. apply pc_token, sp_slash.
    intros y q E. injection E as <- _. auto. }
  destruct (punct_total c) as [[k Hk]|Hk].
  - exists (Some k), [c], t. split; [reflexivity|]. apply pc_token, sp_punct; auto.
  - exists (Some (Unknown c)), [c], t. split; [reflexivity|]. apply pc_token, sp_unknown; auto.
    cbn [In]. lia.
Qed.

(** ** [consume] *)
Definition set_last (p : position) (lx : lexer) : lexer :=
  mkLexer (lx_rd lx) (lx_src lx) (lx_state lx) p.

Lemma skip_ws_cons c t p : ws_char c ->
  skip_whitespace (mkReader (c :: t) p) = skip_whitespace (mkReader t (advance p c)).
Proof.
  intros H. apply is_ws_spec in H. unfold skip_whitespace, read_while. cbn [rd_rest rd_pos read_while_go].
  rewrite H. destruct (read_while_go is_ws t (advance p c)). reflexivity.
Qed.
Lemma skip_ws_id t p : stops ws_char t -> skip_whitespace (mkReader t p) = mkReader t p.
Proof.
  intros H. unfold skip_whitespace.
  pose proof (read_while_dec is_ws ws_char [] t p is_ws_spec (Forall_nil _) H) as E.
  cbn [app] in E. rewrite E. reflexivity.
Qed.

(** leading white space only changes [last] *)
Lemma lex_consume_ws c t p src st l l' : ws_char c ->
  lex_consume (mkLexer (mkReader (c :: t) p) src st l)
  = obind (lex_consume (mkLexer (mkReader t (advance p c)) src st l'))
      (fun '(o, lx) => Done (o, set_last p lx)).
Proof.
  intros H. unfold lex_consume. cbn [lx_rd lx_src lx_state rd_pos]. rewrite (skip_ws_cons _ _ _ H).
  destruct (rd_peek (skip_whitespace (mkReader t (advance p c)))) as [ch|]; [|reflexivity].
  destruct (lex_token _ _ _ _ _) as [[o r2]| |]; reflexivity.
Qed.

Lemma lex_consume_end p src st l :
  lex_consume (mkLexer (mkReader [] p) src st l) = Done (None, mkLexer (mkReader [] p) src st p).
Proof. reflexivity. Qed.

Lemma lex_consume_piece p src st l o u rest pre :
  piece (mode_of st) o u rest -> valid_utf8 (pre ++ u ++ rest) = true ->
  exists st', lex_consume (mkLexer (mkReader (u ++ rest) p) src st l)
     = Done (option_map (tok_of src p (adv p u)) o, mkLexer (mkReader rest (adv p u)) src st' p)
  /\ mode_of st' = match o with Some k => mode_after k (mode_of st) | None => mode_of st end.
Proof.
  intros Hp Hv.
  destruct (lex_token_piece st src p o u rest pre Hp Hv) as (c & u' & -> & Hw & Ht & Hst).
  exists (state_after c st). split; [|exact Hst]. unfold lex_consume.
  cbn [lx_rd lx_src lx_state rd_pos]. rewrite skip_ws_id.
  - cbn [app]. rewrite rd_peek_cons. cbn [rd_pos]. cbn [app] in Ht. rewrite Ht. reflexivity.
  - intros x r E. injection E as <- _. exact Hw.
Qed.

(** ** [next] *)
Inductive next_at (m : mode) : list N -> option (list N * token_kind * list N * list N) -> Prop :=
| na_token g k u rest : gap g -> spells m k u rest ->
    next_at m (g ++ u ++ rest) (Some (g, k, u, rest))
| na_end t : end_gap t -> next_at m t None
| na_unterminated g u : gap g -> unterminated u -> next_at m (g ++ u) None.

Lemma gap_app a b : gap a -> gap b -> gap (a ++ b).
Proof.
  intros Ha Hb. induction Ha as [|c g Hc Hg IH|x g Hx Hg IH|x g Hx Hg IH]; cbn [app].
  - exact Hb.
  - constructor; assumption.
  - rewrite <- app_assoc. cbn [app].
    apply (gap_line x (g ++ b)); assumption.
  - rewrite <- app_assoc. cbn [app]. apply (gap_block x (g ++ b)); assumption.
Qed.
Lemma end_gap_app a b : gap a -> end_gap b -> end_gap (a ++ b).
Proof.
  intros Ha [Hb|(g & c & Hg & Hc & ->)].
  - left. apply gap_app; assumption.
  - right. exists (a ++ g), c. split; [apply gap_app; assumption|]. split; [exact Hc|].
    rewrite <- app_assoc. reflexivity.
Qed.
Lemma next_at_gap m a t o : gap a -> next_at m t o ->
  next_at m (a ++ t) (match o with Some (g, k, u, rest) => Some (a ++ g, k, u, rest) | None => None end).
Proof.
  intros Ha H. destruct H as [g k u rest Hg Hs|t Ht|g u Hg Hu].
  - rewrite app_assoc. apply na_token; [apply gap_app; assumption|exact Hs].
  - apply na_end, end_gap_app; assumption.
  - rewrite app_assoc. apply na_unterminated; [apply gap_app; assumption|exact Hu].
Qed.

Lemma next_total m (t : list N) : exists o, next_at m t o.
Proof.
  induction t as [t IH] using len_ind.
  destruct t as [|c t].
  { exists None. apply na_end. left. constructor. }
  destruct (ws_dec c) as [Hc|Hc].
  { destruct (IH t) as [o Ho]; [cbn; lia|].
    eexists. apply (next_at_gap m [c] t o); [|exact Ho]. apply gap_ws; [exact Hc|constructor]. }
  destruct (piece_total m c t Hc) as (o & u & rest & E & Hp). rewrite E.
  destruct Hp as [k u rest Hs|b rest H1 H2|b rest H|u H].
  - exists (Some ([], k, u, rest)). apply (na_token m [] k u rest); [constructor|exact Hs].
  - destruct rest as [|x r].
    + exists None. apply na_end. right. exists [], b. split; [constructor|]. split; [exact H1|].
      rewrite app_nil_r. reflexivity.
    + rewrite (H2 x r eq_refl) in E. rewrite (H2 x r eq_refl).
      assert (Hg : gap ([cSlash; cSlash] ++ b ++ [cNL])).
      { apply (gap_line b []); [exact H1|constructor]. }
      destruct (IH r) as [o Ho].
      { rewrite E, !app_length. cbn. lia. }
      eexists. replace (([cSlash; cSlash] ++ b) ++ cNL :: r) with (([cSlash; cSlash] ++ b ++ [cNL]) ++ r)
        by (rewrite <- !app_assoc; reflexivity).
      apply (next_at_gap m _ r o Hg Ho).
  - destruct (IH rest) as [o Ho].
    { rewrite E, !app_length. cbn. lia. }
    assert (Hg : gap ([cSlash; cStar] ++ b ++ [cStar; cSlash])).
    { apply (gap_block b []); [exact H|constructor]. }
    eexists. apply (next_at_gap m _ rest o Hg Ho).
  - exists None. rewrite app_nil_r. apply (na_unterminated m [] u); [constructor|exact H].
Qed.

(** the result of [next] *)
Definition next_result (src : fpath) (p : position)
  (o : option (list N * token_kind * list N * list N)) : option token :=
  match o with
  | Some (g, k, u, rest) => Some (tok_of src (adv p g) (adv p (g ++ u)) k)
  | None => None
  end.
(** the lexer after [next] *)
Definition next_lexer (src : fpath) (st : lexer_state) (p : position) (t : list N)
  (o : option (list N * token_kind * list N * list N)) (lx : lexer) : Prop :=
  lx_src lx = src
  /\ (exists v w, lx_last lx = adv p v /\ t = v ++ w /\ (v = [] \/ ends_comment v))
  /\ match o with
     | Some (g, k, u, rest) =>
       lx_rd lx = mkReader rest (adv p (g ++ u)) /\ mode_of (lx_state lx) = mode_after k (mode_of st)
       /\ exists v w, lx_last lx = adv p v /\ g = v ++ w /\ Forall ws_char w /\ (v = [] \/ ends_comment v)
     | None => lx_rd lx = mkReader [] (adv p t) /\ mode_of (lx_state lx) = mode_of st
     end.

(** a gap as white space and comments in turn *)
Inductive gapn : list N -> Prop :=
| gn_ws w : Forall ws_char w -> gapn w
| gn_line w b g : Forall ws_char w -> ~ In cNL b -> gapn (cNL :: g) ->
    gapn (w ++ ([cSlash; cSlash] ++ b) ++ cNL :: g)
| gn_block w b g : Forall ws_char w -> no_close b -> gapn g ->
    gapn (w ++ ([cSlash; cStar] ++ b ++ [cStar; cSlash]) ++ g).

Lemma gapn_cons c g : ws_char c -> gapn g -> gapn (c :: g).
Proof.
  intros Hc H. destruct H as [w H|w b g Hw Hb Hg|w b g Hw Hb Hg].
  - apply gn_ws. constructor; assumption.
  - apply (gn_line (c :: w) b g); auto.
  - apply (gn_block (c :: w) b g); auto.
Qed.
Lemma gap_gapn g : gap g -> gapn g.
Proof.
  induction 1 as [|c g Hc Hg IH|b g Hb Hg IH|b g Hb Hg IH].
  - apply gn_ws. constructor.
  - apply gapn_cons; assumption.
  - replace ([cSlash; cSlash] ++ b ++ [cNL] ++ g) with ([] ++ ([cSlash; cSlash] ++ b) ++ cNL :: g)
      by (cbn [app]; reflexivity).
    apply gn_line; [constructor|exact Hb|]. apply gapn_cons; [|exact IH].
    unfold ws_char. cbn [In]. auto.
  - replace ([cSlash; cStar] ++ b ++ [cStar; cSlash] ++ g)
      with ([] ++ ([cSlash; cStar] ++ b ++ [cStar; cSlash]) ++ g)
      by (cbn [app]; rewrite <- app_assoc; reflexivity).
    apply gn_block; [constructor|exact Hb|exact IH].
Qed.

(** what follows the gap *)
Inductive tail (m : mode) : list N -> option (token_kind * list N * list N) -> Prop :=
| tl_token k u rest : spells m k u rest -> tail m (u ++ rest) (Some (k, u, rest))
| tl_end : tail m [] None
| tl_line b : ~ In cNL b -> tail m ([cSlash; cSlash] ++ b) None
| tl_unterminated u : unterminated u -> tail m u None.

Lemma next_at_tail m t o : next_at m t o ->
  exists g t' o', t = g ++ t' /\ gap g /\ tail m t' o'
  /\ o = match o' with Some (k, u, rest) => Some (g, k, u, rest) | None => None end.
Proof.
  intros H. destruct H as [g k u rest Hg Hs|t [Ht|(g & b & Hg & Hb & ->)]|g u Hg Hu].
  - exists g, (u ++ rest), (Some (k, u, rest)). repeat split; auto. constructor. exact Hs.
  - exists t, [], None. rewrite app_nil_r. repeat split; auto. constructor.
  - exists g, ([cSlash; cSlash] ++ b), None. repeat split; auto. constructor. exact Hb.
  - exists g, u, None. repeat split; auto. constructor. exact Hu.
Qed.

Lemma lex_consume_ws_run w t p src st l : Forall ws_char w ->
  exists l', lex_consume (mkLexer (mkReader (w ++ t) p) src st l)
  = obind (lex_consume (mkLexer (mkReader t (adv p w)) src st l'))
      (fun '(o, lx) => Done (o, set_last p lx)).
Proof.
  intros H. revert p l. induction H as [|c w Hc Hw IH]; intros p l.
  - exists l. cbn [app adv fold_left]. unfold lex_consume. cbn [lx_rd lx_src lx_state rd_pos].
    destruct (rd_peek _) as [ch|]; [|reflexivity].
    destruct (lex_token _ _ _ _ _) as [[o r2]| |]; reflexivity.
  - destruct (IH (advance p c) l) as [l' E]. exists l'. cbn [app].
    rewrite (lex_consume_ws c (w ++ t) p src st l l Hc), E. rewrite adv_cons.
    destruct (lex_consume (mkLexer (mkReader t (adv (advance p c) w)) src st l')) as [[o r2]| |]; reflexivity.
Qed.

(** white space, then a piece *)
Lemma lex_consume_ws_piece w p src st l o u rest pre : Forall ws_char w ->
  piece (mode_of st) o u rest -> valid_utf8 (pre ++ w ++ u ++ rest) = true ->
  exists st', lex_consume (mkLexer (mkReader (w ++ u ++ rest) p) src st l)
     = Done (option_map (tok_of src (adv p w) (adv p (w ++ u))) o,
             mkLexer (mkReader rest (adv p (w ++ u))) src st' p)
  /\ mode_of st' = match o with Some k => mode_after k (mode_of st) | None => mode_of st end.
Proof.
  intros Hw Hp Hv. destruct (lex_consume_ws_run w (u ++ rest) p src st l Hw) as [l' E].
  destruct (lex_consume_piece (adv p w) src st l' o u rest (pre ++ w) Hp) as (st' & E2 & Hm).
  { rewrite <- app_assoc. exact Hv. }
  exists st'. split; [|exact Hm]. rewrite E, E2. rewrite adv_app. reflexivity.
Qed.
Lemma lex_consume_ws_end w p src st l : Forall ws_char w ->
  lex_consume (mkLexer (mkReader w p) src st l)
  = Done (None, mkLexer (mkReader [] (adv p w)) src st p).
Proof.
  intros Hw. destruct (lex_consume_ws_run w [] p src st l Hw) as [l' E].
  rewrite app_nil_r in E. rewrite E. reflexivity.
Qed.

Lemma mode_of_inj a b : mode_of a = mode_of b -> a = b.
Proof. destruct a, b; cbn; congruence. Qed.

Lemma spells_not_comment m k u rest : spells m k u rest -> is_comment k = false.
Proof.
  intros H. destruct H; try reflexivity.
  match goal with H : In _ punctuation |- _ => rename H into Hin end.
  cbn [punctuation In] in Hin.
  repeat (destruct Hin as [Hin|Hin]; [injection Hin as <- <-; reflexivity|]). destruct Hin.
Qed.

(** white space and the tail *)
Lemma lex_next_ws_tail w t o' p src st l f pre :
  Forall ws_char w -> tail (mode_of st) t o' -> valid_utf8 (pre ++ w ++ t) = true ->
  (length (w ++ t) < f)%nat ->
  let o := match o' with Some (k, u, rest) => Some (w, k, u, rest) | None => None end in
  exists lx', lex_next_fuel f (mkLexer (mkReader (w ++ t) p) src st l)
       = Done (next_result src p o, lx')
     /\ next_lexer src st p (w ++ t) o lx'.
Proof.
  intros Hw Ht Hv Hf. destruct f as [|f]; [lia|].
  destruct Ht as [k u rest Hs| |b Hb|u Hu]; cbn [lex_next_fuel].
  - destruct (lex_consume_ws_piece w p src st l (Some k) u rest pre Hw (pc_token _ _ _ _ Hs) Hv)
      as (st' & E & Hm).
    rewrite E. cbn [obind option_map tk_kind tok_of]. rewrite (spells_not_comment _ _ _ _ Hs).
    eexists. split; [reflexivity|]. split; [reflexivity|]. split.
    + exists [], (w ++ u ++ rest). auto.
    + split; [reflexivity|]. split; [exact Hm|]. exists [], w. auto 6.
  - rewrite app_nil_r. rewrite (lex_consume_ws_end w p src st l Hw). cbn [obind].
    eexists. split; [reflexivity|]. split; [reflexivity|]. split.
    + exists [], w. auto.
    + split; reflexivity.
  - destruct (lex_consume_ws_piece w p src st l (Some (Comment b)) ([cSlash; cSlash] ++ b) [] pre Hw)
      as (st' & E & Hm).
    { apply pc_line; [exact Hb|]. intros x r H. discriminate. }
    { rewrite app_nil_r. exact Hv. }
    rewrite app_nil_r in E. rewrite E. cbn [obind option_map tk_kind tok_of is_comment].
    destruct f as [|f]; [rewrite !app_length in Hf; cbn in Hf; lia|]. cbn [lex_next_fuel].
    rewrite lex_consume_end. cbn [obind].
    eexists. split; [reflexivity|]. split; [reflexivity|]. split.
    + exists (w ++ [cSlash; cSlash] ++ b), []. rewrite app_nil_r. split; [reflexivity|]. split; [reflexivity|].
      right. exists w, ([cSlash; cSlash] ++ b). split; [reflexivity|]. left. exists b. auto.
    + split; [reflexivity|]. exact Hm.
  - destruct (lex_consume_ws_piece w p src st l None u [] pre Hw (pc_unterminated _ _ Hu))
      as (st' & E & Hm).
    { rewrite app_nil_r. exact Hv. }
    rewrite app_nil_r in E. rewrite E. cbn [obind option_map].
    eexists. split; [reflexivity|]. split; [reflexivity|]. split.
    + exists [], (w ++ u). auto.
    + split; [reflexivity|]. exact Hm.
Qed.

(** shifting the description of the result over a comment *)
Lemma next_lexer_shift src st p v t o lx : ends_comment v ->
  next_lexer src st (adv p v) t o lx ->
  next_lexer src st p (v ++ t)
    (match o with Some (g, k, u, rest) => Some (v ++ g, k, u, rest) | None => None end) lx.
Proof.
  intros Hc (Hs & (x & w & Hl & Ht & Hx) & Ho).
  assert (G : forall y, y = [] \/ ends_comment y -> v ++ y = [] \/ ends_comment (v ++ y)).
  { intros y [->|(a & c & -> & Hy)]; right; [rewrite app_nil_r; exact Hc|].
    exists (v ++ a), c. rewrite app_assoc. auto. }
  split; [exact Hs|]. split.
  - exists (v ++ x), w. split; [rewrite adv_app; exact Hl|]. split; [|apply G, Hx]. rewrite Ht, app_assoc. reflexivity.
  - destruct o as [[[[g k] u] rest]|].
    + destruct Ho as (H1 & H2 & v1 & w1 & H3 & H4 & H5 & H6).
      rewrite <- app_assoc, (adv_app p v). split; [exact H1|]. split; [exact H2|].
      exists (v ++ v1), w1. split; [rewrite adv_app; exact H3|]. split; [|split; [exact H5|apply G, H6]].
      rewrite H4, app_assoc. reflexivity.
    + destruct Ho as [H1 H2]. rewrite adv_app. auto.
Qed.
Lemma next_result_shift src p v o :
  next_result src p (match o with Some (g, k, u, rest) => Some (v ++ g, k, u, rest) | None => None end)
  = next_result src (adv p v) o.
Proof.
  destruct o as [[[[g k] u] rest]|]; [|reflexivity]. cbn [next_result].
  rewrite <- app_assoc, !(adv_app p v). reflexivity.
Qed.

Lemma lex_next_fuel_ok g : gapn g -> forall t o' p src st l f pre,
  tail (mode_of st) t o' -> valid_utf8 (pre ++ g ++ t) = true -> (length (g ++ t) < f)%nat ->
  let o := match o' with Some (k, u, rest) => Some (g, k, u, rest) | None => None end in
  exists lx', lex_next_fuel f (mkLexer (mkReader (g ++ t) p) src st l)
       = Done (next_result src p o, lx')
     /\ next_lexer src st p (g ++ t) o lx'.
Proof.
  induction 1 as [w Hw|w b g Hw Hb Hg IH|w b g Hw Hb Hg IH]; intros t o' p src st l f pre Ht Hv Hf.
  - apply (lex_next_ws_tail w t o' p src st l f pre Hw Ht Hv Hf).
  - destruct f as [|f]; [lia|]. cbn [lex_next_fuel].
    set (cm := [cSlash; cSlash] ++ b) in *.
    assert (Et : (w ++ cm ++ cNL :: g) ++ t = w ++ cm ++ (cNL :: g) ++ t).
    { rewrite <- !app_assoc. reflexivity. }
    rewrite Et in *.
    destruct (lex_consume_ws_piece w p src st l (Some (Comment b)) cm ((cNL :: g) ++ t) pre Hw)
      as (st' & E & Hm).
    { apply pc_line; [exact Hb|]. intros x r H. injection H as <- _. reflexivity. }
    { exact Hv. }
    rewrite E. cbn [obind option_map tk_kind tok_of is_comment]. cbn [mode_after] in Hm.
    apply mode_of_inj in Hm. subst st'.
    destruct (IH t o' (adv p (w ++ cm)) src st p f (pre ++ w ++ cm) Ht) as (lx' & E' & Hn).
    { rewrite <- !app_assoc. exact Hv. }
    { revert Hf. rewrite !app_length. unfold cm. cbn. lia. }
    exists lx'. rewrite E'. split.
    + rewrite <- next_result_shift. destruct o' as [[[k u] rest]|]; [|reflexivity].
      rewrite <- app_assoc. reflexivity.
    + apply next_lexer_shift in Hn;
        [|exists w, cm; split; [reflexivity|left; exists b; split; [reflexivity|exact Hb]]]. rewrite <- app_assoc in Hn.
      destruct o' as [[[k u] rest]|]; [|exact Hn]. rewrite <- app_assoc in Hn. exact Hn.
  - destruct f as [|f]; [lia|]. cbn [lex_next_fuel].
    set (cm := [cSlash; cStar] ++ b ++ [cStar; cSlash]) in *.
    assert (Et : (w ++ cm ++ g) ++ t = w ++ cm ++ g ++ t).
    { rewrite <- !app_assoc. reflexivity. }
    rewrite Et in *.
    destruct (lex_consume_ws_piece w p src st l (Some (Comment b)) cm (g ++ t) pre Hw)
      as (st' & E & Hm).
    { apply pc_block. exact Hb. }
    { exact Hv. }
    rewrite E. cbn [obind option_map tk_kind tok_of is_comment]. cbn [mode_after] in Hm.
    apply mode_of_inj in Hm. subst st'.
    destruct (IH t o' (adv p (w ++ cm)) src st p f (pre ++ w ++ cm) Ht) as (lx' & E' & Hn).
    { rewrite <- !app_assoc. exact Hv. }
    { revert Hf. rewrite !app_length. unfold cm. cbn. lia. }
    exists lx'. rewrite E'. split.
    + rewrite <- next_result_shift. destruct o' as [[[k u] rest]|]; [|reflexivity].
      rewrite <- app_assoc. reflexivity.
    + apply next_lexer_shift in Hn;
        [|exists w, cm; split; [reflexivity|right; exists b; split; [reflexivity|exact Hb]]]. rewrite <- app_assoc in Hn.
      destruct o' as [[[k u] rest]|]; [|exact Hn]. rewrite <- app_assoc in Hn. exact Hn.
Qed.

Lemma spells_nonempty m k u rest : spells m k u rest -> (0 < length u)%nat.
Proof. intros H. destruct H; cbn [app length]; lia. Qed.

Lemma lex_next_ok m t o p src st l pre : mode_of st = m ->
  next_at m t o -> valid_utf8 (pre ++ t) = true ->
  exists lx', lex_next (mkLexer (mkReader t p) src st l) = Done (next_result src p o, lx')
     /\ next_lexer src st p t o lx'.
Proof.
  intros <- H Hv. destruct (next_at_tail _ _ _ H) as (g & t' & o' & -> & Hg & Ht & ->).
  unfold lex_next. cbn [lx_rd rd_rest].
  apply (lex_next_fuel_ok g (gap_gapn g Hg) t' o' p src st l _ pre); auto.
Qed.

(** ** All tokens *)
Lemma lexed_next src m pre t toks : lexed src m pre t toks ->
  match toks with
  | [] => next_at m t None
  | tok :: toks' => exists g k u rest, t = g ++ u ++ rest /\ next_at m t (Some (g, k, u, rest))
      /\ tok = tok_of src (pos_after (pre ++ g)) (pos_after (pre ++ g ++ u)) k
      /\ lexed src (mode_after k m) (pre ++ g ++ u) rest toks'
  end.
Proof.
  intros H. destruct H as [m pre t Ht|m pre g u Hg Hu|m pre g k u rest toks Hg Hs H].
  - apply na_end, Ht.
  - apply na_unterminated; assumption.
  - exists g, k, u, rest. split; [reflexivity|]. split; [apply na_token; assumption|]. auto.
Qed.

Lemma lex_all_complete src m pre t toks : lexed src m pre t toks ->
  forall st l f, mode_of st = m -> valid_utf8 (pre ++ t) = true -> (length t < f)%nat ->
  lex_all_fuel f (mkLexer (mkReader t (pos_after pre)) src st l) = Done toks.
Proof.
  revert m pre t. induction toks as [|tok toks IH]; intros m pre t H st l f Hm Hv Hf;
    apply lexed_next in H; (destruct f as [|f]; [lia|]); cbn [lex_all_fuel].
  - destruct (lex_next_ok m t None (pos_after pre) src st l pre Hm H Hv) as (lx' & E & _).
    rewrite E. reflexivity.
  - destruct H as (g & k & u & rest & Et & Hn & -> & Hl).
    destruct (lex_next_ok m t _ (pos_after pre) src st l pre Hm Hn Hv) as (lx' & E & Hs & _ & Ho).
    rewrite E. cbn [obind next_result]. destruct Ho as (Hr & Hm' & _).
    destruct lx' as [rd src' st' l']. cbn [lx_src lx_rd lx_state] in *. subst src' rd.
    rewrite adv_pos_after.
    rewrite (IH (mode_after k m) (pre ++ g ++ u) rest Hl st' l' f).
    + cbn [obind]. rewrite adv_pos_after. reflexivity.
    + rewrite Hm', Hm. reflexivity.
    + rewrite <- !app_assoc. rewrite <- Et. exact Hv.
    + inversion Hn; subst. match goal with H : spells _ _ _ _ |- _ => apply spells_nonempty in H end.
      rewrite !app_length in Hf. lia.
Qed.

Lemma lexed_total src m pre (t : list N) : exists toks, lexed src m pre t toks.
Proof.
  revert m pre. induction t as [t IH] using len_ind. intros m pre.
  destruct (next_total m t) as [o Ho]. destruct Ho as [g k u rest Hg Hs|t Ht|g u Hg Hu].
  - destruct (IH rest) with (m := mode_after k m) (pre := pre ++ g ++ u) as [toks H].
    { apply spells_nonempty in Hs. rewrite !app_length. lia. }
    eexists. apply lx_token; eassumption.
  - exists []. apply lx_end, Ht.
  - exists []. apply lx_unterminated; assumption.
Qed.

Lemma tokenize_iff text src toks : valid_utf8 text = true ->
  (tokenize text src = Done toks <-> lexed src NameExpected [] text toks).
Proof.
  intros Hv.
  assert (H : forall toks, lexed src NameExpected [] text toks -> tokenize text src = Done toks).
  { intros toks' H. unfold tokenize, lex_all, lexer_new, reader_of. cbn [lx_rd rd_rest].
    rewrite <- pos_after_nil at 1. apply (lex_all_complete src NameExpected [] text toks' H); auto. }
  split; [|apply H]. intros E. destruct (lexed_total src NameExpected [] text) as [toks' H'].
  pose proof (H toks' H') as E'. rewrite E in E'. injection E' as ->. exact H'.
Qed.
Lemma tokenize_total text src : valid_utf8 text = true -> exists toks, tokenize text src = Done toks.
Proof.
  intros Hv. destruct (lexed_total src NameExpected [] text) as [toks H]. exists toks.
  apply tokenize_iff; assumption.
Qed.
