(** Consequences for C02-C06, C08 *)
From Verif Require Import Reader Lexer LexSpec ReaderProofs Utf8 LexerProofs LexerProofs2.
From Coq Require Import ZifyBool.

(** ** C02: every lexer state reached *)
Inductive lexer_reached (text : list N) (src : fpath) : lexer -> Prop :=
| lr_new : lexer_reached text src (lexer_new (reader_of text) src)
| lr_consume lx o lx' : lexer_reached text src lx -> lex_consume lx = Done (o, lx') ->
    lexer_reached text src lx'
| lr_next lx o lx' : lexer_reached text src lx -> lex_next lx = Done (o, lx') ->
    lexer_reached text src lx'
| lr_pseudo lx k : lexer_reached text src lx -> lexer_reached text src (lex_insert_pseudo_kind k lx).

Definition lexer_inv (text : list N) (src : fpath) (lx : lexer) : Prop :=
  lx_src lx = src
  /\ (exists pre, text = pre ++ rd_rest (lx_rd lx) /\ rd_pos (lx_rd lx) = pos_after pre)
  /\ (exists pre post, text = pre ++ post /\ lx_last lx = pos_after pre).

Lemma lex_consume_total lx text src : valid_utf8 text = true -> lexer_inv text src lx ->
  exists o lx', lex_consume lx = Done (o, lx') /\ lexer_inv text src lx'.
Proof.
  intros Hv (Hs & (pre & Ht & Hp) & _). destruct lx as [[t p] src' st l].
  cbn [lx_src lx_rd rd_rest rd_pos] in *. subst src' p.
  destruct (run_split ws_char ws_dec t) as (w & t' & -> & Hw & Hstop).
  destruct t' as [|c t'].
  - rewrite app_nil_r in *. rewrite (lex_consume_ws_end w _ src st l Hw).
    eexists. eexists. split; [reflexivity|]. split; [reflexivity|]. split.
    + exists text. cbn [lx_rd rd_rest rd_pos]. rewrite app_nil_r. split; [reflexivity|].
      rewrite adv_pos_after, Ht. reflexivity.
    + exists pre, w. auto.
  - destruct (piece_total (mode_of st) c t' (Hstop c t' eq_refl)) as (o & u & rest & E & Hp).
    rewrite E in *.
    destruct (lex_consume_ws_piece w (pos_after pre) src st l o u rest pre Hw Hp) as (st' & E' & _).
    { rewrite <- Ht. exact Hv. }
    rewrite E'. eexists. eexists. split; [reflexivity|]. split; [reflexivity|]. split.
    + exists (pre ++ w ++ u). cbn [lx_rd rd_rest rd_pos]. rewrite <- !app_assoc.
      split; [exact Ht|apply adv_pos_after].
    + exists pre, (w ++ u ++ rest). auto.
Qed.

Lemma lex_next_total lx text src : valid_utf8 text = true -> lexer_inv text src lx ->
  exists o lx', lex_next lx = Done (o, lx') /\ lexer_inv text src lx'.
Proof.
  intros Hv (Hs & (pre & Ht & Hp) & _). destruct lx as [[t p] src' st l].
  cbn [lx_src lx_rd rd_rest rd_pos] in *. subst src' p.
  destruct (next_total (mode_of st) t) as [o Ho].
  destruct (lex_next_ok (mode_of st) t o (pos_after pre) src st l pre eq_refl Ho)
    as (lx' & E & Hsrc & (v & w & Hl & Hvw & _) & Hn).
  { rewrite <- Ht. exact Hv. }
  rewrite E. eexists. exists lx'. split; [reflexivity|]. split; [exact Hsrc|]. split.
  - destruct o as [[[[g k] u] rest]|].
    + destruct Hn as (Hr & _). rewrite Hr. exists (pre ++ g ++ u). cbn [rd_rest rd_pos].
      rewrite <- !app_assoc, adv_pos_after. split; [|reflexivity]. inversion Ho; subst; congruence.
    + destruct Hn as (Hr & _). rewrite Hr. exists text. cbn [rd_rest rd_pos]. rewrite app_nil_r.
      split; [reflexivity|]. rewrite adv_pos_after, Ht. reflexivity.
  - exists (pre ++ v), w. split; [rewrite <- app_assoc, <- Hvw; exact Ht|].
    rewrite Hl. apply adv_pos_after.
Qed.

Lemma lexer_reached_inv text src lx : valid_utf8 text = true ->
  lexer_reached text src lx -> lexer_inv text src lx.
Proof.
  intros Hv H. induction H as [|lx o lx' H IH E|lx o lx' H IH E|lx k H IH].
  - split; [reflexivity|]. split; [exists []|exists [], text]; auto.
  - destruct (lex_consume_total lx text src Hv IH) as (o2 & lx2 & E2 & H2). congruence.
  - destruct (lex_next_total lx text src Hv IH) as (o2 & lx2 & E2 & H2). congruence.
  - destruct IH as (H1 & H2 & H3). destruct k; exact (conj H1 (conj H2 H3)).
Qed.

Lemma lexing_never_panics text src lx : valid_utf8 text = true -> lexer_reached text src lx ->
  (exists o lx', lex_consume lx = Done (o, lx')) /\ (exists o lx', lex_next lx = Done (o, lx')).
Proof.
  intros Hv H. apply (lexer_reached_inv _ _ _ Hv) in H. split.
  - destruct (lex_consume_total lx text src Hv H) as (o & lx' & E & _). eauto.
  - destruct (lex_next_total lx text src Hv H) as (o & lx' & E & _). eauto.
Qed.

(** ** C03 *)
Inductive ordered_from (src : fpath) (hi : position) : position -> list token -> Prop :=
| of_nil p : pos_le p hi -> ordered_from src hi p []
| of_cons p t ts : pos_le p (tk_start t) -> pos_lt (tk_start t) (tk_end t) -> tk_source t = src ->
    ordered_from src hi (tk_end t) ts -> ordered_from src hi p (t :: ts).

Lemma lexed_ordered src m pre t toks : lexed src m pre t toks ->
  ordered_from src (pos_after (pre ++ t)) (pos_after pre) toks /\ (length toks <= length t)%nat.
Proof.
  induction 1 as [m pre t Ht|m pre g u Hg Hu|m pre g k u rest toks Hg Hs H [IH1 IH2]].
  - split; [constructor; apply pos_after_le|cbn; lia].
  - split; [constructor; apply pos_after_le|cbn; lia].
  - apply spells_nonempty in Hs. split.
    + constructor; cbn [tk_start tk_end tk_span span_start span_end tk_source].
      * apply pos_after_le.
      * destruct u as [|c u]; [cbn in Hs; lia|]. rewrite app_assoc. apply pos_after_lt.
      * reflexivity.
      * rewrite <- !app_assoc in IH1. exact IH1.
    + cbn [length]. rewrite !app_length. lia.
Qed.
Lemma tokens_ordered text src toks : valid_utf8 text = true -> tokenize text src = Done toks ->
  ordered_from src (pos_after text) pos_zero toks /\ (length toks <= length text)%nat.
Proof.
  intros Hv H. apply (tokenize_iff text src toks Hv) in H. apply lexed_ordered in H. exact H.
Qed.
Lemma next_none_forever text src lx lx' : valid_utf8 text = true -> lexer_reached text src lx ->
  lex_next lx = Done (None, lx') ->
  forall k, exists l, lex_next (lex_insert_pseudo_kind k lx') = Done (None, l).
Proof.
  intros Hv H E. apply (lexer_reached_inv _ _ _ Hv) in H. destruct H as (Hs & (pre & Ht & Hp) & _).
  destruct lx as [[t p] src' st l]. cbn [lx_src lx_rd rd_rest rd_pos] in *. subst src' p.
  destruct (next_total (mode_of st) t) as [o Ho].
  destruct (lex_next_ok (mode_of st) t o (pos_after pre) src st l pre eq_refl Ho)
    as (lx2 & E2 & Hsrc & _ & Hn).
  { rewrite <- Ht. exact Hv. }
  rewrite E in E2. injection E2 as Eo <-. destruct o as [[[[g k0] u] rest]|]; [discriminate|].
  destruct Hn as (Hr & _). intros k. destruct lx' as [rd s' st' l']. cbn [lx_rd] in Hr. subst rd.
  unfold lex_next. destruct k; cbn; eexists; reflexivity.
Qed.

(** a span of a text determines the slice under it *)
Lemma pos_after_prefix_inj (a b x y : list N) : a ++ x = b ++ y -> pos_after a = pos_after b ->
  a = b /\ x = y.
Proof.
  revert b. assert (G : forall a b x y : list N, a ++ x = b ++ y -> (length a <= length b)%nat ->
    pos_after a = pos_after b -> a = b /\ x = y).
  { clear. intros a b x y E Hl Hp. assert (exists z, b = a ++ z) as [z ->].
    { clear Hp. revert b E Hl. induction a as [|c a IH]; intros b E Hl; [exists b; reflexivity|].
      destruct b as [|d b]; [cbn in Hl; lia|]. cbn [app] in E. injection E as <- E.
      destruct (IH b E) as [z ->]; [cbn in Hl; lia|]. exists z. reflexivity. }
    destruct z as [|c z].
    - rewrite app_nil_r in *. split; [reflexivity|]. apply app_inv_head in E. exact E.
    - exfalso. pose proof (pos_after_lt a c z) as H. rewrite <- Hp in H. exact (pos_lt_irrefl _ H). }
  intros b E Hp. destruct (Nat.le_gt_cases (length a) (length b)) as [Hl|Hl].
  - apply G; assumption.
  - destruct (G b a y x) as [-> ->]; auto. lia.
Qed.

(** ** C05 *)
(** [written m ks t]: [t] is a layout of the token kinds [ks]: spellings, each followed by a
    non-empty gap; a '/' is followed by white space (otherwise it would start a comment) *)
Inductive written : mode -> list token_kind -> list N -> Prop :=
| wr_nil m : written m [] []
| wr_cons m k ks u g t : spells m k u [cSpace] -> gap g -> g <> [] ->
    (k = Slash -> exists c g', g = c :: g' /\ ws_char c) ->
    written (mode_after k m) ks t -> written m (k :: ks) (u ++ g ++ t).

Lemma gap_head g : gap g -> g <> [] -> exists c g', g = c :: g' /\ (ws_char c \/ c = cSlash).
Proof.
  intros H Hn. destruct H as [|c g Hc Hg|b g Hb Hg|b g Hb Hg]; [congruence| | |].
  - exists c, g. auto.
  - eexists. eexists. split; [reflexivity|]. auto.
  - eexists. eexists. split; [reflexivity|]. auto.
Qed.

Lemma spells_sep m k u c rest : spells m k u [cSpace] -> ws_char c \/ (c = cSlash /\ k <> Slash) ->
  spells m k u (c :: rest).
Proof.
  intros H Hc.
  assert (Hclass : ~ name_char c /\ c <> cColon /\ c <> cAt /\ ~ letter c /\ ~ digit c
                   /\ ~ label_char c /\ c <> cLBrace).
  { unfold ws_char, name_char, label_char, letter, digit in *. cbn [In] in *. lia. }
  destruct Hclass as (C1 & C2 & C3 & C4 & C5 & C6 & C7).
  inversion H; subst.
  - apply sp_name; auto. intros x r E. injection E as <- _. auto.
  - apply sp_name_at; auto. intros x r E. injection E as <- _. auto.
  - apply sp_label; auto.
  - apply sp_number; auto. intros x r E. injection E as <- _. tauto.
  - apply sp_ref; auto. intros x r E. injection E as <- _. auto.
  - apply sp_ref_empty; auto.
  - apply sp_ref_path; auto.
  - apply sp_string; auto.
  - apply sp_slash. intros x r E. injection E as <- _. split; [|split]; auto.
    + intros ->. destruct Hc as [Hc|[_ Hc]]; [unfold ws_char in Hc; cbn [In] in Hc; lia|congruence].
    + intros ->. destruct Hc as [Hc|[Hc _]]; [unfold ws_char in Hc; cbn [In] in Hc; lia|congruence].
  - apply sp_directive; auto.
  - apply sp_punct; auto.
  - apply sp_unknown; auto.
Qed.

Lemma written_lexed src m ks t : written m ks t -> forall pre g0, gap g0 ->
  exists toks, lexed src m pre (g0 ++ t) toks /\ map tk_kind toks = ks.
Proof.
  induction 1 as [m|m k ks u g t Hs Hg Hne Hsl Hw IH]; intros pre g0 Hg0.
  - exists []. split; [|reflexivity]. apply lx_end. left. rewrite app_nil_r. exact Hg0.
  - destruct (IH (pre ++ g0 ++ u) g Hg) as (toks & Hl & Hk).
    eexists. split; [|].
    + apply lx_token; [exact Hg0| |exact Hl].
      destruct (gap_head g Hg Hne) as (c & g' & -> & Hc). cbn [app].
      apply spells_sep; [exact Hs|]. destruct Hc as [Hc| ->]; [auto|].
      destruct (kind_eq_dec k Slash) as [E|E]; [|auto]. left.
      destruct (Hsl E) as (c' & g2 & E2 & Hc'). injection E2 as <- _. exact Hc'.
    + cbn [map tk_kind]. rewrite Hk. reflexivity.
Qed.
Lemma layout_irrelevant src ks t g0 : gap g0 -> written NameExpected ks t ->
  valid_utf8 (g0 ++ t) = true ->
  exists toks, tokenize (g0 ++ t) src = Done toks /\ map tk_kind toks = ks.
Proof.
  intros Hg Hw Hv. destruct (written_lexed src _ _ _ Hw [] g0 Hg) as (toks & Hl & Hk).
  exists toks. split; [|exact Hk]. apply tokenize_iff; assumption.
Qed.

(** ** C06 *)
(** backslash escapes for backslash and double quote *)
Fixpoint escape (s : str) : str :=
  match s with
  | [] => []
  | c :: r => (if (c =? cQuote) || (c =? cBackslash) then [cBackslash; c] else [c]) ++ escape r
  end.
Definition quoted (s : str) : str := [cQuote] ++ escape s ++ [cQuote].

Lemma escape_body s : string_body (escape s) (flat_map encode_char s).
Proof.
  induction s as [|c s IH]; [constructor|]. cbn [escape flat_map].
  destruct (N.eqb_spec c cQuote) as [E|E]; [|destruct (N.eqb_spec c cBackslash) as [E2|E2]];
    cbn [orb app]; constructor; auto.
Qed.
Lemma valid_escape s : valid_utf8 s = true -> valid_utf8 (escape s) = true.
Proof.
  induction s as [s IH] using len_ind. intros H. destruct s as [|c s]; [reflexivity|].
  destruct (valid_inv c s H) as [[Hb Hl]|[(b1&r&Hb&->&H2&Hr)|[(b1&b2&r&Hb&->&H2&H3&Hr)|(b1&b2&b3&r&Hb&->&H2&H3&H4&Hr)]]];
    cbn [escape].
  - destruct ((c =? cQuote) || (c =? cBackslash)); cbn [app];
      repeat (rewrite valid_one by lia); (apply IH; [cbn; lia|exact Hl]).
  - assert (HA : forall x, 128 <= x -> (x =? cQuote) || (x =? cBackslash) = false) by (intros x Hx; lia).
    rewrite (HA c) by lia. rewrite (HA b1) by no_ascii_cont. cbn [app].
    rewrite valid_two by assumption. apply IH; [cbn; lia|exact Hr].
  - assert (HA : forall x, 128 <= x -> (x =? cQuote) || (x =? cBackslash) = false) by (intros x Hx; lia).
    rewrite (HA c) by lia. rewrite (HA b1), (HA b2) by no_ascii_cont. cbn [app].
    rewrite valid_three by assumption. apply IH; [cbn; lia|exact Hr].
  - assert (HA : forall x, 128 <= x -> (x =? cQuote) || (x =? cBackslash) = false) by (intros x Hx; lia).
    rewrite (HA c) by lia. rewrite (HA b1), (HA b2), (HA b3) by no_ascii_cont. cbn [app].
    rewrite valid_four by assumption. apply IH; [cbn; lia|exact Hr].
Qed.

Lemma string_value src s : valid_utf8 s = true ->
  tokenize (quoted s) src
  = Done [mkToken (TString (flat_map encode_char s)) (mkSpan pos_zero (pos_after (quoted s))) src].
Proof.
  intros Hv. apply tokenize_iff.
  - unfold quoted. cbn [app]. rewrite valid_one by lia. rewrite valid_app by exact (valid_escape s Hv).
    reflexivity.
  - pose proof (lx_token src NameExpected [] [] (TString (flat_map encode_char s)) (quoted s) [] []) as H.
    cbn [app] in H. rewrite app_nil_r in H. apply H.
    + constructor.
    + apply sp_string, escape_body.
    + apply lx_end. left. constructor.
Qed.

Lemma encode_char_length c : (length (encode_char c) = 1)%nat -> c < 128.
Proof.
  unfold encode_char. destruct (N.ltb_spec c 128); [auto|].
  destruct (c <? 2048); [discriminate|]. destruct (c <? 65536); discriminate.
Qed.
Lemma encode_char_ge c : (1 <= length (encode_char c))%nat.
Proof.
  unfold encode_char. destruct (c <? 128), (c <? 2048), (c <? 65536); cbn; lia.
Qed.
Lemma flat_map_encode_id s : flat_map encode_char s = s <-> Forall (fun c => c < 128) s.
Proof.
  split.
  - assert (G : forall s, (length s <= length (flat_map encode_char s))%nat).
    { induction s0 as [|c s0 IH]; [cbn; lia|]. cbn [flat_map length]. rewrite app_length.
      pose proof (encode_char_ge c). lia. }
    assert (G2 : forall s, length (flat_map encode_char s) = length s -> Forall (fun c => c < 128) s).
    { induction s0 as [|c s0 IH]; [constructor|]. cbn [flat_map length]. rewrite app_length.
      intros H. pose proof (encode_char_ge c). pose proof (G s0). constructor.
      - apply encode_char_length. lia.
      - apply IH. lia. }
    intros H. apply G2. rewrite H. reflexivity.
  - induction 1 as [|c s Hc Hs IH]; [reflexivity|]. cbn [flat_map]. rewrite IH.
    unfold encode_char. destruct (N.ltb_spec c 128); [reflexivity|lia].
Qed.

(** ** C08 *)
Inductive pl_op := OpPeek | OpNext.
(** run a list of calls; the results of the calls in order *)
Fixpoint pl_run (ops : list pl_op) (pl : plexer) : outcome (list (pl_op * option token)) :=
  match ops with
  | [] => Done []
  | op :: r =>
    obind (match op with OpPeek => pl_peek pl | OpNext => pl_next pl end) (fun '(t, pl') =>
      obind (pl_run r pl') (fun l => Done ((op, t) :: l)))
  end.
(** the [n]-th and later results of calling only [next] on the underlying lexer *)
Fixpoint nexts (n : nat) (lx : lexer) : outcome (list (option token)) :=
  match n with
  | O => Done []
  | S k => obind (lex_next lx) (fun '(t, lx') => obind (nexts k lx') (fun l => Done (t :: l)))
  end.
Definition is_next (x : pl_op * option token) : bool := match fst x with OpNext => true | OpPeek => false end.
(** each peek shows what the following next returns *)
Fixpoint peeks_agree (l : list (pl_op * option token)) (results : list (option token)) : Prop :=
  match l with
  | [] => True
  | (OpPeek, t) :: r => hd_error results = Some t /\ peeks_agree r results
  | (OpNext, t) :: r => hd_error results = Some t /\ peeks_agree r (tl results)
  end.
Definition count_next (ops : list pl_op) : nat :=
  length (filter (fun o => match o with OpNext => true | OpPeek => false end) ops).

Lemma pl_run_spec ops : forall pl res,
  match pl_peeked pl with
  | None => nexts (S (count_next ops)) (pl_lex pl) = Done res
  | Some t => obind (nexts (count_next ops) (pl_lex pl)) (fun l => Done (t :: l)) = Done res
  end ->
  exists l, pl_run ops pl = Done l
    /\ map snd (filter is_next l) = firstn (count_next ops) res
    /\ peeks_agree l res.
Proof.
  induction ops as [|op ops IH]; intros pl res H.
  - exists []. cbn. auto.
  - destruct pl as [lx [t|]]; cbn [pl_peeked pl_lex] in H.
    + (* something peeked *)
      destruct op; cbn [pl_run].
      * cbn [pl_peek pl_peeked obind].
        destruct (IH (mkPL lx (Some t)) res H) as (l & E & H1 & H2). rewrite E. cbn [obind].
        eexists. split; [reflexivity|]. split; [exact H1|]. split; [|exact H2].
        unfold count_next in H. cbn [filter] in H.
        destruct (nexts _ lx); [injection H as <-; reflexivity|discriminate|discriminate].
      * cbn [pl_next pl_peeked obind pl_lex]. unfold count_next in H. cbn [filter length] in H.
        fold (count_next ops) in H.
        destruct (nexts (S (count_next ops)) lx) as [l0| |] eqn:E0; cbn [obind] in H;
          [injection H as <-|discriminate|discriminate].
        destruct (IH (mkPL lx None) l0 E0) as (l & E & H1 & H2). rewrite E. cbn [obind].
        eexists. split; [reflexivity|]. split.
        -- cbn [filter is_next fst map snd]. rewrite H1. reflexivity.
        -- split; [reflexivity|exact H2].
    + destruct op; cbn [pl_run].
      * cbn [pl_peek pl_peeked pl_lex].
        cbn [nexts] in H. fold nexts in H.
        destruct (lex_next lx) as [[t lx']| |]; cbn [obind] in H |- *; [|discriminate|discriminate].
        destruct (IH (mkPL lx' (Some t)) res H) as (l & E & H1 & H2). rewrite E. cbn [obind].
        eexists. split; [reflexivity|]. split; [exact H1|]. split; [|exact H2].
        destruct (nexts _ lx'); [injection H as <-; reflexivity|discriminate|discriminate].
      * cbn [pl_next pl_peeked pl_lex]. unfold count_next in H. cbn [filter length] in H.
        fold (count_next ops) in H.
        cbn [nexts] in H.
        destruct (lex_next lx) as [[t lx']| |]; cbn [obind] in H |- *; [|discriminate|discriminate].
        change (obind (obind (lex_next lx') (fun '(t0, lx'0) => obind (nexts (count_next ops) lx'0) (fun l => Done (t0 :: l)))) (fun l => Done (t :: l)) = Done res)
          with (obind (nexts (S (count_next ops)) lx') (fun l => Done (t :: l)) = Done res) in H.
        destruct (nexts (S (count_next ops)) lx') as [l0| |] eqn:E0; cbn [obind] in H;
          [injection H as <-|discriminate|discriminate].
        destruct (IH (mkPL lx' None) l0 E0) as (l & E & H1 & H2). rewrite E. cbn [obind].
        eexists. split; [reflexivity|]. split.
        -- cbn [filter is_next fst map snd]. rewrite H1. reflexivity.
        -- split; [reflexivity|exact H2].
Qed.

Lemma nexts_total text src lx n : valid_utf8 text = true -> lexer_inv text src lx ->
  exists res, nexts n lx = Done res.
Proof.
  intros Hv. revert lx. induction n as [|n IH]; intros lx Hi; [exists []; reflexivity|].
  destruct (lex_next_total lx text src Hv Hi) as (o & lx' & E & Hi').
  destruct (IH lx' Hi') as [res E']. exists (o :: res). cbn [nexts]. rewrite E. cbn [obind].
  rewrite E'. reflexivity.
Qed.

Lemma peek_transparent text src ops : valid_utf8 text = true ->
  exists l res, pl_run ops (pl_of (lexer_new (reader_of text) src)) = Done l
    /\ nexts (S (count_next ops)) (lexer_new (reader_of text) src) = Done res
    /\ map snd (filter is_next l) = firstn (count_next ops) res
    /\ peeks_agree l res.
Proof.
  intros Hv. assert (Hi : lexer_inv text src (lexer_new (reader_of text) src)).
  { apply lexer_reached_inv; [exact Hv|constructor]. }
  destruct (nexts_total text src _ (S (count_next ops)) Hv Hi) as [res Hres].
  destruct (pl_run_spec ops (pl_of (lexer_new (reader_of text) src)) res Hres) as (l & H1 & H2 & H3).
  exists l, res. auto.
Qed.
