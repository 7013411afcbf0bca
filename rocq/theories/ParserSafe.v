(** Every parser function, on every state: no panic, enough fuel, diagnostics and tree inside the
    text *)
From Verif Require Import Parser LexSpec ReaderProofs Utf8 LexerProofs LexerProofs2 LexerProofs3 ParserBase.
From Coq Require Import ZifyBool.

(** ** Positions inside a text *)
Definition pos_in (text : list N) (p : position) : Prop :=
  exists a u n, text = a ++ u /\ p = pos_offset (pos_after a) n /\ n <= N.of_nat (length u).

Lemma pos_offset_0 p : pos_offset p 0 = p.
Proof. destruct p. unfold pos_offset. cbn. rewrite N.add_0_r. reflexivity. Qed.
Lemma pos_offset_add p a b : pos_offset (pos_offset p a) b = pos_offset p (a + b).
Proof. unfold pos_offset. cbn. f_equal. lia. Qed.
Lemma pos_offset_le p n m : n <= m -> pos_le (pos_offset p n) (pos_offset p m).
Proof. unfold pos_le, pos_offset. cbn. lia. Qed.

Lemma pos_offset_after a u n : n <= N.of_nat (length u) ->
  pos_le (pos_offset (pos_after a) n) (pos_after (a ++ u)).
Proof.
  revert a n. induction u as [|c u IH]; intros a n Hn.
  - cbn [length] in Hn. assert (n = 0) as -> by lia. rewrite pos_offset_0, app_nil_r. apply pos_le_refl.
  - cbn [length] in Hn. destruct (N.eq_dec n 0) as [->|Hne].
    { rewrite pos_offset_0. apply pos_after_le. }
    replace (a ++ c :: u) with ((a ++ [c]) ++ u) by (rewrite <- app_assoc; reflexivity).
    destruct (N.eqb_spec c cNL) as [->|Hc].
    + eapply pos_le_trans; [|apply pos_after_le]. rewrite pos_after_snoc. unfold pos_le, pos_offset, advance. cbn. lia.
    + specialize (IH (a ++ [c]) (n - 1)). eapply pos_le_trans; [|apply IH; lia].
      rewrite pos_after_snoc. unfold advance. destruct (N.eqb_spec c 10); [contradiction|].
      unfold pos_offset, pos_le. cbn. lia.
Qed.

Lemma pos_in_le text p : pos_in text p -> pos_le p (pos_after text).
Proof. intros (a & u & n & -> & -> & Hn). apply pos_offset_after, Hn. Qed.
Lemma pos_in_after text a u : text = a ++ u -> pos_in text (pos_after a).
Proof. intros ->. exists a, u, 0. rewrite pos_offset_0. repeat split. lia. Qed.

(** ** Ordered tokens *)
Fixpoint seq (lo : position) (l : list token) (hi : position) : Prop :=
  match l with
  | [] => pos_le lo hi
  | t :: r => pos_le lo (tk_start t) /\ pos_lt (tk_start t) (tk_end t) /\ seq (tk_end t) r hi
  end.

Lemma seq_le lo l hi : seq lo l hi -> pos_le lo hi.
Proof.
  revert lo. induction l as [|t l IH]; intros lo H; [exact H|]. destruct H as (H1 & H2 & H3).
  apply IH in H3. eapply pos_le_trans; [exact H1|]. eapply pos_le_trans; [apply pos_lt_le, H2|exact H3].
Qed.
Lemma seq_app lo l1 l2 mid hi : seq lo l1 mid -> seq mid l2 hi -> seq lo (l1 ++ l2) hi.
Proof.
  revert lo. induction l1 as [|t l IH]; intros lo H1 H2.
  - cbn in *. destruct l2 as [|t l]; cbn in *; [eapply pos_le_trans; eassumption|].
    destruct H2 as (H2 & H3). split; [eapply pos_le_trans; eassumption|exact H3].
  - destruct H1 as (Ha & Hb & Hc). cbn [app seq]. auto.
Qed.
Lemma seq_lo lo lo' l hi : pos_le lo lo' -> seq lo' l hi -> seq lo l hi.
Proof. intros H1 H2. change l with ([] ++ l). eapply seq_app; [|exact H2]. exact H1. Qed.
Lemma seq_hi lo l hi hi' : seq lo l hi -> pos_le hi hi' -> seq lo l hi'.
Proof. intros H1 H2. rewrite <- (app_nil_r l). eapply seq_app; [exact H1|]. exact H2. Qed.

(** ** The tokens stored in the tree, in source order *)
Definition cell_toks (c : cell) : list token :=
  match c with
  | CNumber n => [wt_tok n]
  | CReference r => [wt_tok r]
  | CExpression => []
  end.
Definition value_toks (v : prop_value) : list token :=
  match v with
  | PVString s => [wt_tok s]
  | PVCells a cs b => [a] ++ flat_map cell_toks cs ++ [b]
  | PVReference r => [wt_tok r]
  | PVBytes a ss b => [a] ++ map wt_tok ss ++ [b]
  end.
Definition opt_tok {A} (o : option (wtok A)) : list token :=
  match o with Some w => [wt_tok w] | None => [] end.
(** the end of a property is its semicolon; if that is missing, it is the '=' before the values *)
Definition prop_toks (p : property) : list token :=
  opt_tok (pr_label p) ++ [wt_tok (pr_name p)]
  ++ match tk_kind (pr_end p) with
     | Equal => [pr_end p] ++ flat_map value_toks (pr_values p)
     | _ => flat_map value_toks (pr_values p) ++ [pr_end p]
     end.
Fixpoint node_toks (n : node) : list token :=
  match n with
  | mkNode l nm pl o =>
    match o with Some t => [t] | None => [] end ++ opt_tok l ++ [wt_tok nm] ++ payload_toks pl
  end
with payload_toks (pl : payload) : list token :=
  match pl with
  | mkPayload items e => flat_map item_toks items ++ [e]
  end
with item_toks (i : item) : list token :=
  match i with
  | IProperty p => prop_toks p
  | INode n => node_toks n
  | IDeletedNode t n => [t; wt_tok n]
  | IDeletedProperty t n => [t; wt_tok n]
  end.
Definition primary_toks (p : primary) : list token :=
  match p with
  | PDirective (ADtsHeader t) | PDirective (APlugin t) => [t]
  | PDirective (AMemreserve a l) => [wt_tok a; wt_tok l]
  | PDirective (AInclude i) => [in_token i; wt_tok (in_file_name i)]
  | PDirective (ADeletedNode t r) | PDirective (AOmitIfNoRef t r) => [t; wt_tok r]
  | PRoot n => node_toks n
  | PReferencedNode r => [wt_tok (rn_reference r)] ++ payload_toks (rn_payload r)
  | PCStyleInclude _ => []
  end.
Definition file_toks (f : dts_file) : list token := flat_map primary_toks (fl_elements f).

(** ** String lemmas *)
Lemma chars_length s : (length (chars s) <= length s)%nat.
Proof.
  induction s as [s IH] using len_ind. destruct s as [|b0 r0]; [cbn; lia|]. cbn [chars].
  assert (H0 := IH r0 ltac:(cbn; lia)).
  destruct (b0 <? 128); [cbn [length]; lia|].
  destruct r0 as [|b1 r1]; [cbn; lia|]. assert (H1 := IH r1 ltac:(cbn; lia)).
  destruct (utf8_two b0 b1); [cbn [length]; lia|].
  destruct r1 as [|b2 r2]; [cbn; lia|]. assert (H2 := IH r2 ltac:(cbn; lia)).
  destruct (utf8_three b0 b1 b2); [cbn [length]; lia|].
  destruct r2 as [|b3 r3]; [cbn; lia|]. assert (H3 := IH r3 ltac:(cbn; lia)).
  destruct (utf8_four b0 b1 b2 b3); cbn [length]; lia.
Qed.

Lemma find_bad_bound pred i cs j c : find_bad pred i cs = Some (j, c) -> i <= j < i + N.of_nat (length cs).
Proof.
  revert i. induction cs as [|x cs IH]; intros i; cbn [find_bad length]; [discriminate|].
  destruct (pred x).
  - intros E. apply IH in E. lia.
  - intros E. injection E as <- <-. lia.
Qed.

Lemma split_once_eq c s p q : split_once c s = Some (p, q) -> s = p ++ c :: q.
Proof.
  revert p. induction s as [|a s IH]; intros p; cbn [split_once]; [discriminate|].
  destruct (N.eqb_spec a c) as [->|H].
  - intros E. injection E as <- <-. reflexivity.
  - destruct (split_once c s) as [[p' q']|]; [|discriminate]. intros E. injection E as <- <-.
    cbn [app]. f_equal. apply IH. reflexivity.
Qed.

Lemma split_on_length c s x : In x (split_on c s) -> (length x <= length s)%nat.
Proof.
  revert x. induction s as [|a s IH]; intros x; cbn [split_on].
  - intros [<-|[]]. cbn. lia.
  - destruct (a =? c).
    + intros [<-|H]; [cbn; lia|]. apply IH in H. cbn. lia.
    + destruct (split_on c s) as [|p ps].
      * intros [<-|[]]. cbn. lia.
      * intros [<-|H].
        -- assert (H := IH p (or_introl eq_refl)). cbn. lia.
        -- assert (H' := IH x (or_intror H)). cbn. lia.
Qed.

Definition name_len (n : node_name) : nat :=
  Nat.max (length (nn_name n)) (match nn_addr n with Some a => length a | None => 0 end).
Lemma node_name_of_len s : (name_len (node_name_of s) <= length s)%nat.
Proof.
  unfold node_name_of, name_len. destruct (split_once cAt s) as [[p q]|] eqn:E; cbn [nn_name nn_addr].
  - apply split_once_eq in E. rewrite E, app_length. cbn [length]. lia.
  - lia.
Qed.
Lemma npath_of_len s n : In n (npath_of s) -> (name_len n <= length s)%nat.
Proof.
  unfold npath_of. intros H. apply in_map_iff in H. destruct H as (c & <- & H).
  apply filter_In in H. destruct H as [H _]. apply split_on_length in H.
  pose proof (node_name_of_len c). lia.
Qed.

Section Safe.
  Context (text : list N) (src : fpath).
  Hypothesis text_valid : utf8 text.

  Notation view := (view text src).
  Notation tok_at := (tok_at text src).
  Notation last_in := (last_in text).

  Definition span_in (sp : span) : Prop :=
    pos_in text (span_start sp) /\ pos_in text (span_end sp) /\ pos_le (span_start sp) (span_end sp).

  (** ** The places of diagnostics *)
  Definition says_semicolon (d : diag) : Prop := dg_kind d = Expected /\ dg_msg d = bs "Expected ';'".
  (** where a missing semicolon is reported: directly behind the last token, or behind the last comment
      after it, when another token follows; on the token that follows, when that is unknown;
      behind the last token or comment, or at the end of the text, when nothing follows *)
  Inductive semi_place : span -> Prop :=
  | smp_behind pre v w u m k rest : text = pre ++ v ++ w ++ u ++ rest -> ends_token text pre ->
      (v = [] \/ ends_comment v) -> gap (v ++ w) -> Forall ws_char w ->
      spells m k u rest -> k <> Semicolon -> (forall c, k <> Unknown c) ->
      semi_place (as_char_span (pos_after (pre ++ v)))
  | smp_on pre g u m c rest : text = pre ++ g ++ u ++ rest -> ends_token text pre -> gap g ->
      spells m (Unknown c) u rest ->
      semi_place (mkSpan (pos_after (pre ++ g)) (pos_after (pre ++ g ++ u)))
  | smp_end pre v post : text = pre ++ v ++ post -> ends_token text pre -> no_more (v ++ post) ->
      v = [] \/ ends_comment v \/ post = [] -> semi_place (as_span (pos_after (pre ++ v))).
  (** the beginning of the text, the end of a token or of a comment, or the end of the text *)
  Definition point (q : position) : Prop :=
    (exists a post, text = a ++ post /\ ends_token_or_comment text a /\ q = pos_after a) \/ q = pos_after text.
  Inductive place (d : diag) : Prop :=
  | pl_token t : ~ says_semicolon d -> tok_at t -> dg_span d = tk_span t -> place d
  | pl_within t : ~ says_semicolon d -> tok_at t ->
      pos_le (tk_start t) (span_start (dg_span d)) -> pos_le (span_end (dg_span d)) (tk_end t) -> place d
  | pl_property t1 t2 : dg_kind d = PropertyAfterNode -> tok_at t1 -> tok_at t2 ->
      dg_span d = mkSpan (tk_start t1) (tk_end t2) -> place d
  | pl_point q : ~ says_semicolon d -> point q -> dg_span d = as_span q -> place d
  | pl_number q : dg_msg d = bs "Expected number" -> point q -> dg_span d = as_span (pos_offset q 1) -> place d
  | pl_missing : says_semicolon d -> semi_place (dg_span d) -> place d.
  (** an error that ends the parse may name the semicolon that was found instead of what was expected *)
  Inductive misnamed (d : diag) : Prop :=
  | misnamed_intro t q : says_semicolon d -> tok_at t -> tk_kind t = Semicolon -> point q ->
      q = tk_end t \/ pos_le q (tk_start t) -> dg_span d = as_span q -> misnamed d.

  Definition diag_ok (d : diag) : Prop := dg_source d = src /\ span_in (dg_span d) /\ place d.
  Definition error_ok (d : diag) : Prop := dg_source d = src /\ span_in (dg_span d) /\ (place d \/ misnamed d).
  Lemma diag_error d : diag_ok d -> error_ok d.
  Proof. intros (H1 & H2 & H3). split; [exact H1|]. auto. Qed.

  (** the message for a missing semicolon is not used for anything else *)
  Lemma not_semicolons sp sr ks : ks <> [Semicolon] -> ~ says_semicolon (diag_expected sp sr ks).
  Proof.
    intros H [_ E]. cbn [diag_expected diag_new dg_msg] in E. destruct ks as [|k [|k' ks]]; [discriminate E| |discriminate E].
    destruct k; try discriminate E; try (apply H; reflexivity).
  Qed.
  Lemma not_semicolon sp sr k : k <> Semicolon -> ~ says_semicolon (diag_expected sp sr [k]).
  Proof. intros H. apply not_semicolons. congruence. Qed.

  (** more diagnostics, all of them inside the text *)
  Definition ext (s s' : pstate) : Prop :=
    exists ds, ps_diags s' = ps_diags s ++ ds /\ Forall diag_ok ds /\ ps_incl s' = ps_incl s.
  Lemma ext_refl s : ext s s.
  Proof. exists []. rewrite app_nil_r. auto. Qed.
  Lemma ext_trans a b c : ext a b -> ext b c -> ext a c.
  Proof.
    intros (d1 & E1 & F1 & I1) (d2 & E2 & F2 & I2). exists (d1 ++ d2). rewrite E2, E1, app_assoc.
    split; [reflexivity|]. split; [apply Forall_app; auto|congruence].
  Qed.
  Lemma ext_same a b : same_diags a b -> ext a b.
  Proof. intros [E1 E2]. exists []. rewrite app_nil_r. auto. Qed.

  (** ** Spans that occur in diagnostics *)
  Lemma span_in_tok t : tok_at t -> span_in (tk_span t).
  Proof.
    intros (m & a & u & rest & Ht & _ & ->). cbn [tok_of tk_span]. repeat split; cbn [span_start span_end].
    - eapply pos_in_after, Ht.
    - eapply (pos_in_after _ (a ++ u)). rewrite <- app_assoc. exact Ht.
    - apply pos_after_le.
  Qed.
  Lemma span_in_point a u : text = a ++ u -> span_in (as_span (pos_after a)).
  Proof.
    intros H. repeat split; cbn; try (eapply pos_in_after; exact H). apply pos_le_refl.
  Qed.
  Lemma span_in_char s : last_in s -> span_in (as_char_span (last_of s)).
  Proof.
    intros (a & c & post & Ht & -> & _). repeat split; cbn [as_char_span span_start span_end].
    - eapply pos_in_after, Ht.
    - exists a, (c :: post), 1. split; [exact Ht|]. split; [reflexivity|]. cbn [length]. lia.
    - rewrite <- (pos_offset_0 (pos_after a)) at 1. apply pos_offset_le. lia.
  Qed.
  Lemma span_in_last s : last_in s -> span_in (as_span (last_of s)).
  Proof. intros (a & c & post & Ht & -> & _). eapply span_in_point, Ht. Qed.
  Lemma point_last s : last_in s -> point (last_of s).
  Proof. intros (a & c & post & Ht & -> & H). left. eauto. Qed.
  Lemma span_in_last1 s : last_in s -> span_in (as_span (pos_offset (last_of s) 1)).
  Proof.
    intros (a & c & post & Ht & -> & _).
    assert (H : pos_in text (pos_offset (pos_after a) 1)).
    { exists a, (c :: post), 1. split; [exact Ht|]. split; [reflexivity|]. cbn [length]. lia. }
    split; [exact H|]. split; [exact H|]. apply pos_le_refl.
  Qed.
  Lemma span_in_cur s p toks : view s p toks -> span_in (as_span (pos_of s)).
  Proof.
    intros (_ & pre & -> & _ & Hv). destruct (peeked_of s) as [[t|]|].
    - destruct Hv as (m & v & w & u & toks' & _ & _ & _ & Ht & _ & Hk & _ & Hp & _). rewrite Hp, Hk.
      apply (span_in_point (pre ++ v ++ w ++ u) (rest_of s)). rewrite <- !app_assoc. exact Ht.
    - destruct Hv as (_ & _ & -> & _). apply (span_in_point text []). rewrite app_nil_r. reflexivity.
    - destruct Hv as [(Ht & -> & _)|(_ & _ & -> & _)].
      + eapply span_in_point, Ht.
      + apply (span_in_point text []). rewrite app_nil_r. reflexivity.
  Qed.
  Lemma span_in_last_end s p : view s p [] -> peeked_of s = Some None -> span_in (as_span (last_of s)).
  Proof.
    intros (_ & pre & -> & _ & Hv) E. rewrite E in Hv. destruct Hv as (_ & _ & _ & v & post & Ht & -> & _).
    apply (span_in_point (pre ++ v) post). rewrite <- app_assoc. exact Ht.
  Qed.
  (** where the lexer stands *)
  Lemma cur_point s p toks : view s p toks -> point (pos_of s).
  Proof.
    intros (_ & pre & -> & Hpre & Hv). destruct (peeked_of s) as [[t|]|].
    - destruct Hv as (m & v & w & u & toks' & _ & _ & _ & Ht & Hsp & Hk & _ & Hp & _). rewrite Hp, Hk.
      left. exists (pre ++ v ++ w ++ u), (rest_of s). split; [rewrite <- !app_assoc; exact Ht|]. split; [|reflexivity].
      exists (pre ++ v ++ w ++ u), []. rewrite app_nil_r. split; [reflexivity|]. split; [|auto]. right.
      exists m, (tk_kind t), (pre ++ v ++ w), u, (rest_of s). rewrite <- !app_assoc. auto.
    - destruct Hv as (_ & _ & -> & _). right. reflexivity.
    - destruct Hv as [(Ht & -> & _)|(_ & _ & -> & _)]; [|right; reflexivity].
      left. exists pre, (rest_of s). split; [exact Ht|]. split; [|reflexivity]. exists pre, [].
      rewrite app_nil_r. auto.
  Qed.
  Lemma cur_before s p t toks : view s p (t :: toks) -> pos_of s = tk_end t \/ pos_le (pos_of s) (tk_start t).
  Proof.
    intros Hv. destruct (view_head _ _ _ _ _ _ Hv) as (_ & _ & Hp & _). destruct Hv as (_ & pre & -> & _ & Hv).
    destruct (peeked_of s) as [[t'|]|].
    - destruct Hv as (m & v & w & u & toks' & E & _ & _ & _ & _ & _ & _ & Hpos & _). injection E as <- <-. auto.
    - destruct Hv as (E & _). discriminate.
    - destruct Hv as [(_ & -> & _)|(E & _)]; [right; exact Hp|discriminate].
  Qed.

  Lemma view_source s p toks : view s p toks -> lx_src (pl_lex (ps_lex s)) = src.
  Proof. intros (H & _). exact H. Qed.
  Lemma view_same_lex s s' p toks : ps_lex s' = ps_lex s -> view s p toks -> view s' p toks.
  Proof.
    intros E. unfold ParserBase.view, at_end, peeked_of, rest_of, pos_of, last_of, lex_mode. rewrite E. auto.
  Qed.
  Lemma left_same_lex s s' : ps_lex s' = ps_lex s -> left s' = left s.
  Proof. intros E. unfold left, peeked_of, rest_of. rewrite E. reflexivity. Qed.

  (** ** Composite primitives *)
  Lemma wp_expect_next s p toks (Q : token -> pstate -> Prop) (E : diag -> pstate -> Prop) :
    view s p toks ->
    match toks with
    | [] => forall s', view s' p [] -> same_diags s s' -> (left s' <= left s)%nat ->
              E (eof_diag (pos_of s) src) s'
    | t :: toks' => forall s', view s' (tk_end t) toks' -> same_diags s s' -> (left s' < left s)%nat ->
        peeked_of s' = None -> last_in s' -> Q t s'
    end ->
    wp expect_next s Q E.
  Proof.
    intros Hv HQ. unfold expect_next. apply wp_bind. unfold wp at 1, cur_pos.
    apply wp_bind. eapply wp_next; [exact text_valid|exact Hv|]. destruct toks as [|t toks].
    - intros s' Hv' Hd Hl. apply wp_bind. unfold wp at 1, source. apply wp_throw.
      rewrite (view_source _ _ _ Hv'). apply HQ; assumption.
    - intros s' Hv' Hd Hl Hk Hi. apply wp_bind. unfold wp at 1, source. apply wp_ret. apply HQ; assumption.
  Qed.

  Lemma wp_peek_expect s p toks (Q : token -> pstate -> Prop) (E : diag -> pstate -> Prop) :
    view s p toks ->
    match toks with
    | [] => forall s', view s' p [] -> same_diags s s' -> (left s' <= left s)%nat ->
              E (eof_diag (pos_of s) src) s'
    | t :: toks' => forall s', view s' p (t :: toks') -> same_diags s s' -> (left s' <= left s)%nat ->
        peeked_of s' = Some (Some t) -> Q t s'
    end ->
    wp peek_expect s Q E.
  Proof.
    intros Hv HQ. unfold peek_expect. apply wp_bind. unfold wp at 1, cur_pos.
    apply wp_bind. unfold wp at 1, source.
    apply wp_bind. eapply wp_peek; [exact text_valid|exact Hv|]. intros s' Hv' Hd Hl Hk.
    destruct toks as [|t toks]; cbn [hd_error] in *.
    - apply wp_throw. rewrite (view_source _ _ _ Hv). apply HQ; assumption.
    - apply wp_ret. apply HQ; assumption.
  Qed.

  Lemma wp_expect k s p toks (Q : token -> pstate -> Prop) (E : diag -> pstate -> Prop) :
    view s p toks ->
    match toks with
    | [] => forall s', view s' p [] -> same_diags s s' -> (left s' <= left s)%nat ->
              E (eof_diag (pos_of s) src) s'
    | t :: toks' => forall s', view s' (tk_end t) toks' -> same_diags s s' -> (left s' < left s)%nat ->
        peeked_of s' = None -> last_in s' ->
        (tk_kind t = k -> Q t s')
        /\ (tk_kind t <> k -> E (diag_expected (as_span (pos_of s)) src [tk_kind t]) s')
    end ->
    wp (expect k) s Q E.
  Proof.
    intros Hv HQ. unfold expect. apply wp_bind. unfold wp at 1, cur_pos.
    apply wp_bind. eapply wp_next; [exact text_valid|exact Hv|]. destruct toks as [|t toks].
    - intros s' Hv' Hd Hl. apply wp_bind. unfold wp at 1, source. apply wp_throw.
      rewrite (view_source _ _ _ Hv'). apply HQ; assumption.
    - intros s' Hv' Hd Hl Hk Hi. apply wp_bind. unfold wp at 1, source. rewrite (view_source _ _ _ Hv').
      destruct (HQ s' Hv' Hd Hl Hk Hi) as [H1 H2]. unfold kind_eqb.
      destruct (kind_eq_dec (tk_kind t) k) as [Ek|Ek]; [apply wp_ret|apply wp_throw]; auto.
  Qed.

  Lemma wp_skip_tok s p t toks (Q : unit -> pstate -> Prop) (E : diag -> pstate -> Prop) :
    view s p (t :: toks) ->
    (forall s', view s' (tk_end t) toks -> same_diags s s' -> (left s' < left s)%nat ->
        peeked_of s' = None -> last_in s' -> Q tt s') ->
    wp skip_tok s Q E.
  Proof.
    intros Hv HQ. unfold skip_tok. apply wp_bind. eapply wp_next; [exact text_valid|exact Hv|]. cbn beta iota.
    intros s' Hv' Hd Hl Hk Hi. apply wp_ret. auto.
  Qed.

  Lemma wp_source s p toks (Q : fpath -> pstate -> Prop) E : view s p toks -> Q src s -> wp source s Q E.
  Proof. intros Hv H. unfold wp, source. rewrite (view_source _ _ _ Hv). exact H. Qed.
  Lemma wp_last_pos s (Q : position -> pstate -> Prop) E : Q (last_of s) s -> wp last_pos s Q E.
  Proof. exact (fun H => H). Qed.

  (** functions that only push diagnostics *)
  Definition pushes {A} (m : M A) (a : A) (s : pstate) : Prop :=
    exists ds, m s = ROk a (mkPS (ps_lex s) (ps_diags s ++ ds) (ps_incl s)) /\ Forall diag_ok ds.

  Lemma wp_pushes {A} (m : M A) a s (Q : A -> pstate -> Prop) E : pushes m a s ->
    (forall s', ps_lex s' = ps_lex s -> ext s s' -> Q a s') -> wp m s Q E.
  Proof.
    intros (ds & Em & Hds) HQ. unfold wp. rewrite Em. apply HQ; [reflexivity|]. exists ds. auto.
  Qed.
  Lemma pushes_ret {A} (a : A) s : pushes (ret a) a s.
  Proof. exists []. rewrite app_nil_r. destruct s. split; [reflexivity|constructor]. Qed.
  Lemma pushes_bind {A B} (m : M A) a (f : A -> M B) b s :
    pushes m a s -> (forall s', ps_lex s' = ps_lex s -> pushes (f a) b s') -> pushes (bind m f) b s.
  Proof.
    intros (d1 & E1 & F1) H. unfold bind, pushes. rewrite E1.
    destruct (H (mkPS (ps_lex s) (ps_diags s ++ d1) (ps_incl s)) eq_refl) as (d2 & E2 & F2).
    cbn [ps_lex ps_diags ps_incl] in E2. exists (d1 ++ d2). rewrite E2, app_assoc. split; [reflexivity|].
    apply Forall_app; auto.
  Qed.
  Lemma pushes_push d s : diag_ok d -> pushes (push d) tt s.
  Proof. intros H. exists [d]. split; [reflexivity|auto]. Qed.

  (** a token with room for a name of [n] bytes *)
  Definition room (sp : span) (n : nat) : Prop := exists t a u rest,
    (tok_at t /\ sp = tk_span t) /\ text = a ++ u ++ rest /\ sp = mkSpan (pos_after a) (pos_after (a ++ u)) /\ (n <= length u)%nat.

  Definition kind_len (k : token_kind) : nat :=
    match k with
    | Ident s | Label s | UnparsedNumber s | Ref (TRefSimple s) | Ref (TRefPath s) => length s
    | _ => 0
    end.
  Lemma spells_len m k u rest : spells m k u rest -> (kind_len k <= length u)%nat.
  Proof.
    intros H. destruct H; cbn [kind_len]; try (rewrite ?app_length; cbn [length]; lia).
    unfold punctuation in *. cbn [In] in *.
    repeat match goal with H : _ \/ _ |- _ => destruct H as [H|H] end;
      try contradiction; match goal with H : (_, _) = (_, _) |- _ => injection H as <- <- end; cbn; lia.
  Qed.
  Lemma tok_room t n : tok_at t -> (n <= kind_len (tk_kind t))%nat -> room (tk_span t) n.
  Proof.
    intros Hat Hn. exists t. destruct Hat as (m & a & u & rest & Ht & Hs & Hk). exists a, u, rest.
    split; [split; [exists m, a, u, rest; auto|reflexivity]|]. apply spells_len in Hs.
    rewrite Hk. cbn [tok_of tk_span]. repeat split; [exact Ht|lia].
  Qed.
  Lemma room_span sp n : room sp n -> span_in sp.
  Proof.
    intros (t & a & u & rest & _ & Ht & -> & _). repeat split; cbn [span_start span_end].
    - eapply pos_in_after, Ht.
    - eapply (pos_in_after _ (a ++ u)). rewrite <- app_assoc. exact Ht.
    - apply pos_after_le.
  Qed.

  Lemma check_ident_diag_ok sp s pred start ctx d :
    room sp (length s) -> check_ident_diag sp s pred start ctx src = Some d -> diag_ok d.
  Proof.
    intros Hr. pose proof (room_span _ _ Hr) as Hsp. unfold check_ident_diag.
    destruct (find_bad pred 0 (chars s)) as [[i ch]|] eqn:E.
    - intros E'. injection E' as <-. split; [reflexivity|].
      apply find_bad_bound in E. pose proof (chars_length s) as Hc.
      destruct Hr as (t & a & u & rest & (Htok & Hst) & Ht & Hsp' & Hl). split.
      2:{ apply (pl_within _ t); [intros [X _]; discriminate|exact Htok| |]; cbn [diag_new dg_span];
            unfold tk_start, tk_end; rewrite <- Hst, Hsp'; unfold as_char_span; cbn [span_start span_end].
          - unfold pos_le, pos_offset. cbn. lia.
          - rewrite pos_offset_add. apply pos_offset_after. lia. }
      cbn [diag_new dg_span]. clear Hst. subst sp. cbn [span_start].
      assert (Hn : forall n, n <= N.of_nat (length s) -> pos_in text (pos_offset (pos_after a) n)).
      { intros n Hn. exists a, (u ++ rest), n. rewrite app_length. repeat split; [exact Ht|lia]. }
      unfold as_char_span. repeat split; cbn [span_start span_end].
      + apply Hn. lia.
      + rewrite pos_offset_add. apply Hn. lia.
      + rewrite pos_offset_add. apply pos_offset_le. lia.
    - destruct Hr as (t & a & u & rest & (Htok & Hst) & _).
      assert (G : forall k m, k <> Expected -> diag_ok (diag_new sp src k m)).
      { intros k m Hk. split; [reflexivity|]. split; [exact Hsp|]. apply (pl_token _ t); [|exact Htok|exact Hst].
        intros [X _]. exact (Hk X). }
      destruct (31 <? N.of_nat (length s)).
      + intros E'. injection E' as <-. apply G. discriminate.
      + destruct (chars s) as [|c cs].
        * intros E'. injection E' as <-. apply G. discriminate.
        * destruct (start c); [discriminate|]. intros E'. injection E' as <-. apply G. discriminate.
  Qed.

  Lemma check_ident_pushes sp n s pred start ctx p toks st : view st p toks ->
    room sp n -> (length s <= n)%nat -> pushes (check_ident sp s pred start ctx) tt st.
  Proof.
    intros Hv (t & a & u & rest & Hat & Ht & Hsp & Hl) Hn.
    assert (Hr : room sp (length s)). { exists t, a, u, rest. split; [exact Hat|]. repeat split; auto. lia. }
    unfold check_ident, bind, source, pushes. rewrite (view_source _ _ _ Hv).
    destruct (check_ident_diag sp s pred start ctx src) as [d|] eqn:E; cbn [push_opt].
    - exists [d]. split; [reflexivity|]. constructor; [|constructor]. eapply check_ident_diag_ok; eassumption.
    - apply pushes_ret.
  Qed.

  Lemma check_node_pushes sp n nm p toks st : view st p toks -> room sp n -> (name_len nm <= n)%nat ->
    pushes (check_is_node_name sp nm) tt st.
  Proof.
    intros Hv Hr Hn. unfold check_is_node_name. destruct nm as [name addr].
    unfold name_len in Hn. cbn [nn_name nn_addr] in *.
    destruct (match addr with Some _ => false | None => str_eqb name (bs "__symbols__") end); [apply pushes_ret|].
    eapply pushes_bind; [eapply check_ident_pushes; [exact Hv|exact Hr|lia]|].
    intros s' E. destruct addr as [ad|]; [|apply pushes_ret].
    eapply check_ident_pushes; [eapply view_same_lex; [exact E|exact Hv]|exact Hr|lia].
  Qed.

  Lemma check_path_pushes sp n path p toks st : view st p toks -> room sp n ->
    (forall nm, In nm path -> (name_len nm <= n)%nat) -> pushes (check_path sp path) tt st.
  Proof.
    revert st. induction path as [|nm path IH]; intros st Hv Hr Hn; cbn [check_path]; [apply pushes_ret|].
    eapply pushes_bind; [eapply check_node_pushes; [exact Hv|exact Hr|]|].
    - apply Hn. left. reflexivity.
    - intros s' E. apply IH; [eapply view_same_lex; eassumption|exact Hr|]. intros x Hx. apply Hn. right. exact Hx.
  Qed.

  Lemma reference_pushes t r p toks st : view st p toks -> tok_at t -> tk_source t = src ->
    tk_kind t = Ref r -> exists ref, pushes (p_reference t r) (mkWT ref t) st.
  Proof.
    intros Hv Ht Hs Hk. unfold p_reference. destruct r as [s|s].
    - exists (RefLabel s). eapply pushes_bind; [|intros; apply pushes_ret].
      eapply check_ident_pushes; [exact Hv| |]; [eapply tok_room; [exact Ht|]; rewrite Hk; reflexivity|reflexivity].
    - exists (RefPath (npath_of s)).
      assert (Hr : room (tk_span t) (length s)). { apply tok_room; [exact Ht|]. rewrite Hk. reflexivity. }
      eapply (pushes_bind _ tt).
      { destruct s; [|apply pushes_ret]. apply pushes_push. split; [exact Hs|]. split; [apply span_in_tok, Ht|].
        apply (pl_token _ t); [intros [X _]; discriminate|exact Ht|reflexivity]. }
      intros s' E. eapply pushes_bind; [|intros; apply pushes_ret].
      eapply check_path_pushes; [eapply view_same_lex; eassumption|exact Hr|].
      intros nm Hin. apply npath_of_len, Hin.
  Qed.

  (** behind a token *)
  Lemma seq_pos lo l hi : l <> [] -> seq lo l hi -> hi <> pos_zero.
  Proof.
    destruct l as [|t l]; [contradiction|]. intros _ (_ & H2 & H3) ->. apply seq_le in H3.
    pose proof (pos_lt_le_trans _ _ _ H2 H3) as H. unfold pos_lt in H. cbn in H. lia.
  Qed.

  (** ** Postconditions *)
  (** [step n s p ts s' p']: from [s] (last token ending at [p]) to [s'] (last token ending at [p']),
      at least [n] bytes read, the tokens [ts] in between, diagnostics inside the text *)
  Definition seqt (lo : position) (ts : list token) (hi : position) : Prop :=
    seq lo ts hi /\ Forall tok_at ts.
  Lemma seqt_nil lo hi : pos_le lo hi -> seqt lo [] hi.
  Proof. intros H. split; [exact H|constructor]. Qed.
  Lemma seqt_app lo l1 l2 mid hi : seqt lo l1 mid -> seqt mid l2 hi -> seqt lo (l1 ++ l2) hi.
  Proof. intros [H1 F1] [H2 F2]. split; [eapply seq_app; eassumption|apply Forall_app; auto]. Qed.
  Definition step (n : nat) (s : pstate) (p : position) (ts : list token) (s' : pstate) (p' : position) : Prop :=
    ext s s' /\ seqt p ts p' /\ (left s' + n <= left s)%nat.
  Definition good {A} (n : nat) (toksof : A -> list token) (s : pstate) (p : position) (a : A) (s' : pstate) : Prop :=
    exists p' toks', view s' p' toks' /\ step n s p (toksof a) s' p'.
  Definition bad (n : nat) (s : pstate) (p : position) (d : diag) (s' : pstate) : Prop :=
    exists p' toks', view s' p' toks' /\ error_ok d /\ step n s p [] s' p'.
  Definition none_toks {A} (_ : A) : list token := [].

  Lemma step_refl s p : step 0 s p [] s p.
  Proof. split; [apply ext_refl|]. split; [apply seqt_nil, pos_le_refl|lia]. Qed.
  Lemma step_trans n m s p ts s1 p1 ts' s2 p2 :
    step n s p ts s1 p1 -> step m s1 p1 ts' s2 p2 -> step (n + m) s p (ts ++ ts') s2 p2.
  Proof.
    intros (E1 & H1 & L1) (E2 & H2 & L2). split; [eapply ext_trans; eassumption|].
    split; [eapply seqt_app; eassumption|lia].
  Qed.
  Lemma step_forget n s p ts s' p' : step n s p ts s' p' -> step n s p [] s' p'.
  Proof. intros (E & H & L). split; [exact E|]. split; [|exact L]. apply seqt_nil. eapply seq_le, H. Qed.
  Lemma step_weaken n m s p ts s' p' : (m <= n)%nat -> step n s p ts s' p' -> step m s p ts s' p'.
  Proof. intros Hm (E & H & L). split; [exact E|]. split; [exact H|lia]. Qed.
  Lemma step_pos n s p ts s' p' : step n s p ts s' p' -> ts <> [] -> p' <> pos_zero.
  Proof. intros (_ & (H & _) & _) Hn. eapply seq_pos; eassumption. Qed.
  Lemma step_left n s p ts s' p' : step n s p ts s' p' -> (left s' + n <= left s)%nat.
  Proof. intros (_ & _ & H). exact H. Qed.
  Lemma step_same_lex s p s' : ps_lex s' = ps_lex s -> ext s s' -> step 0 s p [] s' p.
  Proof.
    intros E H. split; [exact H|]. split; [apply seqt_nil, pos_le_refl|]. rewrite (left_same_lex _ _ E). lia.
  Qed.

  Lemma bad_trans n m s p ts s1 p1 d s2 : step n s p ts s1 p1 -> bad m s1 p1 d s2 -> bad (n + m) s p d s2.
  Proof.
    intros H (p' & toks' & Hv & Hd & Hs). exists p', toks'. split; [exact Hv|]. split; [exact Hd|].
    eapply step_forget, step_trans; eassumption.
  Qed.
  Lemma bad_weaken n m s p d s' : (m <= n)%nat -> bad n s p d s' -> bad m s p d s'.
  Proof. intros H (p' & toks' & Hv & Hd & Hs). exists p', toks'. eauto using step_weaken. Qed.

  Lemma head_facts s p t toks : view s p (t :: toks) ->
    tok_at t /\ tk_source t = src /\ pos_le p (tk_start t) /\ pos_lt (tk_start t) (tk_end t).
  Proof. intros H. eapply view_head; eassumption. Qed.

  (** rules in the form used below: the state [s] was reached from [s0] *)
  Section Rules.
    Context {B : Type} (n0 : nat) (s0 : pstate) (p0 : position) (ts0 : list token)
            (Q : B -> pstate -> Prop) (b : nat).
    Notation E := (bad b s0 p0).

    Lemma run_bind {A} (m : M A) (k : A -> M B) n n' f s p :
      step n0 s0 p0 ts0 s p -> wp m s (good n f s p) (bad n' s p) -> (b <= n0 + n')%nat ->
      (forall a s1 p1 toks1, view s1 p1 toks1 -> step (n0 + n) s0 p0 (ts0 ++ f a) s1 p1 ->
         (left s1 + n <= left s)%nat -> wp (k a) s1 Q E) ->
      wp (bind m k) s Q E.
    Proof.
      intros H0 Hm Hb Hk. apply wp_bind. eapply wp_conseq; [exact Hm| |].
      - intros a s1 (p1 & toks1 & Hv1 & Hs1). eapply Hk; [exact Hv1| |].
        + eapply step_trans; eassumption.
        + eapply step_left, Hs1.
      - intros d s1 Hd. eapply bad_weaken; [exact Hb|]. eapply bad_trans; eassumption.
    Qed.

    (** the same for a specification relative to [s0] *)
    Lemma run_bind0 {A} (m : M A) (k : A -> M B) n n' f s :
      wp m s (good n f s0 p0) (bad n' s0 p0) -> (b <= n')%nat ->
      (forall a s1 p1 toks1, view s1 p1 toks1 -> step n s0 p0 (f a) s1 p1 -> wp (k a) s1 Q E) ->
      wp (bind m k) s Q E.
    Proof.
      intros Hm Hb Hk. apply wp_bind. eapply wp_conseq; [exact Hm| |].
      - intros a s1 (p1 & toks1 & Hv1 & Hs1). eapply Hk; eassumption.
      - intros d s1 Hd. eapply bad_weaken; eassumption.
    Qed.

    Lemma run_pushes {A} (m : M A) (k : A -> M B) a s p toks :
      step n0 s0 p0 ts0 s p -> view s p toks -> pushes m a s ->
      (forall s1, view s1 p toks -> step n0 s0 p0 ts0 s1 p -> ps_lex s1 = ps_lex s ->
         (left s1 <= left s)%nat -> wp (k a) s1 Q E) ->
      wp (bind m k) s Q E.
    Proof.
      intros H0 Hv Hm Hk. apply wp_bind. eapply wp_pushes; [exact Hm|]. intros s1 El He. apply Hk.
      - eapply view_same_lex; eassumption.
      - rewrite <- (app_nil_r ts0). eapply step_weaken; [|eapply step_trans; [exact H0|apply step_same_lex; eassumption]]. lia.
      - exact El.
      - rewrite (left_same_lex _ _ El). lia.
    Qed.

    Lemma step_quiet s p s1 : step n0 s0 p0 ts0 s p -> same_diags s s1 -> (left s1 <= left s)%nat ->
      step n0 s0 p0 ts0 s1 p.
    Proof.
      intros (E1 & S1 & L1) Hd Hl. split; [eapply ext_trans; [exact E1|apply ext_same, Hd]|].
      split; [exact S1|lia].
    Qed.

    Lemma run_peek (k : option token -> M B) s p toks :
      step n0 s0 p0 ts0 s p -> view s p toks ->
      (forall s1, view s1 p toks -> step n0 s0 p0 ts0 s1 p -> peeked_of s1 = Some (hd_error toks) ->
         (left s1 <= left s)%nat -> wp (k (hd_error toks)) s1 Q E) ->
      wp (bind peek k) s Q E.
    Proof.
      intros H0 Hv Hk. apply wp_bind. eapply wp_peek; [exact text_valid|exact Hv|]. intros s1 Hv1 Hd Hl Hp.
      apply Hk; auto. eapply step_quiet; eassumption.
    Qed.

    Lemma bad_end s p s' : step n0 s0 p0 ts0 s p -> (b <= n0)%nat -> view s' p [] -> same_diags s s' ->
      (left s' <= left s)%nat -> (exists q toks, view s q toks) -> E (eof_diag (pos_of s) src) s'.
    Proof.
      intros H0 Hb Hv Hd Hl (q & toks & Hq). exists p, []. split; [exact Hv|]. split.
      - apply diag_error. split; [reflexivity|]. split; [eapply span_in_cur, Hq|].
        apply (pl_point _ (pos_of s)); [intros [X _]; discriminate|eapply cur_point, Hq|reflexivity].
      - eapply step_weaken; [exact Hb|]. eapply step_forget, step_quiet; eassumption.
    Qed.

    Lemma run_peek_expect (k : token -> M B) s p toks :
      step n0 s0 p0 ts0 s p -> view s p toks -> (toks = [] -> (b <= n0)%nat) ->
      (forall t toks' s1, toks = t :: toks' -> view s1 p (t :: toks') -> step n0 s0 p0 ts0 s1 p ->
         peeked_of s1 = Some (Some t) -> (left s1 <= left s)%nat -> wp (k t) s1 Q E) ->
      wp (bind peek_expect k) s Q E.
    Proof.
      intros H0 Hv Hb Hk. apply wp_bind. eapply wp_peek_expect; [exact Hv|].
      destruct toks as [|t toks].
      - intros s1 Hv1 Hd Hl. eapply bad_end; eauto.
      - intros s1 Hv1 Hd Hl Hp. eapply Hk; eauto. eapply step_quiet; eassumption.
    Qed.

    Lemma step_next s p t toks s1 : step n0 s0 p0 ts0 s p -> view s p (t :: toks) ->
      same_diags s s1 -> (left s1 < left s)%nat -> step (S n0) s0 p0 (ts0 ++ [t]) s1 (tk_end t).
    Proof.
      intros H0 Hv Hd Hl. destruct (head_facts _ _ _ _ Hv) as (Hat & _ & Hp & Hlt).
      replace (S n0) with (n0 + 1)%nat by lia. eapply step_trans; [exact H0|].
      split; [apply ext_same, Hd|]. split; [|lia]. split; [|constructor; auto].
      cbn [seq]. split; [exact Hp|]. split; [exact Hlt|apply pos_le_refl].
    Qed.
    Lemma step_drop s p t toks s1 : step n0 s0 p0 ts0 s p -> view s p (t :: toks) ->
      same_diags s s1 -> (left s1 < left s)%nat -> step (S n0) s0 p0 ts0 s1 (tk_end t).
    Proof.
      intros H0 Hv Hd Hl. destruct (head_facts _ _ _ _ Hv) as (_ & _ & Hp & Hlt).
      rewrite <- (app_nil_r ts0). replace (S n0) with (n0 + 1)%nat by lia. eapply step_trans; [exact H0|].
      split; [apply ext_same, Hd|]. split; [|lia]. apply seqt_nil. eapply pos_le_trans; [exact Hp|apply pos_lt_le, Hlt].
    Qed.

    (** take a token: store it or not *)
    Lemma run_expect_next (k : token -> M B) s p toks :
      step n0 s0 p0 ts0 s p -> view s p toks -> (toks = [] -> (b <= n0)%nat) ->
      (forall t toks' s1, toks = t :: toks' -> tok_at t -> tk_source t = src ->
         view s1 (tk_end t) toks' -> step (S n0) s0 p0 (ts0 ++ [t]) s1 (tk_end t) ->
         step (S n0) s0 p0 ts0 s1 (tk_end t) ->
         peeked_of s1 = None -> last_in s1 -> (left s1 < left s)%nat -> wp (k t) s1 Q E) ->
      wp (bind expect_next k) s Q E.
    Proof.
      intros H0 Hv Hb Hk. apply wp_bind. eapply wp_expect_next; [exact Hv|].
      destruct toks as [|t toks].
      - intros s1 Hv1 Hd Hl. eapply bad_end; eauto.
      - intros s1 Hv1 Hd Hl Hp Hi. destruct (head_facts _ _ _ _ Hv) as (Ht & Hs & _).
        eapply Hk; eauto using step_next, step_drop.
    Qed.

    Lemma run_skip (k : unit -> M B) s p t toks :
      step n0 s0 p0 ts0 s p -> view s p (t :: toks) ->
      (forall s1, view s1 (tk_end t) toks -> step (S n0) s0 p0 (ts0 ++ [t]) s1 (tk_end t) ->
         step (S n0) s0 p0 ts0 s1 (tk_end t) -> peeked_of s1 = None -> last_in s1 ->
         (left s1 < left s)%nat -> wp (k tt) s1 Q E) ->
      wp (bind skip_tok k) s Q E.
    Proof.
      intros H0 Hv Hk. apply wp_bind. eapply wp_skip_tok; [exact Hv|]. intros s1 Hv1 Hd Hl Hp Hi.
      eapply Hk; eauto using step_next, step_drop.
    Qed.

    Lemma run_expect (k : token -> M B) kd s p toks :
      step n0 s0 p0 ts0 s p -> view s p toks -> (b <= n0)%nat ->
      (forall t toks' s1, toks = t :: toks' -> tok_at t -> tk_source t = src -> tk_kind t = kd ->
         view s1 (tk_end t) toks' ->
         step (S n0) s0 p0 ts0 s1 (tk_end t) ->
         peeked_of s1 = None -> last_in s1 -> (left s1 < left s)%nat -> wp (k t) s1 Q E) ->
      wp (bind (expect kd) k) s Q E.
    Proof.
      intros H0 Hv Hb Hk. apply wp_bind. eapply wp_expect; [exact Hv|].
      destruct toks as [|t toks].
      - intros s1 Hv1 Hd Hl. eapply bad_end; eauto.
      - intros s1 Hv1 Hd Hl Hp Hi. destruct (head_facts _ _ _ _ Hv) as (Ht & Hs & _). split.
        + intros Ek. eapply Hk; eauto using step_drop.
        + intros Ek. exists (tk_end t), toks. split; [exact Hv1|]. split.
          * split; [reflexivity|]. split; [eapply span_in_cur, Hv|].
            pose proof (cur_point _ _ _ Hv) as Hc. pose proof (cur_before _ _ _ _ Hv) as Hb'.
            destruct (kind_eq_dec (tk_kind t) Semicolon) as [Es|Es].
            -- right. apply (misnamed_intro _ t (pos_of s)); auto. rewrite Es. split; reflexivity.
            -- left. apply (pl_point _ (pos_of s)); [|exact Hc|reflexivity]. apply not_semicolon, Es.
          * eapply step_forget, step_weaken; [|eapply step_drop; eassumption]. lia.
    Qed.

    Lemma run_source (k : fpath -> M B) s p toks :
      view s p toks -> wp (k src) s Q E -> wp (bind source k) s Q E.
    Proof. intros Hv H. apply wp_bind. eapply wp_source; eassumption. Qed.
    Lemma run_throw (d : diag) s p toks : step n0 s0 p0 ts0 s p -> (b <= n0)%nat -> view s p toks -> diag_ok d ->
      wp (throw d) s Q E.
    Proof.
      intros H0 Hb Hv Hd. apply wp_throw. exists p, toks. split; [exact Hv|]. split; [apply diag_error, Hd|].
      eapply step_weaken; [exact Hb|]. eapply step_forget, H0.
    Qed.
  End Rules.

  Lemma run_ret {A} n n0 (f : A -> list token) (a : A) s0 p0 ts0 s p toks b :
    step n0 s0 p0 ts0 s p -> (n <= n0)%nat -> view s p toks -> ts0 = f a ->
    wp (ret a) s (good n f s0 p0) (bad b s0 p0).
  Proof.
    intros H0 Hn Hv Hf. apply wp_ret. exists p, toks. split; [exact Hv|]. rewrite <- Hf.
    eapply step_weaken; eassumption.
  Qed.

  Lemma run_tail {A} n0 m n b (f g : A -> list token) (mm : M A) s0 p0 ts0 s p m' :
    step n0 s0 p0 ts0 s p -> wp mm s (good m f s p) (bad m' s p) -> (n <= n0 + m)%nat -> (b <= n0 + m')%nat ->
    (forall a, ts0 ++ f a = g a) -> wp mm s (good n g s0 p0) (bad b s0 p0).
  Proof.
    intros H0 Hm Hn Hb Hfg. eapply wp_conseq; [exact Hm| |].
    - intros a s1 (p1 & toks1 & Hv1 & H1). exists p1, toks1. split; [exact Hv1|]. rewrite <- Hfg.
      eapply step_weaken; [exact Hn|]. eapply step_trans; eassumption.
    - intros d s1 Hd. eapply bad_weaken; [exact Hb|]. eapply bad_trans; eassumption.
  Qed.

  Lemma diag_tok t ks : tok_at t -> tk_source t = src -> ks <> [Semicolon] ->
    diag_ok (diag_expected (tk_span t) (tk_source t) ks).
  Proof.
    intros H1 H2 H3. split; [exact H2|]. split; [apply span_in_tok, H1|].
    apply (pl_token _ t); [apply not_semicolons, H3|exact H1|reflexivity].
  Qed.
  Lemma diag_tok_from t k m : tok_at t -> tk_source t = src -> k <> Expected -> diag_ok (diag_from_token t k m).
  Proof.
    intros H1 H2 H3. split; [exact H2|]. split; [apply span_in_tok, H1|].
    apply (pl_token _ t); [intros [X _]; exact (H3 X)|exact H1|reflexivity].
  Qed.
  Lemma diag_tok_int t e : tok_at t -> tk_source t = src -> diag_ok (diag_int_error (tk_span t) (tk_source t) e).
  Proof.
    intros H1 H2. split; [exact H2|]. split; [apply span_in_tok, H1|].
    apply (pl_token _ t); [intros [X _]; discriminate|exact H1|reflexivity].
  Qed.

  Lemma wp_and_err {A} (m : M A) s (Q : A -> pstate -> Prop) (E : diag -> pstate -> Prop) (P : diag -> Prop) :
    wp m s Q E -> match m s with RErr d _ => P d | _ => True end -> wp m s Q (fun d s' => E d s' /\ P d).
  Proof. unfold wp. destruct (m s); auto. Qed.

  (** ** The parser functions *)
  Lemma skip_expression_safe f depth s p toks : view s p toks -> (left s < f)%nat ->
    wp (skip_expression f depth) s (good 0 none_toks s p) (bad 0 s p).
  Proof.
    revert depth s p toks. induction f as [|f IH]; intros depth s p toks Hv Hf; [lia|]. cbn [skip_expression].
    eapply run_peek; [apply step_refl|exact Hv|]. intros s1 Hv1 H1 _ L1.
    destruct toks as [|t toks]; cbn [hd_error].
    - eapply run_ret; [exact H1|lia|exact Hv1|reflexivity].
    - assert (G : forall d, wp (skip_tok;; skip_expression f d) s1 (good 0 none_toks s p) (bad 0 s p)).
      { intros d. eapply run_skip; [exact H1|exact Hv1|]. intros s2 Hv2 _ H2 _ _ L2.
        eapply run_tail; [exact H2|eapply IH; [exact Hv2|lia]|lia|lia|reflexivity]. }
      assert (G' : wp (skip_tok;; (if depth =? 1 then ret tt else skip_expression f (depth - 1))) s1
                     (good 0 none_toks s p) (bad 0 s p)).
      { destruct (depth =? 1); [|apply G]. eapply run_skip; [exact H1|exact Hv1|].
        intros s2 Hv2 _ H2 _ _ _. eapply run_ret; [exact H2|lia|exact Hv2|reflexivity]. }
      destruct (tk_kind t); auto.
  Qed.

  Lemma number_u32_safe f s p t toks : view s p (t :: toks) -> (left s <= f)%nat ->
    wp (number_u32 f) s (good 1 cell_toks s p) (bad 1 s p).
  Proof.
    intros Hv Hf. unfold number_u32. eapply run_expect_next; [apply step_refl|exact Hv|discriminate|].
    intros t' toks' s1 E Ht Hs Hv1 H1 H1' Hk1 Hi1 L1. injection E as <- <-.
    destruct (tk_kind t) eqn:Ek;
      try (eapply run_throw; [exact H1'|lia|exact Hv1|apply diag_tok; [assumption..|discriminate]]).
    - (* expression *)
      eapply run_bind; [exact H1'|eapply skip_expression_safe; [exact Hv1|lia]|lia|].
      intros ? s2 p2 toks2 Hv2 H2 _. eapply run_peek; [exact H2|exact Hv2|]. intros s3 Hv3 H3 _ _.
      eapply (run_pushes _ _ _ _ _ _ _ _ tt); [exact H3|exact Hv3| |].
      { destruct toks2; cbn [hd_error]; [|apply pushes_ret]. apply pushes_push, diag_tok_from; [assumption..|discriminate]. }
      intros s4 Hv4 H4 _ _. eapply run_ret; [exact H4|lia|exact Hv4|reflexivity].
    - (* number *)
      destruct (parse_number u32_lim s0) as [n|e].
      + eapply run_ret; [exact H1|lia|exact Hv1|reflexivity].
      + eapply run_pushes; [exact H1|exact Hv1|apply pushes_push, diag_tok_int; assumption|].
        intros s2 Hv2 H2 _ _. eapply run_ret; [exact H2|lia|exact Hv2|reflexivity].
    - (* reference *)
      destruct (reference_pushes t r _ _ s1 Hv1 Ht Hs Ek) as [ref Hr].
      eapply run_pushes; [exact H1|exact Hv1|exact Hr|].
      intros s2 Hv2 H2 _ _. eapply run_ret; [exact H2|lia|exact Hv2|reflexivity].
  Qed.

  Lemma skip_expression_no_error f : forall depth s d s', skip_expression f depth s <> RErr d s'.
  Proof.
    induction f as [|f IH]; intros depth s d s'; [discriminate|]. cbn [skip_expression]. unfold bind at 1, peek, lift_pl.
    destruct (pl_peek (ps_lex s)) as [[o pl]| |]; try discriminate. destruct o as [t|]; [|discriminate].
    assert (G : forall (m : M unit) s1, (forall s2, m s2 <> RErr d s') -> bind skip_tok (fun _ => m) s1 <> RErr d s').
    { intros m s1 Hm. unfold bind, skip_tok, bind, next, lift_pl. destruct (pl_next (ps_lex s1)) as [[o' pl']| |]; try discriminate.
      apply Hm. }
    destruct (tk_kind t); apply G; intros s2; try apply IH. destruct (depth =? 1); [discriminate|apply IH].
  Qed.

  (** its errors, which the caller may keep as diagnostics *)
  Lemma number_u32_error f s p t toks : view s p (t :: toks) ->
    match number_u32 f s with RErr d _ => diag_ok d | _ => True end.
  Proof.
    intros Hv. destruct (head_facts _ _ _ _ Hv) as (Ht & Hs & _). unfold number_u32, bind.
    pose proof (wp_expect_next s p (t :: toks) (fun a s1 => a = t /\ view s1 (tk_end t) toks) (fun _ _ => False) Hv (fun _ Hv1 _ _ _ _ => conj eq_refl Hv1)) as H.
    unfold wp in H. destruct (expect_next s) as [a s1|d s1| |]; try contradiction. destruct H as [-> Hv1].
    destruct (tk_kind t) eqn:Ek; try (apply diag_tok; [assumption..|discriminate]).
    - destruct (skip_expression f 1 s1) as [|d| |] eqn:E; [|exfalso; exact (skip_expression_no_error _ _ _ _ _ E)|exact I..].
      unfold peek, lift_pl. destruct (pl_peek _) as [[[]]| |]; exact I.
    - destruct (parse_number u32_lim s0); exact I.
    - destruct (reference_pushes t r _ _ s1 Hv1 Ht Hs Ek) as (ref & ds & E & _). rewrite E. exact I.
  Qed.

  Lemma memreserve_number_safe s p toks : view s p toks ->
    wp memreserve_number s (good 1 (fun w => [wt_tok w]) s p) (bad 0 s p).
  Proof.
    intros Hv. unfold memreserve_number. eapply run_expect_next; [apply step_refl|exact Hv|lia|].
    intros t toks' s1 -> Ht Hs Hv1 H1 H1' Hk1 Hi1 L1.
    destruct (tk_kind t) eqn:Ek;
      try (apply wp_bind, wp_last_pos; eapply run_source; [exact Hv1|];
           eapply run_throw; [exact H1'|lia|exact Hv1|];
           split; [reflexivity|]; split; [apply span_in_last1, Hi1|];
           apply (pl_number _ (last_of s1)); [reflexivity|apply point_last, Hi1|reflexivity]).
    destruct (parse_number u64_lim s0) as [n|e].
    - eapply run_ret; [exact H1|lia|exact Hv1|reflexivity].
    - eapply run_pushes; [exact H1|exact Hv1|apply pushes_push, diag_tok_int; assumption|].
      intros s2 Hv2 H2 _ _. eapply run_ret; [exact H2|lia|exact Hv2|reflexivity].
  Qed.

  (** identifiers and numbers are ASCII *)
  Definition word (k : token_kind) : option str :=
    match k with
    | Ident s | Label s | UnparsedNumber s | Ref (TRefSimple s) => Some s
    | _ => None
    end.
  Lemma spells_ascii m k u rest s : spells m k u rest -> word k = Some s -> Forall (fun c => c < 128) s.
  Proof.
    intros H. destruct H; cbn [word]; intros E; try discriminate; try injection E as <-.
    - eapply Forall_impl; [|eassumption]. apply name_char_ascii.
    - rewrite app_comm_cons. apply Forall_app. split; [eapply Forall_impl; [|eassumption]; apply name_char_ascii|].
      constructor; [lia|]. eapply Forall_impl; [|eassumption]. apply name_char_ascii.
    - eapply Forall_impl; [|eassumption]. apply name_char_ascii.
    - eapply Forall_impl; [|eassumption]. unfold letter, digit. lia.
    - eapply Forall_impl; [|eassumption]. unfold label_char, letter, digit. lia.
    - constructor.
    - exfalso. unfold punctuation in *. cbn [In] in *.
      repeat match goal with H : _ \/ _ |- _ => destruct H as [H|H] end;
        try contradiction; match goal with H : (_, _) = (_, _) |- _ => injection H as <- <- end; discriminate.
  Qed.
  Lemma to_lower_ascii c : c < 128 -> to_lower c < 128.
  Proof. unfold to_lower, is_upper. destruct ((65 <=? c) && (c <=? 90)) eqn:E; lia. Qed.
  Lemma decode_pairs_done (s : list N) : Forall (fun c => c < 128) s -> exists x, decode_pairs s = Done x.
  Proof.
    induction s as [s IH] using len_ind. intros H. destruct s as [|a [|b r]]; [eexists; reflexivity..|].
    cbn [decode_pairs]. inversion H as [|? ? Ha H']; subst. inversion H' as [|? ? Hb H'']; subst.
    unfold from_utf8. rewrite valid_ascii by auto using to_lower_ascii. cbn [obind].
    destruct (from_str_radix u8_lim 16 [to_lower a; to_lower b]); [|eexists; reflexivity].
    destruct (IH r ltac:(cbn; lia) H'') as [x ->]. cbn [obind]. eexists; reflexivity.
  Qed.

  Lemma byte_string_safe s p t toks : view s p (t :: toks) ->
    wp byte_string s (good 1 (fun w => [wt_tok w]) s p) (bad 0 s p).
  Proof.
    intros Hv. unfold byte_string. eapply run_expect_next; [apply step_refl|exact Hv|lia|].
    intros t' toks' s1 E Ht Hs Hv1 H1 H1' Hk1 Hi1 L1. injection E as <- <-.
    assert (G : forall d, diag_ok d ->
      wp (push d;; ret (mkWT [] t)) s1 (good 1 (fun w : wtok str => [wt_tok w]) s p) (bad 0 s p)).
    { intros d Hd. eapply run_pushes; [exact H1|exact Hv1|apply pushes_push, Hd|].
      intros s2 Hv2 H2 _ _. eapply run_ret; [exact H2|lia|exact Hv2|reflexivity]. }
    assert (G' : forall s0, word (tk_kind t) = Some s0 ->
      wp (if negb (Nat.even (length s0)) then
            push (diag_from_token t OddNumberOfBytestringElements
              (bs "Number of elements in byte string must be even")) ;; ret (mkWT [] t)
          else match decode_pairs s0 with
               | Done (inl b) => ret (mkWT b t)
               | Done (inr e) => push (diag_int_error (tk_span t) (tk_source t) e) ;; ret (mkWT [] t)
               | Panic => panic
               | NoFuel => no_fuel
               end) s1 (good 1 (fun w : wtok str => [wt_tok w]) s p) (bad 0 s p)).
    { intros s0 Hw. destruct (negb _); [apply G, diag_tok_from; [assumption..|discriminate]|].
      destruct Ht as (m & a & u & rest & Ht & Hsp & Hk).
      destruct (decode_pairs_done s0 (spells_ascii _ _ _ _ _ Hsp Hw)) as [[b|e] ->].
      - eapply run_ret; [exact H1|lia|exact Hv1|reflexivity].
      - apply G, diag_tok_int; [exists m, a, u, rest; auto|assumption]. }
    destruct (tk_kind t) eqn:Ek; try (apply G, diag_tok; [assumption..|discriminate]); apply G'; reflexivity.
  Qed.

  Lemma skip_label_safe s p toks : view s p toks ->
    wp skip_optional_label s (good 0 none_toks s p) (bad 1 s p).
  Proof.
    intros Hv. unfold skip_optional_label. eapply run_peek; [apply step_refl|exact Hv|]. intros s1 Hv1 H1 _ L1.
    destruct toks as [|t toks]; cbn [hd_error].
    - eapply run_ret; [exact H1|lia|exact Hv1|reflexivity].
    - destruct (tk_kind t); try (eapply run_ret; [exact H1|lia|exact Hv1|reflexivity]).
      eapply wp_skip_tok; [exact Hv1|]. intros s2 Hv2 Hd Hl _ _. exists (tk_end t), toks. split; [exact Hv2|].
      eapply step_weaken; [|eapply step_drop; eassumption]. lia.
  Qed.

  Lemma cells_loop_safe f acc s0 p0 ts0 s p toks n0 : view s p toks -> (left s < f)%nat ->
    step n0 s0 p0 (ts0 ++ flat_map cell_toks acc) s p ->
    wp (cells_loop f acc) s (good n0 (fun r => ts0 ++ flat_map cell_toks (fst r) ++ [snd r]) s0 p0) (bad n0 s0 p0).
  Proof.
    revert acc s p toks. induction f as [|f IH]; intros acc s p toks Hv Hf H0; [lia|]. cbn [cells_loop].
    eapply run_bind; [exact H0|eapply skip_label_safe, Hv|lia|]. intros ? s1 p1 toks1 Hv1 H1 L1.
    unfold none_toks in H1. rewrite app_nil_r, Nat.add_0_r in H1.
    eapply run_peek_expect; [exact H1|exact Hv1|lia|]. intros t toks' s2 -> Hv2 H2 _ L2.
    destruct (kind_eqb (tk_kind t) ChevronRight).
    - eapply run_expect_next; [exact H2|exact Hv2|lia|]. intros t' toks2 s3 E _ _ Hv3 H3 _ _ _ L3.
      eapply run_ret; [exact H3|lia|exact Hv3|]. cbn [fst snd]. rewrite <- app_assoc. reflexivity.
    - apply wp_catch. pose proof (number_u32_error f _ _ _ _ Hv2) as He.
      eapply wp_conseq; [eapply (wp_and_err _ _ _ _ diag_ok); [eapply number_u32_safe; [exact Hv2|lia]|exact He]| |].
      + intros c s3 (p3 & toks3 & Hv3 & H3). eapply IH; [exact Hv3| |].
        * apply step_left in H3. lia.
        * rewrite flat_map_app. cbn [flat_map]. rewrite app_nil_r, app_assoc.
          eapply step_weaken; [|eapply step_trans; eassumption]. lia.
      + intros d s3 ((p3 & toks3 & Hv3 & _ & H3) & Hd).
        assert (H3' : step n0 s0 p0 (ts0 ++ flat_map cell_toks acc) s3 p3).
        { rewrite <- (app_nil_r (ts0 ++ flat_map cell_toks acc)). eapply step_weaken; [|eapply step_trans; eassumption]. lia. }
        eapply run_pushes; [exact H3'|exact Hv3|apply pushes_push, Hd|].
        intros s4 Hv4 H4 _ L4. eapply IH; [exact Hv4| |exact H4]. apply step_left in H3. lia.
  Qed.

  Lemma bytes_loop_safe f acc s0 p0 ts0 s p toks n0 : view s p toks -> (left s < f)%nat ->
    step n0 s0 p0 (ts0 ++ map wt_tok acc) s p ->
    wp (bytes_loop f acc) s (good n0 (fun r => ts0 ++ map wt_tok (fst r) ++ [snd r]) s0 p0) (bad n0 s0 p0).
  Proof.
    revert acc s p toks. induction f as [|f IH]; intros acc s p toks Hv Hf H0; [lia|]. cbn [bytes_loop].
    eapply run_bind; [exact H0|eapply skip_label_safe, Hv|lia|]. intros ? s1 p1 toks1 Hv1 H1 L1.
    unfold none_toks in H1. rewrite app_nil_r, Nat.add_0_r in H1.
    eapply run_peek_expect; [exact H1|exact Hv1|lia|]. intros t toks' s2 -> Hv2 H2 _ L2.
    destruct (kind_eqb (tk_kind t) CloseBracket).
    - eapply run_skip; [exact H2|exact Hv2|]. intros s3 Hv3 H3 _ _ _ L3.
      eapply run_ret; [exact H3|lia|exact Hv3|]. cbn [fst snd]. rewrite <- app_assoc. reflexivity.
    - eapply run_bind; [exact H2|eapply byte_string_safe, Hv2|lia|].
      intros w s3 p3 toks3 Hv3 H3 L3. eapply IH; [exact Hv3|lia|].
      rewrite map_app. cbn [map]. rewrite app_assoc. eapply step_weaken; [|exact H3]. lia.
  Qed.

  Lemma bits_prefix_safe s p toks : view s p toks ->
    wp bits_prefix s (good 0 none_toks s p) (bad 0 s p).
  Proof.
    intros Hv. unfold bits_prefix. eapply run_peek; [apply step_refl|exact Hv|]. intros s1 Hv1 H1 _ L1.
    destruct toks as [|t toks]; cbn [hd_error].
    - eapply run_ret; [exact H1|lia|exact Hv1|reflexivity].
    - destruct (kind_eqb (tk_kind t) (Directive Bits)); [|eapply run_ret; [exact H1|lia|exact Hv1|reflexivity]].
      eapply run_skip; [exact H1|exact Hv1|]. intros s2 Hv2 _ H2 _ _ L2.
      eapply run_expect_next; [exact H2|exact Hv2|lia|]. intros w toks2 s3 -> Hw Hs Hv3 _ H3 _ _ L3.
      assert (G : wp (push (diag_expected (tk_span w) (tk_source w) [k_num])) s3 (good 0 none_toks s p) (bad 0 s p)).
      { eapply wp_pushes; [apply pushes_push, diag_tok; [assumption..|discriminate]|]. intros s4 El He.
        exists (tk_end w), toks2. split; [eapply view_same_lex; eassumption|].
        rewrite <- (app_nil_r (none_toks tt)).
        eapply step_weaken; [|eapply step_trans; [exact H3|apply step_same_lex; eassumption]]. lia. }
      destruct (tk_kind w); try exact G. eapply run_ret; [exact H3|lia|exact Hv3|reflexivity].
  Qed.

  Lemma property_value_safe f s p toks : view s p toks -> (left s <= f)%nat ->
    wp (property_value f) s (good 1 value_toks s p) (bad 0 s p).
  Proof.
    intros Hv Hf. unfold property_value.
    eapply run_bind; [apply step_refl|eapply bits_prefix_safe, Hv|lia|]. intros ? s1 p1 toks1 Hv1 H1 L1.
    cbn [none_toks app Nat.add] in H1.
    eapply run_expect_next; [exact H1|exact Hv1|lia|]. intros t toks2 s2 -> Ht Hs Hv2 H2 H2' _ _ L2.
    destruct (tk_kind t) eqn:Ek;
      try (eapply run_throw; [exact H2|lia|exact Hv2|apply diag_tok; [assumption..|discriminate]]).
    - eapply run_bind0; [eapply (bytes_loop_safe f [] s p ([] ++ [t]) s2); [exact Hv2|lia|]|lia|].
      + rewrite app_nil_r. exact H2.
      + intros [ss e] s3 p3 toks3 Hv3 H3. eapply run_ret; [exact H3|lia|exact Hv3|reflexivity].
    - eapply run_bind0; [eapply (cells_loop_safe f [] s p ([] ++ [t]) s2); [exact Hv2|lia|]|lia|].
      + rewrite app_nil_r. exact H2.
      + intros [ss e] s3 p3 toks3 Hv3 H3. eapply run_ret; [exact H3|lia|exact Hv3|reflexivity].
    - eapply run_ret; [exact H2|lia|exact Hv2|reflexivity].
    - destruct (reference_pushes t r _ _ s2 Hv2 Ht Hs Ek) as [ref Hr].
      eapply run_pushes; [exact H2|exact Hv2|exact Hr|].
      intros s3 Hv3 H3 _ _. eapply run_ret; [exact H3|lia|exact Hv3|reflexivity].
  Qed.

  Lemma property_values_safe f acc s0 p0 ts0 s p toks n0 : view s p toks -> (left s < f)%nat ->
    step n0 s0 p0 (ts0 ++ flat_map value_toks acc) s p ->
    wp (property_values f acc) s (good n0 (fun r => ts0 ++ flat_map value_toks r) s0 p0) (bad n0 s0 p0).
  Proof.
    revert acc s p toks. induction f as [|f IH]; intros acc s p toks Hv Hf H0; [lia|]. cbn [property_values].
    eapply run_bind; [exact H0|eapply skip_label_safe, Hv|lia|]. intros ? s1 p1 toks1 Hv1 H1 L1.
    unfold none_toks in H1. rewrite app_nil_r, Nat.add_0_r in H1.
    eapply run_bind; [exact H1|eapply property_value_safe; [exact Hv1|lia]|lia|].
    intros v s2 p2 toks2 Hv2 H2 L2.
    eapply run_bind; [exact H2|eapply skip_label_safe, Hv2|lia|]. intros ? s3 p3 toks3 Hv3 H3 L3.
    unfold none_toks in H3. rewrite app_nil_r in H3.
    assert (H3' : step n0 s0 p0 (ts0 ++ flat_map value_toks (acc ++ [v])) s3 p3).
    { rewrite flat_map_app. cbn [flat_map]. rewrite app_nil_r, app_assoc. eapply step_weaken; [|exact H3]. lia. }
    eapply run_peek_expect; [exact H3'|exact Hv3|lia|]. intros t toks' s4 -> Hv4 H4 _ L4.
    destruct (kind_eqb (tk_kind t) Comma).
    - eapply run_skip; [exact H4|exact Hv4|]. intros s5 Hv5 _ H5 _ _ L5.
      eapply IH; [exact Hv5|lia|]. eapply step_weaken; [|exact H5]. lia.
    - eapply run_ret; [exact H4|lia|exact Hv4|reflexivity].
  Qed.

  Lemma property_name_safe s p toks : view s p toks ->
    wp p_property_name s (good 1 (fun w => [wt_tok w]) s p) (bad 0 s p).
  Proof.
    intros Hv. unfold p_property_name. eapply run_expect_next; [apply step_refl|exact Hv|lia|].
    intros t toks' s1 -> Ht Hs Hv1 H1 H1' _ _ L1.
    destruct (tk_kind t) eqn:Ek;
      try (eapply run_throw; [exact H1|lia|exact Hv1|apply diag_tok; [assumption..|discriminate]]).
    eapply run_pushes; [exact H1|exact Hv1| |].
    - eapply check_ident_pushes; [exact Hv1|eapply tok_room; [exact Ht|]; rewrite Ek; reflexivity|reflexivity].
    - intros s2 Hv2 H2 _ _. eapply run_ret; [exact H2|lia|exact Hv2|reflexivity].
  Qed.

  Lemma node_name_pushes t s st p toks : view st p toks -> tok_at t -> tk_kind t = Ident s ->
    pushes (check_is_node_name (tk_span t) (node_name_of s)) tt st.
  Proof.
    intros Hv Ht Ek. eapply check_node_pushes; [exact Hv|eapply tok_room; [exact Ht|]; rewrite Ek; reflexivity|].
    apply node_name_of_len.
  Qed.

  Lemma node_name_safe s p toks : view s p toks ->
    wp p_node_name s (good 1 (fun w => [wt_tok w]) s p) (bad 0 s p).
  Proof.
    intros Hv. unfold p_node_name. eapply run_expect_next; [apply step_refl|exact Hv|lia|].
    intros t toks' s1 -> Ht Hs Hv1 H1 H1' _ _ L1.
    destruct (tk_kind t) eqn:Ek;
      try (eapply run_throw; [exact H1|lia|exact Hv1|apply diag_tok; [assumption..|discriminate]]).
    eapply run_pushes; [exact H1|exact Hv1|eapply node_name_pushes; eassumption|].
    intros s2 Hv2 H2 _ _. eapply run_ret; [exact H2|lia|exact Hv2|reflexivity].
  Qed.

  (** the mode set by a pseudo token *)
  Lemma view_pseudo s p toks : view s p toks -> peeked_of s = None ->
    exists toks', view (mkPS (mkPL (lex_insert_pseudo_kind Semicolon (pl_lex (ps_lex s))) (pl_peeked (ps_lex s)))
                          (ps_diags s) (ps_incl s)) p toks'.
  Proof.
    intros (Hs & pre & Hp & Hpre & Hv) Ek. rewrite Ek in Hv. unfold peeked_of in Ek.
    destruct Hv as [(Ht & Hpos & Hl & Hlast)|He].
    - destruct (lexed_total src NameExpected pre (rest_of s)) as [toks' Hl'].
      exists toks'. split; [exact Hs|]. exists pre. split; [exact Hp|]. split; [exact Hpre|]. unfold peeked_of. cbn [ps_lex pl_peeked].
      rewrite Ek. left. repeat split; auto.
    - exists toks. split; [exact Hs|]. exists pre. split; [exact Hp|]. split; [exact Hpre|]. unfold peeked_of. cbn [ps_lex pl_peeked].
      rewrite Ek. right. exact He.
  Qed.

  Definition opt_toks (o : option token) : list token := match o with Some t => [t] | None => [] end.
  Definition semi (o : option token) : Prop := match o with Some t => tk_kind t = Semicolon /\ tok_at t | None => True end.

  (** where a missing semicolon is reported, from the state *)
  Lemma semi_behind s p t toks : view s p (t :: toks) -> p <> pos_zero -> peeked_of s = Some (Some t) ->
    tk_kind t <> Semicolon -> (forall c, tk_kind t <> Unknown c) -> semi_place (as_char_span (last_of s)).
  Proof.
    intros (_ & pre & -> & [->|Hpre] & Hv) Hp E H1 H2; [elim Hp; reflexivity|]. rewrite E in Hv.
    destruct Hv as (m & v & w & u & toks' & _ & (Hg & Hvc) & Hw & Ht & Hsp & _ & -> & _).
    eapply smp_behind; eassumption.
  Qed.
  Lemma semi_on s p t toks c : view s p (t :: toks) -> p <> pos_zero -> peeked_of s = Some (Some t) ->
    tk_kind t = Unknown c -> semi_place (tk_span t).
  Proof.
    intros (_ & pre & -> & [->|Hpre] & Hv) Hp E H1; [elim Hp; reflexivity|]. rewrite E in Hv.
    destruct Hv as (m & v & w & u & toks' & _ & (Hg & Hvc) & Hw & Ht & Hsp & Hk & _).
    rewrite Hk. cbn [tok_of tk_span]. rewrite H1 in Hsp.
    rewrite (app_assoc v w u). rewrite (app_assoc v w (u ++ rest_of s)) in Ht. eapply smp_on; eassumption.
  Qed.
  Lemma semi_end s p : view s p [] -> p <> pos_zero -> peeked_of s = Some None ->
    semi_place (as_span (last_of s)).
  Proof.
    intros (_ & pre & -> & [->|Hpre] & Hv) Hp E; [elim Hp; reflexivity|]. rewrite E in Hv.
    destruct Hv as (_ & _ & _ & v & post & Ht & -> & Hn & Hvc). eapply smp_end; eassumption.
  Qed.

  Lemma expect_semicolon_safe s p toks : view s p toks -> p <> pos_zero ->
    wp expect_semicolon s (fun o s' => good 0 opt_toks s p o s' /\ semi o) (bad 0 s p).
  Proof.
    intros Hv Hp. unfold expect_semicolon.
    set (Q := fun (o : option token) s' => good 0 opt_toks s p o s' /\ semi o).
    eapply run_peek; [apply step_refl|exact Hv|]. intros s1 Hv1 H1 Hk1 L1.
    destruct toks as [|t toks]; cbn [hd_error] in *.
    - apply wp_bind, wp_last_pos. eapply run_source; [exact Hv1|].
      eapply run_pushes; [exact H1|exact Hv1|apply pushes_push; split; [reflexivity|split; [eapply span_in_last_end; eassumption|]]|].
      { apply pl_missing; [split; reflexivity|]. eapply semi_end; eassumption. }
      intros s2 Hv2 H2 _ _. apply wp_ret. split; [|exact I]. exists p, []. split; [exact Hv2|exact H2].
    - assert (Hl1 : last_in s1) by (eapply view_last; eassumption).
      assert (G : forall k, k = tk_kind t -> k <> Semicolon -> semicolon_skips k = false ->
        wp (let! sp := (if semicolon_skips k then
                     let! t2 := expect_next in insert_pseudo_kind Semicolon ;; ret (tk_span t2)
                   else let! q := last_pos in ret (as_char_span q)) in
            let! sr := source in push (diag_expected sp sr [Semicolon]) ;; ret None) s1 Q (bad 0 s p)).
      { intros k Ekt Hns Hsk. rewrite Hsk. apply wp_bind, wp_bind, wp_last_pos, wp_ret. eapply run_source; [exact Hv1|].
        eapply run_pushes; [exact H1|exact Hv1|apply pushes_push; split; [reflexivity|split; [apply span_in_char, Hl1|]]|].
        { apply pl_missing; [split; reflexivity|]. subst k. eapply semi_behind; try eassumption.
          intros c E. rewrite E in Hsk. discriminate. }
        intros s2 Hv2 H2 _ _. apply wp_ret. split; [|exact I]. exists p, (t :: toks). split; [exact Hv2|exact H2]. }
      assert (G' : forall k, k = tk_kind t -> semicolon_skips k = true ->
        wp (let! sp := (if semicolon_skips k then
                     let! t2 := expect_next in insert_pseudo_kind Semicolon ;; ret (tk_span t2)
                   else let! q := last_pos in ret (as_char_span q)) in
            let! sr := source in push (diag_expected sp sr [Semicolon]) ;; ret None) s1 Q (bad 0 s p)).
      { intros k Ekt Hsk. rewrite Hsk. apply wp_bind. eapply run_expect_next; [exact H1|exact Hv1|lia|].
        intros t2 toks2 s2 E Ht Hs Hv2 _ H2 Hk2 Hi2 L2. injection E as <- <-.
        destruct (view_pseudo s2 _ _ Hv2 Hk2) as [toks3 Hv3].
        apply wp_bind. unfold wp at 1, insert_pseudo_kind. apply wp_ret.
        set (s3 := mkPS _ _ _) in *.
        assert (H3 : step 1 s p [] s3 (tk_end t)). { exact H2. }
        eapply run_source; [exact Hv3|].
        eapply run_pushes; [exact H3|exact Hv3|apply pushes_push; split; [reflexivity|split; [apply span_in_tok, Ht|]]|].
        { apply pl_missing; [split; reflexivity|]. destruct (tk_kind t) eqn:Ek; subst k; try discriminate Hsk.
          - destruct Ht as (m & a & u & rest & _ & Hsp & _). rewrite Ek in Hsp. apply spells_not_comment in Hsp. discriminate.
          - eapply semi_on; eassumption. }
        intros s4 Hv4 H4 _ _. apply wp_ret. split; [|exact I]. exists (tk_end t), toks3. split; [exact Hv4|].
        eapply step_weaken; [|exact H4]. lia. }
      destruct (tk_kind t) eqn:Ek; try (apply G; [reflexivity|discriminate|reflexivity]); try (apply G'; reflexivity).
      eapply wp_next; [exact text_valid|exact Hv1|]. cbn beta iota. intros s2 Hv2 Hd2 Hl2 _ _.
      split; [|split; [exact Ek|eapply view_head, Hv1]]. exists (tk_end t), toks. split; [exact Hv2|].
      change (opt_toks (Some t)) with ([] ++ [t]).
      eapply step_weaken; [|eapply step_next; eassumption]. lia.
  Qed.

  Lemma semicolon_good s p toks : view s p toks -> p <> pos_zero ->
    wp expect_semicolon s (good 0 none_toks s p) (bad 0 s p).
  Proof.
    intros Hv Hp. eapply wp_conseq; [exact (expect_semicolon_safe _ _ _ Hv Hp)| |auto].
    intros o s' ((p' & toks' & Hv' & H') & _). exists p', toks'. split; [exact Hv'|]. eapply step_forget, H'.
  Qed.

  Lemma seq_within lo l hi : seq lo l hi -> forall t, In t l -> pos_le lo (tk_start t) /\ pos_le (tk_end t) hi.
  Proof.
    revert lo. induction l as [|x l IH]; intros lo H t Hin; [contradiction|]. destruct H as (H1 & H2 & H3).
    destruct Hin as [<-|Hin].
    - split; [exact H1|]. eapply seq_le, H3.
    - destruct (IH _ H3 t Hin) as [H4 H5]. split; [|exact H5].
      eapply pos_le_trans; [exact H1|]. eapply pos_le_trans; [apply pos_lt_le, H2|exact H4].
  Qed.
  (** the diagnostic for a misplaced property covers the property *)
  Lemma diag_prop_ok lo hi p :
    (forall t, In t (opt_tok (pr_label p) ++ [wt_tok (pr_name p)] ++ [pr_end p]) -> tok_at t) ->
    seq lo (opt_tok (pr_label p) ++ [wt_tok (pr_name p)] ++ [pr_end p]) hi ->
    forall m, diag_ok (diag_new (prop_span p) src PropertyAfterNode m).
  Proof.
    intros Ht Hs m. split; [reflexivity|]. split.
    2:{ apply (pl_property _ (match pr_label p with Some l => wt_tok l | None => wt_tok (pr_name p) end) (pr_end p)).
        - reflexivity.
        - apply Ht. destruct (pr_label p) as [l|]; left; reflexivity.
        - apply Ht, in_or_app. right. right. left. reflexivity.
        - destruct (pr_label p) as [l|] eqn:El; cbn [diag_new dg_span]; unfold prop_span, pos_to; rewrite El; reflexivity. }
    cbn [diag_new dg_span]. unfold prop_span, pos_to.
    assert (Hend : pos_in text (tk_end (pr_end p))).
    { destruct (span_in_tok (pr_end p)) as (_ & H & _); [|exact H]. apply Ht.
      apply in_or_app. right. right. left. reflexivity. }
    destruct p as [[l|] nm vs e]; cbn [pr_label pr_name pr_end opt_tok app] in *.
    - cbn [seq] in Hs. destruct Hs as (_ & H1 & H2 & H3 & H4 & H5 & _).
      split; [|split]; cbn [span_start span_end]; [|exact Hend|].
      + destruct (span_in_tok (wt_tok l)) as (H & _); [|exact H]. apply Ht. left. reflexivity.
      + change (pos_le (tk_start (wt_tok l)) (tk_end e)).
        repeat (eapply pos_le_trans; [first [apply pos_lt_le; eassumption|eassumption]|]). apply pos_le_refl.
    - cbn [seq] in Hs. destruct Hs as (_ & H1 & H2 & H3 & _).
      split; [|split]; cbn [span_start span_end]; [|exact Hend|].
      + destruct (span_in_tok (wt_tok nm)) as (H & _); [|exact H]. apply Ht. left. reflexivity.
      + change (pos_le (tk_start (wt_tok nm)) (tk_end e)).
        repeat (eapply pos_le_trans; [first [apply pos_lt_le; eassumption|eassumption]|]). apply pos_le_refl.
  Qed.
End Safe.
