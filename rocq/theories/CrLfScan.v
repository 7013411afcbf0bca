(** Windows line ends: a small automaton that tells whether a line end stands inside a string, a
    path reference or a directive *)
From Verif Require Import Parser CrLf.
From Coq Require Import Lia List.
Import ListNotations.

(** where one is in a text *)
Inductive place :=
| InCode            (** between or inside plain tokens *)
| AfterAmp          (** after [&] *)
| AfterSlash        (** after [/] *)
| InString (escaped : bool)
| InPath            (** inside [&{...}] *)
| InDirective       (** inside [/name/] *)
| InLine            (** inside a comment up to the end of the line *)
| InBlock (star : bool).

Definition from_code (c : N) : place :=
  if c =? cQuote then InString false
  else if c =? cAmp then AfterAmp
  else if c =? cSlash then AfterSlash
  else InCode.
Definition moves (m : place) (c : N) : place :=
  match m with
  | InCode => from_code c
  | AfterAmp => if c =? cLBrace then InPath else from_code c
  | AfterSlash =>
    if c =? cSlash then InLine
    else if c =? cStar then InBlock false
    else if is_alpha c then InDirective
    else from_code c
  | InString true => InString false
  | InString false =>
    if c =? cBackslash then InString true else if c =? cQuote then InCode else InString false
  | InPath => if c =? cRBrace then InCode else InPath
  | InDirective => if c =? cSlash then InCode else InDirective
  | InLine => if c =? cNL then InCode else InLine
  | InBlock star => if star && (c =? cSlash) then InCode else InBlock (c =? cStar)
  end.
(** a line end where a token would go over it; without [lc], also the start of a line comment *)
Definition unfit (lc : bool) (m : place) (c : N) : bool :=
  match m with
  | InString _ | InPath | InDirective => c =? cNL
  | AfterSlash => negb lc && (c =? cSlash)
  | _ => false
  end.
Fixpoint fits (lc : bool) (m : place) (l : list N) : bool :=
  match l with
  | [] => true
  | c :: r => negb (unfit lc m c) && fits lc (moves m c) r
  end.
(** no string, path reference or directive goes over a line end *)
Definition unbroken (text : list N) : bool := fits true InCode text.
(** nor is there a line comment *)
Definition unbroken_no_line_comment (text : list N) : bool := fits false InCode text.

Section Scan.
Variable lc : bool.

Lemma fits_step m c l : fits lc m (c :: l) = true -> unfit lc m c = false /\ fits lc (moves m c) l = true.
Proof.
  cbn [fits]. intros H. apply andb_prop in H. destruct H as [A B].
  split; [destruct (unfit lc m c); [discriminate|reflexivity]|exact B].
Qed.

Lemma adv_same p c : c <> cNL -> pos_line (advance p c) = pos_line p.
Proof. intros H. unfold advance. destruct (N.eqb_spec c cNL); [contradiction|reflexivity]. Qed.

Lemma not_nl c : (c =? cNL) = false -> c <> cNL.
Proof. apply N.eqb_neq. Qed.

(** bytes of code *)
Lemma fits_code cond l : (forall c, cond c = true -> from_code c = InCode) -> forall p v r,
  read_while_go cond l p = (v, r) -> fits lc InCode l = true -> fits lc InCode (rd_rest r) = true.
Proof.
  intros H. induction l as [|c l IH]; intros p v r E F; cbn [read_while_go] in E.
  - injection E as <- <-. reflexivity.
  - destruct (cond c) eqn:C.
    + destruct (read_while_go cond l (advance p c)) as [w rd] eqn:E2. injection E as <- <-.
      apply (IH _ _ _ E2). apply fits_step in F. destruct F as [_ F]. cbn [moves] in F.
      rewrite (H _ C) in F. exact F.
    + injection E as <- <-. exact F.
Qed.

Lemma line_plain cond l : cond cNL = false -> forall p v r,
  read_while_go cond l p = (v, r) -> pos_line (rd_pos r) = pos_line p.
Proof.
  intros H. induction l as [|c l IH]; intros p v r E; cbn [read_while_go] in E.
  - injection E as <- <-. reflexivity.
  - destruct (cond c) eqn:C.
    + destruct (read_while_go cond l (advance p c)) as [w rd] eqn:E2. injection E as <- <-.
      rewrite (IH _ _ _ E2). apply adv_same. intros ->. congruence.
    + injection E as <- <-. reflexivity.
Qed.

(** up to a closing byte *)
Lemma fits_until m q l : (forall c, moves m c = if c =? q then InCode else m) ->
  (forall c, unfit lc m c = (c =? cNL)) -> forall p v r,
  read_while_go (fun c => negb (c =? q)) l p = (v, r) -> fits lc m l = true ->
  fits lc m (rd_rest r) = true /\ pos_line (rd_pos r) = pos_line p.
Proof.
  intros H U. induction l as [|c l IH]; intros p v r E F; cbn [read_while_go] in E.
  - injection E as <- <-. auto.
  - destruct (negb (c =? q)) eqn:C.
    + destruct (read_while_go _ l (advance p c)) as [w rd] eqn:E2. injection E as <- <-.
      apply fits_step in F. destruct F as [A F]. rewrite U in A. rewrite H in F.
      destruct (c =? q); [discriminate|].
      destruct (IH _ _ _ E2 F) as [X Y]. split; [exact X|]. rewrite Y. apply adv_same, not_nl, A.
    + injection E as <- <-. auto.
Qed.

Lemma fits_line l : forall p v r,
  read_while_go (fun c => negb (c =? cNL)) l p = (v, r) -> fits lc InLine l = true ->
  fits lc InCode (rd_rest r) = true.
Proof.
  induction l as [|c l IH]; intros p v r E F; cbn [read_while_go] in E.
  - injection E as <- <-. reflexivity.
  - apply fits_step in F. destruct F as [_ F]. cbn [moves] in F.
    destruct (N.eqb_spec c cNL) as [->|C]; cbn [negb] in E.
    + injection E as <- <-. cbn [rd_rest fits unfit moves]. exact F.
    + destruct (read_while_go _ l (advance p c)) as [w rd] eqn:E2. injection E as <- <-.
      exact (IH _ _ _ E2 F).
Qed.

Lemma fits_block l : forall p b v r, multi_line_go l p = (v, r) ->
  fits lc (InBlock b) l = true -> (b = true -> match l with c :: _ => (c =? cSlash) = false | [] => True end) ->
  fits lc InCode (rd_rest r) = true.
Proof.
  induction l as [|c l IH]; intros p b v r E F B; cbn [multi_line_go] in E.
  - injection E as <- <-. reflexivity.
  - apply fits_step in F. destruct F as [_ F]. cbn [moves] in F.
    assert (Q : b && (c =? cSlash) = false) by (destruct b; [rewrite (B eq_refl)|]; reflexivity).
    rewrite Q in F. destruct l as [|d l'].
    + injection E as <- <-. reflexivity.
    + destruct ((c =? cStar) && (d =? cSlash)) eqn:X.
      * injection E as <- <-. apply andb_prop in X. destruct X as [X Y]. rewrite X in F.
        apply fits_step in F. destruct F as [_ F]. cbn [moves] in F. rewrite Y in F. exact F.
      * destruct (multi_line_go (d :: l') (advance p c)) as [w rd] eqn:E2. injection E as <- <-.
        apply (IH _ _ _ _ E2 F). intros Z. rewrite Z in X. exact X.
Qed.

Lemma fits_string l : forall p e v r, string_go l p e = (v, r) ->
  fits lc (InString e) l = true ->
  fits lc InCode (rd_rest r) = true /\ pos_line (rd_pos r) = pos_line p.
Proof.
  induction l as [|c l IH]; intros p e v r E F; cbn [string_go] in E.
  - injection E as <- <-. auto.
  - apply fits_step in F. destruct F as [A F]. cbn [unfit] in A.
    assert (A2 : pos_line (advance p c) = pos_line p) by (apply adv_same, not_nl, A).
    assert (G : forall e v r, string_go l (advance p c) e = (v, r) -> fits lc (InString e) l = true ->
      fits lc InCode (rd_rest r) = true /\ pos_line (rd_pos r) = pos_line p).
    { intros e' v' r' E' F'. destruct (IH _ _ _ _ E' F') as [X Y]. split; [exact X|congruence]. }
    assert (T : forall f v r, fits lc (InString false) l = true ->
      (let '(v, rd) := string_go l (advance p c) false in (option_map (app f) v, rd)) = (v, r) ->
      fits lc InCode (rd_rest r) = true /\ pos_line (rd_pos r) = pos_line p).
    { intros f v' r' F' E'. destruct (string_go l (advance p c) false) as [w rd] eqn:E2.
      injection E' as <- <-. exact (G _ _ _ E2 F'). }
    destruct e; cbn [moves] in F.
    + destruct (c =? cBackslash); [|destruct (c =? cQuote)]; exact (T _ _ _ F E).
    + destruct (c =? cBackslash); [exact (G _ _ _ E F)|].
      destruct (c =? cQuote); [|exact (T _ _ _ F E)].
      injection E as <- <-. cbn [rd_rest rd_pos]. auto.
Qed.

(** ** one token *)
Definition tok_fits (start : position) (x : outcome (option token * reader)) : Prop :=
  match x with
  | Done (t, r) =>
    fits lc InCode (rd_rest r) = true
    /\ forall a, t = Some a -> is_comment (tk_kind a) = true \/ ~ spans_lines a
  | _ => True
  end.

Lemma fits_some v k start src r : fits lc InCode (rd_rest r) = true ->
  pos_line (rd_pos r) = pos_line start ->
  tok_fits start (obind (from_utf8 v) (fun s => Done (Some (mkToken (k s) (pos_to start (rd_pos r)) src), r))).
Proof.
  intros F L. destruct (from_utf8 v); cbn; auto. split; [exact F|]. intros b E. injection E as <-.
  right. unfold spans_lines. cbn. congruence.
Qed.
Lemma fits_simple k start src r : fits lc InCode (rd_rest r) = true ->
  pos_line (rd_pos r) = pos_line start ->
  tok_fits start (Done (Some (mkToken k (pos_to start (rd_pos r)) src), r)).
Proof.
  intros F L. cbn. split; [exact F|]. intros b E. injection E as <-.
  right. unfold spans_lines. cbn. congruence.
Qed.
Lemma fits_comment v start src r : fits lc InCode (rd_rest r) = true ->
  tok_fits start (obind (from_utf8 v) (fun s => Done (Some (mkToken (Comment s) (pos_to start (rd_pos r)) src), r))).
Proof.
  intros F. destruct (from_utf8 v); cbn; auto. split; [exact F|]. intros b E. injection E as <-.
  left. reflexivity.
Qed.

Lemma peek_rest r c : rd_peek r = Some c -> rd_rest r = c :: rd_rest (rd_skip r)
  /\ rd_pos (rd_skip r) = advance (rd_pos r) c.
Proof. destruct r as [[|d l] p]; [discriminate|]. intros E. injection E as ->. auto. Qed.

Lemma fits_skip r c m : rd_peek r = Some c -> fits lc m (rd_rest r) = true ->
  unfit lc m c = false /\ fits lc (moves m c) (rd_rest (rd_skip r)) = true.
Proof. intros P F. rewrite (proj1 (peek_rest _ _ P)) in F. apply fits_step, F. Qed.

Lemma label_code c : is_label_char c = true -> from_code c = InCode.
Proof.
  unfold from_code. intros H.
  destruct (N.eqb_spec c cQuote) as [->|_]; [discriminate|].
  destruct (N.eqb_spec c cAmp) as [->|_]; [discriminate|].
  destruct (N.eqb_spec c cSlash) as [->|_]; [discriminate|reflexivity].
Qed.
Lemma ident_code c : is_ident_char c = true -> from_code c = InCode.
Proof.
  unfold from_code. intros H.
  destruct (N.eqb_spec c cQuote) as [->|_]; [discriminate|].
  destruct (N.eqb_spec c cAmp) as [->|_]; [discriminate|].
  destruct (N.eqb_spec c cSlash) as [->|_]; [discriminate|reflexivity].
Qed.
Lemma alnum_code c : is_alnum c = true -> from_code c = InCode.
Proof.
  unfold from_code. intros H.
  destruct (N.eqb_spec c cQuote) as [->|_]; [discriminate|].
  destruct (N.eqb_spec c cAmp) as [->|_]; [discriminate|].
  destruct (N.eqb_spec c cSlash) as [->|_]; [discriminate|reflexivity].
Qed.
Lemma ws_code c : is_ws c = true -> from_code c = InCode.
Proof.
  unfold from_code. intros H.
  destruct (N.eqb_spec c cQuote) as [->|_]; [discriminate|].
  destruct (N.eqb_spec c cAmp) as [->|_]; [discriminate|].
  destruct (N.eqb_spec c cSlash) as [->|_]; [discriminate|reflexivity].
Qed.

Lemma fits_ident src r : fits lc InCode (rd_rest r) = true ->
  tok_fits (rd_pos r) (ident_or_label src (rd_pos r) r).
Proof.
  intros F. unfold ident_or_label.
  destruct (read_while is_ident_char r) as [v s] eqn:E.
  pose proof (fits_code _ _ ident_code _ _ _ E F) as F1.
  pose proof (line_plain is_ident_char _ eq_refl _ _ _ E) as L1.
  destruct (rd_peek s) as [c|] eqn:P; [|apply fits_some; assumption].
  destruct (N.eqb_spec c cColon) as [->|_].
  { apply fits_some; [apply (fits_skip _ _ _ P F1)|].
    rewrite (proj2 (peek_rest _ _ P)), adv_same; [exact L1|discriminate]. }
  destruct (N.eqb_spec c cAt) as [->|_]; [|apply fits_some; assumption].
  destruct (read_while is_ident_char (rd_skip s)) as [v2 s2] eqn:E2.
  apply fits_some with (v := v ++ [cAt] ++ v2).
  - apply (fits_code _ _ ident_code _ _ _ E2). apply (fits_skip _ _ _ P F1).
  - rewrite (line_plain is_ident_char _ eq_refl _ _ _ E2).
    rewrite (proj2 (peek_rest _ _ P)), adv_same; [exact L1|discriminate].
Qed.

Lemma fits_token ch st src r : fits lc InCode (rd_rest r) = true -> rd_peek r = Some ch ->
  ch <> cNL -> tok_fits (rd_pos r) (lex_token ch st src (rd_pos r) r).
Proof.
  intros F P Hn. unfold lex_token.
  pose proof (fits_ident src _ F) as I.
  destruct (fits_skip _ _ _ P F) as [_ F1]. cbn [moves] in F1.
  pose proof (proj2 (peek_rest _ _ P)) as P1.
  assert (L1 : pos_line (rd_pos (rd_skip r)) = pos_line (rd_pos r)) by (rewrite P1; apply adv_same, Hn).
  destruct (match st with ExpectingNodeOrPropertyName => is_name_start ch | OtherState => false end);
    [exact I|].
  destruct (is_alpha ch || (ch =? cUnder)); [exact I|].
  destruct (is_digit ch).
  { unfold lex_number. destruct (read_while is_alnum r) as [v s] eqn:E.
    apply fits_some; [exact (fits_code _ _ alnum_code _ _ _ E F)|].
    exact (line_plain is_alnum _ eq_refl _ _ _ E). }
  destruct (N.eqb_spec ch cAmp) as [->|N1].
  { unfold path_or_reference. change (from_code cAmp) with AfterAmp in F1.
    destruct (rd_peek (rd_skip r)) as [c|] eqn:P2.
    2:{ cbn. split; [|discriminate]. destruct (rd_skip r) as [[|x l] q]; [reflexivity|discriminate]. }
    destruct (fits_skip _ _ _ P2 F1) as [_ F2]. cbn [moves] in F2.
    destruct (N.eqb_spec c cLBrace) as [->|N2].
    { destruct (read_while _ (rd_skip (rd_skip r))) as [v s] eqn:E.
      destruct (fits_until InPath cRBrace _ (fun _ => eq_refl) (fun _ => eq_refl) _ _ _ E F2) as [F3 L3].
      rewrite consume_peek. destruct (rd_peek s) as [d|] eqn:P3.
      - destruct (fits_skip _ _ _ P3 F3) as [U F4]. cbn [unfit] in U. cbn [moves] in F4.
        destruct (rw_end _ _ _ _ _ E) as [X | (d' & X & Y)]; [congruence|].
        rewrite P3 in X. injection X as <-. destruct (d =? cRBrace); [|discriminate].
        apply fits_some with (k := fun p => Ref (TRefPath p)); [exact F4|].
        rewrite (proj2 (peek_rest _ _ P3)), adv_same, L3 by (apply not_nl, U).
        rewrite (proj2 (peek_rest _ _ P2)), adv_same by discriminate. exact L1.
      - cbn. split; [|discriminate].
        destruct s as [[|x l] q]; [reflexivity|discriminate]. }
    assert (F3 : fits lc InCode (rd_rest (rd_skip r)) = true).
    { rewrite (proj1 (peek_rest _ _ P2)). cbn [fits unfit moves negb andb]. exact F2. }
    destruct (is_alpha c); [|apply fits_simple; assumption].
    destruct (read_while is_label_char (rd_skip r)) as [v s] eqn:E.
    apply fits_some with (k := fun l => Ref (TRefSimple l)).
    - exact (fits_code _ _ label_code _ _ _ E F3).
    - rewrite (line_plain is_label_char _ eq_refl _ _ _ E). exact L1. }
  destruct (N.eqb_spec ch cQuote) as [->|N2].
  { unfold lex_string. change (from_code cQuote) with (InString false) in F1.
    destruct (string_go _ _ false) as [v s] eqn:E.
    destruct (fits_string _ _ _ _ _ E F1) as [F2 L2].
    destruct v; [apply fits_simple; [exact F2|congruence]|]. cbn. split; [exact F2|discriminate]. }
  destruct (N.eqb_spec ch cSlash) as [->|N3].
  { unfold lex_slash. change (from_code cSlash) with AfterSlash in F1.
    destruct (rd_peek (rd_skip r)) as [c|] eqn:P2.
    2:{ apply fits_simple; [|exact L1]. destruct (rd_skip r) as [[|x l] q]; [reflexivity|discriminate]. }
    destruct (fits_skip _ _ _ P2 F1) as [_ F2]. cbn [moves] in F2.
    destruct (N.eqb_spec c cSlash) as [->|M1].
    { unfold line_comment. destruct (read_while _ (rd_skip (rd_skip r))) as [v s] eqn:E.
      apply fits_comment. exact (fits_line _ _ _ _ E F2). }
    destruct (N.eqb_spec c cStar) as [->|M2].
    { unfold multi_line_comment.
      destruct (multi_line_go _ _) as [v s] eqn:E.
      assert (F3 : fits lc InCode (rd_rest s) = true) by (apply (fits_block _ _ _ _ _ E F2); discriminate).
      destruct v; [apply fits_comment, F3|]. cbn. split; [exact F3|discriminate]. }
    destruct (is_alpha c) eqn:A.
    { unfold compiler_directive. destruct (read_while _ (rd_skip r)) as [v s] eqn:E.
      assert (F3 : fits lc InDirective (rd_rest (rd_skip r)) = true).
      { rewrite (proj1 (peek_rest _ _ P2)). cbn [fits unfit moves].
        destruct (N.eqb_spec c cNL) as [->|_]; [discriminate A|].
        destruct (N.eqb_spec c cSlash) as [->|_]; [contradiction|]. exact F2. }
      destruct (fits_until InDirective cSlash _ (fun _ => eq_refl) (fun _ => eq_refl) _ _ _ E F3)
        as [F4 L4].
      destruct (rd_peek s) as [d|] eqn:P3.
      - destruct (fits_skip _ _ _ P3 F4) as [U F5]. cbn [unfit] in U. cbn [moves] in F5.
        destruct (rw_end _ _ _ _ _ E) as [X | (d' & X & Y)]; [congruence|].
        rewrite P3 in X. injection X as <-. destruct (d =? cSlash); [|discriminate].
        apply fits_some with (k := fun p => Directive (directive_of p)); [exact F5|].
        rewrite (proj2 (peek_rest _ _ P3)), adv_same, L4 by (apply not_nl, U). exact L1.
      - assert (Z : rd_skip s = s) by (destruct s as [[|x l] q]; [reflexivity|discriminate]).
        rewrite Z. apply fits_some with (k := fun p => Directive (directive_of p)).
        + destruct s as [[|x l] q]; [reflexivity|discriminate].
        + congruence. }
    apply fits_simple; [|exact L1].
    rewrite (proj1 (peek_rest _ _ P2)). cbn [fits unfit moves negb andb]. exact F2. }
  assert (Q : from_code ch = InCode).
  { unfold from_code. destruct (N.eqb_spec ch cQuote); [contradiction|].
    destruct (N.eqb_spec ch cAmp); [contradiction|].
    destruct (N.eqb_spec ch cSlash); [contradiction|reflexivity]. }
  rewrite Q in F1.
  assert (S : forall k, tok_fits (rd_pos r) (simple_token k src (rd_pos r) r)).
  { intros k. unfold simple_token. apply fits_simple; assumption. }
  repeat (match goal with |- tok_fits _ (if ?b then _ else _) => destruct b; [apply S|] end).
  apply S.
Qed.

Lemma fits_skip_ws r : fits lc InCode (rd_rest r) = true ->
  fits lc InCode (rd_rest (skip_whitespace r)) = true.
Proof.
  unfold skip_whitespace. destruct (read_while is_ws r) as [v s] eqn:E. cbn [snd].
  exact (fits_code _ _ ws_code _ _ _ E).
Qed.

Lemma ws_no_nl r : rd_peek (skip_whitespace r) <> Some cNL.
Proof.
  unfold skip_whitespace. destruct (read_while is_ws r) as [v s] eqn:E. cbn [snd].
  destruct (rw_end _ _ _ _ _ E) as [P | (c & P & C)]; rewrite P; [discriminate|].
  intros X. injection X as ->. discriminate C.
Qed.

Lemma fits_consume r src st last t lx : fits lc InCode (rd_rest r) = true ->
  lex_consume (mkLexer r src st last) = Done (t, lx) ->
  fits lc InCode (rd_rest (lx_rd lx)) = true
  /\ forall a, t = Some a -> is_comment (tk_kind a) = true \/ ~ spans_lines a.
Proof.
  intros F. unfold lex_consume. cbn [lx_rd lx_src lx_state].
  pose proof (fits_skip_ws _ F) as F1. pose proof (ws_no_nl r) as W.
  destruct (rd_peek (skip_whitespace r)) as [ch|] eqn:P.
  - assert (Hn : ch <> cNL) by congruence.
    pose proof (fits_token ch st src _ F1 P Hn) as T.
    destruct (lex_token ch st src _ _) as [[x y]| |]; [|discriminate|discriminate].
    cbn [obind]. intros E. injection E as <- <-. exact T.
  - intros E. injection E as <- <-. split; [exact F1|discriminate].
Qed.

Lemma fits_reads text r : fits lc InCode text = true -> reads text r -> fits lc InCode (rd_rest r) = true.
Proof.
  intros F H. induction H as [|r src st last t lx H IH E]; [exact F|].
  exact (proj1 (fits_consume _ _ _ _ _ _ IH E)).
Qed.

Lemma fits_one_line text : fits lc InCode text = true -> one_line_tokens text.
Proof.
  intros F r src st last a lx R E.
  exact (proj2 (fits_consume _ _ _ _ _ _ (fits_reads _ _ F R) E) a eq_refl).
Qed.
End Scan.

Lemma unbroken_one_line text : unbroken text = true -> one_line_tokens text.
Proof. apply fits_one_line. Qed.

Lemma unbroken_no_comments text : unbroken_no_line_comment text = true -> no_line_comments text.
Proof.
  intros F r R [l E]. pose proof (fits_skip_ws false _ (fits_reads false _ _ F R)) as G.
  rewrite E in G. discriminate G.
Qed.
Lemma unbroken_weaker text : unbroken_no_line_comment text = true -> one_line_tokens text.
Proof. apply fits_one_line. Qed.
