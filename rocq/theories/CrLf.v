(** Windows line ends: the lexer on a text and on the text with CR LF for LF *)
From Verif Require Import Parser.
From Coq Require Import Lia List.
Import ListNotations.

(** [crlf t t']: [t] has no carriage return and [t'] is [t] with some (or all, or none) of its
    line feeds preceded by a carriage return *)
Inductive crlf : list N -> list N -> Prop :=
| cr_nil : crlf [] []
| cr_same c l l' : c <> cCR -> crlf l l' -> crlf (c :: l) (c :: l')
| cr_end l l' : crlf l l' -> crlf (cNL :: l) (cCR :: cNL :: l').

(** one column further *)
Definition next_col (p : position) : position := mkPos (pos_line p) (pos_char p + 1).
(** the same place, or, if [K] holds, one column further *)
Definition near (K : Prop) (p p' : position) : Prop := p' = p \/ (K /\ p' = next_col p).

Definition rsim (r r' : reader) : Prop :=
  crlf (rd_rest r) (rd_rest r') /\ rd_pos r' = rd_pos r.
(** readers after a comment: if [K] holds, the carriage return may have been read on the right *)
Definition rlate (K : Prop) (r r' : reader) : Prop :=
  crlf (rd_rest r) (rd_rest r')
  /\ (rd_pos r' = rd_pos r
      \/ (K /\ rd_pos r' = next_col (rd_pos r) /\ rd_peek r = Some cNL /\ rd_peek r' = Some cNL)).

Lemma rsim_rlate K r r' : rsim r r' -> rlate K r r'.
Proof. intros [H1 H2]. split; auto. Qed.

Lemma rlate_mono (K L : Prop) r r' : (K -> L) -> rlate K r r' -> rlate L r r'.
Proof. intros I [H [E | (X & Y)]]; (split; [exact H|]); [left; exact E|right; auto]. Qed.

Lemma near_line K p p' : near K p p' -> pos_line p' = pos_line p.
Proof. intros [->|[_ ->]]; reflexivity. Qed.

Lemma adv_line p c : pos_line p <= pos_line (advance p c).
Proof. unfold advance. destruct (c =? cNL); cbn [pos_line]; lia. Qed.

Lemma adv_near K p p' c : near K p p' -> c = cNL -> advance p' c = advance p c.
Proof. intros H ->. unfold advance. rewrite N.eqb_refl. f_equal. rewrite (near_line _ _ _ H). reflexivity. Qed.

Lemma adv_crnl p : advance (advance p cCR) cNL = advance p cNL.
Proof. reflexivity. Qed.

(** ** read_while *)
Lemma rw_line cond l : forall p v r, read_while_go cond l p = (v, r) -> pos_line p <= pos_line (rd_pos r).
Proof.
  induction l as [|c l IH]; intros p v r E; cbn [read_while_go] in E.
  - injection E as <- <-. cbn. lia.
  - destruct (cond c).
    + destruct (read_while_go cond l (advance p c)) as [w rd] eqn:E2. injection E as <- <-.
      pose proof (IH _ _ _ E2). pose proof (adv_line p c). lia.
    + injection E as <- <-. cbn. lia.
Qed.

(** a condition that no line end meets *)
Lemma rw_plain cond l l' : crlf l l' -> cond cNL = false -> cond cCR = false -> forall p,
  exists v r r', read_while_go cond l p = (v, r) /\ read_while_go cond l' p = (v, r') /\ rsim r r'.
Proof.
  intros H Hn Hc. induction H as [|c l l' Hx H IH|l l' H IH]; intros p; cbn [read_while_go].
  - do 3 eexists. repeat split; constructor.
  - destruct (cond c) eqn:E.
    + destruct (IH (advance p c)) as (v & r & r' & E1 & E2 & E3). rewrite E1, E2.
      do 3 eexists. repeat split; apply E3.
    + do 3 eexists. repeat split. cbn. constructor; assumption.
  - rewrite Hn, Hc. do 3 eexists. repeat split. cbn. constructor. assumption.
Qed.

(** a condition that every line end meets *)
Lemma rw_across cond l l' : crlf l l' -> cond cNL = true -> cond cCR = true -> forall p,
  exists v v' r r', read_while_go cond l p = (v, r) /\ read_while_go cond l' p = (v', r')
    /\ rsim r r' /\ (v' = v \/ pos_line p < pos_line (rd_pos r)).
Proof.
  intros H Hn Hc. induction H as [|c l l' Hx H IH|l l' H IH]; intros p; cbn [read_while_go].
  - do 4 eexists. repeat split; try constructor. reflexivity.
  - destruct (cond c) eqn:E.
    + destruct (IH (advance p c)) as (v & v' & r & r' & E1 & E2 & E3 & E4). rewrite E1, E2.
      do 4 eexists. repeat split; try apply E3.
      destruct E4 as [-> | E4]; [left; reflexivity|right].
      pose proof (adv_line p c). lia.
    + do 4 eexists. repeat split; [cbn; constructor; assumption|left; reflexivity].
  - rewrite Hn, Hc. rewrite adv_crnl.
    destruct (IH (advance p cNL)) as (v & v' & r & r' & E1 & E2 & E3 & E4). rewrite E1, E2.
    do 4 eexists. repeat split; try apply E3. right.
    pose proof (rw_line _ _ _ _ _ E1) as L. unfold advance in L. cbn [pos_line] in L.
    rewrite N.eqb_refl in L. cbn [pos_line] in L. lia.
Qed.

Lemma skip_ws_late K r r' : rlate K r r' -> rsim (skip_whitespace r) (skip_whitespace r').
Proof.
  destruct r as [l p], r' as [l' p']. intros [H D]. cbn [rd_rest rd_pos] in *.
  unfold skip_whitespace, read_while. cbn [rd_rest rd_pos].
  assert (Hn : is_ws cNL = true) by reflexivity.
  assert (Hc : is_ws cCR = true) by reflexivity.
  destruct D as [-> | (_ & -> & E1 & E2)].
  - destruct (rw_across is_ws l l' H Hn Hc p) as (v & v' & r & r' & -> & -> & E & _). exact E.
  - unfold rd_peek in E1, E2. cbn [rd_rest] in E1, E2.
    destruct l as [|c l]; [discriminate|]. injection E1 as ->.
    destruct l' as [|c l']; [discriminate|]. injection E2 as ->.
    inversion H; subst. cbn [read_while_go]. rewrite Hn.
    rewrite (adv_near True p (next_col p) cNL (or_intror (conj I eq_refl)) eq_refl).
    destruct (rw_across is_ws l l' H4 Hn Hc (advance p cNL)) as (v & v' & r & r' & -> & -> & E & _).
    exact E.
Qed.

(** a line comment *)
Lemma rw_comment l l' : crlf l l' -> forall p,
  exists v v' r r', read_while_go (fun c => negb (c =? cNL)) l p = (v, r)
    /\ read_while_go (fun c => negb (c =? cNL)) l' p = (v', r') /\ rlate True r r'.
Proof.
  intros H. induction H as [|c l l' Hx H IH|l l' H IH]; intros p; cbn [read_while_go].
  - do 4 eexists. repeat split; try constructor. reflexivity.
  - destruct (negb (c =? cNL)) eqn:E.
    + destruct (IH (advance p c)) as (v & v' & r & r' & E1 & E2 & E3). rewrite E1, E2.
      do 4 eexists. repeat split; try apply E3.
    + do 4 eexists. repeat split; [cbn; constructor; assumption|left; reflexivity].
  - cbn. do 4 eexists. repeat split; [cbn; constructor; [discriminate|assumption]|].
    right. repeat split.
Qed.

(** a block comment *)
Lemma ml_both l l' : crlf l l' -> forall p,
  exists b b' r r', multi_line_go l p = (b, r) /\ multi_line_go l' p = (b', r') /\ rsim r r'
    /\ (b = None <-> b' = None).
Proof.
  intros H. induction H as [|c l l' Hx H IH|l l' H IH]; intros p.
  - cbn. do 4 eexists. repeat split; try constructor; auto.
  - cbn [multi_line_go]. specialize (IH (advance p c)).
    destruct IH as (b & b' & r & r' & E1 & E2 & E3 & E4).
    destruct H as [|d l l' Hd H|l l' H].
    + do 4 eexists. repeat split; try constructor; auto.
    + destruct ((c =? cStar) && (d =? cSlash)).
      * do 4 eexists. repeat split; try exact H; discriminate.
      * rewrite E1, E2. do 4 eexists. split; [reflexivity|]. split; [reflexivity|].
        split; [exact E3|]. destruct b, b'; cbn; intuition discriminate.
    + assert (Q : (c =? cStar) && (cNL =? cSlash) = false) by (rewrite andb_false_r; reflexivity).
      assert (Q' : (c =? cStar) && (cCR =? cSlash) = false) by (rewrite andb_false_r; reflexivity).
      rewrite Q, Q', E1, E2. do 4 eexists. split; [reflexivity|]. split; [reflexivity|].
      split; [exact E3|]. destruct b, b'; cbn; intuition discriminate.
  - specialize (IH (advance p cNL)). destruct IH as (b & b' & r & r' & E1 & E2 & E3 & E4).
    assert (Q : forall d, (cNL =? cStar) && (d =? cSlash) = false) by reflexivity.
    assert (Q' : (cCR =? cStar) && (cNL =? cSlash) = false) by reflexivity.
    change (multi_line_go (cCR :: cNL :: l') p) with
      (let '(buf, rd) := multi_line_go (cNL :: l') (advance p cCR) in (option_map (cons cCR) buf, rd)).
    cbn [multi_line_go]. rewrite adv_crnl.
    destruct H as [|d l l' Hd H|l l' H].
    + cbn. do 4 eexists. repeat split; try constructor; auto.
    + rewrite Q, E1, E2. do 4 eexists. split; [reflexivity|]. split; [reflexivity|].
      split; [exact E3|]. destruct b, b'; cbn; intuition discriminate.
    + rewrite !Q, E1, E2. do 4 eexists. split; [reflexivity|]. split; [reflexivity|].
      split; [exact E3|]. destruct b, b'; cbn; intuition discriminate.
Qed.

(** a string *)
Lemma sg_line l : forall p e v r, string_go l p e = (v, r) -> pos_line p <= pos_line (rd_pos r).
Proof.
  induction l as [|c l IH]; intros p e v r E; cbn [string_go] in E.
  - injection E as <- <-. cbn. lia.
  - pose proof (adv_line p c) as L.
    assert (G : forall e v r, string_go l (advance p c) e = (v, r) ->
                pos_line p <= pos_line (rd_pos r)).
    { intros e' v' r' E'. pose proof (IH _ _ _ _ E'). lia. }
    destruct (c =? cBackslash); [|destruct (c =? cQuote)].
    + destruct e; [|exact (G _ _ _ E)].
      destruct (string_go l (advance p c) false) as [w rd] eqn:E2. injection E as <- <-.
      exact (G _ _ _ E2).
    + destruct e; [|injection E as <- <-; cbn [rd_pos]; exact L].
      destruct (string_go l (advance p c) false) as [w rd] eqn:E2. injection E as <- <-.
      exact (G _ _ _ E2).
    + destruct (string_go l (advance p c) false) as [w rd] eqn:E2. injection E as <- <-.
      exact (G _ _ _ E2).
Qed.

Lemma sg_both l l' : crlf l l' -> forall p e,
  exists v v' r r', string_go l p e = (v, r) /\ string_go l' p e = (v', r') /\ rsim r r'
    /\ (v' = v \/ ((v = None <-> v' = None) /\ pos_line p < pos_line (rd_pos r))).
Proof.
  intros H. induction H as [|c l l' Hx H IH|l l' H IH]; intros p e.
  - cbn. do 4 eexists. repeat split; try constructor; auto.
  - cbn [string_go]. pose proof (adv_line p c) as L.
    assert (G : forall e f, exists v v' r r',
      (let '(v, rd) := string_go l (advance p c) e in (option_map (app f) v, rd)) = (v, r)
      /\ (let '(v, rd) := string_go l' (advance p c) e in (option_map (app f) v, rd)) = (v', r')
      /\ rsim r r' /\ (v' = v \/ ((v = None <-> v' = None) /\ pos_line p < pos_line (rd_pos r)))).
    { intros e' f. destruct (IH (advance p c) e') as (v & v' & r & r' & E1 & E2 & E3 & E4).
      rewrite E1, E2. do 4 eexists. split; [reflexivity|]. split; [reflexivity|].
      split; [exact E3|]. destruct E4 as [-> | [E4 E5]]; [left; reflexivity|right].
      split; [destruct v, v'; cbn; intuition discriminate|lia]. }
    destruct (c =? cBackslash); [|destruct (c =? cQuote)].
    + destruct e; [apply G|].
      destruct (IH (advance p c) true) as (v & v' & r & r' & E1 & E2 & E3 & E4).
      exists v, v', r, r'. repeat (split; [assumption|]).
      destruct E4 as [-> | [E4 E5]]; [left; reflexivity|right]. split; [exact E4|lia].
    + destruct e; [apply G|].
      do 4 eexists. split; [reflexivity|]. split; [reflexivity|].
      split; [split; [exact H|reflexivity]|]. left. reflexivity.
    + apply G.
  - cbn. change (mkPos (pos_line (advance p cCR) + 1) 0) with (advance p cNL).
    fold (advance p cNL).
    change (mkPos (pos_line p + 1) 0) with (advance p cNL).
    destruct (IH (advance p cNL) false) as (v & v' & r & r' & E1 & E2 & E3 & E4).
    rewrite E1, E2. do 4 eexists. split; [reflexivity|]. split; [reflexivity|].
    split; [exact E3|]. right. split.
    + destruct v, v'; destruct E4 as [E4|[E4 _]]; cbn; try (split; congruence).
      * exfalso. apply proj2 in E4. discriminate (E4 eq_refl).
      * exfalso. apply proj1 in E4. discriminate (E4 eq_refl).
    + pose proof (sg_line _ _ _ _ _ E1) as L. unfold advance in L. rewrite N.eqb_refl in L.
      cbn [pos_line] in L. lia.
Qed.

(** ** One token *)
Definition spans_lines (t : token) : Prop :=
  pos_line (span_start (tk_span t)) <> pos_line (span_end (tk_span t)).

(** what the two lexers read: nothing; the same token; two comments ([K]: line comments); or, on the left, a token that
    goes over a line end *)
Definition tok_same (K : Prop) (x x' : outcome (option token * reader)) : Prop :=
  match x, x' with
  | Done (t, r), Done (t', r') =>
    (t' = t /\ rsim r r')
    \/ (exists a a', t = Some a /\ t' = Some a' /\ is_comment (tk_kind a) = true
          /\ is_comment (tk_kind a') = true /\ rlate K r r')
    \/ (exists a, t = Some a /\ is_comment (tk_kind a) = false /\ spans_lines a)
  | _, _ => True
  end.

Lemma rsim_skip r r' c : rsim r r' -> rd_peek r = Some c -> c <> cNL ->
  rd_peek r' = Some c /\ rsim (rd_skip r) (rd_skip r').
Proof.
  destruct r as [l p], r' as [l' p']. unfold rd_peek, rd_skip, rd_consume, rsim.
  cbn [rd_rest rd_pos]. intros [H ->] E Hc.
  destruct H as [|d l l' Hd H|l l' H]; [discriminate| |].
  - injection E as ->. cbn. auto.
  - injection E as <-. contradiction.
Qed.

(** what is peeked differs only at a line end *)
Lemma rsim_peek r r' : rsim r r' ->
  rd_peek r' = rd_peek r \/ (rd_peek r = Some cNL /\ rd_peek r' = Some cCR).
Proof.
  destruct r as [l p], r' as [l' p']. unfold rd_peek, rsim.
  cbn [rd_rest rd_pos]. intros [H ->]. destruct H; auto.
Qed.

Lemma read_plain cond r r' : rsim r r' -> cond cNL = false -> cond cCR = false ->
  exists v s s', read_while cond r = (v, s) /\ read_while cond r' = (v, s') /\ rsim s s'.
Proof.
  intros [H E] Hn Hc. unfold read_while. rewrite E. apply rw_plain; assumption.
Qed.

Lemma read_across cond r r' : rsim r r' -> cond cNL = true -> cond cCR = true ->
  exists v v' s s', read_while cond r = (v, s) /\ read_while cond r' = (v', s')
    /\ rsim s s' /\ (v' = v \/ pos_line (rd_pos r) < pos_line (rd_pos s)).
Proof.
  intros [H E] Hn Hc. unfold read_while. rewrite E. apply rw_across; assumption.
Qed.

Lemma skip_line r : pos_line (rd_pos r) <= pos_line (rd_pos (rd_skip r)).
Proof.
  destruct r as [[|c l] p]; unfold rd_skip, rd_consume; cbn [rd_rest rd_pos snd]; [lia|].
  apply adv_line.
Qed.

Lemma same_some (K : Prop) v (g : str -> token) r r' : rsim r r' ->
  tok_same K (obind (from_utf8 v) (fun s => Done (Some (g s), r)))
           (obind (from_utf8 v) (fun s => Done (Some (g s), r'))).
Proof. intros H. destruct (from_utf8 v); cbn; auto. Qed.

Lemma same_pos_some (K : Prop) v k src start r r' : rsim r r' ->
  tok_same K (obind (from_utf8 v) (fun s => Done (Some (mkToken (k s) (pos_to start (rd_pos r)) src), r)))
           (obind (from_utf8 v) (fun s => Done (Some (mkToken (k s) (pos_to start (rd_pos r')) src), r'))).
Proof. intros H. destruct H as [H E]. rewrite E. apply same_some. split; assumption. Qed.

Lemma same_simple (K : Prop) k src start r r' : rsim r r' ->
  tok_same K (Done (Some (mkToken k (pos_to start (rd_pos r)) src), r))
           (Done (Some (mkToken k (pos_to start (rd_pos r')) src), r')).
Proof. intros [H E]. cbn. left. rewrite E. split; [reflexivity|split; assumption]. Qed.

Lemma same_over (K : Prop) v v' k src start r r' : (forall s, is_comment (k s) = false) ->
  pos_line start < pos_line (rd_pos r) ->
  tok_same K (obind (from_utf8 v) (fun s => Done (Some (mkToken (k s) (pos_to start (rd_pos r)) src), r)))
           (obind (from_utf8 v') (fun s => Done (Some (mkToken (k s) (pos_to start (rd_pos r')) src), r'))).
Proof.
  intros C H. destruct (from_utf8 v); cbn; auto. destruct (from_utf8 v'); cbn; auto.
  right; right. eexists. split; [reflexivity|]. split; [apply C|].
  unfold spans_lines. cbn. lia.
Qed.

Lemma same_ident (K : Prop) src start r r' : rsim r r' ->
  tok_same K (ident_or_label src start r) (ident_or_label src start r').
Proof.
  intros H. unfold ident_or_label.
  destruct (read_plain is_ident_char r r' H eq_refl eq_refl) as (v & s & s' & -> & -> & S).
  destruct (rsim_peek _ _ S) as [E | [E E']].
  - rewrite E. destruct (rd_peek s) as [c|] eqn:P; [|apply same_pos_some, S].
    destruct (N.eqb_spec c cColon) as [->|_].
    { apply same_pos_some. apply (rsim_skip _ _ _ S P). discriminate. }
    destruct (N.eqb_spec c cAt) as [->|_]; [|apply same_pos_some, S].
    destruct (rsim_skip _ _ _ S P) as [_ S2]; [discriminate|].
    destruct (read_plain is_ident_char _ _ S2 eq_refl eq_refl) as (v2 & s2 & s2' & -> & -> & S3).
    apply same_pos_some, S3.
  - rewrite E, E'. cbn [N.eqb Pos.eqb]. apply same_pos_some, S.
Qed.

Lemma same_number (K : Prop) src start r r' : rsim r r' ->
  tok_same K (lex_number src start r) (lex_number src start r').
Proof.
  intros H. unfold lex_number.
  destruct (read_plain is_alnum r r' H eq_refl eq_refl) as (v & s & s' & -> & -> & S).
  apply same_pos_some, S.
Qed.

Lemma same_string (K : Prop) src start r r' : rsim r r' -> pos_line start <= pos_line (rd_pos r) ->
  tok_same K (lex_string src start r) (lex_string src start r').
Proof.
  intros [H E] L. unfold lex_string. rewrite E.
  destruct (sg_both _ _ H (rd_pos r) false) as (v & v' & s & s' & -> & -> & S & D).
  destruct D as [-> | [D1 D2]].
  - destruct v; [apply same_simple, S|]. cbn. left. auto.
  - destruct v, v'.
    + cbn. right; right. eexists. split; [reflexivity|]. split; [reflexivity|].
      unfold spans_lines. cbn. lia.
    + discriminate (proj2 D1 eq_refl).
    + discriminate (proj1 D1 eq_refl).
    + cbn. left. auto.
Qed.

Lemma rw_end cond l : forall p v r, read_while_go cond l p = (v, r) ->
  rd_peek r = None \/ exists c, rd_peek r = Some c /\ cond c = false.
Proof.
  induction l as [|c l IH]; intros p v r E; cbn [read_while_go] in E.
  - injection E as <- <-. left. reflexivity.
  - destruct (cond c) eqn:C.
    + destruct (read_while_go cond l (advance p c)) as [w rd] eqn:E2. injection E as <- <-.
      exact (IH _ _ _ E2).
    + injection E as <- <-. right. exists c. split; [reflexivity|exact C].
Qed.

Lemma rsim_none r r' : rsim r r' -> rd_peek r = None -> rd_peek r' = None /\ rsim (rd_skip r) (rd_skip r').
Proof.
  destruct r as [l p], r' as [l' p']. unfold rd_peek, rd_skip, rd_consume, rsim.
  cbn [rd_rest rd_pos]. intros [H ->] E. destruct H; try discriminate. cbn. repeat split. constructor.
Qed.

Lemma consume_peek r : rd_consume r = (rd_peek r, rd_skip r).
Proof. destruct r as [[|c l] p]; reflexivity. Qed.

Lemma same_directive (K : Prop) src start r r' : rsim r r' -> pos_line start <= pos_line (rd_pos r) ->
  tok_same K (compiler_directive src start r) (compiler_directive src start r').
Proof.
  intros H L. unfold compiler_directive.
  destruct (read_across (fun c => negb (c =? cSlash)) r r' H eq_refl eq_refl)
    as (v & v' & s & s' & E & -> & S & D). rewrite E.
  assert (S2 : rsim (rd_skip s) (rd_skip s')).
  { destruct (rw_end _ _ _ _ _ E) as [P | (c & P & C)]; [apply (rsim_none _ _ S P)|].
    apply (rsim_skip _ _ _ S P). intros ->. discriminate C. }
  destruct D as [-> | D].
  - apply same_pos_some with (k := fun s => Directive (directive_of s)), S2.
  - apply same_over with (k := fun s => Directive (directive_of s)); [reflexivity|].
    pose proof (skip_line s). lia.
Qed.

Lemma same_reference (K : Prop) src start r r' : rsim r r' -> pos_line start <= pos_line (rd_pos r) ->
  tok_same K (path_or_reference src start r) (path_or_reference src start r').
Proof.
  intros H L. unfold path_or_reference.
  destruct (rsim_peek _ _ H) as [E | [E E']].
  2:{ rewrite E, E'. change (cNL =? cLBrace) with false. change (cCR =? cLBrace) with false.
      change (is_alpha cNL) with false. change (is_alpha cCR) with false.
      apply same_simple, H. }
  rewrite E. destruct (rd_peek r) as [c|] eqn:P; [|cbn; left; auto].
  destruct (N.eqb_spec c cLBrace) as [->|_].
  - destruct (rsim_skip _ _ _ H P) as [_ H2]; [discriminate|].
    destruct (read_across (fun c => negb (c =? cRBrace)) _ _ H2 eq_refl eq_refl)
      as (v & v' & s & s' & E1 & -> & S & D). rewrite E1. rewrite !consume_peek.
    destruct (rw_end _ _ _ _ _ E1) as [P2 | (c & P2 & C)].
    + destruct (rsim_none _ _ S P2) as [P3 S2]. rewrite P2, P3. cbn. left. auto.
    + destruct (rsim_skip _ _ _ S P2) as [P3 S2]; [intros ->; discriminate C|].
      rewrite P2, P3. destruct D as [-> | D].
      * apply same_pos_some with (k := fun p => Ref (TRefPath p)), S2.
      * apply same_over with (k := fun p => Ref (TRefPath p)); [reflexivity|].
        pose proof (skip_line s). pose proof (skip_line r). lia.
  - destruct (is_alpha c); [|apply same_simple, H].
    destruct (read_plain is_label_char _ _ H eq_refl eq_refl) as (v & s & s' & -> & -> & S).
    apply same_pos_some with (k := fun l => Ref (TRefSimple l)), S.
Qed.

Lemma same_comment (K : Prop) v v' src start r r' : rlate K r r' ->
  tok_same K (obind (from_utf8 v) (fun s => Done (Some (mkToken (Comment s) (pos_to start (rd_pos r)) src), r)))
           (obind (from_utf8 v') (fun s => Done (Some (mkToken (Comment s) (pos_to start (rd_pos r')) src), r'))).
Proof.
  intros H. destruct (from_utf8 v); cbn; auto. destruct (from_utf8 v'); cbn; auto.
  right; left. do 2 eexists. repeat split; apply H.
Qed.

(** two slashes come next *)
Definition slashes (r : reader) : Prop := exists l, rd_rest r = cSlash :: cSlash :: l.

Lemma slashes_peek r : rd_peek r = Some cSlash -> rd_peek (rd_skip r) = Some cSlash -> slashes r.
Proof.
  destruct r as [[|c [|d l]] p]; try discriminate. intros A B. injection A as ->. injection B as ->.
  exists l. reflexivity.
Qed.

Lemma same_slash src r r' : rsim r r' -> rd_peek r = Some cSlash ->
  tok_same (slashes r) (lex_slash src (rd_pos r) r) (lex_slash src (rd_pos r) r').
Proof.
  intros H P. unfold lex_slash.
  destruct (rsim_skip _ _ _ H P) as [_ H1]; [discriminate|].
  destruct (rsim_peek _ _ H1) as [E | [E E']].
  2:{ rewrite E, E'. change (cNL =? cSlash) with false. change (cCR =? cSlash) with false.
      change (cNL =? cStar) with false. change (cCR =? cStar) with false.
      change (is_alpha cNL) with false. change (is_alpha cCR) with false.
      apply same_simple, H1. }
  rewrite E. destruct (rd_peek (rd_skip r)) as [c|] eqn:P1; [|apply same_simple, H1].
  destruct (N.eqb_spec c cSlash) as [->|_].
  { destruct (rsim_skip _ _ _ H1 P1) as [_ H2]; [discriminate|].
    unfold line_comment, read_while. destruct H2 as [H2 E2]. rewrite E2.
    destruct (rw_comment _ _ H2 (rd_pos (rd_skip (rd_skip r)))) as (v & v' & s & s' & -> & -> & S).
    apply same_comment. apply (rlate_mono True); [|exact S]. intros _. exact (slashes_peek _ P P1). }
  destruct (N.eqb_spec c cStar) as [->|_].
  { destruct (rsim_skip _ _ _ H1 P1) as [_ H2]; [discriminate|].
    unfold multi_line_comment. destruct H2 as [H2 E2]. rewrite E2.
    destruct (ml_both _ _ H2 (rd_pos (rd_skip (rd_skip r)))) as (v & v' & s & s' & -> & -> & S & D).
    destruct v, v'; [apply same_comment, rsim_rlate, S| | |cbn; left; auto].
    - discriminate (proj2 D eq_refl).
    - discriminate (proj1 D eq_refl). }
  destruct (is_alpha c); [|apply same_simple, H1].
  apply same_directive; [exact H1|apply skip_line].
Qed.

Lemma same_token ch st src r r' : rsim r r' -> rd_peek r = Some ch -> ch <> cNL ->
  tok_same (slashes r) (lex_token ch st src (rd_pos r) r) (lex_token ch st src (rd_pos r) r').
Proof.
  intros H P Hn. destruct (rsim_skip _ _ _ H P Hn) as [P' H1]. unfold lex_token.
  assert (I : tok_same (slashes r) (ident_or_label src (rd_pos r) r) (ident_or_label src (rd_pos r) r'))
    by (apply same_ident, H).
  assert (K : forall k, tok_same (slashes r) (simple_token k src (rd_pos r) r) (simple_token k src (rd_pos r) r'))
    by (intros k; unfold simple_token; apply same_simple, H1).
  destruct (match st with ExpectingNodeOrPropertyName => is_name_start ch | OtherState => false end);
    [exact I|].
  destruct (is_alpha ch || (ch =? cUnder)); [exact I|].
  destruct (is_digit ch); [apply same_number, H|].
  destruct (N.eqb_spec ch cAmp) as [_|_]; [apply same_reference; [exact H1|apply skip_line]|].
  destruct (N.eqb_spec ch cQuote) as [_|_]; [apply same_string; [exact H1|apply skip_line]|].
  destruct (N.eqb_spec ch cSlash) as [->|_]; [apply same_slash; [exact H|exact P]|].
  repeat (match goal with |- tok_same _ (if ?b then _ else _) _ => destruct b; [apply K|] end).
  apply K.
Qed.

(** ** The lexers *)
Definition same_lexers (K : Prop) (lx lx' : lexer) : Prop :=
  lx_src lx' = lx_src lx /\ lx_state lx' = lx_state lx /\ near K (lx_last lx) (lx_last lx').

(** [Lexer::consume] *)
Lemma same_consume (K : Prop) lx lx' t lx2 t' lx2' :
  rlate K (lx_rd lx) (lx_rd lx') -> lx_src lx' = lx_src lx -> lx_state lx' = lx_state lx ->
  lex_consume lx = Done (t, lx2) -> lex_consume lx' = Done (t', lx2') ->
  (exists a, t = Some a /\ is_comment (tk_kind a) = false /\ spans_lines a)
  \/ (same_lexers K lx2 lx2'
      /\ ((t' = t /\ rsim (lx_rd lx2) (lx_rd lx2'))
          \/ (exists a a', t = Some a /\ t' = Some a' /\ is_comment (tk_kind a) = true
                /\ is_comment (tk_kind a') = true
                /\ rlate (slashes (skip_whitespace (lx_rd lx))) (lx_rd lx2) (lx_rd lx2')))).
Proof.
  destruct lx as [r src st last], lx' as [r' src' st' last']. cbn [lx_rd lx_src lx_state].
  intros H -> ->. unfold lex_consume. cbn [lx_rd lx_src lx_state lx_last].
  assert (N1 : near K (rd_pos r) (rd_pos r')).
  { destruct H as [_ [->|(k & -> & _)]]; [left; reflexivity|right]. split; [exact k|reflexivity]. }
  pose proof (skip_ws_late _ _ _ H) as S2. pose proof (proj2 S2) as E.
  assert (W : rd_peek (skip_whitespace r) <> Some cNL).
  { unfold skip_whitespace, read_while.
    destruct (read_while_go is_ws (rd_rest r) (rd_pos r)) as [v s] eqn:Er. cbn [snd].
    destruct (rw_end _ _ _ _ _ Er) as [P | (c & P & C)]; rewrite P; [discriminate|].
    intros X. injection X as ->. discriminate C. }
  destruct (rsim_peek _ _ S2) as [P | [P _]]; [|contradiction].
  rewrite P. destruct (rd_peek (skip_whitespace r)) as [ch|] eqn:P1.
  - assert (Hn : ch <> cNL) by congruence.
    pose proof (same_token ch st src _ _ S2 P1 Hn) as T. rewrite E.
    destruct (lex_token ch st src (rd_pos (skip_whitespace r)) (skip_whitespace r)) as [[x y]| |];
      [|discriminate|discriminate].
    destruct (lex_token ch st src (rd_pos (skip_whitespace r)) (skip_whitespace r')) as [[x' y']| |];
      [|discriminate|discriminate].
    cbn [obind]. intros A B. injection A as <- <-. injection B as <- <-. cbn [tok_same] in T.
    destruct T as [T | [T | T]]; [right|right|left; exact T].
    + split; [split; [|split]; auto|]. left. exact T.
    + split; [split; [|split]; auto|]. right. exact T.
  - intros A B. injection A as <- <-. injection B as <- <-. right.
    split; [split; [|split]; auto|]. left. auto.
Qed.

(** The places of a text from which the lexer reads on, whatever kind of name it expects there *)
Inductive reads (text : list N) : reader -> Prop :=
| reads_start : reads text (reader_of text)
| reads_next r src st last t lx : reads text r ->
    lex_consume (mkLexer r src st last) = Done (t, lx) -> reads text (lx_rd lx).

(** No string, reference, directive or other token of the text goes over a line end; comments may. *)
Definition one_line_tokens (text : list N) : Prop :=
  forall r src st last a lx, reads text r ->
    lex_consume (mkLexer r src st last) = Done (Some a, lx) ->
    is_comment (tk_kind a) = true \/ ~ spans_lines a.

Lemma reads_lexer text lx t lx2 : reads text (lx_rd lx) -> lex_consume lx = Done (t, lx2) ->
  reads text (lx_rd lx2).
Proof. destruct lx as [r src st last]. intros H E. exact (reads_next _ _ _ _ _ _ _ H E). Qed.

Lemma one_line_lexer text lx a lx2 : one_line_tokens text -> reads text (lx_rd lx) ->
  lex_consume lx = Done (Some a, lx2) -> is_comment (tk_kind a) = false -> ~ spans_lines a.
Proof.
  destruct lx as [r src st last]. intros O H E C.
  destruct (O _ _ _ _ _ _ H E) as [X|X]; [congruence|exact X].
Qed.

(** no line comment is read *)
Definition no_line_comments (text : list N) : Prop :=
  forall r, reads text r -> ~ slashes (skip_whitespace r).

(** [Lexer::next] *)
Lemma same_next_fuel (K : Prop) text : one_line_tokens text -> K \/ no_line_comments text -> forall f f' lx lx' t lx2 t' lx2',
  reads text (lx_rd lx) ->
  rlate K (lx_rd lx) (lx_rd lx') -> lx_src lx' = lx_src lx -> lx_state lx' = lx_state lx ->
  lex_next_fuel f lx = Done (t, lx2) -> lex_next_fuel f' lx' = Done (t', lx2') ->
  t' = t /\ same_lexers K lx2 lx2' /\ rsim (lx_rd lx2) (lx_rd lx2') /\ reads text (lx_rd lx2).
Proof.
  intros O NK. induction f as [|f IH]; intros f' lx lx' t lx2 t' lx2' R H Hs Hst E E'; [discriminate|].
  destruct f' as [|f']; [discriminate|]. cbn [lex_next_fuel] in E, E'.
  destruct (lex_consume lx) as [[x y]| |] eqn:C; [|discriminate|discriminate].
  destruct (lex_consume lx') as [[x' y']| |] eqn:C'; [|discriminate|discriminate].
  cbn [obind] in E, E'.
  pose proof (reads_lexer _ _ _ _ R C) as R2.
  destruct (same_consume _ _ _ _ _ _ _ H Hs Hst C C') as [(a & -> & X & Y) | [L D]].
  - destruct (one_line_lexer _ _ _ _ O R C X Y).
  - destruct D as [[-> D] | (a & a' & -> & -> & Ca & Ca' & D)].
    + destruct x as [tok|].
      * destruct (is_comment (tk_kind tok)).
        { refine (IH _ _ _ _ _ _ _ R2 (rsim_rlate _ _ _ D) _ _ E E'); apply L. }
        injection E as <- <-. injection E' as <- <-. auto.
      * injection E as <- <-. injection E' as <- <-. auto.
    + rewrite Ca in E. rewrite Ca' in E'.
      assert (D2 : rlate K (lx_rd y) (lx_rd y')).
      { refine (rlate_mono _ _ _ _ _ D). intros X. destruct NK as [k|NK]; [exact k|].
        destruct (NK _ R X). }
      refine (IH _ _ _ _ _ _ _ R2 D2 _ _ E E'); apply L.
Qed.
