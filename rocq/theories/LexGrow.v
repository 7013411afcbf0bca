(** The lexer on a text with more lines behind it *)
From Verif Require Import Lexer.
From Coq Require Import ZifyBool.

(** Where in the lexical structure a place of a text is; spec, independent of the lexer *)
Inductive place := Plain | AfterSlash | AfterAmp | InLine | InBlock | InBlockStar | InString | InEscape | InPath | InDirective.
Definition step_plain (c : N) : place :=
  if c =? cSlash then AfterSlash else if c =? cQuote then InString else if c =? cAmp then AfterAmp else Plain.
Definition step (s : place) (c : N) : place :=
  match s with
  | Plain => step_plain c
  | AfterSlash => if c =? cSlash then InLine else if c =? cStar then InBlock else if is_alpha c then InDirective else step_plain c
  | AfterAmp => if c =? cLBrace then InPath else step_plain c
  | InLine => if c =? cNL then Plain else InLine
  | InBlock => if c =? cStar then InBlockStar else InBlock
  | InBlockStar => if c =? cSlash then Plain else if c =? cStar then InBlockStar else InBlock
  | InString => if c =? cBackslash then InEscape else if c =? cQuote then Plain else InString
  | InEscape => InString
  | InPath => if c =? cRBrace then Plain else InPath
  | InDirective => if c =? cSlash then Plain else InDirective
  end.
Definition place_of (l : list N) (s : place) : place := fold_left step l s.
(** not inside a string, a block comment, a path or a directive, and not behind an ampersand *)
Definition settled (s : place) : bool := match s with Plain | AfterSlash | InLine => true | _ => false end.
Definition ends_settled (l : list N) : bool := settled (place_of l Plain).

Section Grow.
  Context (b : list N).
  Notation z := (cNL :: b).
  Definition growr (r : reader) : reader := mkReader (rd_rest r ++ z) (rd_pos r).

  Lemma place_app l l' s : place_of (l ++ l') s = place_of l' (place_of l s).
  Proof. unfold place_of. apply fold_left_app. Qed.
  Lemma place_cons c l s : place_of (c :: l) s = place_of l (step s c).
  Proof. reflexivity. Qed.
  Lemma plain_run v s : Forall (fun c => step s c = s) v -> place_of v s = s.
  Proof. induction 1 as [|c v Hc _ IH]; [reflexivity|]. rewrite place_cons, Hc. exact IH. Qed.

  Lemma rw_spec cond rest : forall p v rd, read_while_go cond rest p = (v, rd) ->
    rest = v ++ rd_rest rd /\ Forall (fun c => cond c = true) v /\ (rd_rest rd = [] \/ exists c r, rd_rest rd = c :: r /\ cond c = false).
  Proof.
    induction rest as [|c rest IH]; intros p v rd E; cbn [read_while_go] in E.
    - injection E as <- <-. cbn. auto.
    - destruct (cond c) eqn:Ec.
      + destruct (read_while_go cond rest (advance p c)) as [v1 rd1] eqn:E1. injection E as <- <-.
        destruct (IH _ _ _ E1) as (H1 & H2 & H3). split; [cbn; f_equal; exact H1|]. split; [constructor; assumption|exact H3].
      + injection E as <- <-. cbn. split; [reflexivity|]. split; [constructor|]. right. eauto.
  Qed.
  Lemma rw_grow cond rest : forall p v rd, read_while_go cond rest p = (v, rd) -> cond cNL = false \/ rd_rest rd <> [] ->
    read_while_go cond (rest ++ z) p = (v, growr rd).
  Proof.
    induction rest as [|c rest IH]; intros p v rd E H; cbn [read_while_go] in E.
    - injection E as <- <-. cbn [app read_while_go]. destruct H as [H|H]; [rewrite H; reflexivity|cbn in H; contradiction].
    - cbn [app read_while_go]. destruct (cond c) eqn:Ec.
      + destruct (read_while_go cond rest (advance p c)) as [v1 rd1] eqn:E1. injection E as <- <-.
        rewrite (IH _ _ _ E1 H). reflexivity.
      + injection E as <- <-. reflexivity.
  Qed.
  (** a class of bytes that neither start nor end anything *)
  Definition quiet (cond : N -> bool) : Prop := forall c, cond c = true -> step Plain c = Plain.
  Lemma quiet_run cond v l : quiet cond -> Forall (fun c => cond c = true) v -> ends_settled (v ++ l) = ends_settled l.
  Proof.
    intros Hq Hv. unfold ends_settled. rewrite place_app, (plain_run v Plain); [reflexivity|].
    rewrite Forall_forall in *. intros c Hc. apply Hq, Hv, Hc.
  Qed.
  Ltac q_tac := intros c H; unfold step, step_plain, is_ident_char, is_label_char, is_alnum, is_digit, is_alpha, is_lower, is_upper, is_ws in *;
    destruct (N.eqb_spec c cSlash) as [->|]; [discriminate H|]; destruct (N.eqb_spec c cQuote) as [->|]; [discriminate H|];
    destruct (N.eqb_spec c cAmp) as [->|]; [discriminate H|reflexivity].
  Lemma q_ident : quiet is_ident_char. Proof. q_tac. Qed.
  Lemma q_label : quiet is_label_char. Proof. q_tac. Qed.
  Lemma q_alnum : quiet is_alnum. Proof. q_tac. Qed.
  Lemma q_ws : quiet is_ws. Proof. q_tac. Qed.

  Lemma skip_grow c r r1 : rd_rest r = c :: r1 -> rd_skip (growr r) = growr (rd_skip r) /\ rd_rest (rd_skip r) = r1.
  Proof. intros E. unfold rd_skip, rd_consume, growr. rewrite E. cbn. split; reflexivity. Qed.

  Definition grows (f : reader -> outcome (option token * reader)) (r : reader) : Prop :=
    forall t r2, f r = Done (Some t, r2) -> f (growr r) = Done (Some t, growr r2) /\ ends_settled (rd_rest r2) = true.

  Lemma obind_done {A B} (m : outcome A) (f : A -> outcome B) x : obind m f = Done x -> exists a, m = Done a /\ f a = Done x.
  Proof. destruct m; cbn; intros E; try discriminate E. eauto. Qed.

  Lemma g_while cond mk start src r : quiet cond -> cond cNL = false -> ends_settled (rd_rest r) = true ->
    grows (fun r => let '(buf, r2) := read_while cond r in
      obind (from_utf8 buf) (fun s => Done (Some (mkToken (mk s) (pos_to start (rd_pos r2)) src), r2))) r.
  Proof.
    intros Hq Hc Ho t r2 E. unfold read_while in *. destruct (read_while_go cond (rd_rest r) (rd_pos r)) as [v rd] eqn:Er.
    destruct (rw_spec _ _ _ _ _ Er) as (H1 & H2 & _). cbn [growr rd_rest rd_pos]. rewrite (rw_grow _ _ _ _ _ Er (or_introl Hc)).
    destruct (from_utf8 v); cbn [obind] in *; try discriminate E. injection E as <- <-. split; [reflexivity|].
    rewrite H1, (quiet_run _ _ _ Hq H2) in Ho. exact Ho.
  Qed.
  Lemma g_number src start r : ends_settled (rd_rest r) = true -> grows (lex_number src start) r.
  Proof. exact (g_while is_alnum UnparsedNumber start src r q_alnum eq_refl). Qed.
  Lemma g_simple k src start c r r1 : rd_rest r = c :: r1 -> ends_settled r1 = true -> grows (simple_token k src start) r.
  Proof.
    intros E Ho t r2 H. unfold simple_token in *. destruct (skip_grow _ _ _ E) as [-> E1]. injection H as <- <-. split; [reflexivity|]. rewrite E1. exact Ho.
  Qed.
  Lemma g_ident src start r : ends_settled (rd_rest r) = true -> grows (ident_or_label src start) r.
  Proof.
    intros Ho t r2 E. unfold ident_or_label, read_while in *. destruct (read_while_go is_ident_char (rd_rest r) (rd_pos r)) as [v rd] eqn:Er.
    destruct (rw_spec _ _ _ _ _ Er) as (H1 & H2 & _). rewrite H1, (quiet_run _ _ _ q_ident H2) in Ho.
    cbn [growr rd_rest rd_pos]. rewrite (rw_grow _ _ _ _ _ Er (or_introl eq_refl)).
    unfold rd_peek in *. destruct (rd_rest rd) as [|c l] eqn:El.
    - cbn [growr rd_rest]. rewrite El. cbn [app]. destruct (from_utf8 v); cbn [obind] in *; try discriminate E. injection E as <- <-. split; [reflexivity|]. rewrite El. reflexivity.
    - cbn [growr rd_rest]. rewrite El. cbn [app]. destruct (c =? cColon) eqn:C1.
      + destruct (skip_grow _ _ _ El) as [Es E1]. rewrite Es.
        destruct (from_utf8 v); cbn [obind] in *; try discriminate E. injection E as <- <-. split; [reflexivity|]. rewrite E1.
        apply N.eqb_eq in C1. subst c. exact Ho.
      + destruct (c =? cAt) eqn:C2.
        * destruct (skip_grow _ _ _ El) as [Es E1]. rewrite Es. cbn [growr rd_rest rd_pos].
          destruct (read_while_go is_ident_char (rd_rest (rd_skip rd)) (rd_pos (rd_skip rd))) as [v2 rd2] eqn:Er2.
          rewrite (rw_grow _ _ _ _ _ Er2 (or_introl eq_refl)).
          destruct (rw_spec _ _ _ _ _ Er2) as (K1 & K2 & _).
          cbn [app] in *. destruct (from_utf8 (v ++ cAt :: v2)); cbn [obind] in *; try discriminate E. injection E as <- <-. split; [reflexivity|].
          apply N.eqb_eq in C2. subst c. change (ends_settled l = true) in Ho. rewrite E1 in K1. rewrite K1, (quiet_run _ _ _ q_ident K2) in Ho. exact Ho.
        * destruct (from_utf8 v); cbn [obind] in *; try discriminate E. injection E as <- <-. split; [reflexivity|]. rewrite El. exact Ho.
  Qed.
  Lemma brace_run v l : Forall (fun c => negb (c =? cRBrace) = true) v -> place_of (v ++ cRBrace :: l) InPath = place_of l Plain.
  Proof.
    intros H. rewrite place_app, (plain_run v InPath); [reflexivity|]. eapply Forall_impl; [|exact H]. cbn. intros c Hc. destruct (c =? cRBrace); [discriminate Hc|reflexivity].
  Qed.
  Lemma slash_run v l : Forall (fun c => negb (c =? cSlash) = true) v -> place_of (v ++ cSlash :: l) InDirective = place_of l Plain.
  Proof.
    intros H. rewrite place_app, (plain_run v InDirective); [reflexivity|]. eapply Forall_impl; [|exact H]. cbn. intros c Hc. destruct (c =? cSlash); [discriminate Hc|reflexivity].
  Qed.
  Lemma amp_plain c l : (c =? cLBrace) = false -> place_of (c :: l) AfterAmp = place_of (c :: l) Plain.
  Proof. intros H. rewrite !place_cons. cbn [step]. rewrite H. reflexivity. Qed.
  Lemma g_ref src start r : settled (place_of (rd_rest r) AfterAmp) = true -> grows (path_or_reference src start) r.
  Proof.
    intros Ho t r2 E. unfold path_or_reference in *. unfold rd_peek in *. destruct (rd_rest r) as [|c l] eqn:Er; [discriminate E|].
    cbn [growr rd_rest]. rewrite Er. cbn [app]. destruct (skip_grow _ _ _ Er) as [Es E1].
    destruct (c =? cLBrace) eqn:C1.
    - rewrite Es. unfold read_while in *. cbn [growr rd_rest rd_pos].
      destruct (read_while_go _ (rd_rest (rd_skip r)) (rd_pos (rd_skip r))) as [v rd] eqn:Ew.
      destruct (rw_spec _ _ _ _ _ Ew) as (H1 & H2 & H3). unfold rd_consume in *.
      destruct (rd_rest rd) as [|x l2] eqn:El; [discriminate E|].
      rewrite (rw_grow _ _ _ _ _ Ew) by (right; rewrite El; discriminate). cbn [growr rd_rest rd_pos]. rewrite El. cbn [app].
      destruct (from_utf8 v); cbn [obind] in *; try discriminate E. injection E as <- <-. split; [reflexivity|]. cbn [rd_rest].
      destruct H3 as [H3|(y & l3 & H3 & H4)]; [discriminate H3|]. injection H3 as <- <-.
      apply N.eqb_eq in C1. subst c. rewrite <- E1, H1 in Ho. cbn [place_of fold_left step] in Ho.
      assert (x = cRBrace) as -> by (destruct (N.eqb_spec x cRBrace); [assumption|discriminate H4]).
      change (settled (place_of (v ++ cRBrace :: l2) InPath) = true) in Ho. rewrite brace_run in Ho by exact H2. exact Ho.
    - rewrite amp_plain in Ho by exact C1. destruct (is_alpha c) eqn:C2.
      + assert (Ho' : ends_settled (rd_rest r) = true) by (rewrite Er; exact Ho).
        pose proof (g_while is_label_char (fun l => Ref (TRefSimple l)) start src r q_label eq_refl Ho' t r2 E) as G.
        exact G.
      + injection E as <- <-. split; [reflexivity|]. rewrite Er. exact Ho.
  Qed.
  Lemma str_grow rest : forall p e s rd, string_go rest p e = (Some s, rd) ->
    string_go (rest ++ z) p e = (Some s, growr rd) /\ place_of rest (if e then InEscape else InString) = place_of (rd_rest rd) Plain.
  Proof.
    induction rest as [|c rest IH]; intros p e s rd E; cbn [string_go] in E; [discriminate E|].
    cbn [app string_go]. rewrite place_cons. destruct (c =? cBackslash) eqn:C1.
    - destruct e.
      + destruct (string_go rest (advance p c) false) as [[v|] rd1] eqn:E1; [|discriminate E]. injection E as <- <-.
        destruct (IH _ _ _ _ E1) as [-> IH2]. split; [reflexivity|exact IH2].
      + destruct (IH _ _ _ _ E) as [-> IH2]. split; [reflexivity|]. cbn [step]. rewrite C1. exact IH2.
    - destruct (c =? cQuote) eqn:C2.
      + destruct e.
        * destruct (string_go rest (advance p c) false) as [[v|] rd1] eqn:E1; [|discriminate E]. injection E as <- <-.
          destruct (IH _ _ _ _ E1) as [-> IH2]. split; [reflexivity|exact IH2].
        * injection E as <- <-. split; [reflexivity|]. cbn [step]. rewrite C1, C2. reflexivity.
      + destruct (string_go rest (advance p c) false) as [[v|] rd1] eqn:E1; [|discriminate E]. injection E as <- <-.
        destruct (IH _ _ _ _ E1) as [-> IH2]. split; [reflexivity|]. destruct e; cbn [step]; [exact IH2|rewrite C1, C2; exact IH2].
  Qed.
  Lemma g_string src start r : settled (place_of (rd_rest r) InString) = true -> grows (lex_string src start) r.
  Proof.
    intros Ho t r2 E. unfold lex_string in *. destruct (string_go (rd_rest r) (rd_pos r) false) as [[s|] rd] eqn:Es; [|discriminate E].
    injection E as <- <-. destruct (str_grow _ _ _ _ _ Es) as [G1 G2]. cbn [growr rd_rest rd_pos]. rewrite G1. split; [reflexivity|].
    unfold ends_settled. rewrite <- G2. exact Ho.
  Qed.
  Lemma block_grow rest : forall p s rd, multi_line_go rest p = (Some s, rd) ->
    multi_line_go (rest ++ z) p = (Some s, growr rd) /\ place_of rest InBlock = place_of (rd_rest rd) Plain
    /\ (forall r', rest = cSlash :: r' -> place_of r' InBlock = place_of (rd_rest rd) Plain).
  Proof.
    induction rest as [|c rest IH]; intros p s rd E; cbn [multi_line_go] in E; [discriminate E|].
    destruct rest as [|d rest]; [discriminate E|]. cbn [app multi_line_go]. rewrite place_cons.
    destruct ((c =? cStar) && (d =? cSlash)) eqn:C.
    - injection E as <- <-. apply andb_true_iff in C. destruct C as [C1 C2]. apply N.eqb_eq in C1, C2. subst c d.
      split; [reflexivity|]. split; [reflexivity|]. intros r' X. discriminate X.
    - change (multi_line_go (d :: rest) (advance p c)) with (multi_line_go (d :: rest) (advance p c)) in E.
      destruct (multi_line_go (d :: rest) (advance p c)) as [[v|] rd1] eqn:E1; [|discriminate E]. injection E as <- <-.
      destruct (IH _ _ _ E1) as (G1 & G2 & G3). cbn [app multi_line_go] in G1.
      match goal with |- (let '(_, _) := ?x in _) = _ /\ _ => replace x with (Some v, growr rd1) by (symmetry; exact G1) end.
      split; [reflexivity|]. split.
      + cbn [step]. destruct (c =? cStar) eqn:C1; [|exact G2]. cbn [andb] in C.
        rewrite place_cons in *. cbn [step] in *. rewrite C. exact G2.
      + intros r' X. injection X as -> <-. exact G2.
  Qed.
  Lemma g_block src start r : settled (place_of (rd_rest r) InBlock) = true -> grows (multi_line_comment src start) r.
  Proof.
    intros Ho t r2 E. unfold multi_line_comment in *. destruct (multi_line_go (rd_rest r) (rd_pos r)) as [[s|] rd] eqn:Es; [|discriminate E].
    destruct (block_grow _ _ _ _ Es) as (G1 & G2 & _). cbn [growr rd_rest rd_pos]. rewrite G1.
    destruct (from_utf8 s); cbn [obind] in *; try discriminate E. injection E as <- <-. split; [reflexivity|].
    unfold ends_settled. rewrite <- G2. exact Ho.
  Qed.
  Lemma line_run v : Forall (fun c => negb (c =? cNL) = true) v -> forall l, (l = [] \/ exists r, l = cNL :: r) ->
    settled (place_of (v ++ l) InLine) = settled (place_of l Plain).
  Proof.
    intros H l Hl. rewrite place_app, (plain_run v InLine).
    - destruct Hl as [->|[r ->]]; reflexivity.
    - eapply Forall_impl; [|exact H]. cbn. intros c Hc. destruct (c =? cNL); [discriminate Hc|reflexivity].
  Qed.
  Lemma g_line src start r : settled (place_of (rd_rest r) InLine) = true -> grows (line_comment src start) r.
  Proof.
    intros Ho t r2 E. unfold line_comment, read_while in *. destruct (read_while_go _ (rd_rest r) (rd_pos r)) as [v rd] eqn:Er.
    destruct (rw_spec _ _ _ _ _ Er) as (H1 & H2 & H3). cbn [growr rd_rest rd_pos]. rewrite (rw_grow _ _ _ _ _ Er (or_introl eq_refl)).
    destruct (from_utf8 v); cbn [obind] in *; try discriminate E. injection E as <- <-. split; [reflexivity|].
    rewrite H1, line_run in Ho; [exact Ho|exact H2|]. destruct H3 as [H3|(c & l & H3 & H4)]; [left; exact H3|right].
    exists l. rewrite H3. f_equal. destruct (N.eqb_spec c cNL); [assumption|discriminate H4].
  Qed.
  Lemma g_directive src start r : settled (place_of (rd_rest r) InDirective) = true -> grows (compiler_directive src start) r.
  Proof.
    intros Ho t r2 E. unfold compiler_directive, read_while in *. destruct (read_while_go _ (rd_rest r) (rd_pos r)) as [v rd] eqn:Er.
    destruct (rw_spec _ _ _ _ _ Er) as (H1 & H2 & H3). destruct H3 as [H3|(c & l & H3 & H4)].
    - exfalso. rewrite H1, H3, app_nil_r, (plain_run v InDirective) in Ho; [discriminate Ho|].
      eapply Forall_impl; [|exact H2]. cbn. intros c Hc. destruct (c =? cSlash); [discriminate Hc|reflexivity].
    - cbn [growr rd_rest rd_pos]. rewrite (rw_grow _ _ _ _ _ Er) by (right; rewrite H3; discriminate).
      destruct (skip_grow _ _ _ H3) as [-> E1]. destruct (from_utf8 v); cbn [obind] in *; try discriminate E. injection E as <- <-. split; [reflexivity|].
      rewrite E1. rewrite H1, H3 in Ho. assert (c = cSlash) as -> by (destruct (N.eqb_spec c cSlash); [assumption|discriminate H4]).
      rewrite slash_run in Ho by exact H2. exact Ho.
  Qed.
  Lemma g_slash src start r l : rd_rest r = cSlash :: l -> settled (place_of l AfterSlash) = true -> grows (lex_slash src start) r.
  Proof.
    intros Er Ho t r2 E. unfold lex_slash in *. destruct (skip_grow _ _ _ Er) as [-> E1]. unfold rd_peek in *. cbn [growr rd_rest].
    rewrite E1 in *. destruct l as [|c l]; cbn [app].
    - injection E as <- <-. split; [reflexivity|]. rewrite E1. reflexivity.
    - destruct (skip_grow c (rd_skip r) l E1) as [Es E2]. rewrite place_cons in Ho. cbn [step] in Ho. destruct (c =? cSlash) eqn:C1; [|destruct (c =? cStar) eqn:C2; [|destruct (is_alpha c) eqn:C3]].
      + rewrite Es. apply g_line; [rewrite E2; exact Ho|exact E].
      + rewrite Es. apply g_block; [rewrite E2; exact Ho|exact E].
      + apply g_directive; [|exact E]. rewrite E1, place_cons. cbn [step]. rewrite C1. exact Ho.
      + injection E as <- <-. split; [reflexivity|]. rewrite E1. exact Ho.
  Qed.
  Lemma g_token ch st src start r l : rd_rest r = ch :: l -> ends_settled (rd_rest r) = true -> grows (lex_token ch st src start) r.
  Proof.
    intros Er Ho. unfold grows, lex_token.
    assert (Hx : (ch =? cAmp) = false -> (ch =? cQuote) = false -> (ch =? cSlash) = false -> ends_settled l = true).
    { intros C1 C2 C3. rewrite Er in Ho. unfold ends_settled in *. rewrite place_cons in Ho. cbn [step] in Ho. unfold step_plain in Ho. rewrite C1, C2, C3 in Ho. exact Ho. }
    destruct (match st with ExpectingNodeOrPropertyName => is_name_start ch | OtherState => false end); [apply g_ident, Ho|].
    destruct (is_alpha ch || (ch =? cUnder)); [apply g_ident, Ho|].
    destruct (is_digit ch); [apply g_number, Ho|].
    destruct (ch =? cAmp) eqn:C1.
    { apply N.eqb_eq in C1. subst ch. destruct (skip_grow _ _ _ Er) as [-> E1]. apply g_ref. rewrite E1. rewrite Er in Ho. exact Ho. }
    destruct (ch =? cQuote) eqn:C2.
    { apply N.eqb_eq in C2. subst ch. destruct (skip_grow _ _ _ Er) as [-> E1]. apply g_string. rewrite E1. rewrite Er in Ho. exact Ho. }
    destruct (ch =? cSlash) eqn:C3.
    { apply N.eqb_eq in C3. subst ch. apply (g_slash _ _ _ _ Er). rewrite Er in Ho. exact Ho. }
    specialize (Hx eq_refl eq_refl eq_refl).
    repeat match goal with |- context [if ?c then simple_token _ _ _ _ else _] => destruct c; [exact (g_simple _ _ _ _ _ _ Er Hx)|] end.
    exact (g_simple _ _ _ _ _ _ Er Hx).
  Qed.

  Definition growl (lx : lexer) : lexer := mkLexer (growr (lx_rd lx)) (lx_src lx) (lx_state lx) (lx_last lx).
  Lemma consume_grow lx t lx2 : ends_settled (rd_rest (lx_rd lx)) = true -> lex_consume lx = Done (Some t, lx2) ->
    lex_consume (growl lx) = Done (Some t, growl lx2) /\ ends_settled (rd_rest (lx_rd lx2)) = true.
  Proof.
    intros Ho E. unfold lex_consume, skip_whitespace, read_while in *. cbn [growl lx_rd lx_src lx_state growr rd_rest rd_pos].
    destruct (read_while_go is_ws (rd_rest (lx_rd lx)) (rd_pos (lx_rd lx))) as [v r] eqn:Er. cbn [snd] in E.
    destruct (rw_spec _ _ _ _ _ Er) as (H1 & H2 & _). rewrite H1, (quiet_run _ _ _ q_ws H2) in Ho.
    unfold rd_peek in *. destruct (rd_rest r) as [|ch l] eqn:El; [discriminate E|].
    rewrite (rw_grow _ _ _ _ _ Er) by (right; rewrite El; discriminate). cbn [snd growr rd_rest rd_pos]. rewrite El. cbn [app].
    destruct (lex_token ch (lx_state lx) (lx_src lx) (rd_pos r) r) as [[o r2]| |] eqn:Et; cbn [obind] in E; try discriminate E.
    injection E as -> <-. destruct (g_token ch (lx_state lx) (lx_src lx) (rd_pos r) r l El ltac:(rewrite El; exact Ho) _ _ Et) as [G1 G2]. rewrite G1. cbn [obind]. split; [reflexivity|exact G2].
  Qed.
  Lemma next_fuel_grow f : forall f' lx t lx2, (f <= f')%nat -> ends_settled (rd_rest (lx_rd lx)) = true -> lex_next_fuel f lx = Done (Some t, lx2) ->
    lex_next_fuel f' (growl lx) = Done (Some t, growl lx2) /\ ends_settled (rd_rest (lx_rd lx2)) = true.
  Proof.
    induction f as [|f IH]; intros f' lx t lx2 Hf Ho E; [discriminate E|]. destruct f' as [|f']; [lia|]. cbn [lex_next_fuel] in *.
    destruct (lex_consume lx) as [[[u|] l1]| |] eqn:Ec; cbn [obind] in E; try discriminate E.
    destruct (consume_grow _ _ _ Ho Ec) as [-> Ho1]. cbn [obind]. destruct (is_comment (tk_kind u)).
    - apply IH; [lia|exact Ho1|exact E].
    - injection E as <- <-. split; [reflexivity|exact Ho1].
  Qed.
  Lemma next_grow lx t lx2 : ends_settled (rd_rest (lx_rd lx)) = true -> lex_next lx = Done (Some t, lx2) ->
    lex_next (growl lx) = Done (Some t, growl lx2) /\ ends_settled (rd_rest (lx_rd lx2)) = true.
  Proof.
    unfold lex_next. intros Ho E. eapply next_fuel_grow; [|exact Ho|exact E]. cbn [growl lx_rd growr rd_rest]. rewrite app_length. lia.
  Qed.
End Grow.

(** ** The end of the text *)
Lemma rw_end cond rest : forall p v rd, read_while_go cond rest p = (v, rd) -> rd_rest rd = [] \/ exists c r, rd_rest rd = c :: r.
Proof. intros. destruct (rd_rest rd); eauto. Qed.
Lemma str_none rest : forall p e rd, string_go rest p e = (None, rd) -> rd_rest rd = [].
Proof.
  induction rest as [|c rest IH]; intros p e rd E; cbn [string_go] in E; [injection E as <-; reflexivity|].
  destruct (c =? cBackslash); [destruct e|destruct (c =? cQuote); [destruct e|]];
    try (destruct (string_go rest (advance p c) false) as [[v|] rd1] eqn:E1; [discriminate E|injection E as <-; eapply IH; exact E1]);
    [eapply IH; exact E|discriminate E].
Qed.
Lemma block_none rest : forall p rd, multi_line_go rest p = (None, rd) -> rd_rest rd = [].
Proof.
  induction rest as [|c rest IH]; intros p rd E; cbn [multi_line_go] in E; [injection E as <-; reflexivity|].
  destruct rest as [|d rest]; [injection E as <-; reflexivity|]. destruct ((c =? cStar) && (d =? cSlash)); [discriminate E|].
  destruct (multi_line_go (d :: rest) (advance p c)) as [[v|] rd1] eqn:E1; [discriminate E|]. injection E as <-. eapply IH; exact E1.
Qed.
Lemma obind_some {A} (m : outcome A) (f : A -> token) (g : A -> reader) r2 : obind m (fun s => Done (Some (f s), g s)) <> Done (None, r2).
Proof. destruct m; cbn; discriminate. Qed.
Lemma token_none ch st src start r r2 : lex_token ch st src start r = Done (None, r2) -> rd_rest r2 = [].
Proof.
  unfold lex_token.
  assert (H1 : ident_or_label src start r <> Done (None, r2)).
  { unfold ident_or_label. destruct (read_while _ r) as [v rd]. destruct (rd_peek rd) as [c|]; [|apply obind_some].
    destruct (c =? cColon); [apply obind_some|]. destruct (c =? cAt); [|apply obind_some]. destruct (read_while _ (rd_skip rd)). apply obind_some. }
  assert (H2 : lex_number src start r <> Done (None, r2)).
  { unfold lex_number. destruct (read_while _ r). apply obind_some. }
  destruct (match st with ExpectingNodeOrPropertyName => is_name_start ch | OtherState => false end); [intros E; destruct (H1 E)|].
  destruct (is_alpha ch || (ch =? cUnder)); [intros E; destruct (H1 E)|].
  destruct (is_digit ch); [intros E; destruct (H2 E)|].
  destruct (ch =? cAmp).
  { unfold path_or_reference, rd_peek. destruct (rd_rest (rd_skip r)) as [|c l] eqn:El; [intros E; injection E as <-; exact El|].
    destruct (c =? cLBrace).
    - destruct (read_while _ (rd_skip (rd_skip r))) as [v rd]. unfold rd_consume. destruct (rd_rest rd) eqn:Er.
      + intros E. injection E as <-. exact Er.
      + intros E. destruct (obind_some _ _ _ _ E).
    - destruct (is_alpha c); [destruct (read_while _ (rd_skip r)); intros E; destruct (obind_some _ _ _ _ E)|discriminate]. }
  destruct (ch =? cQuote).
  { unfold lex_string. destruct (string_go _ _ _) as [[s|] rd] eqn:Es; [discriminate|]. intros E. injection E as <-. eapply str_none; exact Es. }
  destruct (ch =? cSlash).
  { unfold lex_slash, rd_peek. destruct (rd_rest (rd_skip r)) as [|c l]; [discriminate|].
    destruct (c =? cSlash); [unfold line_comment; destruct (read_while _ _); intros E; destruct (obind_some _ _ _ _ E)|].
    destruct (c =? cStar).
    - unfold multi_line_comment. destruct (multi_line_go _ _) as [[s|] rd] eqn:Es; [intros E; destruct (obind_some _ _ _ _ E)|].
      intros E. injection E as <-. eapply block_none; exact Es.
    - destruct (is_alpha c); [|discriminate]. unfold compiler_directive. destruct (read_while _ _). intros E. destruct (obind_some _ _ _ _ E). }
  unfold simple_token.
  repeat match goal with |- context [if ?c then _ else _] => destruct c; [discriminate|] end. discriminate.
Qed.
Lemma next_none lx lx2 : lex_next lx = Done (None, lx2) -> rd_rest (lx_rd lx2) = [].
Proof.
  unfold lex_next. generalize (S (length (rd_rest (lx_rd lx)))). intros f. revert lx. induction f as [|f IH]; intros lx E; [discriminate E|].
  cbn [lex_next_fuel] in E. destruct (lex_consume lx) as [[[u|] l1]| |] eqn:Ec; cbn [obind] in E; try discriminate E.
  - destruct (is_comment (tk_kind u)); [eapply IH; exact E|discriminate E].
  - injection E as <-. unfold lex_consume in Ec. unfold rd_peek in Ec. destruct (rd_rest (skip_whitespace (lx_rd lx))) as [|ch l] eqn:El.
    + injection Ec as <-. exact El.
    + destruct (lex_token _ _ _ _ _) as [[o r2]| |] eqn:Et; cbn [obind] in Ec; try discriminate Ec. injection Ec as -> <-. eapply token_none; exact Et.
Qed.
Lemma next_at_end lx : rd_rest (lx_rd lx) = [] -> exists lx2, lex_next lx = Done (None, lx2).
Proof.
  intros E. unfold lex_next. rewrite E. cbn [length lex_next_fuel]. unfold lex_consume, skip_whitespace, read_while. rewrite E. cbn. eauto.
Qed.
