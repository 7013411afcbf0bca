(** Windows line ends: the parser on a text and on the text with CR LF for LF *)
From Verif Require Import Parser CrLf.
From Coq Require Import Lia List.
Import ListNotations.

(** the same diagnostic, or, if [K] holds and it says what was expected, the same one column further *)
Definition near_diag (K : Prop) (d d' : diag) : Prop :=
  d' = d
  \/ (K /\ dg_kind d = Expected
      /\ d' = mkDiag (dg_kind d) (mkSpan (next_col (span_start (dg_span d)))
                                         (next_col (span_end (dg_span d))))
                       (dg_source d) (dg_msg d)).

Section Same.
Variables (K : Prop) (text : list N).
Hypothesis O : one_line_tokens text.
Hypothesis NK : K \/ no_line_comments text.

(** the states of the two parsers *)
Record psim (s s' : pstate) : Prop := {
  q_rd : rsim (lx_rd (pl_lex (ps_lex s))) (lx_rd (pl_lex (ps_lex s')));
  q_reads : reads text (lx_rd (pl_lex (ps_lex s)));
  q_lex : same_lexers K (pl_lex (ps_lex s)) (pl_lex (ps_lex s'));
  q_peek : pl_peeked (ps_lex s') = pl_peeked (ps_lex s);
  q_diags : Forall2 (near_diag K) (ps_diags s) (ps_diags s');
  q_incl : ps_incl s' = ps_incl s
}.

(** the results of the two parsers; nothing is said if one of them panics or runs out of fuel *)
Definition rsame {A} (R : A -> A -> Prop) (x x' : res A) : Prop :=
  match x, x' with
  | ROk a s, ROk a' s' => R a a' /\ psim s s'
  | RErr d s, RErr d' s' => near_diag K d d' /\ psim s s'
  | RPanic, _ | RNoFuel, _ | _, RPanic | _, RNoFuel => True
  | _, _ => False
  end.
Definition same {A} (R : A -> A -> Prop) (m m' : M A) : Prop :=
  forall s s', psim s s' -> rsame R (m s) (m' s').

Lemma same_bind A B (R : A -> A -> Prop) (S : B -> B -> Prop) (m m' : M A) (f f' : A -> M B) :
  same R m m' -> (forall a a', R a a' -> same S (f a) (f' a')) -> same S (bind m f) (bind m' f').
Proof.
  intros H G s s' Hs. specialize (H s s' Hs). unfold bind.
  destruct (m s), (m' s'); cbn [rsame] in *; auto; try contradiction.
  - apply (G _ _ (proj1 H)), (proj2 H).
  - destruct (f a s0); exact I.
  - destruct (f a s0); exact I.
Qed.

(** the common case: the same value on both sides *)
Lemma same_let A B (S : B -> B -> Prop) (m m' : M A) (f f' : A -> M B) :
  same eq m m' -> (forall a, same S (f a) (f' a)) -> same S (bind m f) (bind m' f').
Proof. intros H G. apply (same_bind _ _ eq); [exact H|]. intros a a' <-. apply G. Qed.

Lemma same_catch A B (S : B -> B -> Prop) (m m' : M A) (f f' : A -> M B) (g g' : diag -> M B) :
  same eq m m' -> (forall a, same S (f a) (f' a)) ->
  (forall d d', near_diag K d d' -> same S (g d) (g' d')) ->
  same S (catch m f g) (catch m' f' g').
Proof.
  intros H F G s s' Hs. specialize (H s s' Hs). unfold catch.
  destruct (m s), (m' s'); cbn [rsame] in *; auto; try contradiction.
  - destruct H as [<- H]. apply F, H.
  - destruct (f a s0); exact I.
  - destruct (f a s0); exact I.
  - destruct H as [H1 H2]. apply (G _ _ H1), H2.
  - destruct (g d s0); exact I.
  - destruct (g d s0); exact I.
Qed.

Lemma same_ret A (R : A -> A -> Prop) (a a' : A) : R a a' -> same R (ret a) (ret a').
Proof. intros H s s' Hs. split; assumption. Qed.
Lemma same_ret_eq A (a : A) : same eq (ret a) (ret a).
Proof. apply same_ret. reflexivity. Qed.
Lemma same_throw A (R : A -> A -> Prop) d d' : near_diag K d d' -> same R (throw d) (throw d').
Proof. intros H s s' Hs. split; assumption. Qed.
Lemma same_throw_eq A (R : A -> A -> Prop) d : same R (@throw A d) (throw d).
Proof. apply same_throw. left. reflexivity. Qed.
Lemma same_nofuel A (R : A -> A -> Prop) m : same R (@no_fuel A) m.
Proof. intros s s' Hs. destruct (m s'); exact I. Qed.
Lemma same_nofuel_r A (R : A -> A -> Prop) m : same R m (@no_fuel A).
Proof. intros s s' Hs. destruct (m s); exact I. Qed.
Lemma same_panic A (R : A -> A -> Prop) m : same R (@panic A) m.
Proof. intros s s' Hs. destruct (m s'); exact I. Qed.

Lemma same_push d d' : near_diag K d d' -> same eq (push d) (push d').
Proof.
  intros H s s' [H1 H2 H3 H4 H5 H6]. split; [reflexivity|].
  constructor; cbn [ps_lex ps_diags ps_incl]; auto.
  apply Forall2_app; [exact H5|]. constructor; [exact H|constructor].
Qed.
Lemma same_push_eq d : same eq (push d) (push d).
Proof. apply same_push. left. reflexivity. Qed.

Lemma same_source : same eq source source.
Proof. intros s s' H. split; [|exact H]. symmetry. apply (q_lex _ _ H). Qed.
Lemma same_cur_pos : same eq cur_pos cur_pos.
Proof. intros s s' H. split; [|exact H]. symmetry. apply (q_rd _ _ H). Qed.
Lemma same_last_pos : same (near K) last_pos last_pos.
Proof. intros s s' H. split; [|exact H]. apply (q_lex _ _ H). Qed.
Lemma same_include_paths : same eq include_paths include_paths.
Proof. intros s s' H. split; [|exact H]. symmetry. apply (q_incl _ _ H). Qed.
Lemma same_pseudo k : same eq (insert_pseudo_kind k) (insert_pseudo_kind k).
Proof.
  intros s s' [H1 H2 (S1 & S2 & S3) H4 H5 H6]. split; [reflexivity|].
  constructor; cbn [ps_lex ps_diags ps_incl pl_lex pl_peeked]; auto.
  - destruct k; exact H1.
  - destruct k; exact H2.
  - destruct k; (split; [|split]); first [exact S1|exact S2|exact S3|reflexivity].
Qed.

Lemma same_peek : same eq peek peek.
Proof.
  intros s s' H. pose proof H as [H1 H2 (S1 & S2 & S3) H4 H5 H6]. unfold peek, lift_pl, pl_peek.
  rewrite H4. destruct (pl_peeked (ps_lex s)) as [t|] eqn:P.
  - split; [reflexivity|]. constructor; cbn [ps_lex ps_diags ps_incl]; auto.
    + split; [|split]; assumption.
    + rewrite H4, P. reflexivity.
  - unfold lex_next.
    destruct (lex_next_fuel _ (pl_lex (ps_lex s))) as [[t lx]| |] eqn:E; cbn [obind rsame]; auto.
    destruct (lex_next_fuel _ (pl_lex (ps_lex s'))) as [[t' lx']| |] eqn:E'; cbn [obind rsame]; auto.
    destruct (same_next_fuel K text O NK _ _ _ _ _ _ _ _ H2 (rsim_rlate _ _ _ H1) S1 S2 E E')
      as (-> & L & D & R).
    split; [reflexivity|]. constructor; cbn [ps_lex ps_diags ps_incl pl_lex pl_peeked]; auto.
Qed.

Lemma same_next : same eq next next.
Proof.
  intros s s' H. pose proof H as [H1 H2 (S1 & S2 & S3) H4 H5 H6]. unfold next, lift_pl, pl_next.
  rewrite H4. destruct (pl_peeked (ps_lex s)) as [t|] eqn:P.
  - split; [reflexivity|]. constructor; cbn [ps_lex ps_diags ps_incl pl_lex pl_peeked]; auto.
    split; [|split]; assumption.
  - unfold lex_next.
    destruct (lex_next_fuel _ (pl_lex (ps_lex s))) as [[t lx]| |] eqn:E; cbn [obind rsame]; auto.
    destruct (lex_next_fuel _ (pl_lex (ps_lex s'))) as [[t' lx']| |] eqn:E'; cbn [obind rsame]; auto.
    destruct (same_next_fuel K text O NK _ _ _ _ _ _ _ _ H2 (rsim_rlate _ _ _ H1) S1 S2 E E')
      as (-> & L & D & R).
    split; [reflexivity|]. constructor; cbn [ps_lex ps_diags ps_incl pl_lex pl_peeked]; auto.
Qed.

(** every function of the parser, from the inside out *)
Ltac step :=
  first
  [ apply same_ret_eq | apply same_throw_eq | apply same_push_eq | apply same_panic
  | apply same_nofuel | apply same_nofuel_r
  | apply same_source | apply same_cur_pos | apply same_include_paths | apply same_pseudo
  | apply same_peek | apply same_next
  | match goal with
    | |- forall _, _ => intros ?
    | H : same eq ?m ?m' |- same eq ?m ?m' => exact H
    | H : forall _, _ |- same eq _ _ => apply H
    | |- same _ (bind last_pos _) _ => fail 1
    | |- same _ (bind _ _) (bind _ _) => apply same_let
    | |- same _ (match ?x with _ => _ end) _ => destruct x
    end ].
Ltac steps := repeat step.

Lemma same_peek_expect : same eq peek_expect peek_expect.
Proof. unfold peek_expect. steps. Qed.
Lemma same_expect k : same eq (expect k) (expect k).
Proof. unfold expect. steps. Qed.
Lemma same_expect_next : same eq expect_next expect_next.
Proof. unfold expect_next. steps. Qed.
Lemma same_skip_tok : same eq skip_tok skip_tok.
Proof. unfold skip_tok. steps. Qed.

Ltac step2 := first [apply same_peek_expect | apply same_expect | apply same_expect_next
  | apply same_skip_tok | step].
Ltac steps2 := repeat step2.

Lemma same_check_ident sp s a b c : same eq (check_ident sp s a b c) (check_ident sp s a b c).
Proof.
  unfold check_ident. apply same_let; [apply same_source|]. intros src.
  destruct (check_ident_diag sp s a b c src); [apply same_push_eq|apply same_ret_eq].
Qed.
Lemma same_check_label sp s : same eq (check_is_label sp s) (check_is_label sp s).
Proof. apply same_check_ident. Qed.
Lemma same_check_prop sp s : same eq (check_is_property_name sp s) (check_is_property_name sp s).
Proof. apply same_check_ident. Qed.
Lemma same_check_node sp n : same eq (check_is_node_name sp n) (check_is_node_name sp n).
Proof.
  unfold check_is_node_name.
  match goal with |- same _ (if ?b then _ else _) _ => destruct b end; [apply same_ret_eq|].
  apply same_let; [apply same_check_ident|]. intros _.
  destruct (nn_addr n); [apply same_check_ident|apply same_ret_eq].
Qed.
Lemma same_check_path sp p : same eq (check_path sp p) (check_path sp p).
Proof.
  induction p as [|n p IH]; cbn [check_path]; [apply same_ret_eq|].
  apply same_let; [apply same_check_node|]. intros _. exact IH.
Qed.
Lemma same_p_reference tok r : same eq (p_reference tok r) (p_reference tok r).
Proof.
  unfold p_reference. destruct r.
  - apply same_let; [apply same_check_label|]. steps2.
  - apply same_let; [destruct s; steps2|]. intros _. apply same_let; [apply same_check_path|]. steps2.
Qed.

Lemma same_skip_expression f : forall f' depth,
  same eq (skip_expression f depth) (skip_expression f' depth).
Proof.
  induction f as [|f IH]; intros [|f'] depth; cbn [skip_expression]; solve [steps2].
Qed.

Lemma same_number_u32 f f' : same eq (number_u32 f) (number_u32 f').
Proof.
  unfold number_u32. apply same_let; [apply same_expect_next|]. intros tok.
  destruct (tk_kind tok); try apply same_throw_eq.
  all: repeat first [apply same_skip_expression | apply same_p_reference | step2].
Qed.

Lemma same_memreserve : same eq memreserve_number memreserve_number.
Proof.
  unfold memreserve_number. apply same_let; [apply same_expect_next|]. intros tok.
  destruct (tk_kind tok);
    try (apply (same_bind _ _ (near K)); [apply same_last_pos|]; intros p p' Hp;
         apply same_let; [apply same_source|]; intros src; apply same_throw;
         destruct Hp as [-> | [k ->]]; [left; reflexivity|right; repeat split; exact k]).
  steps2.
Qed.

Lemma same_byte_string : same eq byte_string byte_string.
Proof. unfold byte_string. steps2. Qed.
Lemma same_skip_label : same eq skip_optional_label skip_optional_label.
Proof. unfold skip_optional_label. steps2. Qed.
Lemma same_bits : same eq bits_prefix bits_prefix.
Proof. unfold bits_prefix. steps2. Qed.

Lemma same_cells f : forall f' acc, same eq (cells_loop f acc) (cells_loop f' acc).
Proof.
  induction f as [|f IH]; intros [|f'] acc; cbn [cells_loop]; try solve [steps2].
  apply same_let; [apply same_skip_label|]. intros _.
  apply same_let; [apply same_peek_expect|]. intros t.
  destruct (kind_eqb (tk_kind t) ChevronRight); [steps2|].
  apply same_catch; [apply same_number_u32|intros c; apply IH|].
  intros d d' H. apply same_let; [apply same_push, H|]. intros _. apply IH.
Qed.
Lemma same_bytes f : forall f' acc, same eq (bytes_loop f acc) (bytes_loop f' acc).
Proof.
  induction f as [|f IH]; intros [|f'] acc; cbn [bytes_loop]; try solve [steps2].
  apply same_let; [apply same_skip_label|]. intros _.
  apply same_let; [apply same_peek_expect|]. intros t.
  destruct (kind_eqb (tk_kind t) CloseBracket); [steps2|].
  apply same_let; [apply same_byte_string|]. intros b. apply IH.
Qed.
Lemma same_value f f' : same eq (property_value f) (property_value f').
Proof.
  unfold property_value. apply same_let; [apply same_bits|]. intros _.
  apply same_let; [apply same_expect_next|]. intros tok.
  destruct (tk_kind tok); try solve [steps2].
  all: repeat first [apply same_cells | apply same_bytes | apply same_p_reference | step2].
Qed.
Lemma same_values f : forall f' acc, same eq (property_values f acc) (property_values f' acc).
Proof.
  induction f as [|f IH]; intros [|f'] acc; cbn [property_values]; try solve [steps2].
  apply same_let; [apply same_skip_label|]. intros _.
  apply same_let; [apply same_value|]. intros v.
  apply same_let; [apply same_skip_label|]. intros _.
  apply same_let; [apply same_peek_expect|]. intros t.
  destruct (kind_eqb (tk_kind t) Comma); [|steps2].
  apply same_let; [apply same_skip_tok|]. intros _. apply IH.
Qed.

Lemma same_property_name : same eq p_property_name p_property_name.
Proof.
  unfold p_property_name. apply same_let; [apply same_expect_next|]. intros tok.
  destruct (tk_kind tok); try apply same_throw_eq.
  apply same_let; [apply same_check_prop|]. steps2.
Qed.
Lemma same_node_name : same eq p_node_name p_node_name.
Proof.
  unfold p_node_name. apply same_let; [apply same_expect_next|]. intros tok.
  destruct (tk_kind tok); try apply same_throw_eq.
  apply same_let; [apply same_check_node|]. steps2.
Qed.

Definition near_span (sp sp' : span) : Prop :=
  sp' = sp \/ (K /\ sp' = mkSpan (next_col (span_start sp)) (next_col (span_end sp))).

Lemma same_semicolon : same eq expect_semicolon expect_semicolon.
Proof.
  unfold expect_semicolon. apply same_let; [apply same_peek|]. intros [tok|].
  - assert (G : forall k, same eq
      (let! sp :=
        (if semicolon_skips k then
           let! t2 := expect_next in
           insert_pseudo_kind Semicolon ;; ret (tk_span t2)
         else
           let! p := last_pos in ret (as_char_span p)) in
      let! src := source in
      push (diag_expected sp src [Semicolon]) ;; ret None)
      (let! sp :=
        (if semicolon_skips k then
           let! t2 := expect_next in
           insert_pseudo_kind Semicolon ;; ret (tk_span t2)
         else
           let! p := last_pos in ret (as_char_span p)) in
      let! src := source in
      push (diag_expected sp src [Semicolon]) ;; ret (@None token))).
    { intros k. apply (same_bind _ _ near_span).
      - destruct (semicolon_skips k).
        + apply same_let; [apply same_expect_next|]. intros t2.
          apply same_let; [apply same_pseudo|]. intros _. apply same_ret. left. reflexivity.
        + apply (same_bind _ _ (near K)); [apply same_last_pos|]. intros p p' Hp. apply same_ret.
          destruct Hp as [-> | [k' ->]]; [left; reflexivity|right; repeat split; exact k'].
      - intros sp sp' Hs. apply same_let; [apply same_source|]. intros src.
        apply same_let; [apply same_push|steps2].
        destruct Hs as [-> | [k' ->]]; [left; reflexivity|right; repeat split; exact k']. }
    destruct (tk_kind tok); try apply G. apply same_next.
  - apply (same_bind _ _ (near K)); [apply same_last_pos|]. intros p p' Hp.
    apply same_let; [apply same_source|]. intros src.
    apply same_let; [apply same_push|steps2].
    destruct Hp as [-> | [k' ->]]; [left; reflexivity|right; repeat split; exact k'].
Qed.

Lemma same_check_omit o : same eq (check_omit o) (check_omit o).
Proof. unfold check_omit. steps2. Qed.
Lemma same_check_order b p : same eq (check_order b p) (check_order b p).
Proof. unfold check_order. steps2. Qed.

Ltac step3 := first [apply same_semicolon | apply same_check_omit | apply same_check_order
  | apply same_property_name | apply same_node_name | apply same_values | apply same_check_label
  | apply same_check_prop | apply same_check_node | apply same_memreserve | apply same_p_reference
  | step2].
Ltac steps3 := repeat step3.

Lemma same_payload f : forall f' items b, same eq (payload_loop f items b) (payload_loop f' items b).
Proof.
  induction f as [|f IH]; intros [|f'] items b; cbn [payload_loop]; try solve [steps2].
  apply same_let; [apply same_expect_next|]. intros tok.
  destruct (kind_eqb (tk_kind tok) (Directive DeleteNode)); [solve [steps3]|].
  destruct (kind_eqb (tk_kind tok) (Directive DeleteProperty)); [solve [steps3]|].
  apply same_let; [solve [steps3]|]. intros [tok1 omit].
  apply same_let; [solve [steps3]|]. intros [tok2 label].
  destruct (tk_kind tok2); try solve [steps3].
  apply same_let; [apply same_peek_expect|]. intros t2.
  assert (G : same eq
    (let! p := last_pos in
     let! src := source in
     throw (diag_expected (as_span p) src [Semicolon; Equal; OpenBrace; Directive OmitIfNoRef]))
    (let! p := last_pos in
     let! src := source in
     @throw payload (diag_expected (as_span p) src
                       [Semicolon; Equal; OpenBrace; Directive OmitIfNoRef]))).
  { apply (same_bind _ _ (near K)); [apply same_last_pos|]. intros p p' Hp.
    apply same_let; [apply same_source|]. intros src. apply same_throw.
    destruct Hp as [-> | [k' ->]]; [left; reflexivity|right; repeat split; exact k']. }
  destruct (tk_kind t2); try exact G; steps3.
Qed.

Lemma same_node_payload f f' : same eq (node_payload f) (node_payload f').
Proof. unfold node_payload. apply same_let; [apply same_expect|]. intros _. apply same_payload. Qed.
Lemma same_parse_reference : same eq parse_reference parse_reference.
Proof. unfold parse_reference. steps3. Qed.

Lemma same_primary f f' : same eq (p_primary f) (p_primary f').
Proof.
  unfold p_primary. apply same_let; [apply same_expect_next|]. intros tok.
  destruct (tk_kind tok); try apply same_throw_eq;
  repeat first [apply same_node_payload | apply same_parse_reference | step3].
Qed.

Lemma same_file_loop f : forall f' acc, same eq (file_loop f acc) (file_loop f' acc).
Proof.
  induction f as [|f IH]; intros [|f'] acc; cbn [file_loop]; try solve [steps2].
  apply same_let; [apply same_peek|]. intros [t|]; [|apply same_ret_eq].
  apply same_let; [apply same_primary|]. intros p. apply IH.
Qed.
Lemma same_file f f' : same eq (p_file f) (p_file f').
Proof. unfold p_file. apply same_let; [apply same_file_loop|]. steps2. Qed.

(** the whole parser *)
Theorem same_parse text' incl src : crlf text text' ->
  rsame eq (parse_text incl text src) (parse_text incl text' src).
Proof.
  intros H. unfold parse_text. apply same_file.
  constructor; cbn; try reflexivity.
  - split; [exact H|reflexivity].
  - constructor.
  - split; [reflexivity|]. split; [reflexivity|]. left. reflexivity.
  - constructor.
Qed.
End Same.
