(** Which kinds of diagnostics the parser reports *)
From Verif Require Import Parser TokParser LexerProofs2 ParserSim.

(** parser.rs, lexer.rs: the kinds in the calls of Diagnostic::new and its relatives *)
Definition parser_kind (k : error_code) : Prop :=
  In k [UnexpectedEOF; Expected; ExpectedName; OddNumberOfBytestringElements; IntError; NameTooLong; IllegalChar; IllegalStart;
        PathCannotBeEmpty; PropertyAfterNode; UnbalancedParentheses; IncorrectDirective; ParserError].
Definition pk (d : diag) : Prop := parser_kind (dg_kind d).

Section Emits.
  Context (src : fpath) (incl : list fpath) (rl : position -> list token).
  Definition emits {A} (m : TM A) : Prop := forall s, Forall pk (t_diags s) ->
    match m s with
    | TOk _ s' => Forall pk (t_diags s')
    | TErr d s' => pk d /\ Forall pk (t_diags s')
    | TBad => True
    end.
  Lemma e_ret {A} (a : A) : emits (t_ret a).
  Proof. intros s H. exact H. Qed.
  Lemma e_throw {A} d : pk d -> emits (@t_throw A d).
  Proof. intros Hd s H. split; assumption. Qed.
  Lemma e_bad {A} : emits (@t_no_fuel A).
  Proof. intros s H. exact I. Qed.
  Lemma e_bind {A B} (m : TM A) (f : A -> TM B) : emits m -> (forall a, emits (f a)) -> emits (t_bind m f).
  Proof. intros Hm Hf s H. unfold t_bind. specialize (Hm s H). destruct (m s) as [a s'|d s'|]; [exact (Hf a s' Hm)|exact Hm|exact I]. Qed.
  Lemma e_catch {A B} (m : TM A) (f : A -> TM B) g : emits m -> (forall a, emits (f a)) -> (forall d, pk d -> emits (g d)) -> emits (t_catch m f g).
  Proof. intros Hm Hf Hg s H. unfold t_catch. specialize (Hm s H). destruct (m s) as [a s'|d s'|]; [exact (Hf a s' Hm)|exact (Hg d (proj1 Hm) s' (proj2 Hm))|exact I]. Qed.
  Lemma e_push d : pk d -> emits (t_push d).
  Proof. intros Hd s H. cbn [t_push t_diags]. apply Forall_app. split; [exact H|constructor; [exact Hd|constructor]]. Qed.
  Lemma e_peek : emits t_peek.
  Proof. intros s H. exact H. Qed.
  Lemma e_next : emits t_next.
  Proof. intros s H. exact H. Qed.
  Lemma e_relex t : emits (t_relex rl t).
  Proof. intros s H. exact H. Qed.
  Ltac kd := solve [unfold pk, parser_kind; cbn; tauto].
  Ltac go := repeat first
    [ progress intros
    | apply e_ret | apply e_bad | apply e_peek | apply e_next | apply e_relex | apply e_throw; kd | apply e_push; kd
    | match goal with |- emits (t_bind _ _) => apply e_bind end
    | match goal with |- emits (match ?x with _ => _ end) => destruct x end
    | match goal with |- emits (if ?x then _ else _) => destruct x end
    | match goal with H : forall _, emits _ |- _ => apply H | H : forall _ _, emits _ |- _ => apply H | H : emits _ |- _ => exact H end ].
  Lemma e_peek_expect : emits (t_peek_expect src). Proof. unfold t_peek_expect, t_cur_pos, t_source. go. Qed.
  Lemma e_expect_next : emits (t_expect_next src). Proof. unfold t_expect_next, t_cur_pos, t_source. go. Qed.
  Lemma e_expect k : emits (t_expect src k). Proof. unfold t_expect, t_cur_pos, t_source. go. Qed.
  Lemma e_skip : emits t_skip_tok. Proof. unfold t_skip_tok. go. Qed.
  Lemma ident_kind sp s p q c src' d : check_ident_diag sp s p q c src' = Some d -> pk d.
  Proof.
    unfold check_ident_diag. destruct (find_bad p 0 (chars s)) as [[i ch]|]; [intros E; injection E as <-; kd|].
    destruct (31 <? _); [intros E; injection E as <-; kd|]. destruct (chars s) as [|x r]; [intros E; injection E as <-; kd|].
    destruct (q x); [discriminate|intros E; injection E as <-; kd].
  Qed.
  Lemma e_check sp s p q c : emits (t_check_ident src sp s p q c).
  Proof.
    unfold t_check_ident, t_source. apply e_bind; [apply e_ret|]. intros x. destruct (check_ident_diag sp s p q c x) as [d|] eqn:E; cbn [t_push_opt]; [|apply e_ret].
    apply e_push. exact (ident_kind _ _ _ _ _ _ _ E).
  Qed.
  Lemma e_check_node sp n : emits (t_check_is_node_name src sp n).
  Proof.
    unfold t_check_is_node_name. destruct (match nn_addr n with None => _ | Some _ => false end); [apply e_ret|]. apply e_bind; [apply e_check|].
    intros _. destruct (nn_addr n); [apply e_check|apply e_ret].
  Qed.
  Lemma e_check_path sp p : emits (t_check_path src sp p).
  Proof. induction p as [|n r IH]; cbn [t_check_path]; [apply e_ret|]. apply e_bind; [apply e_check_node|]. intros _. exact IH. Qed.
  Lemma e_reference t r : emits (t_p_reference src t r).
  Proof.
    destruct r as [s|s]; cbn [t_p_reference].
    - apply e_bind; [apply e_check|]. intros _. apply e_ret.
    - apply e_bind; [destruct s; go|]. intros _. apply e_bind; [apply e_check_path|]. intros _. apply e_ret.
  Qed.
  Lemma e_skip_expression f : forall d, emits (t_skip_expression f d).
  Proof.
    induction f as [|f IH]; intros d; cbn [t_skip_expression]; [apply e_bad|]. apply e_bind; [apply e_peek|]. intros [t|]; [|apply e_ret].
    destruct (tk_kind t); (apply e_bind; [apply e_skip|]; intros _; try apply IH). destruct (d =? 1); [apply e_ret|apply IH].
  Qed.
  Ltac base := first [apply e_expect_next|apply e_peek_expect|apply e_expect|apply e_skip|apply e_check|apply e_check_node|apply e_reference|apply e_skip_expression].
  Ltac all := repeat first [base | progress go].
  Lemma e_number f : emits (t_number_u32 src f). Proof. unfold t_number_u32. all. Qed.
  Lemma e_memreserve : emits (t_memreserve_number src). Proof. unfold t_memreserve_number, t_last_pos, t_source. all. Qed.
  Lemma e_bytes : emits (t_byte_string src).
  Proof. unfold t_byte_string. apply e_bind; [base|]. intros t. destruct (tk_kind t); try solve [all]; destruct (negb _); try solve [all]; destruct (decode_pairs s) as [[b|e]| |]; all. Qed.
  Lemma e_skip_label : emits t_skip_optional_label. Proof. unfold t_skip_optional_label. all. Qed.
  Lemma e_cells f : forall acc, emits (t_cells_loop src f acc).
  Proof.
    induction f as [|f IH]; intros acc; cbn [t_cells_loop]; [apply e_bad|]. apply e_bind; [apply e_skip_label|]. intros _. apply e_bind; [base|]. intros t.
    destruct (kind_eqb _ _); [all|]. apply e_catch; [apply e_number|intros c; apply IH|]. intros d Hd. apply e_bind; [apply e_push; exact Hd|]. intros _. apply IH.
  Qed.
  Lemma e_bytes_loop f : forall acc, emits (t_bytes_loop src f acc).
  Proof.
    induction f as [|f IH]; intros acc; cbn [t_bytes_loop]; [apply e_bad|]. apply e_bind; [apply e_skip_label|]. intros _. apply e_bind; [base|]. intros t.
    destruct (kind_eqb _ _); [all|]. apply e_bind; [apply e_bytes|]. intros b. apply IH.
  Qed.
  Lemma e_bits : emits (t_bits_prefix src). Proof. unfold t_bits_prefix. all. Qed.
  Lemma e_value f : emits (t_property_value src f).
  Proof.
    unfold t_property_value. apply e_bind; [apply e_bits|]. intros _. apply e_bind; [base|]. intros t. destruct (tk_kind t); try solve [all].
    - apply e_bind; [apply e_bytes_loop|]. intros [x y]. apply e_ret.
    - apply e_bind; [apply e_cells|]. intros [x y]. apply e_ret.
  Qed.
  Lemma e_values f : forall acc, emits (t_property_values src f acc).
  Proof.
    induction f as [|f IH]; intros acc; cbn [t_property_values]; [apply e_bad|]. apply e_bind; [apply e_skip_label|]. intros _. apply e_bind; [apply e_value|]. intros v.
    apply e_bind; [apply e_skip_label|]. intros _. apply e_bind; [base|]. intros t. destruct (kind_eqb _ _); [|apply e_ret]. apply e_bind; [base|]. intros _. apply IH.
  Qed.
  Lemma e_property_name : emits (t_p_property_name src). 
Proof.
unfold t_p_property_name, t_check_is_property_name. all.
Qed.
  Lemma e_node_name : emits (t_p_node_name src). Proof. unfold t_p_node_name. all. Qed.
  Lemma e_semicolon : emits (t_expect_semicolon src rl).
  Proof. unfold t_expect_semicolon, t_last_pos, t_source. all. Qed.
  Lemma e_omit o : emits (t_check_omit src o). Proof. unfold t_check_omit, t_source. all. Qed.
  Lemma e_order b p : emits (t_check_order src b p). Proof. unfold t_check_order, t_source. all. Qed.
  Ltac more := first [base|apply e_values|apply e_property_name|apply e_node_name|apply e_semicolon|apply e_omit|apply e_order].
  Lemma e_payload f : forall its seen, emits (t_payload_loop src rl f its seen).
  Proof.
    induction f as [|f IH]; intros its seen; cbn [t_payload_loop]; [apply e_bad|]. unfold t_check_is_property_name, t_check_is_label, t_last_pos, t_source.
    repeat first [apply IH|more|progress go].
  Qed.
  Lemma e_node_payload f : emits (t_node_payload src rl f).
  Proof. unfold t_node_payload. apply e_bind; [base|]. intros _. apply e_payload. Qed.
  Lemma e_parse_reference : emits (t_parse_reference src). Proof. unfold t_parse_reference. all. Qed.
  Lemma e_primary f : emits (t_p_primary src incl rl f).
  Proof. unfold t_p_primary, t_include_paths. repeat first [apply e_node_payload|apply e_parse_reference|apply e_memreserve|more|progress go]. Qed.
  Lemma e_file f : emits (t_p_file src incl rl f).
  Proof.
    unfold t_p_file, t_source. apply e_bind; [|intros els; go]. generalize (@nil primary). induction f as [|f IH]; intros acc; cbn [t_file_loop]; [apply e_bad|].
    apply e_bind; [apply e_peek|]. intros [t|]; [|apply e_ret]. apply e_bind; [apply e_primary|]. intros p. apply IH.
  Qed.
End Emits.

Lemma parser_kinds incl text src : valid_utf8 text = true ->
  match parse_text incl text src with
  | ROk _ s => Forall pk (ps_diags s)
  | RErr d s => pk d /\ Forall pk (ps_diags s)
  | _ => True
  end.
Proof.
  intros Hv. destruct (tokenize_total text src Hv) as [toks Ht]. pose proof (parse_sim incl text src toks Hv Ht) as H.
  pose proof (e_file src incl (relex text src) (S (S (length text))) (mkTS toks []) (Forall_nil _)) as K. unfold t_parse in H.
  assert (G : forall l l', Forall2 diag_sim l l' -> Forall pk l' -> Forall pk l).
  { induction 1 as [|d d' l l' [E _] _ IH]; intros F; [constructor|]. pose proof (Forall_inv F) as F1. constructor; [unfold pk in *; rewrite E; exact F1|exact (IH (Forall_inv_tail F))]. }
  destruct (parse_text incl text src) as [f s|d s| |]; destruct (t_p_file _ _ _ _ _) as [f' st|d' st|]; try destruct H; try exact I.
  - exact (G _ _ H0 K).
  - destruct K as [K1 K2]. split; [destruct H as [E _]; unfold pk in *; rewrite E; exact K1|exact (G _ _ H0 K2)].
Qed.
