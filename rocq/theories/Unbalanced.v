(** Unbalanced parentheses are never seen: behind them the text has ended, and that is fatal *)
From Verif Require Import Parser TokParser LexerProofs2 ParserSim.

Definition nu (d : diag) : Prop := dg_kind d <> UnbalancedParentheses.
Ltac nd := let X := fresh in intros X; unfold t_ret, t_push in X; discriminate X.
Lemma skip_no_err f : forall n s d s', t_skip_expression f n s <> TErr d s'.
Proof.
  induction f as [|f IH]; intros n s d s'; [discriminate|]. cbn [t_skip_expression]. unfold t_bind at 1. unfold t_peek. destruct (t_toks s) as [|t toks] eqn:Et; cbn [hd_error]; [nd|].
  destruct (tk_kind t); unfold t_bind, t_skip_tok, t_next, t_bind, t_ret; try apply IH. destruct (n =? 1); [nd|apply IH].
Qed.
Lemma ident_no_err src sp s0 p q c s d s' : t_check_ident src sp s0 p q c s <> TErr d s'.
Proof. unfold t_check_ident, t_source, t_bind, t_ret, t_push_opt. destruct (check_ident_diag _ _ _ _ _ _); nd. Qed.
Lemma node_no_err src sp n s d s' : t_check_is_node_name src sp n s <> TErr d s'.
Proof.
  unfold t_check_is_node_name. destruct (match nn_addr n with None => _ | Some _ => false end); [nd|]. unfold t_bind.
  destruct (t_check_ident src sp (nn_name n) _ _ _ s) as [x s1|d1 s1|] eqn:E; [|exfalso; exact (ident_no_err _ _ _ _ _ _ _ _ _ E)|nd].
  destruct (nn_addr n); [apply ident_no_err|nd].
Qed.
Lemma path_no_err src sp p : forall s d s', t_check_path src sp p s <> TErr d s'.
Proof.
  induction p as [|n p IH]; intros s d s'; [nd|]. cbn [t_check_path]. unfold t_bind.
  destruct (t_check_is_node_name src sp n s) as [x s1|d1 s1|] eqn:E; [apply IH|exfalso; exact (node_no_err _ _ _ _ _ _ E)|nd].
Qed.
Lemma ref_no_err src t r s d s' : t_p_reference src t r s <> TErr d s'.
Proof.
  destruct r as [l|p]; cbn [t_p_reference]; unfold t_bind.
  - unfold t_check_is_label. destruct (t_check_ident src _ _ _ _ _ s) as [x s1|d1 s1|] eqn:E; [nd|exfalso; exact (ident_no_err _ _ _ _ _ _ _ _ _ E)|nd].
  - assert (X : exists s1, (match p with [] => t_push (diag_from_token t PathCannotBeEmpty (bs "Path cannot be empty")) | _ => t_ret tt end) s = TOk tt s1) by (destruct p; eexists; reflexivity).
    destruct X as [s1 ->]. destruct (t_check_path src _ _ s1) as [x s2|d2 s2|] eqn:E; [nd|exfalso; exact (path_no_err _ _ _ _ _ _ E)|nd].
Qed.

Section Quiet.
  Context (src : fpath) (incl : list fpath) (rl : position -> list token).
  Definition quiet {A} (m : TM A) : Prop := forall s, Forall nu (t_diags s) ->
    match m s with
    | TOk _ s' => Forall nu (t_diags s')
    | TErr d s' => nu d
    | TBad => True
    end.
  Lemma q_ret {A} (a : A) : quiet (t_ret a).
  Proof. intros s H. exact H. Qed.
  Lemma q_throw {A} d : nu d -> quiet (@t_throw A d).
  Proof. intros Hd s H. exact Hd. Qed.
  Lemma q_bad {A} : quiet (@t_no_fuel A).
  Proof. intros s H. exact I. Qed.
  Lemma q_bind {A B} (m : TM A) (f : A -> TM B) : quiet m -> (forall a, quiet (f a)) -> quiet (t_bind m f).
  Proof. intros Hm Hf s H. unfold t_bind. specialize (Hm s H). destruct (m s) as [a s'|d s'|]; [exact (Hf a s' Hm)|exact Hm|exact I]. Qed.
  Lemma q_push d : nu d -> quiet (t_push d).
  Proof. intros Hd s H. cbn [t_push t_diags]. apply Forall_app. split; [exact H|constructor; [exact Hd|constructor]]. Qed.
  Lemma q_peek : quiet t_peek.
  Proof. intros s H. exact H. Qed.
  Lemma q_next : quiet t_next.
  Proof. intros s H. exact H. Qed.
  Lemma q_relex t : quiet (t_relex rl t).
  Proof. intros s H. exact H. Qed.
  Ltac kd := solve [unfold nu; cbn; discriminate].
  Ltac go := repeat first
    [ progress intros
    | apply q_ret | apply q_bad | apply q_peek | apply q_next | apply q_relex | apply q_throw; kd | apply q_push; kd
    | match goal with |- quiet (t_bind _ _) => apply q_bind end
    | match goal with |- quiet (match ?x with _ => _ end) => destruct x end
    | match goal with |- quiet (if ?x then _ else _) => destruct x end
    | match goal with H : forall _, quiet _ |- _ => apply H | H : forall _ _, quiet _ |- _ => apply H | H : quiet _ |- _ => exact H end ].
  Lemma q_peek_expect : quiet (t_peek_expect src). Proof. unfold t_peek_expect, t_cur_pos, t_source. go. Qed.
  Lemma q_expect_next : quiet (t_expect_next src). Proof. unfold t_expect_next, t_cur_pos, t_source. go. Qed.
  Lemma q_expect k : quiet (t_expect src k). Proof. unfold t_expect, t_cur_pos, t_source. go. Qed.
  Lemma q_skip : quiet t_skip_tok. Proof. unfold t_skip_tok. go. Qed.
  Lemma ident_kind sp s p q c src' d : check_ident_diag sp s p q c src' = Some d -> nu d.
  Proof.
    unfold check_ident_diag. destruct (find_bad p 0 (chars s)) as [[i ch]|]; [intros E; injection E as <-; kd|].
    destruct (31 <? _); [intros E; injection E as <-; kd|]. destruct (chars s) as [|x r]; [intros E; injection E as <-; kd|].
    destruct (q x); [discriminate|intros E; injection E as <-; kd].
  Qed.
  Lemma q_check sp s p q c : quiet (t_check_ident src sp s p q c).
  Proof.
    unfold t_check_ident, t_source. apply q_bind; [apply q_ret|]. intros x. destruct (check_ident_diag sp s p q c x) as [d|] eqn:E; cbn [t_push_opt]; [|apply q_ret].
    apply q_push. exact (ident_kind _ _ _ _ _ _ _ E).
  Qed.
  Lemma q_check_node sp n : quiet (t_check_is_node_name src sp n).
  Proof.
    unfold t_check_is_node_name. destruct (match nn_addr n with None => _ | Some _ => false end); [apply q_ret|]. apply q_bind; [apply q_check|].
    intros _. destruct (nn_addr n); [apply q_check|apply q_ret].
  Qed.
  Lemma q_check_path sp p : quiet (t_check_path src sp p).
  Proof. induction p as [|n r IH]; cbn [t_check_path]; [apply q_ret|]. apply q_bind; [apply q_check_node|]. intros _. exact IH. Qed.
  Lemma q_reference t r : quiet (t_p_reference src t r).
  Proof.
    destruct r as [s|s]; cbn [t_p_reference].
    - apply q_bind; [apply q_check|]. intros _. apply q_ret.
    - apply q_bind; [destruct s; go|]. intros _. apply q_bind; [apply q_check_path|]. intros _. apply q_ret.
  Qed.
  Lemma q_skip_expression f : forall d, quiet (t_skip_expression f d).
  Proof.
    induction f as [|f IH]; intros d; cbn [t_skip_expression]; [apply q_bad|]. apply q_bind; [apply q_peek|]. intros [t|]; [|apply q_ret].
    destruct (tk_kind t); (apply q_bind; [apply q_skip|]; intros _; try apply IH). destruct (d =? 1); [apply q_ret|apply IH].
  Qed.
  Ltac base := first [apply q_expect_next|apply q_peek_expect|apply q_expect|apply q_skip|apply q_check|apply q_check_node|apply q_reference|apply q_skip_expression].
  Ltac all := repeat first [base | progress go].
  (** a number: if the parentheses are not balanced, the text is at its end *)
  Definition quiet_unless_end {A} (m : TM A) : Prop := forall s, Forall nu (t_diags s) ->
    match m s with
    | TOk _ s' => Forall nu (t_diags s') \/ t_toks s' = []
    | TErr d s' => nu d /\ Forall nu (t_diags s')
    | TBad => True
    end.
  Lemma q_number f : quiet_unless_end (t_number_u32 src f).
  Proof.
    intros s H. unfold t_number_u32. unfold t_bind at 1. unfold t_expect_next, t_cur_pos, t_source, t_next, t_bind, t_ret, t_throw. destruct (t_toks s) as [|t toks]; cbn [hd_error tl t_diags];
      [split; [kd|exact H]|]. destruct (tk_kind t) eqn:Et; try (split; [kd|exact H]).
    - pose proof (q_skip_expression f 1 (mkTS toks (t_diags s)) H) as K. destruct (t_skip_expression f 1 (mkTS toks (t_diags s))) as [x s1|d s1|] eqn:E; [|exfalso; exact (skip_no_err _ _ _ _ _ E)|exact I].
      unfold t_peek. destruct (t_toks s1) as [|t1 r1] eqn:E1; [|left; exact K]. right. cbn [t_push t_toks]. exact E1.
    - destruct (parse_number u32_lim s0); [left; exact H|]. left. apply Forall_app. split; [exact H|constructor; [kd|constructor]].
    - pose proof (q_reference t r (mkTS toks (t_diags s)) H) as K. destruct (t_p_reference src t r (mkTS toks (t_diags s))) as [x s1|d s1|] eqn:E; [left; exact K|exfalso; exact (ref_no_err _ _ _ _ _ _ E)|exact I].
  Qed.
  Lemma q_memreserve : quiet (t_memreserve_number src). Proof. unfold t_memreserve_number, t_last_pos, t_source. all. Qed.
  Lemma q_bytes : quiet (t_byte_string src).
  Proof. unfold t_byte_string. apply q_bind; [base|]. intros t. destruct (tk_kind t); try solve [all]; destruct (negb _); try solve [all]; destruct (decode_pairs s) as [[b|e]| |]; all. Qed.
  Lemma q_skip_label : quiet t_skip_optional_label. Proof. unfold t_skip_optional_label. all. Qed.
  Lemma cells_end f acc s : t_toks s = [] -> match t_cells_loop src f acc s with TOk _ _ => False | TErr d _ => nu d | TBad => True end.
  Proof. intros H. destruct f as [|f]; [exact I|]. cbn. unfold t_skip_optional_label, t_bind, t_peek, t_peek_expect, t_ret. rewrite H. unfold t_bind, t_cur_pos, t_source, t_ret. cbn. rewrite H. cbn. kd. Qed.

  Lemma q_cells f : forall acc, quiet (t_cells_loop src f acc).
  Proof.
    induction f as [|f IH]; intros acc; cbn [t_cells_loop]; [apply q_bad|]. apply q_bind; [apply q_skip_label|]. intros _. apply q_bind; [base|]. intros t.
    destruct (kind_eqb _ _); [all|]. intros s H. unfold t_catch. pose proof (q_number f s H) as K. destruct (t_number_u32 src f s) as [c s1|d s1|]; [|  |exact I].
    - destruct K as [K|K]; [exact (IH _ s1 K)|]. pose proof (cells_end f (acc ++ [c]) s1 K) as X. destruct (t_cells_loop src f (acc ++ [c]) s1); [contradiction|exact X|exact I].
    - destruct K as [K1 K2]. refine (q_bind (t_push d) (fun _ => t_cells_loop src f acc) (q_push d K1) _ s1 K2). intros _. apply IH.
  Qed.
  Lemma q_bytes_loop f : forall acc, quiet (t_bytes_loop src f acc).
  Proof.
    induction f as [|f IH]; intros acc; cbn [t_bytes_loop]; [apply q_bad|]. apply q_bind; [apply q_skip_label|]. intros _. apply q_bind; [base|]. intros t.
    destruct (kind_eqb _ _); [all|]. apply q_bind; [apply q_bytes|]. intros b. apply IH.
  Qed.
  Lemma q_bits : quiet (t_bits_prefix src). Proof. unfold t_bits_prefix. all. Qed.
  Lemma q_value f : quiet (t_property_value src f).
  Proof.
    unfold t_property_value. apply q_bind; [apply q_bits|]. intros _. apply q_bind; [base|]. intros t. destruct (tk_kind t); try solve [all].
    - apply q_bind; [apply q_bytes_loop|]. intros [x y]. apply q_ret.
    - apply q_bind; [apply q_cells|]. intros [x y]. apply q_ret.
  Qed.
  Lemma q_values f : forall acc, quiet (t_property_values src f acc).
  Proof.
    induction f as [|f IH]; intros acc; cbn [t_property_values]; [apply q_bad|]. apply q_bind; [apply q_skip_label|]. intros _. apply q_bind; [apply q_value|]. intros v.
    apply q_bind; [apply q_skip_label|]. intros _. apply q_bind; [base|]. intros t. destruct (kind_eqb _ _); [|apply q_ret]. apply q_bind; [base|]. intros _. apply IH.
  Qed.
  Lemma q_property_name : quiet (t_p_property_name src). 
Proof.
unfold t_p_property_name, t_check_is_property_name. all.
Qed.
  Lemma q_node_name : quiet (t_p_node_name src). Proof. unfold t_p_node_name. all. Qed.
  Lemma q_semicolon : quiet (t_expect_semicolon src rl).
  Proof. unfold t_expect_semicolon, t_last_pos, t_source. all. Qed.
  Lemma q_omit o : quiet (t_check_omit src o). Proof. unfold t_check_omit, t_source. all. Qed.
  Lemma q_order b p : quiet (t_check_order src b p). Proof. unfold t_check_order, t_source. all. Qed.
  Ltac more := first [base|apply q_values|apply q_property_name|apply q_node_name|apply q_semicolon|apply q_omit|apply q_order].
  Lemma q_payload f : forall its seen, quiet (t_payload_loop src rl f its seen).
  Proof.
    induction f as [|f IH]; intros its seen; cbn [t_payload_loop]; [apply q_bad|]. unfold t_check_is_property_name, t_check_is_label, t_last_pos, t_source.
    repeat first [apply IH|more|progress go].
  Qed.
  Lemma q_node_payload f : quiet (t_node_payload src rl f).
  Proof. unfold t_node_payload. apply q_bind; [base|]. intros _. apply q_payload. Qed.
  Lemma q_parse_reference : quiet (t_parse_reference src). Proof. unfold t_parse_reference. all. Qed.
  Lemma q_primary f : quiet (t_p_primary src incl rl f).
  Proof. unfold t_p_primary, t_include_paths. repeat first [apply q_node_payload|apply q_parse_reference|apply q_memreserve|more|progress go]. Qed.
  Lemma q_file f : quiet (t_p_file src incl rl f).
  Proof.
    unfold t_p_file, t_source. apply q_bind; [|intros els; go]. generalize (@nil primary). induction f as [|f IH]; intros acc; cbn [t_file_loop]; [apply q_bad|].
    apply q_bind; [apply q_peek|]. intros [t|]; [|apply q_ret]. apply q_bind; [apply q_primary|]. intros p. apply IH.
  Qed.
End Quiet.

Lemma balanced_kinds incl text src : valid_utf8 text = true ->
  match parse_text incl text src with
  | ROk _ s => Forall nu (ps_diags s)
  | RErr d s => nu d
  | _ => True
  end.
Proof.
  intros Hv. destruct (tokenize_total text src Hv) as [toks Ht]. pose proof (parse_sim incl text src toks Hv Ht) as H.
  pose proof (q_file src incl (relex text src) (S (S (length text))) (mkTS toks []) (Forall_nil _)) as K. unfold t_parse in H.
  assert (G : forall l l', Forall2 diag_sim l l' -> Forall nu l' -> Forall nu l).
  { induction 1 as [|d d' l l' [E _] _ IH]; intros F; [constructor|]. pose proof (Forall_inv F) as F1. constructor; [unfold nu in *; rewrite E; exact F1|exact (IH (Forall_inv_tail F))]. }
  destruct (parse_text incl text src) as [f s|d s| |]; destruct (t_p_file _ _ _ _ _) as [f' st|d' st|]; try destruct H; try exact I.
  - exact (G _ _ H0 K).
  - destruct H as [E _]. unfold nu in *. rewrite E. exact K.
Qed.
