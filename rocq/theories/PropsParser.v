(** Property theorems about whole parses: C09, C16, C17, C54 *)
From Verif Require Import Parser LexSpec ReaderProofs Utf8 LexerProofs LexerProofs2 LexerProofs3
  ParserBase ParserSafe ParserSafe2 TreeSpec TreeProofs.
From Coq Require Import ZifyBool.

(** C09 *)
Theorem C09_parse_total : forall incl text src,
  valid_utf8 text = true ->
  (exists f s, parse_text incl text src = ROk f s) \/ (exists d s, parse_text incl text src = RErr d s).
Proof.
  intros incl text src Hv. pose proof (parse_safe text src Hv incl) as H. unfold wp in H. unfold parse_text.
  destruct (p_file _ _) as [f s|d s| |]; try contradiction; [left|right]; eauto.
Qed.
Print Assumptions C09_parse_total.

(** a text that ends in the middle of an expression in a cell list *)
Example C09_example :
  valid_utf8 (bs "/ { a = <1 (2") = true
  /\ exists d s, parse_text [] (bs "/ { a = <1 (2") [] = RErr d s /\ dg_kind d = UnexpectedEOF
       /\ map dg_kind (ps_diags s) = [UnbalancedParentheses].
Proof. split; [reflexivity|]. eexists _, _. split; [vm_compute; reflexivity|]. split; reflexivity. Qed.

(** ** C16: [all_diags] are the diagnostics pushed and, at the end, the error returned *)
Definition all_diags (r : res dts_file) : list diag :=
  match r with
  | ROk _ s => ps_diags s
  | RErr d s => ps_diags s ++ [d]
  | _ => []
  end.

Lemma all_diags_ok incl text src : valid_utf8 text = true ->
  Forall (error_ok text src) (all_diags (parse_text incl text src)).
Proof.
  intros Hv. pose proof (parse_safe text src Hv incl) as H. unfold wp in H. unfold parse_text.
  destruct (p_file _ _) as [f s|d s| |]; try contradiction; cbn [all_diags].
  - destruct H as ((p & toks & _ & (ds & E & F & _) & _) & _). rewrite E.
    eapply Forall_impl; [|exact F]. apply diag_error.
  - destruct H as (p & toks & _ & Hd & (ds & E & F & _) & _). rewrite E. cbn [parser_new ps_diags app].
    apply Forall_app. split; [eapply Forall_impl; [|exact F]; apply diag_error|]. constructor; auto.
Qed.

Theorem C16_diagnostics_inside : forall incl text src d,
  valid_utf8 text = true -> In d (all_diags (parse_text incl text src)) ->
  dg_source d = src
  /\ pos_le (span_start (dg_span d)) (span_end (dg_span d))
  /\ pos_le (span_end (dg_span d)) (pos_after text).
Proof.
  intros incl text src d Hv Hin. pose proof (all_diags_ok incl text src Hv) as H.
  rewrite Forall_forall in H. destruct (H d Hin) as (Hs & (Ha & Hb & Hc) & _). split; [exact Hs|]. split; [exact Hc|].
  apply pos_in_le, Hb.
Qed.
Print Assumptions C16_diagnostics_inside.

(** four diagnostics on a text of three lines *)
Example C16_example :
  map (fun d => (dg_kind d, dg_span d))
    (all_diags (parse_text [] (bs "/ { 1a = <0x>;" ++ [cNL] ++ bs " b*c { } " ++ [cNL] ++ bs "}") (bs "f")))
  = [(Expected, mkSpan (mkPos 0 4) (mkPos 0 6))]
  /\ map (fun d => (dg_kind d, dg_span d))
    (all_diags (parse_text [] (bs "/ { a = <0x>;" ++ [cNL] ++ bs " b?c { } " ++ [cNL] ++ bs "d = <1>") (bs "f")))
  = [(IntError, mkSpan (mkPos 0 9) (mkPos 0 11)); (IllegalChar, mkSpan (mkPos 1 2) (mkPos 1 3));
     (Expected, mkSpan (mkPos 1 8) (mkPos 1 9)); (UnexpectedEOF, mkSpan (mkPos 2 7) (mkPos 2 7))].
Proof. split; vm_compute; reflexivity. Qed.

(** ** C17 *)
Lemma tree_tokens incl text src f s : valid_utf8 text = true -> parse_text incl text src = ROk f s ->
  exists p, pos_le p (pos_after text) /\ seq pos_zero (file_toks f) p /\ Forall (tok_at text src) (file_toks f).
Proof.
  intros Hv E. pose proof (parse_safe text src Hv incl) as H. unfold wp in H. unfold parse_text in E.
  rewrite E in H. destruct H as ((p & toks & Hvw & _ & [Hs Hf] & _) & _). exists p. split; [|auto].
  destruct Hvw as (_ & pre & -> & _ & Hvw). assert (G : exists u, text = pre ++ u).
  { destruct (peeked_of s) as [[t|]|].
    - destruct Hvw as (m & v & w & u & toks' & _ & _ & _ & -> & _). eauto.
    - destruct Hvw as (_ & _ & _ & v & post & -> & _). eauto.
    - destruct Hvw as [(-> & _)|(_ & _ & _ & v & post & -> & _)]; eauto. }
  destruct G as [u G]. rewrite G. apply pos_after_le.
Qed.

Theorem C17_spans_nest : forall incl text src f s,
  valid_utf8 text = true -> parse_text incl text src = ROk f s ->
  file_nested f /\ Forall (fun sp => pos_le (span_end sp) (pos_after text)) (flat_map primary_spans (fl_elements f)).
Proof.
  intros incl text src f s Hv E. destruct (tree_tokens _ _ _ _ _ Hv E) as (p & Hp & Hs & _).
  destruct (file_shape_bound _ _ _ Hs) as [H1 H2]. split; [exact H1|]. eapply Forall_impl; [|exact H2].
  intros sp Hsp. exact (pos_le_trans _ _ _ Hsp Hp).
Qed.
Print Assumptions C17_spans_nest.

Definition sample : list N :=
  bs "/dts-v1/; / { l: a = <1 &r>, [12 34]; n@1 { b; }; /delete-node/ x; }; &r { c = ""s""; };".
Example C17_example : valid_utf8 sample = true
  /\ exists f s, parse_text [] sample [] = ROk f s /\ ps_diags s = []
     /\ map (fun sp => (pos_char (span_start sp), pos_char (span_end sp))) (flat_map primary_spans (fl_elements f))
        = [(0, 8); (10, 69); (70, 86)].
Proof. split; [reflexivity|]. eexists _, _. split; [vm_compute; reflexivity|]. split; reflexivity. Qed.

(** the property that lost its semicolon: values are outside its span *)
Example C17_lost_semicolon : exists f s, parse_text [] (bs "/ { a = <1> };") [] = ROk f s
  /\ match fl_elements f with
     | [PRoot n] => match pl_items (nd_payload n) with
                    | [IProperty p] => prop_span p = mkSpan (mkPos 0 4) (mkPos 0 7)
                        /\ map pv_span (pr_values p) = [mkSpan (mkPos 0 8) (mkPos 0 11)]
                    | _ => False
                    end
     | _ => False
     end.
Proof. eexists _, _. split; [vm_compute; reflexivity|]. split; reflexivity. Qed.

(** ** C54: everything stays below the length of the text *)
Definition within (n : N) (p : position) : Prop := pos_line p <= n /\ pos_char p <= n.

Lemma since_nl_length l : (length (since_nl l) <= length l)%nat.
Proof.
  induction l as [|c l IH]; [reflexivity|]. cbn [since_nl]. destruct (existsb _ _); cbn [length]; lia.
Qed.
Lemma count_nl_length l : count_nl l <= N.of_nat (length l).
Proof.
  unfold count_nl. induction l as [|c l IH]; [reflexivity|]. cbn [count_occ length].
  destruct (N.eq_dec c 10); lia.
Qed.
Lemma pos_in_within text p : pos_in text p -> within (N.of_nat (length text)) p.
Proof.
  intros (a & u & n & -> & -> & Hn). unfold within, pos_offset, pos_after. cbn [pos_line pos_char].
  pose proof (since_nl_length a). pose proof (count_nl_length a). rewrite app_length. lia.
Qed.
Lemma tok_within text src t : tok_at text src t ->
  within (N.of_nat (length text)) (tk_start t) /\ within (N.of_nat (length text)) (tk_end t).
Proof.
  intros H. destruct (span_in_tok _ _ _ H) as (H1 & H2 & _). split; apply pos_in_within; assumption.
Qed.

Lemma lexed_within text src m pre rest toks : text = pre ++ rest -> lexed src m pre rest toks ->
  Forall (fun t => within (N.of_nat (length text)) (tk_start t) /\ within (N.of_nat (length text)) (tk_end t)) toks.
Proof.
  intros Ht H. induction H as [| |m pre g k u rest toks Hg Hsp Hl IH]; auto. constructor.
  - unfold tk_start, tk_end. cbn [tk_span span_start span_end]. split; apply pos_in_within.
    + apply (pos_in_after _ _ (u ++ rest)). rewrite Ht, <- app_assoc. reflexivity.
    + apply (pos_in_after _ _ rest). rewrite Ht, <- !app_assoc. reflexivity.
  - apply IH. rewrite Ht, <- !app_assoc. reflexivity.
Qed.

Theorem C54_positions_bounded : forall incl text src,
  valid_utf8 text = true -> N.of_nat (length text) < 2 ^ 31 ->
  (forall n, within (2 ^ 31) (rd_pos (snd (consume_n n (reader_of text)))))
  /\ (forall toks t, tokenize text src = Done toks -> In t toks ->
        within (2 ^ 31) (tk_start t) /\ within (2 ^ 31) (tk_end t))
  /\ (forall d, In d (all_diags (parse_text incl text src)) ->
        within (2 ^ 31) (span_start (dg_span d)) /\ within (2 ^ 31) (span_end (dg_span d)))
  /\ (forall f s t, parse_text incl text src = ROk f s -> In t (file_toks f) ->
        within (2 ^ 31) (tk_start t) /\ within (2 ^ 31) (tk_end t)).
Proof.
  intros incl text src Hv Hlen.
  assert (W : forall p, within (N.of_nat (length text)) p -> within (2 ^ 31) p).
  { unfold within. lia. }
  assert (T : forall t, tok_at text src t -> within (2 ^ 31) (tk_start t) /\ within (2 ^ 31) (tk_end t)).
  { intros t Ht. apply tok_within in Ht. destruct Ht. auto. }
  split; [|split; [|split]].
  - intros n. rewrite (proj2 (reader_exact text n)).
    apply W, pos_in_within, (pos_in_after _ _ (skipn n text)). symmetry. apply firstn_skipn.
  - intros toks t Ht Hin. apply (tokenize_iff text src toks Hv) in Ht.
    eapply lexed_within in Ht; [|reflexivity]. rewrite Forall_forall in Ht. destruct (Ht t Hin). auto.
  - intros d Hin. pose proof (all_diags_ok incl text src Hv) as H. rewrite Forall_forall in H.
    destruct (H d Hin) as (_ & (Ha & Hb & _) & _). split; apply W, pos_in_within; assumption.
  - intros f s t E Hin. destruct (tree_tokens _ _ _ _ _ Hv E) as (p & _ & _ & H). rewrite Forall_forall in H. auto.
Qed.
Print Assumptions C54_positions_bounded.

(** the position behind the end of line that is computed for a missing semicolon *)
Example C54_example : exists f s, parse_text [] (bs "/dts-v1/ /plugin/;") [] = ROk f s
  /\ map dg_span (ps_diags s) = [mkSpan (mkPos 0 8) (mkPos 0 9)] /\ length (file_toks f) = 2%nat.
Proof. eexists _, _. split; [vm_compute; reflexivity|]. split; reflexivity. Qed.
