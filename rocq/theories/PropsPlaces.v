(** Property theorems on the place of diagnostics: C55, C56 *)
From Verif Require Import Parser LexSpec ReaderProofs Utf8 LexerProofs LexerProofs2 LexerProofs3 ParserBase ParserSafe
  ParserSafe2 Grammar NameProofs TokParser ParserSim GrammarComplete GrammarSound PropsGrammar Utf8Adequacy.
From Coq Require Import ZifyBool.

(** ** C55: the diagnostic when an opening brace is required *)
(** a sequence of top-level elements at the start of the tokens *)
Inductive g_elements (incl : list fpath) : list token -> list primary -> list token -> Prop :=
| ges_nil l : g_elements incl l [] l
| ges_cons l p l1 m ps l2 : g_primary incl l p l1 m -> g_elements incl l1 ps l2 ->
    g_elements incl l (p :: ps) l2.

Section Brace.
  Context (incl : list fpath) (text : list N) (src : fpath) (toks0 : list token).
  Hypothesis text_valid : valid_utf8 text = true.

  (** after some elements the loop is in a state with the remaining tokens to come *)
  Lemma loop_reaches l ps l' : g_elements incl l ps l' -> forall f acc s ds,
    rel text src incl toks0 s (mkTS l ds) -> (left s < f)%nat ->
    exists f' acc' s' ds', file_loop f acc s = file_loop f' acc' s' /\ rel text src incl toks0 s' (mkTS l' ds')
      /\ (left s' < f')%nat.
  Proof.
    induction 1 as [l|l p l1 m ps l2 Hp Hps IH]; intros f acc s ds Hr Hf.
    { exists f, acc, s, ds. auto. }
    destruct f as [|f]; [lia|]. cbn [file_loop].
    destruct (primary_nonempty _ _ _ _ _ Hp) as (t & r & ->).
    destruct Hr as ((q & Hv & Hu) & Hd & Hi). cbn [t_toks] in Hv.
    assert (Hpk : exists s1, peek s = ROk (Some t) s1 /\ view text src s1 q (t :: r) /\ same_diags s s1 /\ (left s1 <= left s)%nat).
    { pose proof (wp_peek text src text_valid s q (t :: r)
        (fun o s1 => o = Some t /\ view text src s1 q (t :: r) /\ same_diags s s1 /\ (left s1 <= left s)%nat) (fun _ _ => False) Hv) as H.
      unfold wp in H. destruct (peek s) as [o s1|d s1| |]; try (exfalso; apply H; intros; auto 6; fail).
      destruct H as (-> & H); [intros; auto|]. exists s1. auto. }
    destruct Hpk as (s1 & E1 & Hv1 & [Hd1 Hi1] & L1). unfold bind at 1. rewrite E1.
    assert (Hr1 : rel text src incl toks0 s1 (mkTS (t :: r) ds)).
    { split; [exists q; split; [exact Hv1|exact Hu]|]. split; [rewrite Hd1; exact Hd|rewrite Hi1; exact Hi]. }
    pose proof (sim_primary text src incl toks0 text_valid f s1 _ Hr1) as Hs.
    pose proof (primary_safe text src text_valid f s1 q _ Hv1 ltac:(lia)) as Hw. unfold wp in Hw.
    destruct (fine_primary src incl (relex text src) _ _ _ _ Hp f ds) as [E|(new & E & _)];
      rewrite E in Hs; unfold rel_res in Hs.
    - destruct (p_primary f s1); contradiction.
    - destruct (p_primary f s1) as [p1 s2|d s2| |] eqn:E2; try contradiction. destruct Hs as [-> Hr2].
      destruct Hw as (p2 & toks2 & Hv2 & Hst). apply step_left in Hst.
      destruct (IH f (acc ++ [p]) s2 (ds ++ new) Hr2) as (f' & acc' & s' & ds' & E3 & Hr' & L'); [lia|].
      exists f', acc', s', ds'. split; [|auto]. unfold bind. rewrite E2. exact E3.
  Qed.

  Lemma pos_unpeeked s p t toks : view text src s p (t :: toks) -> peeked_of s = None -> pos_of s = p.
  Proof.
    intros (_ & pre & Ep & _ & H) Hk. rewrite Hk in H. destruct H as [(_ & H & _)|(H & _)]; [exact H|discriminate].
  Qed.

  Lemma payload_no_brace f s p t toks : view text src s p (t :: toks) -> peeked_of s = None -> ~ is OpenBrace t ->
    exists s', node_payload f s = RErr (diag_expected (as_span p) src [tk_kind t]) s'.
  Proof.
    intros Hv Hk Ht. unfold node_payload, bind.
    pose proof (wp_expect text src text_valid OpenBrace s p (t :: toks) (fun _ _ => False)
      (fun d _ => d = diag_expected (as_span p) src [tk_kind t]) Hv) as H. unfold wp in H.
    rewrite (pos_unpeeked _ _ _ _ Hv Hk) in H. unfold is in Ht.
    destruct (expect OpenBrace s) as [a s'|d s'| |]; try (exfalso; apply H; intros; split; [congruence|reflexivity]).
    exists s'. rewrite H; [reflexivity|]. intros. split; [congruence|reflexivity].
  Qed.

  Lemma primary_no_brace f s p h t toks : view text src s p (h :: t :: toks) ->
    is Slash h \/ (exists r, is (Ref r) h) -> ~ is OpenBrace t ->
    exists s', p_primary f s = RErr (diag_expected (as_span (tk_end h)) src [tk_kind t]) s'.
  Proof.
    intros Hv Hh Ht. unfold p_primary, bind at 1.
    destruct (head_facts text src _ _ _ _ Hv) as (Hat & Hsrc & _).
    assert (H : exists s1, expect_next s = ROk h s1 /\ view text src s1 (tk_end h) (t :: toks) /\ peeked_of s1 = None).
    { pose proof (wp_expect_next text src text_valid s p (h :: t :: toks)
        (fun a s1 => a = h /\ view text src s1 (tk_end h) (t :: toks) /\ peeked_of s1 = None) (fun _ _ => False) Hv) as H.
      unfold wp in H. destruct (expect_next s) as [a s1|d s1| |]; try (exfalso; apply H; intros; auto; fail).
      destruct H as (-> & H); [intros; auto|]. exists s1. auto. }
    destruct H as (s1 & -> & Hv1 & Hk1).
    destruct Hh as [Hh|[r Hh]]; unfold is in Hh; rewrite Hh.
    - destruct (payload_no_brace f s1 _ _ _ Hv1 Hk1 Ht) as [s' E]. exists s'. unfold bind. rewrite E. reflexivity.
    - destruct (reference_pushes text src h r _ _ s1 Hv1 Hat Hsrc Hh) as (ref & ds & E & _).
      unfold bind at 1. rewrite E.
      assert (Hv2 : view text src (mkPS (ps_lex s1) (ps_diags s1 ++ ds) (ps_incl s1)) (tk_end h) (t :: toks))
        by (eapply view_same_lex; [|exact Hv1]; reflexivity).
      destruct (payload_no_brace f _ _ _ _ Hv2 Hk1 Ht) as [s' E']. exists s'. unfold bind. rewrite E'. reflexivity.
  Qed.
End Brace.

(** Full statement (C55): in the situation below the diagnostic would be
    [diag_expected (as_span (tk_end h)) src [OpenBrace]]. The tool names the token it found instead.
    Proved: the exact diagnostic the tool gives. It lies between the header and the token found, but its
    message names the latter. *)
Theorem C55_open_brace_partial : forall incl text src toks ps h t rest,
  valid_utf8 text = true -> lexed src NameExpected [] text toks ->
  g_elements incl toks ps (h :: t :: rest) ->
  is Slash h \/ (exists r, is (Ref r) h) -> ~ is OpenBrace t ->
  exists d s, parse_text incl text src = RErr d s
    /\ dg_kind d = Expected /\ dg_source d = src
    /\ dg_span d = mkSpan (tk_end h) (tk_end h)
    /\ pos_le (tk_end h) (tk_start t)
    /\ dg_msg d = dg_msg (diag_expected (dg_span d) src [tk_kind t]).
Proof.
  intros incl text src toks ps h t rest Hv Hl Hg Hh Ht.
  pose proof (parse_rel incl text src toks Hv Hl) as Hr.
  destruct (loop_reaches incl text src toks Hv _ _ _ Hg (S (S (length text))) [] _ _ Hr)
    as (f & acc & s & ds & E & ((p & Hvw & _) & _) & Lf).
  { unfold left, rest_of, peeked_of. cbn. lia. }
  cbn [t_toks] in Hvw. destruct f as [|f]; [lia|].
  assert (Hpk : exists s1, peek s = ROk (Some h) s1 /\ view text src s1 p (h :: t :: rest)).
  { pose proof (wp_peek text src Hv s p (h :: t :: rest)
      (fun o s1 => o = Some h /\ view text src s1 p (h :: t :: rest)) (fun _ _ => False) Hvw) as H.
    unfold wp in H. destruct (peek s) as [o s1|d s1| |]; try (exfalso; apply H; intros; auto; fail).
    destruct H as (-> & H); [intros; auto|]. exists s1. auto. }
  destruct Hpk as (s1 & E1 & Hv1).
  destruct (primary_no_brace text src Hv f s1 p h t rest Hv1 Hh Ht) as (s2 & E2).
  exists (diag_expected (as_span (tk_end h)) src [tk_kind t]), s2. split.
  { unfold parse_text, p_file. unfold bind at 1. rewrite E. cbn [file_loop]. unfold bind at 1 2. rewrite E1, E2. reflexivity. }
  do 3 (split; [reflexivity|]). split; [|reflexivity].
  unfold parse_text in *. cbn in E2.
  clear - Hv Hv1. (* the tokens to come lie after the header *)
  pose proof (wp_expect_next text src Hv s1 p (h :: t :: rest)
        (fun a s2 => view text src s2 (tk_end h) (t :: rest)) (fun _ _ => False) Hv1) as H.
  unfold wp in H. destruct (expect_next s1) as [a s2|d s2| |]; try (exfalso; apply H; intros; auto; fail).
  specialize (H ltac:(intros; auto)). apply (head_facts text src) in H. apply H.
Qed.
Print Assumptions C55_open_brace_partial.

Example C55_case :
  exists toks h t rest, lexed (bs "a.dts") NameExpected [] (bs "/dts-v1/; &x ;") toks
    /\ g_elements [] toks [PDirective (ADtsHeader (hd h toks))] (h :: t :: rest)
    /\ (exists r, is (Ref r) h) /\ ~ is OpenBrace t.
Proof.
  eexists _, _, _, _. split.
  { apply tokenize_iff; [reflexivity|]. vm_compute. reflexivity. }
  split.
  { eapply ges_cons; [|apply ges_nil]. cbn [hd]. eapply gp_header; [reflexivity|]. apply ge_semicolon. reflexivity. }
  split; [eexists; reflexivity|]. discriminate.
Qed.

(** the message does not name the brace *)
Theorem C55_open_brace_refuted : exists text src d s,
  valid_utf8 text = true /\ parse_text [] text src = RErr d s
  /\ (exists h t, lexed src NameExpected [] text [h; t] /\ is Slash h /\ is Semicolon t)
  /\ dg_msg d = bs "Expected ';'" /\ dg_msg d <> dg_msg (diag_expected (dg_span d) src [OpenBrace]).
Proof.
  exists (bs "/ ;"), (bs "a.dts"). eexists _, _. split; [reflexivity|]. split; [vm_compute; reflexivity|].
  split; [|split; [vm_compute; reflexivity|vm_compute; discriminate]].
  eexists _, _. split; [apply tokenize_iff; [reflexivity|vm_compute; reflexivity]|]. split; reflexivity.
Qed.
Print Assumptions C55_open_brace_refuted.

(** ** C56: the place of illegal-character diagnostics *)
(** the parts of a node name, with the number of bytes before them *)
Inductive part (s : str) : nat -> str -> Prop :=
| part_name n : node_text s n -> part s 0 (nn_name n)
| part_address n a : node_text s n -> nn_addr n = Some a -> part s (S (length (nn_name n))) a.
(** the names a token is checked for, the number of bytes before them in the token, the characters allowed in them,
    and what they are called *)
Inductive checked : token_kind -> nat -> str -> (N -> Prop) -> name_context -> Prop :=
| ck_label s : checked (Label s) 0 s label_char CtxLabel
| ck_property s : checked (Ident s) 0 s name_char CtxPropertyName
| ck_node s off q : part s off q -> checked (Ident s) off q node_char CtxNodeName
| ck_path x s y off q : (x = [] \/ exists x', x = x' ++ [cSlash]) -> (y = [] \/ exists y', y = cSlash :: y') ->
    s <> [] -> ~ In cSlash s -> part s off q ->
    checked (Ref (TRefPath (x ++ s ++ y))) (2 + length x + off) q node_char CtxNodeName.

(** the diagnostic is about [c], the first illegal character of a name; [off] bytes of the token stand before the name,
    [pre] is the text before the character *)
Definition marks (text : list N) (src : fpath) (d : diag) (off : nat) (pre : list N) (c : N) : Prop :=
  exists t q allowed ctx a x u v w,
    tok_at text src t /\ checked (tk_kind t) off q allowed ctx
    /\ text = a ++ x ++ q ++ w /\ tk_start t = pos_after a /\ length x = off
    /\ q = u ++ encode_char c ++ v /\ scalar c /\ Forall allowed u /\ ~ allowed c /\ pre = a ++ x ++ u
    /\ dg_msg d = bs "Illegal char '" ++ encode_char c ++ bs "' in " ++ show_name_context ctx
    /\ dg_span d = mkSpan (pos_offset (pos_after a) (N.of_nat (length u))) (pos_offset (pos_after a) (N.of_nat (length u) + 1)).
(** the diagnostic points at the first illegal character of a name *)
Definition points_at (text : list N) (src : fpath) (d : diag) : Prop :=
  exists off pre c, marks text src d off pre c
    /\ dg_span d = mkSpan (pos_after pre) (pos_after (pre ++ [c])).

Section Keeps.
  Context (text : list N) (src : fpath) (incl : list fpath).
  Hypothesis text_valid : valid_utf8 text = true.
  Notation T := (tok_at text src).
  Notation rl := (relex text src).
  (** the diagnostics for an omit directive before a property and for a semicolon after an include directive *)
  Definition omit_said (d : diag) : Prop := exists t, T t /\ tk_kind t = Directive OmitIfNoRef
    /\ d = mkDiag IncorrectDirective (tk_span t) src (bs "The /omit-if-no-ref/ directive can only be used on nodes").
  Definition include_said (d : diag) : Prop := exists t, T t /\ tk_kind t = Semicolon
    /\ d = mkDiag ParserError (tk_span t) src (bs "Include directive must not end with a semicolon").
  Definition placed (d : diag) : Prop :=
    (dg_kind d = IllegalChar -> exists off pre c, marks text src d off pre c)
    /\ (dg_kind d = IncorrectDirective -> omit_said d) /\ (dg_kind d = ParserError -> include_said d).
  Definition fine_state (s : tstate) : Prop := Forall T (t_toks s) /\ Forall placed (t_diags s).
  Definition keeps {A} (R : A -> Prop) (m : TM A) : Prop := forall s, fine_state s ->
    match m s with
    | TOk a s' => fine_state s' /\ R a
    | TErr d s' => fine_state s' /\ placed d
    | TBad => True
    end.
  Notation any := (fun _ => True).

  Lemma lexed_at m pre rest toks : lexed src m pre rest toks -> text = pre ++ rest -> Forall T toks.
  Proof.
    induction 1 as [| |m pre g k u rest toks Hg Hs _ IH]; intros E; [constructor|constructor|].
    constructor.
    - exists m, (pre ++ g), u, rest. rewrite <- !app_assoc. split; [exact E|]. split; [exact Hs|reflexivity].
    - apply IH. rewrite <- !app_assoc. exact E.
  Qed.
  Lemma relex_at p : Forall T (rl p).
  Proof.
    unfold relex. assert (G : forall t a, text = a ++ t -> Forall T (relex_go src a t p)).
    { induction t as [|c t IH]; intros a Ha; cbn [relex_go];
        destruct (pos_leb (pos_after a) p && pos_leb p (pos_after a)).
      1,3: match goal with |- context [lex_all (mkLexer (mkReader ?t _) _ _ _)] =>
        destruct (lexed_total src NameExpected a t) as [toks H];
        unfold lex_all; cbn [lx_rd rd_rest];
        rewrite (lex_all_complete src NameExpected a t toks H);
          [eapply lexed_at; eassumption|reflexivity|rewrite <- Ha; exact text_valid|lia] end.
      - constructor.
      - apply IH. rewrite <- app_assoc. exact Ha. }
    apply G. reflexivity.
  Qed.

  Lemma keeps_bind {A B} (R : A -> Prop) (R' : B -> Prop) (m : TM A) (k : A -> TM B) :
    keeps R m -> (forall a, R a -> keeps R' (k a)) -> keeps R' (t_bind m k).
  Proof.
    intros Hm Hk s Hs. specialize (Hm s Hs). unfold t_bind. destruct (m s) as [a s'|d s'|]; auto.
    destruct Hm as [Hs' Ha]. exact (Hk a Ha s' Hs').
  Qed.
  Lemma keeps_catch {A B} (R : A -> Prop) (R' : B -> Prop) (m : TM A) (k : A -> TM B) g :
    keeps R m -> (forall a, R a -> keeps R' (k a)) -> (forall d, placed d -> keeps R' (g d)) -> keeps R' (t_catch m k g).
  Proof.
    intros Hm Hk Hg s Hs. specialize (Hm s Hs). unfold t_catch. destruct (m s) as [a s'|d s'|]; auto; destruct Hm as [Hs' Ha];
      [exact (Hk a Ha s' Hs')|exact (Hg d Ha s' Hs')].
  Qed.
  Lemma keeps_conseq {A} (R R' : A -> Prop) (m : TM A) : keeps R m -> (forall a, R a -> R' a) -> keeps R' m.
  Proof. intros Hm Hk s Hs. specialize (Hm s Hs). destruct (m s) as [a s'|d s'|]; auto. destruct Hm; auto. Qed.
  Lemma keeps_ret {A} (R : A -> Prop) a : R a -> keeps R (t_ret a).
  Proof. intros H s Hs. split; assumption. Qed.
  Lemma keeps_throw {A} (R : A -> Prop) d : placed d -> keeps R (t_throw d).
  Proof. intros H s Hs. split; assumption. Qed.
  Lemma keeps_bad {A} (R : A -> Prop) : keeps R t_no_fuel.
  Proof. intros s Hs. exact I. Qed.
  Lemma keeps_push d : placed d -> keeps any (t_push d).
  Proof. intros H s [Hs Hd]. repeat split; [exact Hs|]. cbn. apply Forall_app. auto. Qed.
  Definition opt_T (o : option token) : Prop := match o with Some t => T t | None => True end.
  Lemma keeps_peek : keeps opt_T t_peek.
  Proof. intros s Hs. split; [exact Hs|]. destruct Hs as [Hs _]. destruct (t_toks s); [exact I|]. inversion Hs; assumption. Qed.
  Lemma keeps_next : keeps opt_T t_next.
  Proof.
    intros [l ds] [Hs Hd]. unfold t_next. cbn [t_toks t_diags] in *.
    split; [split; [|exact Hd]|]; cbn [t_toks]; destruct l; try exact I; try exact Hs; inversion Hs; assumption.
  Qed.
  Lemma keeps_relex t : keeps any (t_relex rl t).
  Proof. intros s [Hs Hd]. repeat split; [apply relex_at|exact Hd]. Qed.
  Lemma placed_other d : dg_kind d <> IllegalChar -> dg_kind d <> IncorrectDirective -> dg_kind d <> ParserError -> placed d.
  Proof. intros H1 H2 H3. repeat split; intros E; contradiction. Qed.

  Create HintDb keeps.
  Ltac other := apply placed_other; discriminate.
  Hint Extern 1 (placed _) => other : keeps.
  Hint Resolve keeps_throw keeps_bad keeps_relex I : keeps.
  Ltac kt :=
    repeat first
      [ progress intros
      | solve [auto with keeps]
      | apply keeps_throw; other
      | apply keeps_push; other
      | match goal with
        | |- keeps _ (t_bind t_peek _) => eapply keeps_bind; [apply keeps_peek|]
        | |- keeps _ (t_bind t_next _) => eapply keeps_bind; [apply keeps_next|]
        | |- keeps _ (t_bind (t_source _) _) => eapply (keeps_bind (fun x => x = src)); [apply keeps_ret; reflexivity|]
        | |- keeps _ (t_bind t_last_pos _) => eapply (keeps_bind any); [apply keeps_ret; exact I|]
        | |- keeps _ (t_bind t_here _) => eapply (keeps_bind any); [intros ? Hs; split; [exact Hs|exact I]|]
        | |- keeps _ (t_bind t_cur_pos _) => eapply (keeps_bind any); [apply keeps_ret; exact I|]
        | |- keeps _ (t_bind (t_include_paths _) _) => eapply (keeps_bind any); [apply keeps_ret; exact I|]
        | H : opt_T ?o |- keeps _ (match ?o with _ => _ end) => destruct o; cbn [opt_T] in H
        | |- keeps _ (match ?x with _ => _ end) => destruct x eqn:?
        | |- keeps _ (if ?x then _ else _) => destruct x eqn:?
        | |- keeps _ (t_ret _) => apply keeps_ret
        end ].
  Lemma keeps_expect_next : keeps T (t_expect_next src).
  Proof. unfold t_expect_next. kt. Qed.
  Lemma keeps_peek_expect : keeps T (t_peek_expect src).
  Proof. unfold t_peek_expect. kt. Qed.
  Lemma keeps_expect k : keeps T (t_expect src k).
  Proof. unfold t_expect. kt. Qed.
  Lemma keeps_skip : keeps any t_skip_tok.
  Proof. unfold t_skip_tok. kt. Qed.
  Ltac kt2 :=
    repeat first
      [ progress kt
      | match goal with
        | |- keeps _ (t_bind (t_expect_next _) _) => eapply keeps_bind; [apply keeps_expect_next|]
        | |- keeps _ (t_bind (t_peek_expect _) _) => eapply keeps_bind; [apply keeps_peek_expect|]
        | |- keeps _ (t_bind (t_expect _ _) _) => eapply keeps_bind; [apply keeps_expect|]
        | |- keeps _ (t_bind t_skip_tok _) => eapply keeps_bind; [apply keeps_skip|]
        end
      | assumption ].

  (** the checks *)
  Lemma find_bad_split pred (cs : list N) : forall i j c, find_bad pred i cs = Some (j, c) ->
    exists u v, cs = u ++ c :: v /\ j = i + N.of_nat (length u) /\ Forall (fun x => pred x = true) u /\ pred c = false.
  Proof.
    induction cs as [|x cs IH]; intros i j c; cbn [find_bad]; [discriminate|]. destruct (pred x) eqn:E.
    - intros H. destruct (IH _ _ _ H) as (u & v & -> & -> & Hu & Hc). exists (x :: u), v.
      split; [reflexivity|]. split; [cbn [length]; lia|]. split; [constructor; assumption|exact Hc].
    - intros H. injection H as <- <-. exists [], cs. split; [reflexivity|]. split; [cbn; lia|]. split; [constructor|exact E].
  Qed.
  Lemma offset_after (u : list N) : Forall (fun c => c < 128 /\ c <> 10) u -> forall a,
    pos_offset (pos_after a) (N.of_nat (length u)) = pos_after (a ++ u).
  Proof.
    induction 1 as [|c u [_ Hc] _ IH]; intros a; [cbn [length]; rewrite pos_offset_0, app_nil_r; reflexivity|].
    replace (a ++ c :: u) with ((a ++ [c]) ++ u) by (rewrite <- app_assoc; reflexivity). rewrite <- IH.
    rewrite pos_after_snoc. unfold advance. destruct (N.eqb_spec c 10); [contradiction|].
    unfold pos_offset. cbn [pos_line pos_char length]. f_equal. lia.
  Qed.

  Lemma tok_ascii t s : T t -> tk_kind t = Ident s \/ tk_kind t = Label s ->
    Forall (fun c => c < 128 /\ c <> 10) s /\ exists a w, text = a ++ s ++ w /\ tk_start t = pos_after a.
  Proof.
    intros (m & a & u & rest & Et & Hs & Ek) H.
    assert (Ha : tk_start t = pos_after a) by (rewrite Ek; reflexivity).
    assert (Hn : forall l, Forall name_char l -> Forall (fun c => c < 128 /\ c <> 10) l).
    { intros l. apply Forall_impl. intros c H'. split; [apply name_char_ascii; exact H'|].
      unfold name_char, letter, digit in H'. cbn [In] in H'. lia. }
    apply (f_equal Some) in Et. clear Ek.
    destruct H as [H|H]; rewrite H in Hs; inversion Hs; subst; injection Et as Et;
      try (match goal with H : In _ punctuation |- _ => cbn in H; intuition discriminate end).
    - split; [apply Hn; assumption|]. exists a, rest. split; assumption || reflexivity.
    - split; [|exists a, rest; split; assumption || reflexivity].
      rewrite app_comm_cons. apply Forall_app. split; [apply Hn; assumption|].
      constructor; [split; [reflexivity|discriminate]|apply Hn; assumption].
    - split; [apply Hn; assumption|]. exists a, ([cColon] ++ rest). split; [rewrite Et, <- !app_assoc; reflexivity|assumption].
  Qed.

  Lemma encoded_small u : Forall (fun c => c < 128) u -> encoded u = u.
  Proof.
    induction 1 as [|c u Hc _ IH]; [reflexivity|]. unfold encoded in *. cbn [map concat]. rewrite IH.
    unfold encode_char. destruct (N.ltb_spec c 128); [reflexivity|lia].
  Qed.
  Lemma check_placed t off q pred allowed start ctx :
    T t -> checked (tk_kind t) off q allowed ctx -> (forall c, pred c = true <-> allowed c) -> (forall c, allowed c -> c < 128) ->
    valid_utf8 q = true -> (exists a x w, text = a ++ x ++ q ++ w /\ tk_start t = pos_after a /\ length x = off) ->
    keeps any (t_check_ident src (tk_span t) q pred start ctx).
  Proof.
    intros Ht Hc Hp Ha Hv (a & x & w & Et & Es & Ex). unfold t_check_ident.
    eapply (keeps_bind (fun x => x = src)); [apply keeps_ret; reflexivity|]. intros ? ->.
    unfold check_ident_diag. destruct (find_bad pred 0 (chars q)) as [[i c]|] eqn:E.
    - cbn [t_push_opt]. apply keeps_push. split; [|split; discriminate]. intros _. destruct (decode_encode q Hv) as [Hsc Henc].
      destruct (find_bad_split _ _ _ _ _ E) as (u & v & En & -> & Hu & Hc'). rewrite En in Hsc, Henc.
      assert (Hu' : Forall allowed u) by (eapply Forall_impl; [|exact Hu]; intros y; apply Hp).
      exists off, (a ++ x ++ u), c, t, q, allowed, ctx, a, x, u, (encoded v), w. split; [exact Ht|]. split; [exact Hc|]. split; [exact Et|]. split; [exact Es|].
      split; [exact Ex|]. split.
      { rewrite <- Henc. unfold encoded. rewrite map_app, concat_app. cbn [map concat]. f_equal. apply encoded_small.
        eapply Forall_impl; [|exact Hu']. exact Ha. }
      split; [apply Forall_app in Hsc; destruct Hsc as [_ Hsc]; exact (Forall_inv Hsc)|]. split; [exact Hu'|].
      split; [intros Hx; apply Hp in Hx; congruence|]. split; [reflexivity|]. split; [reflexivity|].
      cbn [dg_span diag_new]. unfold as_char_span. change (span_start (tk_span t)) with (tk_start t). rewrite Es, pos_offset_add, N.add_0_l. reflexivity.
    - repeat match goal with |- context [match ?y with _ => _ end] => destruct y end; cbn [t_push_opt];
        try (apply keeps_push; other); apply keeps_ret; exact I.
  Qed.

  Lemma check_quiet sp n pred start ctx : (forall i c, find_bad pred 0 (chars n) <> Some (i, c)) ->
    keeps any (t_check_ident src sp n pred start ctx).
  Proof.
    intros H. unfold t_check_ident.
    eapply (keeps_bind (fun x => x = src)); [apply keeps_ret; reflexivity|]. intros ? ->.
    unfold check_ident_diag. destruct (find_bad pred 0 (chars n)) as [[i c]|] eqn:E; [destruct (H i c eq_refl)|].
    repeat match goal with |- context [match ?y with _ => _ end] => destruct y end; cbn [t_push_opt];
        try (apply keeps_push; other); apply keeps_ret; exact I.
  Qed.
  Lemma keeps_label t s : T t -> tk_kind t = Label s -> keeps any (t_check_is_label src (tk_span t) s).
  Proof.
    intros Ht Hk. destruct (tok_ascii t s Ht (or_intror Hk)) as [Ha (a & w & Et & Es)].
    eapply check_placed; [exact Ht|rewrite Hk; apply ck_label|apply label_pred_spec|exact label_char_ascii| |].
    - apply valid_ascii. eapply Forall_impl; [|exact Ha]. intros c []; assumption.
    - exists a, [], w. auto.
  Qed.
  Lemma keeps_property_name t s : T t -> tk_kind t = Ident s -> keeps any (t_check_is_property_name src (tk_span t) s).
  Proof.
    intros Ht Hk. destruct (tok_ascii t s Ht (or_introl Hk)) as [Ha (a & w & Et & Es)].
    eapply check_placed; [exact Ht|rewrite Hk; apply ck_property|apply prop_pred_spec|exact name_char_ascii| |].
    - apply valid_ascii. eapply Forall_impl; [|exact Ha]. intros c []; assumption.
    - exists a, [], w. auto.
  Qed.
  Lemma part_in s off q : part s off q -> exists x y, s = x ++ q ++ y /\ length x = off.
  Proof.
    intros [n Hn|n a Hn Ha].
    - destruct Hn as [s0 H|s0 ad H]; cbn [nn_name]; [exists [], []; rewrite app_nil_r; auto|exists [], ([cAt] ++ ad); auto].
    - destruct Hn as [s0 H|s0 ad H]; cbn [nn_name nn_addr] in *; [discriminate Ha|]. injection Ha as <-.
      exists (s0 ++ [cAt]), []. rewrite app_nil_r, <- app_assoc, app_length. split; [reflexivity|cbn [length]; lia].
  Qed.
  Lemma part_valid s off q : part s off q -> valid_utf8 s = true -> valid_utf8 q = true.
  Proof.
    intros H Hv. pose proof (nn_valid_of s Hv) as [H1 H2]. destruct H as [n Hn|n a Hn Ha]; apply node_text_iff in Hn; subst n; auto.
  Qed.
  Lemma keeps_node t s n base : T t -> node_text s n -> valid_utf8 s = true ->
    (forall off q, part s off q -> checked (tk_kind t) (base + off) q node_char CtxNodeName) ->
    (exists a x w, text = a ++ x ++ s ++ w /\ tk_start t = pos_after a /\ length x = base) ->
    keeps any (t_check_is_node_name src (tk_span t) n).
  Proof.
    intros Ht Hn Hv Hc (a & x & w & Et & Es & Ex). unfold t_check_is_node_name.
    assert (G : forall off q start, part s off q -> keeps any (t_check_ident src (tk_span t) q node_pred start CtxNodeName)).
    { intros off q start Hp. destruct (part_in _ _ _ Hp) as (y & z & E & El).
      eapply check_placed; [exact Ht|apply Hc; exact Hp|apply node_pred_spec|exact node_char_ascii|exact (part_valid _ _ _ Hp Hv)|].
      exists a, (x ++ y), (z ++ w). rewrite app_length, Ex, El. split; [|auto]. rewrite Et, E, <- !app_assoc. reflexivity. }
    destruct (match nn_addr _ with None => _ | Some _ => false end); [apply keeps_ret; exact I|].
    eapply keeps_bind; [apply (G 0%nat), part_name; exact Hn|]. intros _ _.
    destruct (nn_addr n) as [ad|] eqn:Ead; [|apply keeps_ret; exact I]. eapply G. eapply part_address; [exact Hn|exact Ead].
  Qed.
  Lemma keeps_node_name t s : T t -> tk_kind t = Ident s ->
    keeps any (t_check_is_node_name src (tk_span t) (node_name_of s)).
  Proof.
    intros Ht Hk. destruct (tok_ascii t s Ht (or_introl Hk)) as [Ha (a & w & Et & Es)].
    apply (keeps_node t s _ 0 Ht); [apply node_text_iff; reflexivity| | |].
    - apply valid_ascii. eapply Forall_impl; [|exact Ha]. intros c []; assumption.
    - intros off q Hp. rewrite Hk. apply ck_node. exact Hp.
    - exists a, [], w. auto.
  Qed.
  Lemma path_parts p ns : path_text p ns -> Forall (fun n => exists x s y, p = x ++ s ++ y
    /\ (x = [] \/ exists x', x = x' ++ [cSlash]) /\ (y = [] \/ exists y', y = cSlash :: y') /\ s <> [] /\ ~ In cSlash s /\ node_text s n) ns.
  Proof.
    induction 1 as [|p ns _ IH|c p n ns Hc Hi Hp Hn _ IH]; [constructor| |constructor].
    - eapply Forall_impl; [|exact IH]. intros n (x & s & y & -> & Hx & H). exists (cSlash :: x), s, y. split; [reflexivity|]. split; [|exact H].
      right. destruct Hx as [->|[x' ->]]; [exists []; reflexivity|exists (cSlash :: x'); reflexivity].
    - exists [], c, p. split; [reflexivity|]. auto 8.
    - eapply Forall_impl; [|exact IH]. intros m (x & s & y & E & Hx & Hy & Hs & Hns & Ht). exists (c ++ x), s, y.
      split; [rewrite E, <- app_assoc; reflexivity|]. split; [|auto]. right.
      destruct Hx as [->|[x' ->]]; [|exists (c ++ x'); rewrite app_assoc; reflexivity].
      exfalso. destruct s as [|e s]; [congruence|]. cbn [app] in E. destruct Hp as [->|[r ->]]; [discriminate E|].
      injection E as <- _. apply Hns. left. reflexivity.
  Qed.
  Lemma tok_path t p : T t -> tk_kind t = Ref (TRefPath p) ->
    valid_utf8 p = true /\ exists a w, text = a ++ [cAmp; cLBrace] ++ p ++ w /\ tk_start t = pos_after a.
  Proof.
    intros (m & a & u & rest & Et & Hs & Ek) H.
    assert (Ha : tk_start t = pos_after a) by (rewrite Ek; reflexivity). clear Ek. rewrite H in Hs.
    remember (Ref (TRefPath p)) as k eqn:K. destruct Hs as [| | | | | |p' rest0 H1| | | | |c k0 rest0 H1 H2|]; try discriminate K.
    - injection K as ->. split; [|exists a, ([cRBrace] ++ rest0); split; [rewrite Et, <- !app_assoc; reflexivity|exact Ha]].
      pose proof text_valid as Hv. rewrite Et in Hv.
      replace (a ++ ([cAmp; cLBrace] ++ p ++ [cRBrace]) ++ rest0) with (a ++ cAmp :: (cLBrace :: p ++ cRBrace :: rest0)) in Hv
        by (cbn [app]; rewrite <- app_assoc; reflexivity).
      apply valid_split in Hv; [|lia]. destruct Hv as [_ Hv]. rewrite valid_one in Hv by lia. apply valid_split in Hv; [|lia]. apply Hv.
    - subst k0. cbn in H2. repeat (destruct H2 as [H2|H2]; [discriminate H2|]). destruct H2.
  Qed.
  Lemma keeps_path t p : T t -> tk_kind t = Ref (TRefPath p) -> keeps any (t_check_path src (tk_span t) (npath_of p)).
  Proof.
    intros Ht Hk. destruct (tok_path t p Ht Hk) as [Hv (a & w & Et & Es)].
    pose proof (path_parts p _ (proj2 (path_text_iff p _) eq_refl)) as HF.
    induction HF as [|n r (x & s & y & E & Hx & Hy & Hs & Hns & Hn) _ IH]; cbn [t_check_path]; [apply keeps_ret; exact I|].
    eapply (keeps_bind any); [|intros; exact IH]. subst p.
    apply (keeps_node t s n (2 + length x) Ht Hn).
    - assert (Hsy : valid_utf8 (s ++ y) = true).
      { destruct Hx as [->|[x' ->]]; [exact Hv|]. rewrite <- app_assoc in Hv. cbn [app] in Hv. apply valid_split in Hv; [apply Hv|lia]. }
      destruct Hy as [->|[y' ->]]; [rewrite app_nil_r in Hsy; exact Hsy|]. apply valid_split in Hsy; [apply Hsy|lia].
    - intros off q Hp. rewrite Hk. apply ck_path; assumption.
    - exists a, ([cAmp; cLBrace] ++ x), (y ++ w). split; [rewrite Et, <- !app_assoc; reflexivity|]. split; [exact Es|reflexivity].
  Qed.
  Lemma keeps_reference t r : T t -> tk_kind t = Ref r -> keeps any (t_p_reference src t r).
  Proof.
    intros Ht Hk. unfold t_p_reference. destruct r as [s|s].
    - eapply (keeps_bind any); [|intros; apply keeps_ret; exact I]. apply check_quiet. intros i c E.
      destruct (find_bad_split _ _ _ _ _ E) as (u & v & En & _ & _ & Hc).
      destruct Ht as (m & a & w & rest & _ & Hs & _). rewrite Hk in Hs.
      assert (Hl : Forall label_char s).
      { inversion Hs; subst; try assumption; try constructor.
        match goal with H : In _ punctuation |- _ => cbn in H; intuition discriminate end. }
      rewrite chars_ascii in En by (eapply Forall_impl; [|exact Hl]; intros x; apply label_char_ascii).
      rewrite En in Hl. apply Forall_app in Hl. destruct Hl as [_ Hl]. inversion Hl; subst.
      rewrite (proj2 (label_pred_spec c)) in Hc by assumption. discriminate.
    - eapply (keeps_bind any); [destruct s; [apply keeps_push; other|apply keeps_ret; exact I]|]. intros _ _.
      eapply keeps_bind; [eapply keeps_path; eassumption|]. intros. apply keeps_ret. exact I.
  Qed.

  Ltac k3 :=
    repeat first
      [ progress kt2
      | match goal with
        | |- keeps _ (t_bind (t_p_reference _ _ _) _) => eapply keeps_bind; [eapply keeps_reference; eassumption|]
        | |- keeps _ (t_p_reference _ _ _) => eapply keeps_conseq; [eapply keeps_reference; eassumption|]
        | |- keeps _ (t_bind (t_check_is_label _ _ _) _) => eapply keeps_bind; [eapply keeps_label; eassumption|]
        | |- keeps _ (t_bind (t_check_is_property_name _ _ _) _) => eapply keeps_bind; [eapply keeps_property_name; eassumption|]
        | |- keeps _ (t_bind (t_check_is_node_name _ _ _) _) => eapply keeps_bind; [eapply keeps_node_name; eassumption|]
        end ].
  Lemma keeps_any {A} (R : A -> Prop) (m : TM A) : keeps R m -> keeps any m.
  Proof. intros H. eapply keeps_conseq; [exact H|auto]. Qed.
  Lemma keeps_skip_expression f : forall d, keeps any (t_skip_expression f d).
  Proof. induction f; intros d; cbn [t_skip_expression]; k3. Qed.
  Lemma keeps_number f : keeps any (t_number_u32 src f).
  Proof.
    unfold t_number_u32. k3.
    eapply keeps_bind; [apply keeps_skip_expression|]. k3. eapply (keeps_bind any); k3.
  Qed.
  Lemma keeps_memreserve : keeps any (t_memreserve_number src).
  Proof. unfold t_memreserve_number. k3; eapply (keeps_bind any); k3. Qed.
  Lemma keeps_byte_string : keeps any (t_byte_string src).
  Proof. unfold t_byte_string. k3; (eapply (keeps_bind any); [apply keeps_push; other|k3]). Qed.
  Lemma keeps_skip_label : keeps any t_skip_optional_label.
  Proof. unfold t_skip_optional_label. k3; apply keeps_skip. Qed.
  Lemma keeps_cells f : forall acc, keeps any (t_cells_loop src f acc).
  Proof.
    induction f; intros acc; cbn [t_cells_loop]; k3. eapply keeps_bind; [apply keeps_skip_label|]. k3.
    eapply keeps_catch; [apply keeps_number| |]; k3. eapply keeps_bind; [apply keeps_push; assumption|]. k3.
  Qed.
  Lemma keeps_bytes f : forall acc, keeps any (t_bytes_loop src f acc).
  Proof.
    induction f; intros acc; cbn [t_bytes_loop]; k3. eapply keeps_bind; [apply keeps_skip_label|]. k3.
    eapply keeps_bind; [apply keeps_byte_string|]. k3.
  Qed.
  Lemma keeps_bits : keeps any (t_bits_prefix src).
  Proof. unfold t_bits_prefix. k3. Qed.
  Lemma keeps_value f : keeps any (t_property_value src f).
  Proof.
    unfold t_property_value. eapply keeps_bind; [apply keeps_bits|]. k3;
      (eapply keeps_bind; [first [apply keeps_cells|apply keeps_bytes]|]; k3).
  Qed.
  Lemma keeps_values f : forall acc, keeps any (t_property_values src f acc).
  Proof.
    induction f; intros acc; cbn [t_property_values]; k3. eapply keeps_bind; [apply keeps_skip_label|]. intros _ _.
    eapply keeps_bind; [apply keeps_value|]. intros v _. eapply keeps_bind; [apply keeps_skip_label|]. k3.
  Qed.
  Lemma keeps_p_property_name : keeps any (t_p_property_name src).
  Proof. unfold t_p_property_name. k3. Qed.
  Lemma keeps_p_node_name : keeps any (t_p_node_name src).
  Proof. unfold t_p_node_name. k3. Qed.
  Lemma keeps_semicolon : keeps any (t_expect_semicolon src rl).
  Proof.
    unfold t_expect_semicolon. k3; try (apply (keeps_any opt_T), keeps_next).
    all: try (eapply (keeps_bind any); [apply keeps_push; other|k3]).
    all: eapply (keeps_bind any); cbn [semicolon_skips]; k3.
    all: eapply (keeps_bind any); k3.
  Qed.
  Definition omit_T (o : option token) : Prop := match o with Some t => T t /\ tk_kind t = Directive OmitIfNoRef | None => True end.
  Lemma keeps_omit o : omit_T o -> keeps any (t_check_omit src o).
  Proof.
    unfold t_check_omit. destruct o as [t|]; cbn [omit_T]; k3. subst. apply keeps_push.
    split; [discriminate|]. split; [|discriminate]. intros _. exists t. destruct H. auto.
  Qed.
  Lemma keeps_order b p : keeps any (t_check_order src b p).
  Proof. unfold t_check_order. k3. Qed.
  Lemma keeps_payload f : forall items b, keeps any (t_payload_loop src rl f items b).
  Proof.
    induction f as [|f IH]; intros items b; cbn [t_payload_loop]; k3.
    - eapply keeps_bind; [apply keeps_p_node_name|]. intros. eapply keeps_bind; [apply keeps_semicolon|]. auto.
    - eapply keeps_bind; [apply keeps_p_property_name|]. intros. eapply keeps_bind; [apply keeps_semicolon|]. auto.
    - eapply (keeps_bind (fun p => T (fst p) /\ omit_T (snd p))).
      { destruct (kind_eqb _ (Directive OmitIfNoRef)) eqn:E; k3; cbn [fst snd omit_T]; auto.
        unfold kind_eqb in E. destruct (kind_eq_dec _ _); [auto|discriminate E]. }
      intros [tok o] [Ht Ho]. cbn [fst snd] in Ht, Ho.
      eapply (keeps_bind (fun p => T (fst p))); [k3|]. intros [tok' lb] Ht'. cbn [fst] in Ht'.
      k3.
      + eapply keeps_bind; [apply keeps_semicolon|]. k3.
      + eapply keeps_bind; [apply keeps_order|]. intros. eapply keeps_bind; [apply keeps_omit; exact Ho|]. auto.
      + eapply keeps_bind; [apply keeps_values|]. intros. eapply keeps_bind; [apply keeps_semicolon|]. intros.
        eapply keeps_bind; [apply keeps_omit; exact Ho|]. intros. eapply keeps_bind; [apply keeps_order|]. auto.
      + eapply keeps_bind; [apply IH|]. auto.
  Qed.
  Lemma keeps_node_payload f : keeps any (t_node_payload src rl f).
  Proof. unfold t_node_payload. k3. apply keeps_payload. Qed.
  Lemma keeps_parse_reference : keeps any (t_parse_reference src).
  Proof. unfold t_parse_reference. k3. Qed.
  Lemma tok_src t : T t -> tk_source t = src.
  Proof. intros (m & a & u & rest & _ & _ & E). rewrite E. reflexivity. Qed.
  Lemma keeps_include_end {A} (k : TM A) : keeps any k ->
    keeps any (let^ t2 := t_peek in
      (match t2 with
       | Some tok2 =>
         if kind_eqb (tk_kind tok2) Semicolon then
           let^ tok3 := t_expect_next src in
           t_push (diag_from_token tok3 ParserError (bs "Include directive must not end with a semicolon"))
         else t_ret tt
       | None => t_ret tt
       end) ;^ k).
  Proof.
    intros Hk [l ds] [Hl Hd]. cbn [t_toks t_diags] in *. unfold t_bind at 1, t_peek. cbn [t_toks]. destruct l as [|t l]; cbn [hd_error].
    - unfold t_bind, t_ret. apply Hk. split; assumption.
    - unfold kind_eqb. destruct (kind_eq_dec (tk_kind t) Semicolon) as [E|E].
      + unfold t_bind, t_expect_next, t_bind, t_cur_pos, t_next, t_source, t_ret, t_push. cbn [t_toks t_diags hd_error tl].
        apply Hk. inversion Hl as [|? ? Ht Hl']; subst. split; [exact Hl'|]. cbn [t_diags]. apply Forall_app. split; [exact Hd|].
        constructor; [|constructor]. split; [discriminate|]. split; [discriminate|]. intros _. exists t. split; [exact Ht|]. split; [exact E|].
        rewrite <- (tok_src t Ht). reflexivity.
      + unfold t_bind, t_ret. apply Hk. split; assumption.
  Qed.
  Lemma keeps_primary f : keeps any (t_p_primary src incl rl f).
  Proof.
    unfold t_p_primary. eapply keeps_bind; [apply keeps_expect_next|]. intros a H. destruct (tk_kind a) eqn:Ek; try destruct d.
    all: match goal with |- context [t_include_paths] => idtac | _ => k3 end.
    all: try (eapply keeps_bind; [apply keeps_semicolon|]; k3; fail).
    all: try (eapply keeps_bind; [apply keeps_node_payload|]; k3; fail).
    all: try (eapply keeps_bind; [apply keeps_parse_reference|]; intros; eapply keeps_bind; [apply keeps_semicolon|]; k3; fail).
    - eapply keeps_bind; [apply keeps_memreserve|]. intros. eapply keeps_bind; [apply keeps_memreserve|]. intros.
      eapply keeps_bind; [apply keeps_semicolon|]; k3.
    - eapply keeps_bind; [apply keeps_expect_next|]. intros b Hb. destruct (tk_kind b); try (apply keeps_throw; other).
      apply keeps_include_end. k3.
  Qed.
  Lemma keeps_file_loop f : forall acc, keeps any (t_file_loop src incl rl f acc).
  Proof.
    induction f; intros acc; cbn [t_file_loop]; k3. eapply keeps_bind; [apply keeps_primary|]. auto.
  Qed.
  Lemma keeps_file f : keeps any (t_p_file src incl rl f).
  Proof. unfold t_p_file. eapply keeps_bind; [apply keeps_file_loop|]. k3. Qed.
End Keeps.

Lemma all_placed incl text src d :
  valid_utf8 text = true ->
  match parse_text incl text src with
  | ROk _ s => In d (ps_diags s)
  | RErr d' s => In d (d' :: ps_diags s)
  | _ => False
  end -> placed text src d.
Proof.
  intros Hv Hd. destruct (tokenize_total text src Hv) as [toks Ht].
  pose proof (parse_sim incl text src toks Hv Ht) as H. apply (tokenize_iff text src toks Hv) in Ht.
  pose proof (keeps_file text src incl Hv (S (S (length text))) (mkTS toks [])) as HK.
  unfold t_parse in H. destruct (parse_text incl text src) as [f s|d' s| |]; try contradiction;
    destruct (t_p_file _ _ _ _ _) as [f' st|e st|]; try contradiction.
  all: destruct HK as [[_ HK] He]; [split; [eapply lexed_at; [exact Ht|reflexivity]|constructor]|].
  all: assert (Htr : forall x y, diag_sim x y -> placed text src y -> placed text src x).
  1,3: (intros x y Hs Hy; assert (Ex : dg_kind x = Expected \/ dg_kind x = UnexpectedEOF \/ x = y) by
         (destruct Hs as (H1 & H2 & H3 & H4); destruct x as [kx sx fx mx], y as [ky sy fy my]; cbn [dg_kind dg_source dg_msg dg_span] in *;
          destruct H4 as [H4|[H4|H4]]; auto; right; right; congruence);
        destruct Ex as [Ex|[Ex| ->]]; [| |exact Hy]; repeat split; rewrite Ex; discriminate).
  all: assert (Hall : forall l l', Forall2 diag_sim l l' -> Forall (placed text src) l' -> Forall (placed text src) l).
  1,3: (induction 1 as [|x y l l' Hxy _ IH]; intros Hf; [constructor|inversion Hf; subst; constructor; [eapply Htr; eassumption|auto]]).
  all: destruct H as [H0 H].
  - pose proof (Hall _ _ H HK) as HF. rewrite Forall_forall in HF. exact (HF d Hd).
  - destruct Hd as [<-|Hd]; [eapply Htr; eassumption|].
    pose proof (Hall _ _ H HK) as HF. rewrite Forall_forall in HF. exact (HF d Hd).
Qed.
(** Full statement (C56): [points_at text src d] for every illegal-character diagnostic [d]. It fails for path
    references and unit addresses, where the tool counts from the start of the token: it holds exactly if the name
    stands at the start of the token (C56_right_place). *)
Theorem C56_illegal_char_partial : forall incl text src d,
  valid_utf8 text = true ->
  match parse_text incl text src with
  | ROk _ s => In d (ps_diags s)
  | RErr d' s => In d (d' :: ps_diags s)
  | _ => False
  end ->
  dg_kind d = IllegalChar ->
  exists off pre c, marks text src d off pre c.
Proof. intros incl text src d Hv Hd. exact (proj1 (all_placed incl text src d Hv Hd)). Qed.
Print Assumptions C56_illegal_char_partial.


Lemma after_cases (z : list N) : forall a, pos_line (pos_after a) < pos_line (pos_after (a ++ z))
  \/ pos_after (a ++ z) = pos_offset (pos_after a) (N.of_nat (length z)).
Proof.
  induction z as [|c z IH] using rev_ind; intros a; [right; rewrite app_nil_r; cbn [length]; rewrite pos_offset_0; reflexivity|].
  rewrite app_assoc, pos_after_snoc. unfold advance. destruct (IH a) as [H|H]; destruct (N.eqb_spec c 10) as [Hc|Hc]; cbn [pos_line].
  - left. lia.
  - left. exact H.
  - left. rewrite H. unfold pos_offset. cbn [pos_line]. lia.
  - right. rewrite H, app_length. unfold pos_offset. cbn [pos_line pos_char length]. f_equal. lia.
Qed.
(** the place is right exactly if no byte of the token stands before the name *)
Theorem C56_right_place : forall text src d off pre c, valid_utf8 text = true -> marks text src d off pre c ->
  (exists rest, text = pre ++ encode_char c ++ rest)
  /\ (off = 0%nat -> dg_span d = mkSpan (pos_after pre) (pos_after (pre ++ [c])))
  /\ (off <> 0%nat -> span_start (dg_span d) <> pos_after pre).
Proof.
  intros text src d off pre c Hval (t & q & allowed & ctx & a & x & u & v & w & Ht & Hc & Et & Es & Ex & Eq & Hsc & Hu & Hbad & -> & _ & Esp).
  assert (Hu' : Forall (fun c => c < 128 /\ c <> 10) u).
  { assert (G : forall y, allowed y -> y < 128 /\ y <> 10); [|eapply Forall_impl; [|exact Hu]; exact G].
    assert (B : forall y, ~ name_char 10 /\ ~ label_char 10 /\ ~ node_char 10 /\ (y = 10 \/ y <> 10)).
    { intros y. unfold name_char, label_char, node_char, letter, digit. cbn [In]. lia. }
    intros y Hy. specialize (B y). destruct Hc; (split; [first [exact (label_char_ascii y Hy)|exact (name_char_ascii y Hy)|exact (node_char_ascii y Hy)]|intros ->; tauto]). }
  split; [exists (v ++ w); rewrite Et, Eq, <- !app_assoc; reflexivity|]. rewrite Esp. cbn [span_start]. split.
  - intros ->. destruct x; [|discriminate Ex]. cbn [app].
    assert (Hq : Forall (fun c => c < 128 /\ c <> 10) q).
    { pose proof (fun s => tok_ascii text src Hval t s Ht) as G. remember (tk_kind t) as k eqn:K. remember 0%nat as z eqn:Z.
      destruct Hc as [s|s|s off q Hp|x s y off q _ _ _ _ _]; [exact (proj1 (G s (or_intror eq_refl)))|exact (proj1 (G s (or_introl eq_refl)))| |discriminate Z].
      pose proof (proj1 (G s (or_introl eq_refl))) as Hs. pose proof Hp as Hp2. apply (part_in text Hval) in Hp2. destruct Hp2 as (y & y2 & E & El). rewrite E in Hs.
      apply Forall_app in Hs. destruct Hs as [_ Hs]. apply Forall_app in Hs. apply Hs. }
    rewrite Eq in Hq. apply Forall_app in Hq. destruct Hq as [_ Hq]. apply Forall_app in Hq. destruct Hq as [Hq _].
    assert (Hc1 : c < 128 /\ c <> 10).
    { unfold encode_char in Hq. destruct (N.ltb_spec c 128); [exact (Forall_inv Hq)|exfalso].
      destruct (c <? 2048); [|destruct (c <? 65536)]; apply Forall_inv in Hq; destruct Hq as [Hq _]; apply (N.le_lt_trans _ _ _ (N.le_add_r _ _)) in Hq; discriminate Hq. }
    f_equal; [exact (offset_after text Hval u Hu' a)|].
    rewrite <- app_assoc, <- (offset_after text Hval (u ++ [c]) ltac:(apply Forall_app; auto) a). f_equal. rewrite app_length. cbn [length]. lia.
  - intros Hoff E. destruct (after_cases (x ++ u) a) as [H|H]; rewrite <- E in H.
    + unfold pos_offset in H. cbn [pos_line] in H. lia.
    + unfold pos_offset in H. injection H as H. rewrite app_length in H. lia.
Qed.
Print Assumptions C56_right_place.
(** a hash sign in a node name: the diagnostic points at it *)
Example C56_case :
  exists f s d, parse_text [] (bs "/ { a#b { }; };") (bs "a.dts") = ROk f s /\ ps_diags s = [d]
    /\ dg_kind d = IllegalChar /\ dg_span d = mkSpan (mkPos 0 5) (mkPos 0 6).
Proof. eexists _, _, _. vm_compute. repeat split. Qed.
(** a name in a path, the second character of which takes two bytes: the message names it, the place is the second byte of
    the reference *)
Example C56_path_case :
  exists f s d, parse_text [] (bs "/ { p = <&{/a/b" ++ [195; 164] ++ bs "c}>; };") (bs "a.dts") = ROk f s /\ ps_diags s = [d]
    /\ dg_kind d = IllegalChar /\ dg_msg d = bs "Illegal char '" ++ [195; 164] ++ bs "' in node name"
    /\ dg_span d = mkSpan (mkPos 0 10) (mkPos 0 11).
Proof. eexists _, _, _. vm_compute. repeat split. Qed.

(** the hash sign in the unit address is the eleventh character; the diagnostic points at the sixth *)
Theorem C56_unit_address_refuted :
  exists text src f s d, valid_utf8 text = true /\ parse_text [] text src = ROk f s /\ ps_diags s = [d]
    /\ dg_kind d = IllegalChar /\ dg_msg d = bs "Illegal char '#' in node name"
    /\ dg_span d = mkSpan (mkPos 0 5) (mkPos 0 6) /\ nth_error text 5 = Some 111 /\ nth_error text 10 = Some 35
    /\ ~ points_at text src d.
Proof.
  exists (bs "/ { node@1#2 { }; };"), (bs "a.dts"). eexists _, _, _.
  split; [reflexivity|]. split; [vm_compute; reflexivity|]. split; [vm_compute; reflexivity|].
  do 5 (split; [vm_compute; reflexivity|]).
  intros (off & pre & c & Hm & Hsp). destruct (C56_right_place (bs "/ { node@1#2 { }; };") _ _ _ _ _ eq_refl Hm) as [[rest Er] _].
  destruct Hm as (t & q & allowed & ctx & a & x & u & v & w & _ & Hc & _ & _ & _ & _ & _ & _ & Hbad & _). apply Hbad. clear Hbad.
  apply (f_equal span_start) in Hsp. cbn [span_start] in Hsp.
  assert (Hs : pos_after pre = pos_after (bs "/ { n")) by (rewrite <- Hsp; vm_compute; reflexivity).
  assert (Et' : pre ++ encode_char c ++ rest = bs "/ { n" ++ bs "ode@1#2 { }; };") by (rewrite <- Er; reflexivity).
  destruct (pos_after_prefix_inj _ _ _ _ Et' Hs) as [_ E].
  assert (c = 111) as ->.
  { unfold encode_char in E. destruct (N.ltb_spec c 128); [injection E as -> _; reflexivity|exfalso].
    apply (f_equal (hd 0)) in E. change (hd 0 (bs "ode@1#2 { }; };")) with 111 in E.
    destruct (c <? 2048); [|destruct (c <? 65536)]; cbn [app hd] in E;
      match type of E with ?k + ?y = _ => pose proof (N.le_add_r k y) as Hl; rewrite E in Hl; exact (Hl eq_refl) end. }
  destruct Hc; unfold label_char, name_char, node_char, letter; left; left; split; vm_compute; discriminate.
Qed.
Print Assumptions C56_unit_address_refuted.
