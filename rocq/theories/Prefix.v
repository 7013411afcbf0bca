(** Parsing a text with more lines behind it: what the parser reports before it has asked for more than there is does not depend
    on what follows; when it does reach the end of the text, it stops with "unexpected end of file" or not at all. *)
From Verif Require Import Parser ParserBase LexGrow.

Section Prefix.
  Context (more : list N).
  Definition grow (s : pstate) : pstate := mkPS (mkPL (growl more (pl_lex (ps_lex s))) (pl_peeked (ps_lex s))) (ps_diags s) (ps_incl s).
  Definition at_eof (d : diag) : Prop := dg_kind d = UnexpectedEOF.
  Definition fresh (s : pstate) : Prop := ends_settled (rd_rest (lx_rd (pl_lex (ps_lex s)))) = true /\ pl_peeked (ps_lex s) <> Some None.
  Definition finished (s : pstate) : Prop := rd_rest (lx_rd (pl_lex (ps_lex s))) = [] /\ (pl_peeked (ps_lex s) = None \/ pl_peeked (ps_lex s) = Some None).
  Definition bad {A} (r : res A) : Prop := match r with RPanic | RNoFuel => True | _ => False end.

  (** [m'] run with more text does what [m] does, unless [m] reaches the end; then [P] holds of the value *)
  Definition early {A} (P : A -> Prop) (m m' : M A) : Prop := forall s, fresh s ->
    match m s with
    | ROk a s1 => bad (m' (grow s)) \/ (fresh s1 /\ m' (grow s) = ROk a (grow s1)) \/ (finished s1 /\ P a)
    | RErr d s1 => bad (m' (grow s)) \/ (fresh s1 /\ m' (grow s) = RErr d (grow s1)) \/ (finished s1 /\ at_eof d)
    | _ => True
    end.
  (** [m] run at the end of the text *)
  Definition ended {A} (P : A -> Prop) (m : M A) : Prop := forall s, finished s ->
    match m s with
    | ROk a s1 => finished s1 /\ P a
    | RErr d s1 => finished s1 /\ at_eof d
    | _ => True
    end.
  Definition never {A} (a : A) : Prop := False.
  Definition any {A} (a : A) : Prop := True.
  Definition is_none {A} (a : option A) : Prop := a = None.

  Lemma early_weak {A} (P Q : A -> Prop) m m' : (forall a, P a -> Q a) -> early P m m' -> early Q m m'.
  Proof.
    intros H K s Hs. specialize (K s Hs). destruct (m s); auto. destruct K as [K|[K|[K1 K2]]]; auto 6.
  Qed.
  Lemma ended_weak {A} (P Q : A -> Prop) m : (forall a, P a -> Q a) -> ended P m -> ended Q m.
  Proof. intros H K s Hs. specialize (K s Hs). destruct (m s); auto. destruct K; auto. Qed.
  Lemma early_ret {A} (P : A -> Prop) a : early P (ret a) (ret a).
  Proof. intros s Hs. cbn. auto. Qed.
  Lemma early_throw {A} (P : A -> Prop) d : early P (throw d) (throw d).
  Proof. intros s Hs. cbn. auto. Qed.
  Lemma early_bad {A} (P : A -> Prop) m : early P no_fuel m.
  Proof. intros s Hs. exact I. Qed.
  Lemma early_bad_r {A} (P : A -> Prop) m : early P m no_fuel.
  Proof. intros s Hs. destruct (m s); cbn; auto. Qed.
  Lemma early_panic {A} (P : A -> Prop) m : early P panic m.
  Proof. intros s Hs. exact I. Qed.
  Lemma bad_bind {A B} (m : M A) (k : A -> M B) s : bad (m s) -> bad (bind m k s).
  Proof. unfold bind. destruct (m s); cbn; tauto. Qed.
  Lemma bad_catch {A B} (m : M A) (k : A -> M B) g s : bad (m s) -> bad (catch m k g s).
  Proof. unfold catch. destruct (m s); cbn; tauto. Qed.
  Lemma early_bind {A B} (P : A -> Prop) (P' : B -> Prop) m m' k k' :
    early P m m' -> (forall a, early P' (k a) (k' a)) -> (forall a, P a -> ended P' (k a)) -> early P' (bind m k) (bind m' k').
  Proof.
    intros Hm Hk He s Hs. specialize (Hm s Hs). pose proof (bad_bind m' k' (grow s)) as Hb. unfold bind in *. destruct (m s) as [a s1|d s1| |]; [| |exact I|exact I].
    - destruct Hm as [H|[[H0 H]|[H1 H2]]].
      + destruct (k a s1); auto.
      + rewrite H in *. exact (Hk a s1 H0).
      + specialize (He a H2 s1 H1). destruct (k a s1) as [x s2|d s2| |]; [| |exact I|exact I]; destruct He; auto.
    - destruct Hm as [H|[[H0 H]|[H1 H2]]]; [auto| |auto]. rewrite H in *. auto.
  Qed.
  Lemma early_catch {A B} (P : A -> Prop) (P' : B -> Prop) m m' k k' g g' :
    early P m m' -> (forall a, early P' (k a) (k' a)) -> (forall a, P a -> ended P' (k a)) ->
    (forall d, early P' (g d) (g' d)) -> (forall d, at_eof d -> ended P' (g d)) -> early P' (catch m k g) (catch m' k' g').
  Proof.
    intros Hm Hk He Hg Hge s Hs. specialize (Hm s Hs). pose proof (bad_catch m' k' g' (grow s)) as Hb. unfold catch in *. destruct (m s) as [a s1|d s1| |]; [| |exact I|exact I].
    - destruct Hm as [H|[[H0 H]|[H1 H2]]].
      + destruct (k a s1); auto.
      + rewrite H in *. exact (Hk a s1 H0).
      + specialize (He a H2 s1 H1). destruct (k a s1) as [x s2|d s2| |]; [| |exact I|exact I]; destruct He; auto.
    - destruct Hm as [H|[[H0 H]|[H1 H2]]].
      + destruct (g d s1); auto.
      + rewrite H in *. exact (Hg d s1 H0).
      + specialize (Hge d H2 s1 H1). destruct (g d s1) as [x s2|d' s2| |]; [| |exact I|exact I]; destruct Hge; auto.
  Qed.
  Lemma ended_ret {A} (P : A -> Prop) a : P a -> ended P (ret a).
  Proof. intros H s Hs. cbn. auto. Qed.
  Lemma ended_bad {A} (P : A -> Prop) : ended P no_fuel.
  Proof. intros s Hs. exact I. Qed.
  Lemma ended_throw {A} (P : A -> Prop) d : at_eof d -> ended P (throw d).
  Proof. intros H s Hs. cbn. auto. Qed.
  Lemma ended_bind {A B} (P : A -> Prop) (P' : B -> Prop) m k : ended P m -> (forall a, P a -> ended P' (k a)) -> ended P' (bind m k).
  Proof.
    intros Hm Hk s Hs. specialize (Hm s Hs). unfold bind. destruct (m s) as [a s1|d s1| |]; [|exact Hm|exact I|exact I].
    destruct Hm as [H1 H2]. exact (Hk a H2 s1 H1).
  Qed.

  Create HintDb vp.
  Lemma v_push d : early never (push d) (push d).
  Proof. intros s Hs. cbn. auto. Qed.
  Lemma v_push_opt d : early never (push_opt d) (push_opt d).
  Proof. destruct d; [apply v_push|apply early_ret]. Qed.
  Lemma v_pos : early never cur_pos cur_pos.
  Proof. intros s Hs. cbn. auto. Qed.
  Lemma v_last : early never last_pos last_pos.
  Proof. intros s Hs. cbn. auto. Qed.
  Lemma v_source : early never source source.
  Proof. intros s Hs. cbn. auto. Qed.
  Lemma v_include_paths : early never include_paths include_paths.
  Proof. intros s Hs. cbn. auto. Qed.
  Lemma v_insert k : early never (insert_pseudo_kind k) (insert_pseudo_kind k).
  Proof.
    intros [[[rd st l] pk] ds i] [Hs Hp]. unfold insert_pseudo_kind. right. left. split; [destruct k; split; assumption|destruct k; reflexivity].
  Qed.
  Lemma v_peek : early is_none peek peek.
  Proof.
    intros [[lx pk] ds i] [Hs Hp]. unfold peek, lift_pl, pl_peek. cbn [ps_lex pl_lex pl_peeked ps_diags ps_incl grow] in *.
    destruct pk as [[t|]|].
    - right. left. split; [split; [exact Hs|discriminate]|reflexivity].
    - destruct (Hp eq_refl).
    - destruct (lex_next lx) as [[[t|] lx2]| |] eqn:E; cbn [obind]; try exact I.
      + destruct (next_grow more _ _ _ Hs E) as [-> H2]. cbn [obind]. right. left. split; [split; [exact H2|discriminate]|reflexivity].
      + right. right. split; [split; [exact (next_none _ _ E)|right; reflexivity]|reflexivity].
  Qed.
  Lemma v_next : early is_none next next.
  Proof.
    intros [[lx pk] ds i] [Hs Hp]. unfold next, lift_pl, pl_next. cbn [ps_lex pl_lex pl_peeked ps_diags ps_incl grow] in *.
    destruct pk as [[t|]|].
    - right. left. split; [split; [exact Hs|discriminate]|reflexivity].
    - destruct (Hp eq_refl).
    - destruct (lex_next lx) as [[[t|] lx2]| |] eqn:E; cbn [obind]; try exact I.
      + destruct (next_grow more _ _ _ Hs E) as [-> H2]. cbn [obind]. right. left. split; [split; [exact H2|discriminate]|reflexivity].
      + right. right. split; [split; [exact (next_none _ _ E)|left; reflexivity]|reflexivity].
  Qed.
  Lemma n_push d : ended any (push d).
  Proof. intros s Hs. cbn. split; [exact Hs|exact I]. Qed.
  Lemma n_push_opt d : ended any (push_opt d).
  Proof. destruct d; [apply n_push|apply ended_ret; exact I]. Qed.
  Lemma n_pos : ended any cur_pos.
  Proof. intros s Hs. cbn. split; [exact Hs|exact I]. Qed.
  Lemma n_last : ended any last_pos.
  Proof. intros s Hs. cbn. split; [exact Hs|exact I]. Qed.
  Lemma n_source : ended any source.
  Proof. intros s Hs. cbn. split; [exact Hs|exact I]. Qed.
  Lemma n_include_paths : ended any include_paths.
  Proof. intros s Hs. cbn. split; [exact Hs|exact I]. Qed.
  Lemma n_peek : ended is_none peek.
  Proof.
    intros [[lx pk] ds i] [Hs Hp]. unfold peek, lift_pl, pl_peek. cbn [ps_lex pl_lex pl_peeked ps_diags ps_incl] in *. destruct Hp as [->| ->].
    - destruct (next_at_end lx Hs) as [lx2 E]. rewrite E. cbn [obind]. split; [split; [exact (next_none _ _ E)|right; reflexivity]|reflexivity].
    - split; [split; [exact Hs|right; reflexivity]|reflexivity].
  Qed.
  Lemma n_next : ended is_none next.
  Proof.
    intros [[lx pk] ds i] [Hs Hp]. unfold next, lift_pl, pl_next. cbn [ps_lex pl_lex pl_peeked ps_diags ps_incl] in *. destruct Hp as [->| ->].
    - destruct (next_at_end lx Hs) as [lx2 E]. rewrite E. cbn [obind]. split; [split; [exact (next_none _ _ E)|left; reflexivity]|reflexivity].
    - split; [split; [exact Hs|left; reflexivity]|reflexivity].
  Qed.
  Hint Resolve v_push v_push_opt v_peek v_next n_push n_push_opt n_peek n_next v_pos v_last v_source v_include_paths v_insert n_pos n_last n_source n_include_paths early_bad early_bad_r early_panic ended_bad : vp.
  Ltac vp_tac := repeat first
    [ progress intros
    | match goal with
      | H : never _ |- _ => destruct H
      | H : any _ |- _ => clear H
      | H : is_none _ |- _ => unfold is_none in H; subst
      | p : (_ * _)%type |- _ => destruct p
      end
    | apply early_ret
    | apply early_throw
    | apply ended_ret; solve [reflexivity|exact I]
    | apply ended_throw; solve [reflexivity|assumption]
    | solve [auto with vp]
    | match goal with
      | |- early _ (match ?x with _ => _ end) _ => destruct x eqn:?
      | |- early _ (if ?x then _ else _) _ => destruct x eqn:?
      | |- ended _ (match ?x with _ => _ end) => destruct x eqn:?
      | |- ended _ (if ?x then _ else _) => destruct x eqn:?
      end
    | eapply early_bind; [solve [eauto with vp|apply early_ret with (P := never)]| |]
    | eapply ended_bind; [solve [eauto with vp|apply ended_ret with (P := any); exact I]|]
    ].
  Lemma v_expect_next : early never (expect_next) (expect_next).
  Proof. unfold expect_next. vp_tac. Qed.
  Lemma n_expect_next : ended never (expect_next).
  Proof. unfold expect_next. vp_tac. Qed.
  Lemma v_peek_expect : early never (peek_expect) (peek_expect).
  Proof. unfold peek_expect. vp_tac. Qed.
  Lemma n_peek_expect : ended never (peek_expect).
  Proof. unfold peek_expect. vp_tac. Qed.
  Lemma v_expect k : early never (expect k) (expect k).
  Proof. unfold expect. vp_tac. Qed.
  Lemma n_expect k : ended never (expect k).
  Proof. unfold expect. vp_tac. Qed.
  Lemma v_skip_tok : early any skip_tok skip_tok.
  Proof. unfold skip_tok. vp_tac. Qed.
  Lemma n_skip_tok : ended any skip_tok.
  Proof. unfold skip_tok. vp_tac. Qed.
  Hint Resolve v_expect_next n_expect_next v_peek_expect n_peek_expect v_expect n_expect v_skip_tok n_skip_tok : vp.
  Lemma v_check_ident sp s p1 p2 ctx : early never (check_ident sp s p1 p2 ctx) (check_ident sp s p1 p2 ctx).
  Proof. unfold check_ident. vp_tac. Qed.
  Lemma n_check_ident sp s p1 p2 ctx : ended any (check_ident sp s p1 p2 ctx).
  Proof. unfold check_ident. vp_tac. Qed.
  Hint Resolve v_check_ident n_check_ident : vp.
  Lemma v_check_is_label sp s : early never (check_is_label sp s) (check_is_label sp s).
  Proof. apply v_check_ident. Qed.
  Lemma n_check_is_label sp s : ended any (check_is_label sp s).
  Proof. apply n_check_ident. Qed.
  Lemma v_check_is_property_name sp s : early never (check_is_property_name sp s) (check_is_property_name sp s).
  Proof. apply v_check_ident. Qed.
  Lemma n_check_is_property_name sp s : ended any (check_is_property_name sp s).
  Proof. apply n_check_ident. Qed.
  Lemma v_check_is_node_name sp s : early never (check_is_node_name sp s) (check_is_node_name sp s).
  Proof. unfold check_is_node_name. vp_tac. Qed.
  Lemma n_check_is_node_name sp s : ended any (check_is_node_name sp s).
  Proof. unfold check_is_node_name. vp_tac. Qed.
  Hint Resolve v_check_is_label n_check_is_label v_check_is_property_name n_check_is_property_name v_check_is_node_name n_check_is_node_name : vp.
  Lemma v_check_path sp p : early never (check_path sp p) (check_path sp p).
  Proof. induction p; cbn [check_path]; vp_tac. Qed.
  Lemma n_check_path sp p : ended any (check_path sp p).
  Proof. induction p; cbn [check_path]; vp_tac. Qed.
  Hint Resolve v_check_path n_check_path : vp.
  Lemma v_reference t r : early never (p_reference t r) (p_reference t r).
  Proof.
    unfold p_reference. destruct r as [s|s]; [vp_tac|]. eapply (early_bind never); [destruct s; vp_tac|vp_tac|vp_tac].
  Qed.
  Lemma n_reference t r : ended any (p_reference t r).
  Proof.
    unfold p_reference. destruct r as [s|s]; [vp_tac|]. eapply (ended_bind any); [destruct s; vp_tac|vp_tac].
  Qed.
  Hint Resolve v_reference n_reference : vp.
  Lemma n_skip_expression f : forall d, ended any (skip_expression f d).
  Proof. induction f; intros d; cbn [skip_expression]; vp_tac. Qed.
  Hint Resolve n_skip_expression : vp.
  Lemma v_skip_expression f : forall f' d, early any (skip_expression f d) (skip_expression f' d).
  Proof. induction f; intros [|f'] d; cbn [skip_expression]; vp_tac. Qed.
  Hint Resolve v_skip_expression : vp.
  Lemma n_number_u32 f : ended never (number_u32 f).
  Proof. unfold number_u32. vp_tac. Qed.
  Lemma v_number_u32 f f' : early any (number_u32 f) (number_u32 f').
  Proof.
    unfold number_u32. eapply early_bind; [apply v_expect_next| |vp_tac]. intros tok. destruct (tk_kind tok); try solve [vp_tac].
    eapply early_bind; [apply v_skip_expression| |].
    - intros _. eapply early_bind; [apply v_peek| |].
      + intros a. eapply (early_bind never); [destruct a; vp_tac|vp_tac|vp_tac].
      + intros a ->. vp_tac.
    - intros _ _. eapply ended_bind; [apply n_peek|]. intros a ->. vp_tac.
  Qed.
  Hint Resolve n_number_u32 v_number_u32 : vp.
  Lemma n_memreserve_number : ended never (memreserve_number).
  Proof. unfold memreserve_number. vp_tac. Qed.
  Lemma v_memreserve_number : early never (memreserve_number) (memreserve_number).
  Proof. unfold memreserve_number. vp_tac. Qed.
  Lemma n_byte_string : ended never (byte_string).
  Proof. unfold byte_string. vp_tac. Qed.
  Lemma v_byte_string : early never (byte_string) (byte_string).
  Proof. unfold byte_string. vp_tac. Qed.
  Lemma n_skip_optional_label : ended any skip_optional_label.
  Proof. unfold skip_optional_label. vp_tac. Qed.
  Lemma v_skip_optional_label : early any skip_optional_label skip_optional_label.
  Proof. unfold skip_optional_label. vp_tac. Qed.
  Hint Resolve n_memreserve_number v_memreserve_number n_byte_string v_byte_string n_skip_optional_label v_skip_optional_label : vp.
  Lemma n_cells_loop f acc : ended never (cells_loop f acc).
  Proof. destruct f; cbn [cells_loop]; vp_tac. Qed.
  Hint Resolve n_cells_loop : vp.
  Lemma to_any {A} (m : M A) : ended never m -> ended any m.
  Proof. apply ended_weak. intros a []. Qed.
  Lemma to_any_early {A} (m m' : M A) : early never m m' -> early any m m'.
  Proof. apply early_weak. intros a []. Qed.
  Hint Resolve to_any to_any_early : vp.
  Lemma v_cells_loop f : forall f' acc, early any (cells_loop f acc) (cells_loop f' acc).
  Proof.
    induction f; intros [|f'] acc; cbn [cells_loop]; vp_tac.
    eapply early_catch; [apply v_number_u32| | | |]; vp_tac.
  Qed.
  Lemma n_bytes_loop f acc : ended never (bytes_loop f acc).
  Proof. destruct f; cbn [bytes_loop]; vp_tac. Qed.
  Hint Resolve v_cells_loop n_bytes_loop : vp.
  Lemma v_bytes_loop f : forall f' acc, early any (bytes_loop f acc) (bytes_loop f' acc).
  Proof. induction f; intros [|f'] acc; cbn [bytes_loop]; vp_tac. Qed.
  Lemma n_bits_prefix : ended any (bits_prefix).
  Proof. unfold bits_prefix. vp_tac. Qed.
  Lemma v_bits_prefix : early any (bits_prefix) (bits_prefix).
  Proof. unfold bits_prefix. vp_tac. Qed.
  Hint Resolve v_bytes_loop n_bits_prefix v_bits_prefix : vp.
  Lemma n_property_value f : ended never (property_value f).
  Proof. unfold property_value. vp_tac. Qed.
  Lemma v_property_value f f' : early any (property_value f) (property_value f').
  Proof. unfold property_value. vp_tac. Qed.
  Hint Resolve n_property_value v_property_value : vp.
  Lemma n_property_values f acc : ended never (property_values f acc).
  Proof. destruct f; cbn [property_values]; vp_tac. Qed.
  Hint Resolve n_property_values : vp.
  Lemma v_property_values f : forall f' acc, early any (property_values f acc) (property_values f' acc).
  Proof. induction f; intros [|f'] acc; cbn [property_values]; vp_tac. Qed.
  Lemma n_p_property_name : ended never (p_property_name).
  Proof. unfold p_property_name. vp_tac. Qed.
  Lemma v_p_property_name : early never (p_property_name) (p_property_name).
  Proof. unfold p_property_name. vp_tac. Qed.
  Lemma n_p_node_name : ended never (p_node_name).
  Proof. unfold p_node_name. vp_tac. Qed.
  Lemma v_p_node_name : early never (p_node_name) (p_node_name).
  Proof. unfold p_node_name. vp_tac. Qed.
  Hint Resolve v_property_values n_p_property_name v_p_property_name n_p_node_name v_p_node_name : vp.
  Lemma n_expect_semicolon : ended any (expect_semicolon).
  Proof. unfold expect_semicolon. vp_tac. Qed.
  Lemma v_expect_semicolon : early any expect_semicolon expect_semicolon.
  Proof.
    unfold expect_semicolon. eapply early_bind; [apply v_peek| |].
    - intros [t|]; [|vp_tac]. destruct (tk_kind t); try solve [vp_tac]; cbn [semicolon_skips];
        try (eapply (early_bind never); [vp_tac|vp_tac|vp_tac]; fail). apply early_weak with (P := is_none); [intros; exact I|apply v_next].
    - intros o ->. vp_tac.
  Qed.
  Lemma v_check_omit o : early never (check_omit o) (check_omit o).
  Proof. destruct o; cbn [check_omit]; vp_tac. Qed.
  Lemma n_check_omit o : ended any (check_omit o).
  Proof. destruct o; cbn [check_omit]; vp_tac. Qed.
  Lemma v_check_order b p : early never (check_order b p) (check_order b p).
  Proof. destruct b; cbn [check_order]; unfold check_order; vp_tac. Qed.
  Lemma n_check_order b p : ended any (check_order b p).
  Proof. destruct b; cbn [check_order]; unfold check_order; vp_tac. Qed.
  Hint Resolve n_expect_semicolon v_expect_semicolon v_check_omit n_check_omit v_check_order n_check_order : vp.
  Lemma n_payload_loop f items b : ended never (payload_loop f items b).
  Proof. destruct f; cbn [payload_loop]; vp_tac. Qed.
  Hint Resolve n_payload_loop : vp.
  Lemma v_payload_loop f : forall f' items b, early any (payload_loop f items b) (payload_loop f' items b).
  Proof.
    induction f as [|f IH]; intros [|f'] items b; cbn [payload_loop]; [vp_tac|vp_tac|vp_tac|].
    eapply early_bind; [apply v_expect_next| |vp_tac]. intros tok.
    destruct (kind_eqb (tk_kind tok) (Directive DeleteNode)); [vp_tac|].
    destruct (kind_eqb (tk_kind tok) (Directive DeleteProperty)); [vp_tac|].
    eapply (early_bind never); [vp_tac| |vp_tac]. intros [tok1 omit].
    eapply (early_bind never); [vp_tac| |vp_tac]. intros [tok2 label].
    vp_tac.
  Qed.
  Hint Resolve v_payload_loop : vp.
  Lemma n_node_payload f : ended never (node_payload f).
  Proof. unfold node_payload. vp_tac. Qed.
  Lemma v_node_payload f f' : early any (node_payload f) (node_payload f').
  Proof. unfold node_payload. vp_tac. Qed.
  Lemma n_parse_reference : ended never (parse_reference).
  Proof. unfold parse_reference. vp_tac. Qed.
  Lemma v_parse_reference : early never (parse_reference) (parse_reference).
  Proof. unfold parse_reference. vp_tac. Qed.
  Hint Resolve n_node_payload v_node_payload n_parse_reference v_parse_reference : vp.
  Lemma n_p_primary f : ended never (p_primary f).
  Proof. unfold p_primary. vp_tac. Qed.
  Lemma v_p_primary f f' : early any (p_primary f) (p_primary f').
  Proof.
    unfold p_primary. eapply early_bind; [apply v_expect_next| |vp_tac]. intros tok.
    destruct (tk_kind tok); try solve [vp_tac].
    match goal with d : directive |- _ => destruct d; try solve [vp_tac] end.
    eapply early_bind; [apply v_expect_next| |vp_tac]. intros t. destruct (tk_kind t); try solve [vp_tac].
    eapply early_bind; [apply v_peek| |].
    - intros o. eapply (early_bind never); [destruct o; vp_tac|vp_tac|vp_tac].
    - intros o ->. vp_tac.
  Qed.
  Hint Resolve n_p_primary v_p_primary : vp.
  Lemma n_file_loop f acc : ended any (file_loop f acc).
  Proof. destruct f; cbn [file_loop]; vp_tac. Qed.
  Hint Resolve n_file_loop : vp.
  Lemma v_file_loop f : forall f' acc, early any (file_loop f acc) (file_loop f' acc).
  Proof. induction f; intros [|f'] acc; cbn [file_loop]; vp_tac. Qed.
  Hint Resolve v_file_loop : vp.
  Lemma v_file f f' : early any (p_file f) (p_file f').
  Proof. unfold p_file. vp_tac. Qed.
End Prefix.
