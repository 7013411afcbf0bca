(** How many diagnostics the parser makes: every one of them is paid for with a byte of the text *)
From Verif Require Import Parser LexSpec ReaderProofs Utf8 LexerProofs LexerProofs2 LexerProofs3 ParserBase ParserSafe ParserSafe2.
From Coq Require Import ZifyBool.

(** the complaints a check can make *)
Definition is_some {A} (o : option A) : nat := match o with Some _ => 1 | None => 0 end.
Definition prop_bad (s : str) : nat :=
  is_some (check_ident_diag (as_span pos_zero) s prop_pred any_char CtxPropertyName []).
Definition name_checks (n : node_name) : nat := S (is_some (nn_addr n)).

(** the number of complaints a token can pay for: never more than it has bytes *)
Definition worth (k : token_kind) : nat :=
  match k with
  | Ident s => Nat.max (S (prop_bad s)) (name_checks (node_name_of s))
  | Ref (TRefPath s) => Nat.max 1 (2 * length (npath_of s))
  | Directive _ => 2
  | _ => 1
  end.
Lemma worth_pos k : (1 <= worth k)%nat.
Proof. destruct k; try (match goal with r : tref |- _ => destruct r end); unfold worth; lia. Qed.

Lemma prop_bad_le s : (prop_bad s <= 1)%nat.
Proof. unfold prop_bad, is_some. destruct (check_ident_diag _ _ _ _ _ _); lia. Qed.
Lemma name_checks_le n : (name_checks n <= 2)%nat.
Proof. unfold name_checks, is_some. destruct (nn_addr n); lia. Qed.

Lemma name_char_ascii c : name_char c -> c < 128.
Proof.
  unfold name_char, letter, digit. intros [H|[H|H]]; [lia|lia|]. cbn [In] in H.
  repeat (destruct H as [<-|H]; [reflexivity|]). destruct H.
Qed.
Lemma name_char_prop c : name_char c -> prop_pred c = true.
Proof.
  unfold name_char, letter, digit. intros [H|[H|H]].
  - unfold prop_pred, node_pred, is_alpha, is_upper, is_lower. destruct H; lia.
  - unfold prop_pred, node_pred, is_digit. lia.
  - cbn [In] in H. repeat (destruct H as [<-|H]; [reflexivity|]). destruct H.
Qed.
Lemma prop_bad_one c : name_char c -> prop_bad [c] = 0%nat.
Proof.
  intros H. unfold prop_bad, check_ident_diag. cbn [chars]. pose proof (name_char_ascii c H) as Ha.
  apply N.ltb_lt in Ha. rewrite Ha. cbn [find_bad]. rewrite (name_char_prop c H). reflexivity.
Qed.
Lemma name_checks_one c : name_char c -> name_checks (node_name_of [c]) = 1%nat.
Proof.
  intros H. unfold node_name_of. cbn [split_once]. destruct (N.eqb_spec c cAt) as [->|]; [|reflexivity].
  apply name_char_prop in H. discriminate H.
Qed.

Lemma split_on_cost c s :
  (2 * length (filter (fun x => negb (str_eqb x [])) (split_on c s)) <= S (length s))%nat
  /\ (forall ps, split_on c s = [] :: ps -> (2 * length (filter (fun x => negb (str_eqb x [])) (split_on c s)) <= length s)%nat).
Proof.
  induction s as [|a s [IH1 IH2]]; cbn [split_on].
  - split; [cbn; lia|intros ps _; cbn; lia].
  - destruct (a =? c).
    + cbn [filter str_eqb negb length]. assert (E : str_eqb [] [] = true) by reflexivity.
      rewrite E. cbn [negb]. split; [lia|intros _ _; lia].
    + destruct (split_on c s) as [|p ps] eqn:E.
      * split; [cbn; lia|discriminate].
      * split; [|discriminate]. cbn [filter length] in *.
        assert (Ea : str_eqb (a :: p) [] = false) by reflexivity. rewrite Ea. cbn [negb length].
        destruct p as [|b p].
        -- specialize (IH2 ps eq_refl). assert (E0 : str_eqb [] [] = true) by reflexivity. rewrite E0 in IH2.
           cbn [negb] in IH2. lia.
        -- assert (E0 : str_eqb (b :: p) [] = false) by reflexivity. rewrite E0 in IH1. cbn [negb length] in IH1. lia.
Qed.
Lemma npath_cost s : (2 * length (npath_of s) <= S (length s))%nat.
Proof. unfold npath_of. rewrite map_length. apply split_on_cost. Qed.

Lemma spells_worth m k u rest : spells m k u rest -> (worth k <= length u)%nat.
Proof.
  intros H. destruct H; cbn [worth]; rewrite ?app_length; cbn [length]; try lia.
  - inversion H0 as [|? ? Hc Hs]; subst. destruct s as [|b s].
    + rewrite prop_bad_one, name_checks_one by exact Hc. cbn. lia.
    + pose proof (prop_bad_le (c :: b :: s)). pose proof (name_checks_le (node_name_of (c :: b :: s))). cbn [length]. lia.
  - match goal with |- (Nat.max (S (prop_bad ?x)) _ <= _)%nat => pose proof (prop_bad_le x); pose proof (name_checks_le (node_name_of x)) end. lia.
  - pose proof (npath_cost p). lia.
  - unfold punctuation in H0. cbn [In] in H0.
    repeat (destruct H0 as [H0|H0]; [injection H0 as <- <-; cbn; lia|]). destruct H0.
Qed.

Section Count.
  Context (text : list N) (src : fpath).
  Hypothesis text_valid : utf8 text.
  Notation view := (view text src).

  Definition ok (s : pstate) : Prop := exists p toks, view s p toks.
  Definition peeked_worth (o : option token) : nat := match o with Some t => worth (tk_kind t) | None => 0 end.
  (** complaints made so far and bytes left to pay for more *)
  Definition pot (s : pstate) : nat :=
    length (ps_diags s) + length (rest_of s) + match peeked_of s with Some o => peeked_worth o | None => 0 end.
  Definition always (s : pstate) : Prop := True.
  Definition peeks (o : option token) (s : pstate) : Prop := peeked_of s = Some o.

  (** with [c] complaints paid for in advance, [m] leaves [Q a] of them, or [e] when it fails *)
  Definition costs {A} (P : pstate -> Prop) (c e : nat) (m : M A) (Q : A -> nat) : Prop :=
    forall s, ok s -> P s ->
    match m s with
    | ROk a s' => ok s' /\ (pot s' + Q a <= pot s + c)%nat
    | RErr d s' => ok s' /\ (pot s' + e <= pot s + c)%nat
    | _ => True
    end.

  Lemma costs_any {A} P c e (m : M A) Q : costs always c e m Q -> costs P c e m Q.
  Proof. intros H s Hs _. apply H; [exact Hs|exact I]. Qed.
  Lemma costs_weaken {A} P c e e' (m : M A) Q Q' : costs P c e' m Q ->
    (e <= e')%nat -> (forall a, Q' a <= Q a)%nat -> costs P c e m Q'.
  Proof.
    intros H He HQ s Hs Hp. specialize (H s Hs Hp). destruct (m s) as [a s'|d s'| |]; auto; destruct H as [Ho H]; (split; [exact Ho|]).
    - specialize (HQ a). lia.
    - lia.
  Qed.
  Lemma costs_bind {A B} P c e (m : M A) (k : A -> M B) Q R : costs P c e m Q ->
    (forall a, costs always (Q a) e (k a) R) -> costs P c e (bind m k) R.
  Proof.
    intros Hm Hk s Hs Hp. specialize (Hm s Hs Hp). unfold bind. destruct (m s) as [a s'|d s'| |]; auto.
    destruct Hm as [Ho H]. specialize (Hk a s' Ho I). destruct (k a s') as [b s2|d s2| |]; auto; destruct Hk as [Ho2 H2]; (split; [exact Ho2|lia]).
  Qed.
  Lemma costs_catch {A B} P c e e' (m : M A) (k : A -> M B) (g : diag -> M B) Q R : costs P c e' m Q ->
    (forall a, costs always (Q a) e (k a) R) -> (forall d, costs always e' e (g d) R) -> costs P c e (catch m k g) R.
  Proof.
    intros Hm Hk Hg s Hs Hp. specialize (Hm s Hs Hp). unfold catch. destruct (m s) as [a s'|d s'| |]; auto; destruct Hm as [Ho H].
    - specialize (Hk a s' Ho I). destruct (k a s') as [b s2|d s2| |]; auto; destruct Hk as [Ho2 H2]; (split; [exact Ho2|lia]).
    - specialize (Hg d s' Ho I). destruct (g d s') as [b s2|d2 s2| |]; auto; destruct Hg as [Ho2 H2]; (split; [exact Ho2|lia]).
  Qed.
  Lemma costs_ret {A} P c e (a : A) (Q : A -> nat) : (Q a <= c)%nat -> costs P c e (ret a) Q.
  Proof. intros H s Hs _. cbn. split; [exact Hs|lia]. Qed.
  Lemma costs_throw {A} P c e d (Q : A -> nat) : (e <= c)%nat -> costs P c e (throw d) Q.
  Proof. intros H s Hs _. cbn. split; [exact Hs|lia]. Qed.
  Lemma costs_nofuel {A} P c e (Q : A -> nat) : costs P c e no_fuel Q.
  Proof. intros s Hs _. exact I. Qed.
  Lemma costs_panic {A} P c e (Q : A -> nat) : costs P c e panic Q.
  Proof. intros s Hs _. exact I. Qed.

  (** ** Primitives *)
  Lemma ok_lex s s' : ps_lex s' = ps_lex s -> ok s -> ok s'.
  Proof. intros E (p & toks & H). exists p, toks. eapply view_same_lex; eassumption. Qed.
  Lemma costs_push d c e P : costs P (S c) e (push d) (fun _ => c).
  Proof.
    intros s Hs _. unfold push. split; [eapply ok_lex; [|exact Hs]; reflexivity|].
    unfold pot, rest_of, peeked_of. cbn [ps_lex ps_diags]. rewrite app_length. cbn [length]. lia.
  Qed.
  Lemma costs_push_opt d c e P : costs P (c + is_some d) e (push_opt d) (fun _ => c).
  Proof.
    destruct d as [d|]; cbn [push_opt is_some].
    - replace (c + 1)%nat with (S c) by lia. apply costs_push.
    - apply costs_ret. lia.
  Qed.
  Lemma costs_source c e P : costs P c e source (fun _ => c).
  Proof. intros s Hs _. cbn. split; [exact Hs|lia]. Qed.
  Lemma costs_cur c e P : costs P c e cur_pos (fun _ => c).
  Proof. intros s Hs _. cbn. split; [exact Hs|lia]. Qed.
  Lemma costs_last c e P : costs P c e last_pos (fun _ => c).
  Proof. intros s Hs _. cbn. split; [exact Hs|lia]. Qed.
  Lemma costs_incl c e P : costs P c e include_paths (fun _ => c).
  Proof. intros s Hs _. cbn. split; [exact Hs|lia]. Qed.

  Lemma peek_pot s : ok s -> exists o s', peek s = ROk o s' /\ ok s' /\ peeks o s' /\ (pot s' <= pot s)%nat
    /\ (forall o', peeks o' s -> o = o').
  Proof.
    intros (p & toks & Hv).
    assert (W : wp peek s (fun o s' => ok s' /\ peeks o s') (fun _ _ => False)).
    { eapply wp_peek; [exact text_valid|exact Hv|]. intros s' Hv' _ _ Hk. split; [exists p, toks; exact Hv'|exact Hk]. }
    unfold wp in W. destruct (peek s) as [o s'|d s'| |] eqn:E; try contradiction. destruct W as [Ho Hk].
    exists o, s'. split; [reflexivity|]. split; [exact Ho|]. split; [exact Hk|].
    unfold peek, lift_pl, pl_peek in E. destruct (pl_peeked (ps_lex s)) as [o0|] eqn:Ep.
    - injection E as -> <-. split.
      + unfold pot, rest_of, peeked_of. cbn [ps_lex ps_diags]. lia.
      + intros o' H. unfold peeks, peeked_of in H. congruence.
    - split; [|intros o' H; unfold peeks, peeked_of in H; congruence].
      destruct s as [[lx pk] ds incl]. cbn [ps_lex ps_diags ps_incl pl_lex pl_peeked] in *. subst pk.
      destruct Hv as (Hs & pre & -> & Hpre & Hv). unfold peeked_of in Hv. cbn [ps_lex pl_peeked] in Hv.
      destruct (lex_next lx) as [[o1 lx1]| |] eqn:El; cbn [obind] in E; try discriminate.
      injection E as -> <-. unfold pot, rest_of, peeked_of. cbn [ps_lex ps_diags pl_lex pl_peeked].
      destruct Hv as [(Ht & Hp & Hl & _)|(-> & Hr & Hp & _)].
      + unfold rest_of, pos_of, lex_mode in *. cbn [ps_lex pl_lex] in *.
        destruct (lex_next_view text src text_valid lx pre toks Hs Ht Hp Hl) as (lx' & E1 & Hs' & Hn).
        rewrite El in E1. injection E1 as -> ->. destruct toks as [|t toks]; cbn [hd_error peeked_worth].
        * destruct Hn as (H1 & _). rewrite H1. cbn [length]. lia.
        * destruct Hn as (v & w & u & _ & _ & H3 & H4 & _). apply spells_worth in H4.
          assert (Hlen : length (rd_rest (lx_rd lx)) = length (v ++ w ++ u ++ rd_rest (lx_rd lx'))).
          { rewrite Ht in H3. apply app_inv_head in H3. rewrite H3. reflexivity. }
          rewrite !app_length in Hlen. lia.
      + unfold rest_of, pos_of in *. cbn [ps_lex pl_lex] in *.
        assert (Hl : lexed src (mode_of (lx_state lx)) text (rd_rest (lx_rd lx)) []).
        { rewrite Hr. apply lx_end. left. apply gap_nil. }
        assert (Ht : text = text ++ rd_rest (lx_rd lx)) by (rewrite Hr, app_nil_r; reflexivity).
        destruct (lex_next_view text src text_valid lx text [] Hs Ht Hp Hl) as (lx' & E1 & Hs' & H1 & _).
        rewrite El in E1. injection E1 as -> ->. cbn [hd_error peeked_worth]. rewrite H1. cbn [length]. lia.
  Qed.
  Lemma costs_peek {B} P c e (k : option token -> M B) R :
    (forall o, costs (peeks o) c e (k o) R) -> costs P c e (bind peek k) R.
  Proof.
    intros Hk s Hs _. destruct (peek_pot s Hs) as (o & s' & E & Ho & Hp & H & _). unfold bind. rewrite E.
    specialize (Hk o s' Ho Hp). destruct (k o s') as [b s2|d s2| |]; auto; destruct Hk as [Ho2 H2]; (split; [exact Ho2|lia]).
  Qed.
  Lemma next_pot s : ok s -> exists o s', next s = ROk o s' /\ ok s' /\ peeked_of s' = None
    /\ (pot s' + peeked_worth o <= pot s)%nat /\ (forall o', peeks o' s -> o = o').
  Proof.
    intros Hs. destruct (peek_pot s Hs) as (o & s1 & E1 & Ho & Hk & H & Hf).
    assert (W : wp next s (fun _ s' => ok s') (fun _ _ => False)).
    { destruct Hs as (p & toks & Hv). eapply wp_next; [exact text_valid|exact Hv|].
      destruct toks as [|t toks]; intros s' Hv' _ _; [|intros _ _]; eexists; eexists; exact Hv'. }
    unfold wp in W. unfold next, lift_pl in *. unfold peek, lift_pl in E1.
    destruct (pl_peek (ps_lex s)) as [[o1 pl1]| |] eqn:Ep; try discriminate. injection E1 as -> <-.
    rewrite (pl_next_after_peek _ _ _ Ep) in *. exists o. eexists. split; [reflexivity|]. split; [exact W|].
    split; [reflexivity|]. split; [|exact Hf]. unfold peeks, peeked_of in Hk. unfold pot, rest_of, peeked_of in *.
    cbn [ps_lex ps_diags pl_lex pl_peeked] in *. rewrite Hk in H. lia.
  Qed.
  Lemma costs_next P c e : costs P c e next (fun o => c + peeked_worth o)%nat.
  Proof.
    intros s Hs _. destruct (next_pot s Hs) as (o & s' & E & Ho & _ & H & _). rewrite E. split; [exact Ho|lia].
  Qed.
  Lemma costs_skip P c e : costs P c e skip_tok (fun _ => c).
  Proof. eapply costs_bind; [apply costs_next|]. intros a. apply costs_ret. lia. Qed.
  Lemma costs_skip_peeked t c e : costs (peeks (Some t)) c e skip_tok (fun _ => c + worth (tk_kind t))%nat.
  Proof.
    intros s Hs Hp. destruct (next_pot s Hs) as (o & s' & E & Ho & _ & H & Hf). unfold skip_tok, bind. rewrite E.
    rewrite (Hf _ Hp) in H. cbn [peeked_worth] in H. cbn. split; [exact Ho|lia].
  Qed.
  Lemma costs_expect_next P c e : (e <= c)%nat -> costs P c e expect_next (fun t => c + worth (tk_kind t))%nat.
  Proof.
    intros He. unfold expect_next. eapply costs_bind; [apply costs_cur|]. intros p0. eapply costs_bind; [apply costs_next|].
    intros o. eapply costs_bind; [apply costs_source|]. intros sr. destruct o as [t|]; cbn [peeked_worth]; [apply costs_ret|apply costs_throw]; lia.
  Qed.
  Lemma costs_expect_peeked {B} t c e (k : token -> M B) R :
    costs always (c + worth (tk_kind t)) e (k t) R -> costs (peeks (Some t)) c e (bind expect_next k) R.
  Proof.
    intros Hk s Hs Hp. destruct (next_pot s Hs) as (o & s' & E & Ho & _ & H & Hf). unfold expect_next, bind, cur_pos, source. rewrite E.
    pose proof (Hf _ Hp) as ->. cbn [peeked_worth] in H. unfold ret. specialize (Hk s' Ho I).
    destruct (k t s') as [b s2|d s2| |]; auto; destruct Hk as [Ho2 H2]; (split; [exact Ho2|lia]).
  Qed.
  Lemma costs_expect k P c e : (e <= c)%nat -> costs P c e (expect k) (fun _ => S c).
  Proof.
    intros He. unfold expect. eapply costs_bind; [apply costs_cur|]. intros p0. eapply costs_bind; [apply costs_next|].
    intros o. eapply costs_bind; [apply costs_source|]. intros sr. destruct o as [t|]; cbn [peeked_worth]; [|apply costs_throw; lia].
    pose proof (worth_pos (tk_kind t)). destruct (kind_eqb _ _); [apply costs_ret|apply costs_throw]; lia.
  Qed.
  Lemma costs_peek_expect {B} P c e (k : token -> M B) R : (e <= c)%nat ->
    (forall t, costs (peeks (Some t)) c e (k t) R) -> costs P c e (bind peek_expect k) R.
  Proof.
    intros He Hk s Hs _. destruct (peek_pot s Hs) as (o & s' & E & Ho & Hp & H & _).
    unfold peek_expect, bind, cur_pos, source. rewrite E. destruct o as [t|]; cbn.
    - specialize (Hk t s' Ho Hp). destruct (k t s') as [b s2|d s2| |]; auto; destruct Hk as [Ho2 H2]; (split; [exact Ho2|lia]).
    - split; [exact Ho|lia].
  Qed.

  (** ** Names *)
  Lemma costs_check sp n pr st cx c e P : costs P (S c) e (check_ident sp n pr st cx) (fun _ => c).
  Proof.
    unfold check_ident. eapply costs_bind; [apply costs_source|]. intros sr.
    eapply costs_weaken; [|apply Nat.le_refl|intros a; apply Nat.le_refl].
    destruct (check_ident_diag _ _ _ _ _ _) as [d|]; cbn [push_opt]; [apply costs_push|apply costs_ret; lia].
  Qed.
  Lemma is_some_check sp sp' n pr st cx s s' :
    is_some (check_ident_diag sp n pr st cx s) = is_some (check_ident_diag sp' n pr st cx s').
  Proof.
    unfold check_ident_diag. destruct (find_bad pr 0 (chars n)) as [[i ch]|]; [reflexivity|].
    destruct (31 <? N.of_nat (length n)); [reflexivity|]. destruct (chars n) as [|x r]; [reflexivity|]. destruct (st x); reflexivity.
  Qed.
  Lemma costs_prop_name sp n c e P : costs P (c + prop_bad n) e (check_is_property_name sp n) (fun _ => c).
  Proof.
    unfold check_is_property_name, check_ident. eapply costs_bind; [apply costs_source|]. intros sr.
    unfold prop_bad. rewrite (is_some_check _ sp _ _ _ _ _ sr). apply costs_push_opt.
  Qed.
  Lemma costs_node_name sp n c e P : costs P (c + name_checks n) e (check_is_node_name sp n) (fun _ => c).
  Proof.
    unfold check_is_node_name. destruct (match nn_addr n with None => _ | Some _ => false end).
    { apply costs_ret. lia. }
    unfold name_checks. rewrite Nat.add_succ_r. eapply costs_bind; [apply costs_check|]. intros ?; cbn beta.
    destruct (nn_addr n) as [ad|]; cbn [is_some].
    - rewrite Nat.add_comm. apply costs_check.
    - apply costs_ret. lia.
  Qed.
  Lemma costs_path sp p c e P : costs P (c + 2 * length p) e (check_path sp p) (fun _ => c).
  Proof.
    revert c P. induction p as [|n p IH]; intros c P; cbn [check_path length].
    - apply costs_ret. lia.
    - eapply costs_bind; [|intros ?; apply (IH c)].
      pose proof (name_checks_le n).
      replace (c + 2 * S (length p))%nat with ((c + 2 * length p + (2 - name_checks n)) + name_checks n)%nat by lia.
      eapply costs_weaken; [apply costs_node_name|apply Nat.le_refl|]. intros ?; cbn beta. cbn beta. lia.
  Qed.
  Lemma costs_reference t r c e P : tk_kind t = Ref r -> costs P (c + worth (tk_kind t)) e (p_reference t r) (fun _ => c).
  Proof.
    intros ->. destruct r as [n|n]; cbn [p_reference].
    - cbn [worth]. rewrite Nat.add_comm. eapply costs_bind; [apply costs_check|]. intros ?; cbn beta. apply costs_ret. lia.
    - destruct n as [|x n].
      + cbn [worth]. replace (c + Nat.max 1 (2 * length (npath_of [])))%nat with (S c) by (cbn; lia).
        eapply costs_bind; [apply costs_push|]. intros ?; cbn beta. eapply (costs_bind _ _ _ _ _ (fun _ => c)); [|intros ?; apply costs_ret; lia].
        cbn. apply costs_ret. lia.
      + eapply (costs_bind _ _ _ _ _ (fun _ => c + worth (Ref (TRefPath (x :: n))))%nat); [apply costs_ret; lia|]. intros ?; cbn beta.
        remember (npath_of (x :: n)) as p eqn:Ep. cbn [worth]. rewrite <- Ep.
        eapply (costs_bind _ _ _ _ _ (fun _ => c)); [|intros ?; apply costs_ret; lia].
        replace (c + Nat.max 1 (2 * length p))%nat with ((c + (Nat.max 1 (2 * length p) - 2 * length p)) + 2 * length p)%nat by lia.
        eapply costs_weaken; [apply costs_path|apply Nat.le_refl|]. intros ?; cbn beta. cbn beta. lia.
  Qed.

  (** ** Values *)
  Lemma costs_skip_label c e P : costs P c e skip_optional_label (fun _ => c).
  Proof.
    unfold skip_optional_label. apply costs_peek. intros [t|]; [|apply costs_ret; lia].
    destruct (tk_kind t); solve [apply costs_skip|apply costs_ret; lia].
  Qed.
  Lemma costs_skip_expr f d c e P : costs P c e (skip_expression f d) (fun _ => c).
  Proof.
    revert d P. induction f as [|f IH]; intros d P; cbn [skip_expression]; [apply costs_nofuel|].
    apply costs_peek. intros [t|]; [|apply costs_ret; lia].
    destruct (tk_kind t); (eapply costs_bind; [apply costs_skip|]; intros ?; try apply IH).
    destruct (d =? 1); [apply costs_ret; lia|apply IH].
  Qed.
  Ltac fine := first [apply costs_ret; lia | apply costs_throw; lia].
  Lemma less {A} P c c' e (m : M A) (Q : A -> nat) (Q' : A -> nat) : costs P c e m Q -> (c <= c')%nat ->
    (forall a, Q' a <= Q a)%nat -> costs P c' e m Q'.
  Proof.
    intros H Hc HQ s Hs Hp. specialize (H s Hs Hp). destruct (m s) as [a s'|d s'| |]; auto; destruct H as [Ho H]; (split; [exact Ho|]).
    - specialize (HQ a). lia.
    - lia.
  Qed.
  Lemma costs_number f t c : costs (peeks (Some t)) c (S c) (number_u32 f) (fun _ => c).
  Proof.
    unfold number_u32. apply costs_expect_peeked. pose proof (worth_pos (tk_kind t)) as Hw.
    destruct (tk_kind t) as [| | | | | | | | | | | |s|s|s|s|d|r|s|x] eqn:Ek; try (apply costs_throw; lia).
    - eapply costs_bind; [apply costs_skip_expr|]. intros ?. apply costs_peek. intros o.
      eapply (costs_bind _ _ _ _ _ (fun _ => c)); [|intros ?; fine].
      destruct o; [fine|]. eapply less; [apply (costs_push _ c)|lia|]. intros ?; cbn beta; lia.
    - destruct (parse_number u32_lim s) as [n|er]; [fine|].
      eapply (costs_bind _ _ _ _ _ (fun _ => c)); [|intros ?; fine]. eapply less; [apply (costs_push _ c)|lia|]. intros ?; cbn beta; lia.
    - rewrite <- Ek. eapply costs_bind; [apply (costs_reference t r c), Ek|]. intros w. fine.
  Qed.
  Lemma costs_cells f acc c P : costs P c 0 (cells_loop f acc) (fun _ => c).
  Proof.
    revert acc P. induction f as [|f IH]; intros acc P; cbn [cells_loop]; [apply costs_nofuel|].
    eapply costs_bind; [apply costs_skip_label|]. intros ?. apply costs_peek_expect; [lia|]. intros t.
    destruct (kind_eqb (tk_kind t) ChevronRight).
    - eapply costs_bind; [apply costs_expect_next; lia|]. intros ?. fine.
    - eapply costs_catch; [apply costs_number| |]; intros ?; [apply IH|].
      eapply costs_bind; [apply costs_push|]. intros ?. apply IH.
  Qed.
  Lemma costs_byte_string c P : costs P c 0 byte_string (fun _ => c).
  Proof.
    unfold byte_string. eapply costs_bind; [apply costs_expect_next; lia|]. intros t. cbn beta.
    pose proof (worth_pos (tk_kind t)) as Hw.
    assert (Hp : forall A (a : A) d, costs always (c + worth (tk_kind t)) 0 (push d ;; ret a) (fun _ => c)).
    { intros A a d. eapply (costs_bind _ _ _ _ _ (fun _ => c)); [|intros ?; fine]. eapply less; [apply (costs_push _ c)|lia|]. intros ?; cbn beta; lia. }
    destruct (tk_kind t) as [| | | | | | | | | | | |s|s|s|s|d|r|s|x]; try apply Hp;
      (destruct (negb (Nat.even (length s))); [apply Hp|]); (destruct (decode_pairs s) as [[b|er]| |]; [fine|apply Hp|apply costs_panic|apply costs_nofuel]).
  Qed.
  Lemma costs_bytes f acc c P : costs P c 0 (bytes_loop f acc) (fun _ => c).
  Proof.
    revert acc P. induction f as [|f IH]; intros acc P; cbn [bytes_loop]; [apply costs_nofuel|].
    eapply costs_bind; [apply costs_skip_label|]. intros ?. apply costs_peek_expect; [lia|]. intros t.
    destruct (kind_eqb (tk_kind t) CloseBracket).
    - eapply costs_bind; [apply costs_skip|]. intros ?. fine.
    - eapply costs_bind; [apply costs_byte_string|]. intros ?. apply IH.
  Qed.
  Lemma costs_bits c P : costs P c 0 bits_prefix (fun _ => c).
  Proof.
    unfold bits_prefix. apply costs_peek. intros [t|]; [|fine]. destruct (kind_eqb (tk_kind t) (Directive Bits)); [|fine].
    eapply costs_bind; [apply costs_skip|]. intros ?. eapply costs_bind; [apply costs_expect_next; lia|]. intros w. cbn beta.
    pose proof (worth_pos (tk_kind w)) as Hw.
    destruct (tk_kind w); try fine; (eapply less; [apply (costs_push _ c)|lia|intros ?; cbn beta; lia]).
  Qed.
  Lemma costs_value f c P : costs P c 0 (property_value f) (fun _ => c).
  Proof.
    unfold property_value. eapply costs_bind; [apply costs_bits|]. intros ?.
    eapply costs_bind; [apply costs_expect_next; lia|]. intros t. cbn beta.
    destruct (tk_kind t) as [| | | | | | | | | | | |s|s|s|s|d|r|s|x] eqn:Ek; try fine.
    - eapply costs_bind; [apply costs_bytes|]. intros [l b]. fine.
    - eapply costs_bind; [apply costs_cells|]. intros [l b]. fine.
    - rewrite <- Ek. eapply costs_bind; [apply (costs_reference t r c), Ek|]. intros w. fine.
  Qed.
  Lemma costs_values f acc c P : costs P c 0 (property_values f acc) (fun _ => c).
  Proof.
    revert acc P. induction f as [|f IH]; intros acc P; cbn [property_values]; [apply costs_nofuel|].
    eapply costs_bind; [apply costs_skip_label|]. intros ?. eapply costs_bind; [apply costs_value|]. intros v.
    eapply costs_bind; [apply costs_skip_label|]. intros ?. apply costs_peek_expect; [lia|]. intros t.
    destruct (kind_eqb (tk_kind t) Comma); [|fine]. eapply costs_bind; [apply costs_skip|]. intros ?. apply IH.
  Qed.

  (** ** Nodes *)
  Lemma costs_p_property_name c P : costs P c 0 p_property_name (fun _ => c).
  Proof.
    unfold p_property_name. eapply costs_bind; [apply costs_expect_next; lia|]. intros t. cbn beta.
    destruct (tk_kind t) as [| | | | | | | | | | | |s|s|s|s|d|r|s|x]; try fine. cbn [worth].
    eapply (costs_bind _ _ _ _ _ (fun _ => c)); [|intros ?; fine]. eapply less; [apply (costs_prop_name _ _ c)|lia|intros ?; cbn beta; lia].
  Qed.
  Lemma costs_p_node_name c P : costs P c 0 p_node_name (fun _ => c).
  Proof.
    unfold p_node_name. eapply costs_bind; [apply costs_expect_next; lia|]. intros t. cbn beta.
    destruct (tk_kind t) as [| | | | | | | | | | | |s|s|s|s|d|r|s|x]; try fine. cbn [worth].
    eapply (costs_bind _ _ _ _ _ (fun _ => c)); [|intros ?; fine]. eapply less; [apply (costs_node_name _ _ c)|lia|intros ?; cbn beta; lia].
  Qed.
  Lemma ok_pseudo s k : ok s -> peeked_of s = None -> k = Semicolon -> ok
    (mkPS (mkPL (lex_insert_pseudo_kind k (pl_lex (ps_lex s))) (pl_peeked (ps_lex s))) (ps_diags s) (ps_incl s)).
  Proof. intros (p & toks & H) Hk ->. destruct (view_pseudo _ _ _ _ _ H Hk) as [toks' H']. exists p, toks'. exact H'. Qed.
  Lemma costs_unknown t c : costs (peeks (Some t)) c 0 (let! t2 := expect_next in insert_pseudo_kind Semicolon ;; ret (tk_span t2)) (fun _ => S c).
  Proof.
    intros s Hs Hp. destruct (next_pot s Hs) as (o & s' & E & Ho & Hk & H & Hf). unfold expect_next, bind, cur_pos, source. rewrite E.
    pose proof (Hf _ Hp) as ->. cbn [peeked_worth] in H. pose proof (worth_pos (tk_kind t)). unfold ret, insert_pseudo_kind.
    split; [apply ok_pseudo; auto|]. unfold pot, rest_of, peeked_of in *. cbn [ps_lex ps_diags pl_lex pl_peeked lex_insert_pseudo_kind lx_rd]. lia.
  Qed.
  Lemma costs_semicolon c P : costs P (S c) 0 expect_semicolon (fun _ => c).
  Proof.
    unfold expect_semicolon. apply costs_peek. intros [t|].
    - assert (G : costs (peeks (Some t)) (S c) 0
        (let! sp := (if semicolon_skips (tk_kind t) then let! t2 := expect_next in insert_pseudo_kind Semicolon ;; ret (tk_span t2)
                     else let! p := last_pos in ret (as_char_span p)) in
         let! sr := source in push (diag_expected sp sr [Semicolon]) ;; ret (@None token)) (fun _ => c)).
      { eapply (costs_bind _ _ _ _ _ (fun _ => S c)).
        - destruct (semicolon_skips (tk_kind t)).
          + eapply less; [apply costs_unknown|apply Nat.le_refl|]. intros ?; cbn beta; lia.
          + eapply costs_bind; [apply costs_last|]. intros ?. fine.
        - intros sp. eapply costs_bind; [apply costs_source|]. intros ?. eapply costs_bind; [apply costs_push|]. intros ?. fine. }
      destruct (tk_kind t); try exact G. eapply less; [apply costs_next|apply Nat.le_refl|]. intros ?; cbn beta; lia.
    - eapply costs_bind; [apply costs_last|]. intros ?. eapply costs_bind; [apply costs_source|]. intros ?.
      eapply costs_bind; [apply costs_push|]. intros ?. fine.
  Qed.
  Lemma costs_omit o c e P : costs P (c + is_some o) e (check_omit o) (fun _ => c).
  Proof.
    destruct o as [t|]; cbn [check_omit is_some]; [|apply costs_ret; lia].
    eapply costs_bind; [apply costs_source|]. intros ?. rewrite Nat.add_comm. apply costs_push.
  Qed.
  Lemma costs_order b p c e P : costs P (S c) e (check_order b p) (fun _ => c).
  Proof.
    destruct b; cbn [check_order]; [|apply costs_ret; lia]. eapply costs_bind; [apply costs_source|]. intros ?. apply costs_push.
  Qed.
  Lemma costs_payload f items nd c P : costs P c 0 (payload_loop f items nd) (fun _ => c).
  Proof.
    revert items nd c P. induction f as [|f IH]; intros items nd c P; cbn [payload_loop]; [apply costs_nofuel|].
    eapply costs_bind; [apply costs_expect_next; lia|]. intros t. cbn beta.
    destruct (kind_eqb (tk_kind t) (Directive DeleteNode)).
    { pose proof (worth_pos (tk_kind t)) as Hw. eapply costs_bind; [apply costs_p_node_name|]. intros n.
      eapply (costs_bind _ _ _ _ _ (fun _ => c)); [|intros ?; apply IH]. eapply less; [apply (costs_semicolon c)|lia|intros ?; cbn beta; lia]. }
    destruct (kind_eqb (tk_kind t) (Directive DeleteProperty)).
    { pose proof (worth_pos (tk_kind t)) as Hw. eapply costs_bind; [apply costs_p_property_name|]. intros n.
      eapply (costs_bind _ _ _ _ _ (fun _ => c)); [|intros ?; apply IH]. eapply less; [apply (costs_semicolon c)|lia|intros ?; cbn beta; lia]. }
    eapply (costs_bind _ _ _ _ _ (fun x => c + worth (tk_kind (fst x)) + is_some (snd x))%nat).
    { destruct (kind_eqb (tk_kind t) (Directive OmitIfNoRef)); [|apply costs_ret; cbn [fst snd is_some]; lia].
      pose proof (worth_pos (tk_kind t)) as Hw. eapply costs_bind; [apply costs_expect_next; lia|]. intros t1. cbn beta.
      apply costs_ret. cbn [fst snd is_some]. lia. }
    intros [t1 omit]. cbn [fst snd].
    eapply (costs_bind _ _ _ _ _ (fun x => c + worth (tk_kind (fst x)) + is_some omit)%nat).
    { destruct (tk_kind t1) as [| | | | | | | | | | | |s|s|s|s|d|r|s|x] eqn:Ek; try (apply costs_ret; cbn [fst]; rewrite Ek; lia).
      cbn [worth]. eapply (costs_bind _ _ _ _ _ (fun _ => c + is_some omit)%nat).
      - eapply less; [apply (costs_check _ _ _ _ _ (c + is_some omit))|lia|intros ?; cbn beta; lia].
      - intros ?. cbn beta. eapply costs_bind; [apply costs_expect_next; lia|]. intros t2. apply costs_ret. cbn [fst]. lia. }
    intros [t2 label]. cbn [fst snd].
    destruct (tk_kind t2) as [| | | | | | | | | | | |s|s|s|s|d|r|s|x] eqn:Ek; try fine.
    - (* '}' *)
      cbn [worth]. eapply (costs_bind _ _ _ _ _ (fun _ => c)); [|intros ?; fine]. eapply less; [apply (costs_semicolon c)|lia|intros ?; cbn beta; lia].
    - apply costs_peek_expect; [lia|]. intros t3. cbn [worth].
      assert (Hn : costs (peeks (Some t3)) (c + Nat.max (S (prop_bad s)) (name_checks (node_name_of s)) + is_some omit) 0
        (let! p := last_pos in let! sr := source in
         throw (diag_expected (as_span p) sr [Semicolon; Equal; OpenBrace; Directive OmitIfNoRef])) (fun _ : payload => c)).
      { eapply costs_bind; [apply costs_last|]. intros ?. eapply costs_bind; [apply costs_source|]. intros ?. fine. }
      destruct (tk_kind t3) eqn:Ek3; try exact Hn.
      + (* ';' *)
        eapply costs_bind; [apply costs_skip_peeked|]. intros ?. cbn beta. rewrite Ek3. cbn [worth].
        eapply (costs_bind _ _ _ _ _ (fun _ => c + is_some omit + 1)%nat).
        { eapply less; [apply (costs_prop_name _ _ (c + is_some omit + 1))|lia|intros ?; cbn beta; lia]. }
        intros ?. cbn beta. eapply (costs_bind _ _ _ _ _ (fun _ => c + is_some omit)%nat).
        { eapply less; [apply (costs_order _ _ (c + is_some omit))|lia|intros ?; cbn beta; lia]. }
        intros ?. cbn beta. eapply costs_bind; [apply costs_omit|]. intros ?. apply IH.
      + (* '=' *)
        eapply costs_bind; [apply costs_skip_peeked|]. intros ?. cbn beta. rewrite Ek3. cbn [worth].
        eapply (costs_bind _ _ _ _ _ (fun _ => S (S (c + is_some omit)))).
        { eapply less; [apply (costs_prop_name _ _ (S (S (c + is_some omit))))|lia|intros ?; cbn beta; lia]. }
        intros ?. cbn beta. eapply costs_bind; [apply costs_values|]. intros vs. cbn beta.
        eapply costs_bind; [apply costs_semicolon|]. intros ee. cbn beta.
        replace (S (c + is_some omit)) with (S c + is_some omit)%nat by lia.
        eapply costs_bind; [apply costs_omit|]. intros ?. cbn beta. eapply costs_bind; [apply costs_order|]. intros ?. apply IH.
      + (* '{' *)
        eapply (costs_bind _ _ _ _ _ (fun _ => c)).
        { eapply less; [apply (costs_node_name _ _ c)|lia|intros ?; cbn beta; lia]. }
        intros ?. cbn beta. eapply (costs_bind _ _ _ _ _ (fun _ => c)).
        { eapply less; [apply costs_expect; lia|apply Nat.le_refl|intros ?; cbn beta; lia]. }
        intros ?. cbn beta. eapply costs_bind; [apply IH|]. intros pl. apply IH.
  Qed.
  Lemma costs_node_payload f c P : costs P c 0 (node_payload f) (fun _ => c).
  Proof.
    eapply (costs_bind _ _ _ _ _ (fun _ => c)); [eapply less; [apply costs_expect; lia|apply Nat.le_refl|intros ?; cbn beta; lia]|].
    intros ?. apply costs_payload.
  Qed.
  Lemma costs_parse_reference c P : costs P c 0 parse_reference (fun _ => c).
  Proof.
    unfold parse_reference. eapply costs_bind; [apply costs_expect_next; lia|]. intros t. cbn beta.
    destruct (tk_kind t) as [| | | | | | | | | | | |s|s|s|s|d|r|s|x] eqn:Ek; try fine. rewrite <- Ek. apply costs_reference, Ek.
  Qed.
  Lemma costs_memreserve c P : costs P c 0 memreserve_number (fun _ => c).
  Proof.
    unfold memreserve_number. eapply costs_bind; [apply costs_expect_next; lia|]. intros t. cbn beta.
    pose proof (worth_pos (tk_kind t)) as Hw.
    destruct (tk_kind t) as [| | | | | | | | | | | |s|s|s|s|d|r|s|x];
      try (eapply costs_bind; [apply costs_last|]; intros ?; eapply costs_bind; [apply costs_source|]; intros ?; fine).
    destruct (parse_number u64_lim s) as [n|er]; [fine|].
    eapply (costs_bind _ _ _ _ _ (fun _ => c)); [|intros ?; fine]. eapply less; [apply (costs_push _ c)|lia|intros ?; cbn beta; lia].
  Qed.
  Lemma costs_primary f P : costs P 0 0 (p_primary f) (fun _ => 0%nat).
  Proof.
    unfold p_primary. eapply costs_bind; [apply costs_expect_next; lia|]. intros t. cbn beta.
    assert (Hs : forall A (a : A) n, (1 <= n)%nat -> costs always n 0 (expect_semicolon ;; ret a) (fun _ => 0%nat)).
    { intros A a n Hn. eapply (costs_bind _ _ _ _ _ (fun _ => 0%nat)); [|intros ?; fine].
      eapply less; [apply (costs_semicolon 0)|lia|intros ?; cbn beta; lia]. }
    destruct (tk_kind t) as [| | | | | | | | | | | |s|s|s|s|d|r|s|x] eqn:Ek; try fine.
    - eapply costs_bind; [apply costs_node_payload|]. intros ?. fine.
    - destruct (str_eqb s (bs "#include")); [|fine]. eapply costs_bind; [apply costs_expect_next; lia|]. intros t1. destruct (tk_kind t1); fine.
    - cbn [worth]. destruct d; try fine; try (apply Hs; lia).
      + (* memreserve *)
        eapply costs_bind; [apply costs_memreserve|]. intros a. eapply costs_bind; [apply costs_memreserve|]. intros b. apply Hs. cbn beta. lia.
      + (* delete node *) eapply costs_bind; [apply costs_parse_reference|]. intros a. apply Hs. cbn beta. lia.
      + (* omit *) eapply costs_bind; [apply costs_parse_reference|]. intros a. apply Hs. cbn beta. lia.
      + (* include *)
        eapply costs_bind; [apply costs_expect_next; lia|]. intros t1. destruct (tk_kind t1); try fine.
        apply costs_peek. intros o. eapply (costs_bind _ _ _ _ _ (fun _ => 0%nat)); [|intros ?; eapply costs_bind; [apply costs_incl|]; intros ?; fine].
        destruct o as [t2|]; [|fine]. destruct (kind_eqb (tk_kind t2) Semicolon); [|fine].
        eapply costs_bind; [apply costs_expect_next; lia|]. intros t3. eapply less; [apply (costs_push _ 0)|lia|intros ?; cbn beta; lia].
    - rewrite <- Ek. eapply costs_bind; [apply (costs_reference t r 0), Ek|]. intros w. eapply costs_bind; [apply costs_node_payload|]. intros ?. fine.
  Qed.
  Lemma costs_file_loop f acc P : costs P 0 0 (file_loop f acc) (fun _ => 0%nat).
  Proof.
    revert acc P. induction f as [|f IH]; intros acc P; cbn [file_loop]; [apply costs_nofuel|].
    apply costs_peek. intros [t|]; [|fine]. eapply costs_bind; [apply costs_primary|]. intros p. apply IH.
  Qed.
  Lemma costs_file f P : costs P 0 0 (p_file f) (fun _ => 0%nat).
  Proof.
    unfold p_file. eapply costs_bind; [apply costs_file_loop|]. intros els. eapply costs_bind; [apply costs_source|]. intros sr. fine.
  Qed.
End Count.

(** never more diagnostics than bytes; the error that ends the parse comes on top *)
Lemma parse_count incl text src : utf8 text ->
  match parse_text incl text src with
  | ROk _ s | RErr _ s => (length (ps_diags s) <= length text)%nat
  | _ => True
  end.
Proof.
  intros Hu. unfold parse_text. destruct (view_new text src incl) as [toks Hv].
  pose proof (costs_file text src Hu (S (S (length text))) always (parser_new incl text src)) as H.
  specialize (H (ex_intro _ _ (ex_intro _ _ Hv)) I).
  assert (E : pot (parser_new incl text src) = length text) by (unfold pot; cbn; lia). rewrite E in H.
  destruct (p_file _ _) as [f s|d s| |]; auto; destruct H as [_ H]; unfold pot in H; lia.
Qed.
