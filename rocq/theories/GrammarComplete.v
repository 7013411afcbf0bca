(** The token-level parser accepts every derivation of the grammar *)
From Verif Require Import Parser LexSpec Utf8 LexerProofs Grammar NameProofs TokParser.
From Coq Require Import ZifyBool.

Lemma kind_eqb_true a b : a = b -> kind_eqb a b = true.
Proof. intros <-. unfold kind_eqb. destruct (kind_eq_dec a a); congruence. Qed.
Lemma kind_eqb_false a b : a <> b -> kind_eqb a b = false.
Proof. intros H. unfold kind_eqb. destruct (kind_eq_dec a b); congruence. Qed.
Lemma kind_eqb_spec a b : reflect (a = b) (kind_eqb a b).
Proof. unfold kind_eqb. destruct (kind_eq_dec a b); constructor; assumption. Qed.

Section Complete.
  Context (src : fpath) (incl : list fpath) (rl : position -> list token).

  (** the diagnostic for a missing semicolon *)
  Definition semi_diag (d : diag) : Prop := exists sp, d = diag_expected sp src [Semicolon].

  (** without diagnostics, unless out of fuel *)
  Definition runs {A} (m : TM A) (l : list token) (a : A) (l' : list token) : Prop :=
    forall ds, m (mkTS l ds) = TBad \/ m (mkTS l ds) = TOk a (mkTS l' ds).
  (** with [n] diagnostics for missing semicolons, unless out of fuel *)
  Definition fine {A} (r : tres A) (a : A) (l' : list token) (ds : list diag) (n : nat) : Prop :=
    r = TBad \/ exists new, r = TOk a (mkTS l' (ds ++ new)) /\ length new = n /\ Forall semi_diag new.

  Lemma runs_bind {A B} (m : TM A) (k : A -> TM B) l a l' b l'' :
    runs m l a l' -> runs (k a) l' b l'' -> runs (t_bind m k) l b l''.
  Proof. intros Hm Hk ds. unfold t_bind. destruct (Hm ds) as [->| ->]; [left; reflexivity|apply Hk]. Qed.
  Lemma runs_ret {A} (a : A) l : runs (t_ret a) l a l.
  Proof. intros ds. right. reflexivity. Qed.
  Lemma runs_source l : runs (t_source src) l src l.
  Proof. apply runs_ret. Qed.
  Lemma runs_nofuel {A} l (a : A) l' : runs t_no_fuel l a l'.
  Proof. intros ds. left. reflexivity. Qed.
  Lemma runs_peek l : runs t_peek l (hd_error l) l.
  Proof. intros ds. right. reflexivity. Qed.
  Lemma runs_next l : runs t_next l (hd_error l) (tl l).
  Proof. intros ds. right. reflexivity. Qed.
  Lemma runs_skip t l : runs t_skip_tok (t :: l) tt l.
  Proof. intros ds. right. reflexivity. Qed.
  Lemma runs_expect_next t l : runs (t_expect_next src) (t :: l) t l.
  Proof. intros ds. right. reflexivity. Qed.
  Lemma runs_peek_expect t l : runs (t_peek_expect src) (t :: l) t (t :: l).
  Proof. intros ds. right. reflexivity. Qed.
  Lemma runs_expect k t l : is k t -> runs (t_expect src k) (t :: l) t l.
  Proof.
    intros H ds. right. unfold t_expect, t_bind, t_cur_pos, t_next, t_ret, t_source. cbn [t_toks hd_error t_diags tl].
    rewrite kind_eqb_true by exact H. reflexivity.
  Qed.
  Lemma runs_catch {A B} (m : TM A) (k : A -> TM B) g l a l' b l'' :
    runs m l a l' -> runs (k a) l' b l'' -> runs (t_catch m k g) l b l''.
  Proof. intros Hm Hk ds. unfold t_catch. destruct (Hm ds) as [->| ->]; [left; reflexivity|apply Hk]. Qed.
  Lemma fine_bind {A B} (m : TM A) (k : A -> TM B) l a l' b l'' ds n :
    runs m l a l' -> fine (k a (mkTS l' ds)) b l'' ds n -> fine (t_bind m k (mkTS l ds)) b l'' ds n.
  Proof. intros Hm Hk. unfold t_bind. destruct (Hm ds) as [->| ->]; [left; reflexivity|exact Hk]. Qed.
  Lemma fine_bind_n {A B} (m : TM A) (k : A -> TM B) l a l' b l'' ds n n' :
    fine (m (mkTS l ds)) a l' ds n ->
    (forall ds', fine (k a (mkTS l' ds')) b l'' ds' n') -> fine (t_bind m k (mkTS l ds)) b l'' ds (n + n').
  Proof.
    intros Hm Hk. unfold t_bind. destruct Hm as [->|(new & -> & Hn & Hf)]; [left; reflexivity|].
    destruct (Hk (ds ++ new)) as [->|(new' & -> & Hn' & Hf')]; [left; reflexivity|]. right. exists (new ++ new').
    rewrite <- app_assoc, app_length. split; [reflexivity|]. split; [lia|]. apply Forall_app. auto.
  Qed.
  Lemma fine_runs {A} (m : TM A) l a l' ds : runs m l a l' -> fine (m (mkTS l ds)) a l' ds 0.
  Proof.
    intros H. destruct (H ds) as [->| ->]; [left; reflexivity|]. right. exists []. rewrite app_nil_r. auto.
  Qed.
  Lemma fine_ret {A} (a : A) l ds : fine (t_ret a (mkTS l ds)) a l ds 0.
  Proof. exact (fine_runs _ _ _ _ _ (runs_ret a l)). Qed.

  (** ** Names *)
  Lemma runs_check l sp s p1 p2 ctx : check_ident_diag sp s p1 p2 ctx src = None ->
    runs (t_check_ident src sp s p1 p2 ctx) l tt l.
  Proof. intros H ds. right. unfold t_check_ident, t_bind, t_source, t_ret. rewrite H. reflexivity. Qed.
  Lemma ascii_valid (P : N -> Prop) s : (forall c, P c -> c < 128) -> Forall P s -> valid_utf8 s = true.
  Proof. exact (valid_class P s). Qed.
  Lemma runs_check_label l sp s : legal_label s -> runs (t_check_is_label src sp s) l tt l.
  Proof.
    intros H. apply runs_check. apply check_label_iff; [|exact H]. destruct H as (_ & H & _).
    eapply ascii_valid; [|exact H]. exact label_char_ascii.
  Qed.
  Lemma runs_check_property l sp s : legal_property_name s -> runs (t_check_is_property_name src sp s) l tt l.
  Proof.
    intros H. apply runs_check. apply check_property_iff; [|exact H]. destruct H as (_ & H).
    eapply ascii_valid; [|exact H]. exact name_char_ascii.
  Qed.
  Lemma legal_node_valid n : legal_node_name n -> nn_valid n.
  Proof.
    intros [->|(_ & H & _ & Ha)].
    - split; [reflexivity|discriminate].
    - split; [eapply ascii_valid; [|exact H]; exact node_char_ascii|].
      intros a E. destruct (Ha a E) as [_ Hc]. eapply ascii_valid; [|exact Hc]. exact node_char_ascii.
  Qed.
  Lemma runs_check_node l sp n : legal_node_name n -> runs (t_check_is_node_name src sp n) l tt l.
  Proof.
    intros H. pose proof (proj2 (node_checks_iff sp n src (legal_node_valid n H)) H) as Hc.
    unfold t_check_is_node_name. unfold node_checks in Hc.
    destruct (match nn_addr n with None => _ | Some _ => _ end); [apply runs_ret|].
    inversion Hc as [|? ? H1 H2]; subst. eapply runs_bind; [apply runs_check; exact H1|].
    destruct (nn_addr n); [|apply runs_ret]. inversion H2; subst. apply runs_check. assumption.
  Qed.
  Lemma runs_check_path l sp p : Forall legal_node_name p -> runs (t_check_path src sp p) l tt l.
  Proof.
    induction 1; cbn [t_check_path]; [apply runs_ret|]. eapply runs_bind; [apply runs_check_node; assumption|assumption].
  Qed.
  Lemma runs_reference l t r x : ref_text r x -> runs (t_p_reference src t r) l (mkWT x t) l.
  Proof.
    intros [s H|s p Hs Hp Hl]; unfold t_p_reference.
    - eapply runs_bind; [apply runs_check_label; exact H|apply runs_ret].
    - apply path_text_iff in Hp. subst p. destruct s as [|c s]; [congruence|].
      eapply runs_bind; [apply runs_ret|]. eapply runs_bind; [apply runs_check_path; exact Hl|]. apply runs_ret.
  Qed.

  (** ** Values *)
  Lemma runs_skip_label l l' : opt_label l l' -> (l = l' -> forall t s r, l' = t :: r -> ~ is (Label s) t) ->
    runs (t_skip_optional_label) l tt l'.
  Proof.
    intros [l0|t s l0 H] Hn; unfold t_skip_optional_label; (eapply runs_bind; [apply runs_peek|]); cbn [hd_error].
    - destruct l0 as [|t l0]; cbn [hd_error]; [apply runs_ret|].
      destruct (tk_kind t) eqn:E; try apply runs_ret. exfalso. eapply (Hn eq_refl); [reflexivity|exact E].
    - unfold is in H. rewrite H. apply runs_skip.
  Qed.
  Lemma runs_skip_label_t l t r : opt_label l (t :: r) -> (forall s, ~ is (Label s) t) ->
    runs (t_skip_optional_label) l tt (t :: r).
  Proof. intros H Hn. apply runs_skip_label; [exact H|]. intros _ t' s r' E. injection E as <- <-. apply Hn. Qed.

  (** skipping the inside of balanced parentheses *)
  Lemma skip_parens l l' : parens l l' -> forall f d ds, 1 <= d ->
    t_skip_expression f d (mkTS l ds) = TBad
    \/ exists f', t_skip_expression f d (mkTS l ds) = t_skip_expression f' d (mkTS l' ds).
  Proof.
    induction 1 as [l|t l l' Ho Hc _ IH|t l u l' l'' Ho Hc _ IH1 _ IH2]; intros f d ds Hd.
    - right. exists f. reflexivity.
    - destruct f as [|f]; [left; reflexivity|].
      assert (E : t_skip_expression (S f) d (mkTS (t :: l) ds) = t_skip_expression f d (mkTS l ds)).
      { cbn [t_skip_expression]. unfold t_bind, t_peek, t_skip_tok, t_bind, t_next, t_ret. cbn [t_toks hd_error tl t_diags].
        unfold is in *. destruct (tk_kind t); try reflexivity; congruence. }
      rewrite E. apply IH. exact Hd.
    - destruct f as [|f]; [left; reflexivity|].
      assert (E : t_skip_expression (S f) d (mkTS (t :: l) ds) = t_skip_expression f (d + 1) (mkTS l ds)).
      { cbn [t_skip_expression]. unfold t_bind, t_peek, t_skip_tok, t_bind, t_next, t_ret. cbn [t_toks hd_error tl t_diags].
        unfold is in *. rewrite Ho. reflexivity. }
      rewrite E. destruct (IH1 f (d + 1) ds ltac:(lia)) as [H|[f' H]]; [left; exact H|]. rewrite H.
      destruct f' as [|f']; [left; reflexivity|].
      assert (E' : t_skip_expression (S f') (d + 1) (mkTS (u :: l') ds) = t_skip_expression f' d (mkTS l' ds)).
      { cbn [t_skip_expression]. unfold t_bind, t_peek, t_skip_tok, t_bind, t_next, t_ret. cbn [t_toks hd_error tl t_diags].
        unfold is in *. rewrite Hc. replace (d + 1 =? 1) with false by lia. replace (d + 1 - 1) with d by lia. reflexivity. }
      rewrite E'. apply IH2. exact Hd.
  Qed.
  Lemma runs_expression f l u l' : parens l (u :: l') -> is CloseParen u -> runs (t_skip_expression f 1) l tt l'.
  Proof.
    intros H Hu ds. destruct (skip_parens _ _ H f 1 ds ltac:(lia)) as [E|[f' E]]; [left; exact E|]. rewrite E.
    destruct f' as [|f']; [left; reflexivity|]. right.
    cbn [t_skip_expression]. unfold t_bind, t_peek, t_skip_tok, t_bind, t_next, t_ret. cbn [t_toks hd_error tl t_diags].
    unfold is in *. rewrite Hu. reflexivity.
  Qed.

  Definition ok_number (s : str) : Prop := s <> [] /\ Forall alnum s.
  Lemma numeral_alnum b s n : numeral b s n -> ok_number s.
  Proof.
    assert (D : forall c v, digit_value c v -> alnum c) by (unfold digit_value, alnum, letter, digit; intros; lia).
    induction 1 as [c v H _|s n c v _ [H1 H2] H _].
    - split; [discriminate|]. constructor; [exact (D _ _ H)|constructor].
    - split; [destruct s; discriminate|]. apply Forall_app. split; [exact H2|]. constructor; [exact (D _ _ H)|constructor].
  Qed.
  Lemma literal_alnum s n : literal s n -> ok_number s.
  Proof.
    assert (Z : alnum 48) by (unfold alnum, digit; lia). assert (X : alnum 120) by (unfold alnum, letter; lia).
    intros [|c t m H1 H2|t m H|t m H].
    - split; [discriminate|]. constructor; [exact Z|constructor].
    - apply numeral_alnum in H2. exact H2.
    - apply numeral_alnum in H. destruct H as [_ H]. split; [discriminate|]. constructor; [exact Z|]. constructor; [exact X|exact H].
    - apply numeral_alnum in H. destruct H as [_ H]. split; [discriminate|]. constructor; [exact Z|exact H].
  Qed.
  Lemma parse_literal lim s n : 0 < lim -> literal s n -> n < lim -> parse_number lim s = IntOk n.
  Proof. intros Hl H Hn. destruct (literal_alnum _ _ H). apply parse_number_iff; auto. Qed.

  Lemma runs_number f l c l' : g_cell l c l' -> l' <> [] -> runs (t_number_u32 src f) l c l'.
  Proof.
    intros [t s n l0 Ht Hs Hn|t r x l0 Ht Hr|t l0 u l1 Ht Hu Hp] Hne; unfold t_number_u32;
      (eapply runs_bind; [apply runs_expect_next|]); unfold is in *; rewrite Ht.
    - rewrite (parse_literal u32_lim s n) by (try exact Hs; exact Hn || reflexivity). apply runs_ret.
    - eapply runs_bind; [apply runs_reference; exact Hr|]. apply runs_ret.
    - eapply runs_bind; [eapply runs_expression; eassumption|]. eapply runs_bind; [apply runs_peek|].
      destruct l1 as [|y l1]; [congruence|]. cbn [hd_error]. eapply runs_bind; [apply runs_ret|]. apply runs_ret.
  Qed.
  Lemma opt_label_nonempty l t r : opt_label l (t :: r) -> l <> [].
  Proof. intros H. inversion H; discriminate. Qed.
  Lemma cells_nonempty l cs t l' : g_cells l cs t l' -> l <> [].
  Proof.
    intros [l0 t0 l1 H _|l0 l1 c l2 cs0 t0 l3 H1 H2 _]; [eapply opt_label_nonempty; exact H|].
    inversion H2; subst; eapply opt_label_nonempty; exact H1.
  Qed.
  Lemma g_cell_head l c l' : g_cell l c l' -> exists t r, l = t :: r /\ ~ is ChevronRight t /\ forall s, ~ is (Label s) t.
  Proof. intros [t s n l0 H|t r x l0 H|t l0 u l1 H]; exists t; eexists; (split; [reflexivity|]); unfold is in *; rewrite H; split; intros; congruence. Qed.
  Lemma runs_cells l cs e l' : g_cells l cs e l' -> forall f acc, runs (t_cells_loop src f acc) l (acc ++ cs, e) l'.
  Proof.
    induction 1 as [l t l' Hl Ht|l l1 c l2 cs t l' Hl Hc Hcs IH]; intros f acc; (destruct f as [|f]; [apply runs_nofuel|]);
      cbn [t_cells_loop].
    - eapply runs_bind; [apply runs_skip_label_t; [exact Hl|unfold is in *; rewrite Ht; discriminate]|].
      eapply runs_bind; [apply runs_peek_expect|]. rewrite kind_eqb_true by exact Ht.
      eapply runs_bind; [apply runs_expect_next|]. rewrite app_nil_r. apply runs_ret.
    - pose proof (g_cell_head _ _ _ Hc) as (h & r & -> & Hh & Hlab).
      eapply runs_bind; [apply runs_skip_label_t; [exact Hl|exact Hlab]|].
      eapply runs_bind; [apply runs_peek_expect|]. rewrite kind_eqb_false by exact Hh.
      eapply runs_catch; [apply runs_number; [exact Hc|eapply cells_nonempty; exact Hcs]|].
      replace (acc ++ c :: cs) with ((acc ++ [c]) ++ cs) by (rewrite <- app_assoc; reflexivity). apply IH.
  Qed.
  Lemma digit_value_ascii c v : digit_value c v -> c < 128.
  Proof. unfold digit_value. lia. Qed.
  Lemma byte_text_ascii s b : byte_text s b -> Forall (fun c => c < 128) s.
  Proof.
    induction 1; repeat constructor; try assumption; try lia; eapply digit_value_ascii; eassumption.
  Qed.
  Lemma runs_byte_string e s b l : element_text e s -> byte_text s b ->
    runs (t_byte_string src) (e :: l) (mkWT b e) l.
  Proof.
    intros He Hb. unfold t_byte_string. eapply runs_bind; [apply runs_expect_next|].
    destruct (proj2 (decode_pairs_iff s b (byte_text_ascii _ _ Hb)) Hb) as [E1 E2].
    destruct He as [He|He]; unfold is in He; rewrite He, E1, E2; apply runs_ret.
  Qed.
  Lemma runs_bytes l cs e l' : g_bytes l cs e l' -> forall f acc, runs (t_bytes_loop src f acc) l (acc ++ cs, e) l'.
  Proof.
    induction 1 as [l t l' Hl Ht|l e s b l2 cs t l' Hl He Hb Hcs IH]; intros f acc; (destruct f as [|f]; [apply runs_nofuel|]);
      cbn [t_bytes_loop].
    - eapply runs_bind; [apply runs_skip_label_t; [exact Hl|unfold is in *; rewrite Ht; discriminate]|].
      eapply runs_bind; [apply runs_peek_expect|]. rewrite kind_eqb_true by exact Ht.
      eapply runs_bind; [apply runs_skip|]. rewrite app_nil_r. apply runs_ret.
    - assert (Hk : ~ is CloseBracket e /\ forall s, ~ is (Label s) e).
      { destruct He as [He|He]; unfold is in *; rewrite He; split; intros; discriminate. }
      eapply runs_bind; [apply runs_skip_label_t; [exact Hl|apply Hk]|].
      eapply runs_bind; [apply runs_peek_expect|]. rewrite kind_eqb_false by apply Hk.
      eapply runs_bind; [eapply runs_byte_string; eassumption|].
      replace (acc ++ mkWT b e :: cs) with ((acc ++ [mkWT b e]) ++ cs) by (rewrite <- app_assoc; reflexivity). apply IH.
  Qed.
  Lemma runs_bits l t r : g_bits l (t :: r) -> ~ is (Directive Bits) t -> runs (t_bits_prefix src) l tt (t :: r).
  Proof.
    intros H Hn. inversion H as [l0|d u s l0 Hd Hu]; subst; unfold t_bits_prefix; (eapply runs_bind; [apply runs_peek|]); cbn [hd_error].
    - rewrite kind_eqb_false by exact Hn. apply runs_ret.
    - rewrite kind_eqb_true by exact Hd. eapply runs_bind; [apply runs_skip|]. eapply runs_bind; [apply runs_expect_next|].
      unfold is in Hu. rewrite Hu. apply runs_ret.
  Qed.
  Lemma runs_value f l v l' : g_value l v l' -> runs (t_property_value src f) l v l'.
  Proof.
    intros [l0 t s l1 Hb Ht|l0 t r x l1 Hb Ht Hr|l0 t l1 cs e l2 Hb Ht Hc|l0 t l1 cs e l2 Hb Ht Hc];
      unfold t_property_value; (eapply runs_bind; [apply runs_bits; [exact Hb|unfold is in *; rewrite Ht; discriminate]|]);
      (eapply runs_bind; [apply runs_expect_next|]); unfold is in Ht; rewrite Ht.
    - apply runs_ret.
    - eapply runs_bind; [apply runs_reference; exact Hr|]. apply runs_ret.
    - eapply runs_bind; [apply (runs_cells _ _ _ _ Hc f [])|]. apply runs_ret.
    - eapply runs_bind; [apply (runs_bytes _ _ _ _ Hc f [])|]. apply runs_ret.
  Qed.
  Lemma value_head l v l' : g_value l v l' -> exists t r, l = t :: r /\ forall s, ~ is (Label s) t.
  Proof.
    assert (B : forall l t r, g_bits l (t :: r) -> (forall s, ~ is (Label s) t) ->
              exists t' r', l = t' :: r' /\ forall s, ~ is (Label s) t').
    { intros l0 t r H Ht. inversion H as [l1|d u s l1 Hd Hu]; subst; eauto.
      eexists _, _. split; [reflexivity|]. unfold is in *. rewrite Hd. intros. discriminate. }
    intros [l0 t s l1 Hb Ht|l0 t r x l1 Hb Ht Hr|l0 t l1 cs e l2 Hb Ht Hc|l0 t l1 cs e l2 Hb Ht Hc];
      (eapply B; [exact Hb|]); unfold is in *; rewrite Ht; intros; discriminate.
  Qed.
  Lemma runs_values l vs l' : g_values l vs l' -> forall f acc, runs (t_property_values src f acc) l (acc ++ vs) l'.
  Proof.
    induction 1 as [l l1 v l2 l' Hl Hv Hl2 (t & r & -> & Hc & Hlab)|l l1 v l2 c l3 vs l' Hl Hv Hl2 Hc Hvs IH];
      intros f acc; (destruct f as [|f]; [apply runs_nofuel|]); cbn [t_property_values];
      pose proof (value_head _ _ _ Hv) as (h & r' & -> & Hh);
      (eapply runs_bind; [apply runs_skip_label_t; [exact Hl|exact Hh]|]);
      (eapply runs_bind; [apply runs_value; exact Hv|]).
    - eapply runs_bind.
      { apply runs_skip_label; [exact Hl2|]. intros E t' s r'' E'. injection E' as <- <-. apply (Hlab E). }
      eapply runs_bind; [apply runs_peek_expect|]. rewrite kind_eqb_false by exact Hc. apply runs_ret.
    - eapply runs_bind; [apply runs_skip_label_t; [exact Hl2|unfold is in *; rewrite Hc; discriminate]|].
      eapply runs_bind; [apply runs_peek_expect|]. rewrite kind_eqb_true by exact Hc.
      eapply runs_bind; [apply runs_skip|].
      replace (acc ++ v :: vs) with ((acc ++ [v]) ++ vs) by (rewrite <- app_assoc; reflexivity). apply IH.
  Qed.

  (** ** Statements *)
  Lemma fine_end l e l' n ds : g_end l e l' n -> fine (t_expect_semicolon src rl (mkTS l ds)) e l' ds n.
  Proof.
    intros [t l0 Ht|l0 H]; unfold t_expect_semicolon.
    - apply fine_runs. eapply runs_bind; [apply runs_peek|]. cbn [hd_error]. unfold is in Ht. rewrite Ht.
      intros ds'. right. reflexivity.
    - right. unfold t_bind, t_peek, t_last_pos, t_source, t_ret, t_push. destruct l0 as [|t r]; cbn [t_toks hd_error].
      + eexists. split; [reflexivity|]. split; [reflexivity|]. constructor; [|constructor]. eexists. reflexivity.
      + destruct (H t r eq_refl) as (H1 & H2 & H3). unfold is in *.
        destruct (tk_kind t) eqn:E; cbn [semicolon_skips]; try congruence;
          try (exfalso; eapply H2; reflexivity); try (exfalso; eapply H3; reflexivity);
          (eexists; split; [reflexivity|]; split; [reflexivity|]; constructor; [|constructor]; eexists; reflexivity).
  Qed.

  (** the label and omit prefixes of an item, as the parser reads them *)
  Lemma payload_close f acc nd l1 o l2 lb c l3 e l4 m ds :
    g_omit l1 o l2 -> g_label l2 lb (c :: l3) -> is CloseBrace c -> g_end l3 e l4 m ->
    fine (t_payload_loop src rl f acc nd (mkTS l1 ds)) (mkPayload acc (last_token e c)) l4 ds m.
  Proof.
    intros Ho Hlb Hc He. destruct f as [|f]; [left; reflexivity|]. cbn [t_payload_loop].
    assert (Hend : forall ds', fine ((let^ e := t_expect_semicolon src rl in t_ret (mkPayload acc (or_token e c))) (mkTS l3 ds'))
        (mkPayload acc (last_token e c)) l4 ds' m).
    { intros ds'. replace m with (m + 0)%nat by lia. eapply fine_bind_n; [apply fine_end; exact He|]. intros. apply fine_ret. }
    unfold is in Hc.
    inversion Ho as [l0|d l0 Hd]; subst; inversion Hlb as [l0'|t s l0' Ht Hs]; subst; unfold is in *;
      (eapply fine_bind; [apply runs_expect_next|]).
    - rewrite Hc. cbn [kind_eqb]. rewrite !kind_eqb_false by discriminate.
      eapply fine_bind; [apply runs_ret|]. cbv beta iota. rewrite Hc. eapply fine_bind; [apply runs_ret|]. cbv beta iota. rewrite Hc. apply Hend.
    - rewrite Ht, !kind_eqb_false by discriminate.
      eapply fine_bind; [apply runs_ret|]. cbv beta iota. rewrite Ht. eapply fine_bind.
      { eapply runs_bind; [apply runs_check_label; exact Hs|]. eapply runs_bind; [apply runs_expect_next|]. apply runs_ret. }
      cbv beta iota.      rewrite Hc. apply Hend.
    - rewrite Hd, kind_eqb_false, kind_eqb_false, kind_eqb_true by congruence.
      eapply fine_bind; [eapply runs_bind; [apply runs_expect_next|]; apply runs_ret|]. cbv beta iota.
      rewrite Hc. eapply fine_bind; [apply runs_ret|]. cbv beta iota. rewrite Hc. apply Hend.
    - rewrite Hd, kind_eqb_false, kind_eqb_false, kind_eqb_true by congruence.
      eapply fine_bind; [eapply runs_bind; [apply runs_expect_next|]; apply runs_ret|]. cbv beta iota.
      rewrite Ht. eapply fine_bind.
      { eapply runs_bind; [apply runs_check_label; exact Hs|]. eapply runs_bind; [apply runs_expect_next|]. apply runs_ret. }
      cbv beta iota.      rewrite Hc. apply Hend.
  Qed.

  Lemma runs_node_name t s nm l : is (Ident s) t -> node_text s nm -> legal_node_name nm ->
    runs (t_p_node_name src) (t :: l) (mkWT nm t) l.
  Proof.
    intros Ht Hn Hl. unfold t_p_node_name. eapply runs_bind; [apply runs_expect_next|]. unfold is in Ht. rewrite Ht.
    apply node_text_iff in Hn. rewrite Hn. eapply runs_bind; [apply runs_check_node; exact Hl|]. apply runs_ret.
  Qed.
  Lemma runs_property_name t s l : is (Ident s) t -> legal_property_name s ->
    runs (t_p_property_name src) (t :: l) (mkWT s t) l.
  Proof.
    intros Ht Hl. unfold t_p_property_name. eapply runs_bind; [apply runs_expect_next|]. unfold is in Ht. rewrite Ht.
    eapply runs_bind; [apply runs_check_property; exact Hl|]. apply runs_ret.
  Qed.

  (** the part of [t_payload_loop] after the prefixes *)
  Definition rest_of_item (f : nat) (items : list item) (nd : bool) (tok : token) (omit : option token)
    (label : option (wtok str)) : TM payload :=
      match tk_kind tok with
      | Ident s =>
        let^ t2 := t_peek_expect src in
        match tk_kind t2 with
        | OpenBrace =>
          let name := mkWT (node_name_of s) tok in
          t_check_is_node_name src (tk_span tok) (node_name_of s) ;^
          t_expect src OpenBrace ;^
          let^ pl := t_payload_loop src rl f [] false in
          t_payload_loop src rl f (items ++ [INode (mkNode label name pl omit)]) true
        | Equal =>
          t_skip_tok ;^
          t_check_is_property_name src (tk_span tok) s ;^
          let^ values := t_property_values src f [] in
          let^ e := t_expect_semicolon src rl in
          t_check_omit src omit ;^
          let p := mkProp label (mkWT s tok) values (or_token e t2) in
          t_check_order src nd p ;^
          t_payload_loop src rl f (items ++ [IProperty p]) nd
        | Semicolon =>
          t_skip_tok ;^
          t_check_is_property_name src (tk_span tok) s ;^
          let p := mkProp label (mkWT s tok) [] t2 in
          t_check_order src nd p ;^
          t_check_omit src omit ;^
          t_payload_loop src rl f (items ++ [IProperty p]) nd
        | _ =>
          let^ p := t_last_pos in
          let^ src := t_source src in
          t_throw (diag_expected (tk_span t2) src
                   [Semicolon; Equal; OpenBrace; Directive OmitIfNoRef])
        end
      | CloseBrace =>
        let^ e := t_expect_semicolon src rl in t_ret (mkPayload items (or_token e tok))
      | _ => t_throw (diag_expected (tk_span tok) (tk_source tok) [k_ident; CloseBrace])
      end.
  Lemma payload_prefix f acc nd l o l1 lb t s l2 pl l' n ds :
    g_omit l o l1 -> g_label l1 lb (t :: l2) -> is (Ident s) t ->
    fine (rest_of_item f acc nd t o lb (mkTS l2 ds)) pl l' ds n ->
    fine (t_payload_loop src rl (S f) acc nd (mkTS l ds)) pl l' ds n.
  Proof.
    intros Ho Hlb Hc Hend. cbn [t_payload_loop]. unfold is in Hc.
    inversion Ho as [l0|d l0 Hd]; subst; inversion Hlb as [l0'|u s' l0' Ht Hs]; subst; unfold is in *;
      (eapply fine_bind; [apply runs_expect_next|]).
    - rewrite Hc, !kind_eqb_false by discriminate.
      eapply fine_bind; [apply runs_ret|]. cbv beta iota. rewrite Hc. eapply fine_bind; [apply runs_ret|]. cbv beta iota. exact Hend.
    - rewrite Ht, !kind_eqb_false by discriminate.
      eapply fine_bind; [apply runs_ret|]. cbv beta iota. rewrite Ht. eapply fine_bind.
      { eapply runs_bind; [apply runs_check_label; exact Hs|]. eapply runs_bind; [apply runs_expect_next|]. apply runs_ret. }
      cbv beta iota.      exact Hend.
    - rewrite Hd, kind_eqb_false, kind_eqb_false, kind_eqb_true by congruence.
      eapply fine_bind; [eapply runs_bind; [apply runs_expect_next|]; apply runs_ret|]. cbv beta iota.
      rewrite Hc. eapply fine_bind; [apply runs_ret|]. cbv beta iota. exact Hend.
    - rewrite Hd, kind_eqb_false, kind_eqb_false, kind_eqb_true by congruence.
      eapply fine_bind; [eapply runs_bind; [apply runs_expect_next|]; apply runs_ret|]. cbv beta iota.
      rewrite Ht. eapply fine_bind.
      { eapply runs_bind; [apply runs_check_label; exact Hs|]. eapply runs_bind; [apply runs_expect_next|]. apply runs_ret. }
      cbv beta iota.      exact Hend.
  Qed.

  Lemma body_items_complete :
    (forall l pl l' n, g_body l pl l' n -> forall f ds,
       fine (t_payload_loop src rl f [] false (mkTS l ds)) pl l' ds n)
    /\ (forall seen l its l1 n, g_items seen l its l1 n -> forall f acc ds pl l' m,
       (forall f' seen' ds', fine (t_payload_loop src rl f' (acc ++ its) seen' (mkTS l1 ds')) pl l' ds' m) ->
       fine (t_payload_loop src rl f acc seen (mkTS l ds)) pl l' ds (n + m)).
  Proof.
    apply g_body_items_ind.
    - intros l its n l1 o l2 lb c l3 e l4 m _ IH Ho Hlb Hc He f ds.
      apply IH. intros f' seen' ds'. eapply payload_close; eassumption.
    - intros seen l f acc ds pl l' m H. specialize (H f seen ds). rewrite app_nil_r in H. exact H.
    - intros seen d t s nm l e l1 m its l2 n Hd Ht Hn Hl He _ IH f acc ds pl l' k HK.
      destruct f as [|f]; [left; reflexivity|]. cbn [t_payload_loop].
      eapply fine_bind; [apply runs_expect_next|]. unfold is in Hd. rewrite Hd, kind_eqb_true by reflexivity.
      eapply fine_bind; [eapply runs_node_name; eassumption|]. rewrite <- Nat.add_assoc.
      eapply fine_bind_n; [apply fine_end; exact He|]. intros ds'. apply IH. intros. rewrite <- app_assoc. apply HK.
    - intros seen d t s l e l1 m its l2 n Hd Ht Hl He _ IH f acc ds pl l' k HK.
      destruct f as [|f]; [left; reflexivity|]. cbn [t_payload_loop].
      eapply fine_bind; [apply runs_expect_next|]. unfold is in Hd. rewrite Hd, kind_eqb_false, kind_eqb_true by congruence.
      eapply fine_bind; [eapply runs_property_name; eassumption|]. rewrite <- Nat.add_assoc.
      eapply fine_bind_n; [apply fine_end; exact He|]. intros ds'. apply IH. intros. rewrite <- app_assoc. apply HK.
    - intros l lb t s q l1 vs l2 e l3 m its l4 n Hlb Ht Hs Hq Hvs He _ IH f acc ds pl l' k HK.
      destruct f as [|f]; [left; reflexivity|].
      eapply payload_prefix; [apply go_none|exact Hlb|exact Ht|]. unfold rest_of_item. unfold is in Ht, Hq. rewrite Ht.
      eapply fine_bind; [apply runs_peek_expect|]. rewrite Hq. eapply fine_bind; [apply runs_skip|].
      eapply fine_bind; [apply runs_check_property; exact Hs|].
      eapply fine_bind; [apply (runs_values _ _ _ Hvs f [])|]. rewrite <- Nat.add_assoc.
      eapply fine_bind_n; [apply fine_end; exact He|]. intros ds'. cbn [t_check_omit t_check_order app].
      eapply fine_bind; [apply runs_ret|]. eapply fine_bind; [apply runs_ret|].
      apply IH. intros. rewrite <- app_assoc. apply HK.
    - intros l lb t s e l1 its l2 n Hlb Ht Hs He _ IH f acc ds pl l' k HK.
      destruct f as [|f]; [left; reflexivity|].
      eapply payload_prefix; [apply go_none|exact Hlb|exact Ht|]. unfold rest_of_item. unfold is in Ht, He. rewrite Ht.
      eapply fine_bind; [apply runs_peek_expect|]. rewrite He. eapply fine_bind; [apply runs_skip|].
      eapply fine_bind; [apply runs_check_property; exact Hs|]. cbn [t_check_omit t_check_order].
      eapply fine_bind; [apply runs_ret|]. eapply fine_bind; [apply runs_ret|].
      apply IH. intros. rewrite <- app_assoc. apply HK.
    - intros seen l o l1 lb t s nm b l2 bp l3 m its l4 n Ho Hlb Ht Hn Hl Hb _ IHb _ IH f acc ds pl l' k HK.
      destruct f as [|f]; [left; reflexivity|].
      eapply payload_prefix; [exact Ho|exact Hlb|exact Ht|]. unfold rest_of_item. pose proof Hb as Hb'. unfold is in Ht, Hb. rewrite Ht.
      eapply fine_bind; [apply runs_peek_expect|]. rewrite Hb. apply node_text_iff in Hn. rewrite Hn.
      eapply fine_bind; [apply runs_check_node; exact Hl|].
      eapply fine_bind; [apply runs_expect; exact Hb'|]. rewrite <- Nat.add_assoc.
      eapply fine_bind_n; [apply IHb|]. intros ds'. apply IH. intros. rewrite <- app_assoc. apply HK.
  Qed.
  Lemma fine_body l pl l' n : g_body l pl l' n -> forall b f ds, is OpenBrace b ->
    fine (t_node_payload src rl f (mkTS (b :: l) ds)) pl l' ds n.
  Proof.
    intros H b f ds Hb. unfold t_node_payload. eapply fine_bind; [apply runs_expect; exact Hb|].
    apply (proj1 body_items_complete); exact H.
  Qed.
  Lemma runs_memreserve t s n l : is (UnparsedNumber s) t -> literal s n -> n < 2 ^ 64 ->
    runs (t_memreserve_number src) (t :: l) (mkWT n t) l.
  Proof.
    intros Ht Hs Hn. unfold t_memreserve_number. eapply runs_bind; [apply runs_expect_next|]. unfold is in Ht. rewrite Ht.
    rewrite (parse_literal u64_lim s n) by (try exact Hs; exact Hn || reflexivity). apply runs_ret.
  Qed.
  Lemma runs_parse_reference t r x l : is (Ref r) t -> ref_text r x ->
    runs (t_parse_reference src) (t :: l) (mkWT x t) l.
  Proof.
    intros Ht Hr. unfold t_parse_reference. eapply runs_bind; [apply runs_expect_next|]. unfold is in Ht. rewrite Ht.
    apply runs_reference. exact Hr.
  Qed.
  Lemma fine_end_ret {A} l e l' n ds (a : A) : g_end l e l' n ->
    fine ((t_expect_semicolon src rl ;^ t_ret a) (mkTS l ds)) a l' ds n.
  Proof.
    intros H. replace n with (n + 0)%nat by lia. eapply fine_bind_n; [apply fine_end; exact H|]. intros. apply fine_ret.
  Qed.
  Lemma fine_primary l p l' n : g_primary incl l p l' n -> forall f ds,
    fine (t_p_primary src incl rl f (mkTS l ds)) p l' ds n.
  Proof.
    intros H f ds. unfold t_p_primary.
    destruct H as [t l e l' m Ht He|t l e l' m Ht He|t a sa na b sb nb l e l' m Ht Ha La Na Hb Lb Nb He
      |t u s l Ht Hu|t u s l Ht Hu Hn|t b l pl l' m Ht Hb Hp|t r x b l pl l' m Ht Hr Hb Hp
      |d t r x l e l' m Hd Ht Hr He|d t r x l e l' m Hd Ht Hr He];
      (eapply fine_bind; [apply runs_expect_next|]).
    - unfold is in Ht. rewrite Ht. apply fine_end_ret with (e := e). exact He.
    - unfold is in Ht. rewrite Ht. apply fine_end_ret with (e := e). exact He.
    - unfold is in Ht. rewrite Ht.
      eapply fine_bind; [eapply runs_memreserve; [exact Ha|exact La|exact Na]|].
      eapply fine_bind; [eapply runs_memreserve; [exact Hb|exact Lb|exact Nb]|]. apply fine_end_ret with (e := e). exact He.
    - unfold is in Ht, Hu. rewrite Ht, (proj2 (str_eqb_spec _ _) eq_refl).
      eapply fine_bind; [apply runs_expect_next|]. rewrite Hu. apply fine_ret.
    - unfold is in Ht, Hu. rewrite Ht.
      eapply fine_bind; [apply runs_expect_next|]. rewrite Hu. eapply fine_bind; [apply runs_peek|].
      assert (E : match hd_error l with Some k => kind_eqb (tk_kind k) Semicolon = false | None => True end).
      { destruct l as [|k l]; [exact I|]. cbn. apply kind_eqb_false. exact (Hn k l eq_refl). }
      destruct (hd_error l); [rewrite E|]; (eapply fine_bind; [apply runs_ret|]);
        (eapply fine_bind; [apply (runs_ret incl)|]); apply fine_ret.
    - unfold is in Ht. rewrite Ht. replace m with (m + 0)%nat by lia.
      eapply fine_bind_n; [eapply fine_body; eassumption|]. intros. apply fine_ret.
    - unfold is in Ht. rewrite Ht. eapply fine_bind; [apply runs_reference; exact Hr|]. replace m with (m + 0)%nat by lia.
      eapply fine_bind_n; [eapply fine_body; eassumption|]. intros. apply fine_ret.
    - unfold is in Hd. rewrite Hd. eapply fine_bind; [eapply runs_parse_reference; eassumption|]. apply fine_end_ret with (e := e). exact He.
    - unfold is in Hd. rewrite Hd. eapply fine_bind; [eapply runs_parse_reference; eassumption|]. apply fine_end_ret with (e := e). exact He.
  Qed.
  Lemma primary_nonempty l p l' n : g_primary incl l p l' n -> exists t r, l = t :: r.
  Proof. intros []; eauto. Qed.
  Lemma fine_file_loop l ps n : g_file incl l ps n -> forall f acc ds,
    fine (t_file_loop src incl rl f acc (mkTS l ds)) (acc ++ ps) [] ds n.
  Proof.
    induction 1 as [|l p l' m ps n Hp _ IH]; intros f acc ds; (destruct f as [|f]; [left; reflexivity|]); cbn [t_file_loop].
    - eapply fine_bind; [apply runs_peek|]. cbn [hd_error]. rewrite app_nil_r. apply fine_ret.
    - destruct (primary_nonempty _ _ _ _ Hp) as (t & r & ->). eapply fine_bind; [apply runs_peek|]. cbn [hd_error].
      eapply fine_bind_n; [apply fine_primary; exact Hp|]. intros ds'.
      replace (acc ++ p :: ps) with ((acc ++ [p]) ++ ps) by (rewrite <- app_assoc; reflexivity). apply IH.
  Qed.
  Lemma fine_file l ps n f ds : g_file incl l ps n ->
    fine (t_p_file src incl rl f (mkTS l ds)) (mkFile ps src) [] ds n.
  Proof.
    intros H. unfold t_p_file. replace n with (n + 0)%nat by lia.
    eapply fine_bind_n; [apply (fine_file_loop _ _ _ H f [])|]. intros. cbn [app].
    eapply fine_bind; [apply runs_source|]. apply fine_ret.
  Qed.
End Complete.
