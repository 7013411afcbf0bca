(** Parser.v on a text behaves like TokParser.v on the tokens of the text *)
From Verif Require Import Parser LexSpec ReaderProofs Utf8 LexerProofs LexerProofs2 LexerProofs3
  ParserBase ParserSafe ParserSafe2 TokParser.
From Coq Require Import ZifyBool.

(** equal diagnostics, up to the place of expected/end of file diagnostics *)
Definition diag_sim (d d' : diag) : Prop :=
  dg_kind d = dg_kind d' /\ dg_source d = dg_source d' /\ dg_msg d = dg_msg d'
  /\ (dg_kind d = Expected \/ dg_kind d = UnexpectedEOF \/ dg_span d = dg_span d').
Lemma diag_sim_refl d : diag_sim d d.
Proof. unfold diag_sim. auto 6. Qed.
Lemma diag_sim_expected sp sp' src ks : diag_sim (diag_expected sp src ks) (diag_expected sp' src ks).
Proof. unfold diag_sim, diag_expected, diag_new. cbn. auto 10. Qed.
Lemma diag_sim_eof p p' src : diag_sim (eof_diag p src) (eof_diag p' src).
Proof. unfold diag_sim, eof_diag, diag_new. cbn. auto 10. Qed.

(** ** Tokens after a position where a name is expected *)
Fixpoint relex_go (src : fpath) (pre rest : list N) (p : position) : list token :=
  if pos_leb (pos_after pre) p && pos_leb p (pos_after pre) then
    match lex_all (mkLexer (mkReader rest (pos_after pre)) src ExpectingNodeOrPropertyName pos_zero) with
    | Done l => l
    | _ => []
    end
  else match rest with
       | [] => []
       | c :: r => relex_go src (pre ++ [c]) r p
       end.
Definition relex (text : list N) (src : fpath) (p : position) : list token := relex_go src [] text p.

Lemma pos_le_antisym p q : pos_le p q -> pos_le q p -> p = q.
Proof. destruct p, q. unfold pos_le. cbn. intros. f_equal; lia. Qed.

Lemma relex_spec text src pre rest : valid_utf8 text = true -> text = pre ++ rest ->
  lexed src NameExpected pre rest (relex text src (pos_after pre)).
Proof.
  intros Hv Ht. unfold relex.
  assert (G : forall t a, text = a ++ t -> (length a <= length pre)%nat ->
    lexed src NameExpected pre rest (relex_go src a t (pos_after pre))).
  { induction t as [|c t IH]; intros a Ha Hl; cbn [relex_go];
      destruct (pos_leb (pos_after a) (pos_after pre) && pos_leb (pos_after pre) (pos_after a)) eqn:E.
    1,3: (apply andb_true_iff in E; destruct E as [E1 E2]; apply pos_leb_spec in E1, E2;
      pose proof (pos_le_antisym _ _ E1 E2) as E;
      rewrite Ht in Ha; symmetry in Ha; destruct (pos_after_prefix_inj _ _ _ _ Ha E) as [-> <-];
      match goal with |- context [lex_all (mkLexer (mkReader ?t _) _ _ _)] =>
        destruct (lexed_total src NameExpected pre t) as [toks H];
        unfold lex_all; cbn [lx_rd rd_rest];
        rewrite (lex_all_complete src NameExpected pre t toks H);
          [exact H|reflexivity|rewrite <- Ht; exact Hv|lia] end).
    - exfalso. rewrite app_nil_r in Ha. rewrite Ht in Ha.
      assert (rest = []) as ->. { apply (f_equal (@length N)) in Ha. rewrite app_length in Ha. destruct rest; [reflexivity|cbn in Ha; lia]. }
      rewrite app_nil_r in Ha. subst a.
      rewrite (proj2 (pos_leb_spec _ _) (pos_le_refl _)) in E. discriminate.
    - apply IH; [rewrite <- app_assoc; exact Ha|]. rewrite app_length. cbn [length].
      destruct (Nat.eq_dec (length a) (length pre)) as [El|]; [|lia]. exfalso.
      rewrite Ht in Ha. assert (pre = a) as ->.
      { clear -Ha El. revert a Ha El. induction pre as [|x pre IH]; intros [|y a] Ha El; cbn in *; try lia; [reflexivity|].
        injection Ha as -> Ha. f_equal. apply IH; [exact Ha|lia]. }
      rewrite (proj2 (pos_leb_spec _ _) (pos_le_refl _)) in E. discriminate. }
  apply G; [reflexivity|cbn; lia].
Qed.

(** which diagnostics are not about missing semicolons *)
Lemma semi_expected sp sr ks : ks <> [Semicolon] -> ~ says_semicolon (diag_expected sp sr ks).
Proof.
  intros H [_ E]. cbn [diag_expected diag_new dg_msg] in E. destruct ks as [|k [|k' ks]]; [discriminate E| |discriminate E].
  destruct k; try discriminate E; try (apply H; reflexivity).
Qed.
Lemma semi_new sp sr k m : k <> Expected -> ~ says_semicolon (diag_new sp sr k m).
Proof. intros H [E _]. exact (H E). Qed.
Lemma semi_ident sp s p1 p2 c sr d : check_ident_diag sp s p1 p2 c sr = Some d -> ~ says_semicolon d.
Proof.
  unfold check_ident_diag. destruct (find_bad p1 0 (chars s)) as [[i ch]|]; [intros E; injection E as <-; apply semi_new; discriminate|].
  destruct (31 <? _); [intros E; injection E as <-; apply semi_new; discriminate|]. destruct (chars s) as [|x r]; [intros E; injection E as <-; apply semi_new; discriminate|].
  destruct (p2 x); [discriminate|intros E; injection E as <-; apply semi_new; discriminate].
Qed.

(** where the last of the tokens ends *)
Definition end_of (l : list token) : position := last (map tk_end l) pos_zero.
Lemma end_of_snoc l t : end_of (l ++ [t]) = tk_end t.
Proof. unfold end_of. rewrite map_app. cbn [map]. apply last_last. Qed.

Section Sim.
  (** [toks0] are all the tokens of the text *)
  Context (text : list N) (src : fpath) (incl : list fpath) (toks0 : list token).
  Hypothesis text_valid : utf8 text.
  Notation view := (view text src).
  Notation rl := (relex text src).

  (** without unknown characters the tokens to come are those behind the last token taken *)
  Definition upto (p : position) (l : list token) : Prop := Forall known toks0 -> exists c, toks0 = c ++ l /\ p = end_of c.
  (** ... and a missing semicolon is put behind the last token taken, or behind the last comment after it *)
  Definition behind (d d' : diag) : Prop := exists c l x v y, toks0 = c ++ l /\ d' = t_missing src l
    /\ text = x ++ v ++ y /\ (x = [] \/ ends_token text x) /\ pos_after x = end_of c
    /\ match l with
       | [] => dg_span d = as_span (pos_after (x ++ v)) /\ (v = [] \/ ends_comment v \/ y = []) /\ no_more (v ++ y)
       | t :: _ => dg_span d = as_char_span (pos_after (x ++ v)) /\ (v = [] \/ ends_comment v)
         /\ exists w u m r, y = w ++ u ++ r /\ gap (v ++ w) /\ Forall ws_char w /\ spells m (tk_kind t) u r /\ tk_start t = pos_after (x ++ v ++ w)
       end.
  (** everything else is the same, places included *)
  Definition alike (d d' : diag) : Prop := says_semicolon d' \/ dg_kind d' = UnexpectedEOF \/ d = d'.
  Definition push_sim (d d' : diag) : Prop :=
    (diag_sim d d' /\ alike d d') /\ (Forall known toks0 -> says_semicolon d' -> behind d d').
  Lemma push_quiet d d' : diag_sim d d' -> dg_kind d' = UnexpectedEOF \/ d = d' -> ~ says_semicolon d' -> push_sim d d'.
  Proof. intros H A N. split; [split; [exact H|right; exact A]|]. intros _ S. destruct (N S). Qed.
  Lemma push_refl d : ~ says_semicolon d -> push_sim d d.
  Proof. intros N. apply push_quiet; [apply diag_sim_refl|right; reflexivity|exact N]. Qed.
  Lemma alike_expected sp sp' sr : alike (diag_expected sp sr [Semicolon]) (diag_expected sp' sr [Semicolon]).
  Proof. left. split; reflexivity. Qed.
  Definition rel (s : pstate) (st : tstate) : Prop :=
    (exists p, view s p (t_toks st) /\ upto p (t_toks st)) /\ Forall2 push_sim (ps_diags s) (t_diags st) /\ ps_incl s = incl.

  (** an error of the parser and the error of the token-level parser, which is put at the token it is about: at the same place,
      or before the end of the token with nothing but blanks and comments before the token *)
  Definition near (d d' : diag) : Prop := dg_span d = dg_span d'
    \/ exists x g r, text = x ++ g ++ r /\ gap g /\ span_start (dg_span d') = pos_after (x ++ g)
         /\ pos_le (pos_after x) (span_start (dg_span d)) /\ pos_le (span_start (dg_span d)) (span_end (dg_span d')).
  Definition err_sim (d d' : diag) : Prop := diag_sim d d' /\ (dg_kind d = UnexpectedEOF \/ near d d').
  Lemma err_sim_refl d : err_sim d d.
  Proof. split; [apply diag_sim_refl|right; left; reflexivity]. Qed.
  Lemma err_diag d d' : err_sim d d' -> diag_sim d d'.
  Proof. apply proj1. Qed.
  Lemma err_sim_eof p p' sr : err_sim (eof_diag p sr) (eof_diag p' sr).
  Proof. split; [apply diag_sim_eof|left; reflexivity]. Qed.

  Definition rel_res {A B} (R : A -> B -> Prop) (r : res A) (t : tres B) : Prop :=
    match r, t with
    | ROk a s, TOk b st => R a b /\ rel s st
    | RErr d s, TErr d' st => err_sim d d' /\ rel s st
    | RNoFuel, TBad | RPanic, TBad => True
    | _, _ => False
    end.
  Definition sim {A B} (R : A -> B -> Prop) (m : M A) (t : TM B) : Prop :=
    forall s st, rel s st -> rel_res R (m s) (t st).

  Lemma sim_ret {A B} (R : A -> B -> Prop) a b : R a b -> sim R (ret a) (t_ret b).
  Proof. intros H s st Hr. split; assumption. Qed.
  Lemma sim_throw {A B} (R : A -> B -> Prop) d d' : err_sim d d' -> sim R (throw d) (t_throw d').
  Proof. intros H s st Hr. split; assumption. Qed.
  Lemma sim_nofuel {A B} (R : A -> B -> Prop) : sim R no_fuel t_no_fuel.
  Proof. intros s st Hr. exact I. Qed.
  Lemma sim_panic {A B} (R : A -> B -> Prop) : sim R panic t_panic.
  Proof. intros s st Hr. exact I. Qed.
  Lemma sim_bind {A B A' B'} (R : A -> B -> Prop) (R' : A' -> B' -> Prop) m t k k' :
    sim R m t -> (forall a b, R a b -> sim R' (k a) (k' b)) -> sim R' (bind m k) (t_bind t k').
  Proof.
    intros Hm Hk s st Hr. specialize (Hm s st Hr). unfold bind, t_bind, rel_res in *.
    destruct (m s), (t st); try contradiction; try exact I; [|exact Hm].
    destruct Hm as [Ha Hs]. exact (Hk _ _ Ha _ _ Hs).
  Qed.
  Lemma sim_catch {A B A' B'} (R : A -> B -> Prop) (R' : A' -> B' -> Prop) m t k k' g g' :
    sim R m t -> (forall a b, R a b -> sim R' (k a) (k' b)) ->
    (forall d d', (exists s s' st st', rel s st /\ m s = RErr d s' /\ t st = TErr d' st') -> err_sim d d' -> sim R' (g d) (g' d')) -> sim R' (catch m k g) (t_catch t k' g').
  Proof.
    intros Hm Hk Hg s st Hr. specialize (Hm s st Hr). unfold catch, t_catch, rel_res in *.
    destruct (m s) as [a s1|d s1| |] eqn:E', (t st) as [b st1|d' st1|] eqn:E; try contradiction; try exact I; destruct Hm as [Ha Hs].
    - exact (Hk _ _ Ha _ _ Hs).
    - refine (Hg _ _ _ Ha _ _ Hs). exists s, s1, st, st1. auto.
  Qed.
  Lemma sim_push d d' : push_sim d d' -> sim eq (push d) (t_push d').
  Proof.
    intros H s st ((p & Hv) & Hd & Hi). split; [reflexivity|]. split; [exists p; exact Hv|]. split; [|exact Hi].
    cbn. apply Forall2_app; auto.
  Qed.
  Lemma sim_push_opt o : (forall d, o = Some d -> ~ says_semicolon d) -> sim eq (push_opt o) (t_push_opt o).
  Proof. intros H. destruct o; [apply sim_push, push_refl, H; reflexivity|apply sim_ret; reflexivity]. Qed.
  Lemma sim_last_pos : sim (fun _ _ => True) last_pos t_last_pos.
  Proof. intros s st Hr. split; [exact I|exact Hr]. Qed.
  Lemma sim_here : sim (fun _ _ => True) last_pos t_here.
  Proof. intros s st Hr. split; [exact I|exact Hr]. Qed.
  Lemma sim_cur_pos : sim (fun _ _ => True) cur_pos t_cur_pos.
  Proof. intros s st Hr. split; [exact I|exact Hr]. Qed.
  Lemma sim_source : sim eq source (t_source src).
  Proof. intros s st Hr. split; [|exact Hr]. destruct Hr as ((p & Hv & _) & _). apply Hv. Qed.
  Lemma sim_include_paths : sim eq include_paths (t_include_paths incl).
  Proof. intros s st Hr. split; [apply Hr|exact Hr]. Qed.

  Lemma same_rel s s' p toks toks' ds : rel s (mkTS toks ds) -> view s' p toks' -> upto p toks' -> same_diags s s' ->
    rel s' (mkTS toks' ds).
  Proof.
    intros (_ & Hd & Hi) Hv Hu [E1 E2]. split; [exists p; split; [exact Hv|exact Hu]|]. cbn [t_diags] in *. rewrite E1, E2. auto.
  Qed.
  Lemma upto_next p t l : upto p (t :: l) -> upto (tk_end t) l.
  Proof.
    intros H K. destruct (H K) as (c & E & _). exists (c ++ [t]). rewrite <- app_assoc, end_of_snoc. split; [exact E|reflexivity].
  Qed.
  Lemma sim_peek : sim eq peek t_peek.
  Proof.
    intros s [toks ds] Hr. pose proof Hr as ((p & Hv & Hu) & _). cbn [t_toks] in Hv.
    unfold t_peek, rel_res. cbn [t_toks].
    pose proof (wp_peek text src text_valid s p toks
      (fun o s' => o = hd_error toks /\ rel s' (mkTS toks ds)) (fun _ _ => False) Hv) as H.
    unfold wp in H. destruct (peek s); apply H; intros s' Hv' Hd _ _; (split; [reflexivity|]);
      eapply same_rel; eassumption.
  Qed.
  Lemma sim_next : sim eq next t_next.
  Proof.
    intros s [toks ds] Hr. pose proof Hr as ((p & Hv & Hu) & _). cbn [t_toks] in Hv.
    unfold t_next, rel_res. cbn [t_toks t_diags].
    pose proof (wp_next text src text_valid s p toks
      (fun o s' => o = hd_error toks /\ rel s' (mkTS (tl toks) ds)) (fun _ _ => False) Hv) as H.
    unfold wp in H. destruct (next s); apply H; destruct toks as [|t toks]; intros; (split; [reflexivity|]);
      (eapply same_rel; [eassumption|eassumption|first [exact Hu|exact (upto_next _ _ _ Hu)]|assumption]).
  Qed.
  Lemma sim_conseq {A B} (R R' : A -> B -> Prop) m t : (forall a b, R a b -> R' a b) -> sim R m t -> sim R' m t.
  Proof.
    intros H Hm s st Hr. specialize (Hm s st Hr). unfold rel_res in *.
    destruct (m s), (t st); try contradiction; auto. destruct Hm. auto.
  Qed.

  (** taking a token that was looked at and changing the mode *)
  Lemma next_fresh s p t toks : view s p (t :: toks) ->
    wp next s (fun o s' => o = Some t /\ same_diags s s' /\ lx_src (pl_lex (ps_lex s')) = src
       /\ peeked_of s' = None /\ exists pre, tk_end t = pos_after pre /\ (pre = [] \/ ends_token text pre) /\ text = pre ++ rest_of s'
            /\ pos_of s' = pos_after pre /\ exists a post, text = a ++ post /\ last_of s' = pos_after a)
      (fun _ _ => False).
  Proof.
    intros Hv. set (Q' := fun (o : option token) s' => o = Some t
      /\ view s' p (t :: toks) /\ same_diags s s' /\ peeked_of s' = Some (Some t)).
    assert (Hp : wp peek s Q' (fun _ _ => False)).
    { apply (wp_peek text src text_valid s p (t :: toks) Q' _ Hv). unfold Q'. auto. }
    unfold wp, peek, next, lift_pl in *.
    destruct (pl_peek (ps_lex s)) as [[o pl']| |] eqn:Ep; try contradiction.
    rewrite (pl_next_after_peek _ _ _ Ep). unfold Q' in Hp. destruct Hp as (-> & Hv' & Hd & Hk).
    destruct pl' as [lx pk]. unfold peeked_of in Hk. cbn [ps_lex pl_peeked pl_lex] in *. subst pk.
    destruct Hv' as (Hs & pre & -> & _ & m & v & w & u & toks' & E' & Hg & Hw & H1 & H2 & H3 & H4 & H5 & H6).
    split; [reflexivity|]. split; [exact Hd|]. split; [exact Hs|]. split; [reflexivity|].
    exists (pre ++ v ++ w ++ u). unfold rest_of, pos_of, last_of in *. cbn [ps_lex pl_lex] in *.
    split; [rewrite H3; reflexivity|]. split.
    { right. exists m, (tk_kind t), (pre ++ v ++ w), u. eexists. rewrite <- !app_assoc. eauto. }
    split; [rewrite <- !app_assoc; exact H1|].
    split; [rewrite H5, H3; reflexivity|]. exists (pre ++ v), (w ++ u ++ rd_rest (lx_rd lx)).
    rewrite <- !app_assoc. auto.
  Qed.

  Definition skip_unknown : M span :=
    let! t2 := expect_next in insert_pseudo_kind Semicolon ;; ret (tk_span t2).
  Definition t_skip_unknown : TM span :=
    let^ t2 := t_expect_next src in t_relex rl t2 ;^ t_ret (tk_span t2).
  Lemma sim_skip_unknown s st : rel s st -> (forall t, hd_error (t_toks st) = Some t -> ~ known t) -> rel_res eq (skip_unknown s) (t_skip_unknown st).
  Proof.
    revert st. intros [toks ds] Hr Hun. pose proof Hr as ((p & Hv & Hu) & Hd & Hi). cbn [t_toks t_diags] in *.
    destruct toks as [|t toks].
    - assert (H : wp next s (fun o s' => o = None /\ rel s' (mkTS [] ds)) (fun _ _ => False)).
      { apply (wp_next text src text_valid s p [] _ _ Hv). intros; split; [reflexivity|eapply same_rel; eassumption]. }
      unfold skip_unknown, expect_next, t_skip_unknown, t_expect_next, bind, t_bind, cur_pos, t_cur_pos, t_next, t_ret, t_source.
      unfold wp in H. cbn [t_toks t_diags hd_error tl]. destruct (next s) as [o s'| | |]; try contradiction.
      destruct H as [-> H']. unfold source, throw, t_throw, rel_res. split; [|exact H'].
      destruct H' as ((p' & Hv' & _) & _). destruct Hv' as [-> _]. apply err_sim_eof.
    - pose proof (next_fresh s p t toks Hv) as H.
      unfold skip_unknown, expect_next, t_skip_unknown, t_expect_next, bind, t_bind, cur_pos, t_cur_pos, t_next, t_ret, t_source.
      unfold wp in H. cbn [t_toks t_diags hd_error tl]. destruct (next s) as [o s'| | |]; try contradiction.
      destruct H as (-> & [E1 E2] & Hs & Hk & pre & He & Hpre & Ht & Hp & a & post & Ha & Hl).
      unfold source, ret, insert_pseudo_kind, t_relex, rel_res. split; [reflexivity|].
      split; [|cbn [ps_diags ps_incl t_diags]; rewrite E1, E2; auto].
      exists (tk_end t). cbn [t_toks]. split.
      2:{ intros K. destruct (Hu K) as (c & Ec & _). exfalso. apply (Hun t eq_refl). rewrite Ec in K. apply Forall_app in K. exact (Forall_inv (proj2 K)). }
      split; [exact Hs|]. exists pre. split; [exact He|]. split; [exact Hpre|].
      unfold peeked_of in *. cbn [ps_lex pl_peeked]. rewrite Hk. left.
      unfold rest_of, pos_of, last_of, lex_mode in *. cbn [ps_lex pl_lex lex_insert_pseudo_kind lx_rd lx_state lx_last mode_of].
      split; [exact Ht|]. split; [rewrite He; exact Hp|]. split; [rewrite He; apply relex_spec; assumption|].
      exists a, post. auto.
  Qed.

  (** ** The place of an error *)
  Lemma next_near s p t toks : view s p (t :: toks) -> exists pre v w u rest,
    text = pre ++ v ++ w ++ u ++ rest /\ gap (v ++ w) /\ tk_start t = pos_after (pre ++ v ++ w)
    /\ tk_end t = pos_after (pre ++ v ++ w ++ u) /\ (0 < length u)%nat
    /\ (pos_of s = pos_after pre \/ pos_of s = tk_end t)
    /\ wp peek s (fun o s' => o = Some t /\ last_of s' = pos_after (pre ++ v)) (fun _ _ => False)
    /\ wp next s (fun o s' => o = Some t /\ last_of s' = pos_after (pre ++ v)) (fun _ _ => False).
  Proof.
    intros Hv. set (Q' := fun (o : option token) s' => o = Some t
      /\ view s' p (t :: toks) /\ peeked_of s' = Some (Some t)).
    assert (Hp : wp peek s Q' (fun _ _ => False)).
    { apply (wp_peek text src text_valid s p (t :: toks) Q' _ Hv). unfold Q'. auto. }
    assert (Hc : pos_of s = p \/ pos_of s = tk_end t).
    { destruct Hv as (_ & pre & -> & _ & Hv). destruct (peeked_of s) as [[t'|]|].
      - destruct Hv as (m & v & w & u & toks' & E & Hv). injection E as <- _. right. apply Hv.
      - destruct Hv as (E & _). discriminate E.
      - destruct Hv as [Hv|(E & _)]; [left; apply Hv|discriminate E]. }
    unfold wp, peek, next, lift_pl in *.
    destruct (pl_peek (ps_lex s)) as [[o pl']| |] eqn:Ep; try contradiction.
    rewrite (pl_next_after_peek _ _ _ Ep). unfold Q' in Hp. destruct Hp as (-> & Hv' & Hk).
    destruct pl' as [lx pk]. unfold peeked_of in Hk. cbn [ps_lex pl_peeked pl_lex] in *. subst pk.
    destruct Hv' as (_ & pre & -> & _ & m & v & w & u & toks' & E' & Hg & Hw & H1 & H2 & H3 & H4 & H5 & H6).
    exists pre, v, w, u, (rd_rest (lx_rd lx)). unfold rest_of, pos_of, last_of in *. cbn [ps_lex pl_lex] in *.
    split; [exact H1|]. split; [apply Hg|]. split; [rewrite H3; reflexivity|]. split; [rewrite H3; reflexivity|].
    split; [eapply spells_nonempty; exact H2|]. auto.
  Qed.
  Lemma near_at pre g u rest t q sr ks ks' : text = pre ++ g ++ u ++ rest -> gap g -> tk_start t = pos_after (pre ++ g) ->
    tk_end t = pos_after (pre ++ g ++ u) -> pos_le (pos_after pre) q -> pos_le q (tk_end t) -> ks = ks' ->
    err_sim (diag_expected (as_span q) sr ks) (diag_expected (tk_span t) sr ks').
  Proof.
    intros Ht Hg Hs He H1 H2 <-. split; [apply diag_sim_expected|]. right. right. exists pre, g, (u ++ rest).
    cbn [diag_expected diag_new dg_span as_span span_start span_end]. auto.
  Qed.
  Lemma offset_in a c b : pos_le (pos_offset (pos_after a) 1) (pos_after (a ++ c :: b)).
  Proof.
    change (c :: b) with ([c] ++ b). rewrite app_assoc. eapply pos_le_trans; [|apply pos_after_le].
    rewrite pos_after_snoc. unfold advance, pos_le, pos_offset. destruct (c =? cNL); cbn; lia.
  Qed.

  (** ** The functions *)
  Create HintDb sim.
  Hint Resolve diag_sim_refl diag_sim_expected diag_sim_eof err_sim_refl err_sim_eof err_diag sim_nofuel sim_panic sim_last_pos sim_here
    sim_cur_pos sim_source sim_include_paths sim_peek sim_next : sim.
  Ltac sim_step :=
    first
      [ progress intros
      | match goal with
        | H : (_, _) = (_, _) |- _ => injection H as <- <-
        | H : ?a = ?b |- _ => (is_var b; subst b) || (is_var a; subst a)
        | p : (_ * _)%type |- _ => destruct p
        end
      | apply sim_ret; reflexivity
      | apply sim_throw; solve [auto with sim]
      | apply sim_push; solve [auto with sim]
      | apply sim_push, push_refl; first [apply semi_expected; discriminate|apply semi_new; discriminate]
      | solve [auto with sim]
      | eapply sim_bind; [solve [eauto with sim]|]
      | match goal with
        | |- sim _ (match ?x with _ => _ end) _ => destruct x eqn:?
        | |- sim _ (if ?x then _ else _) _ => destruct x eqn:?
        end
      | eapply sim_bind ].
  Ltac sim_tac := repeat sim_step.

  Lemma sim_expect_next : sim eq expect_next (t_expect_next src).
  Proof. unfold expect_next, t_expect_next. sim_tac. Qed.
  Lemma sim_peek_expect : sim eq peek_expect (t_peek_expect src).
  Proof. unfold peek_expect, t_peek_expect. sim_tac. Qed.
  Lemma sim_expect k : sim eq (expect k) (t_expect src k).
  Proof.
    intros s [toks ds] Hr. pose proof Hr as ((p & Hv & Hu) & _). cbn [t_toks] in Hv.
    pose proof (sim_next s _ Hr) as Hn. unfold expect, t_expect, bind, t_bind, cur_pos, t_cur_pos, t_ret in *.
    unfold t_next in *. cbn [t_toks t_diags] in *. destruct toks as [|t toks]; cbn [hd_error tl] in *.
    - unfold rel_res in Hn. destruct (next s) as [o s'| | |]; try contradiction. destruct Hn as [-> Hn].
      unfold source, throw, t_throw, rel_res. split; [|exact Hn]. destruct Hn as ((p' & Hv' & _) & _). destruct Hv' as [-> _]. apply err_sim_eof.
    - destruct (next_near s p t toks Hv) as (pre & v & w & u & rest & H1 & H2 & H3 & H4 & H5 & H6 & _ & H7).
      unfold rel_res, wp in Hn, H7. destruct (next s) as [o s'| | |]; try contradiction. destruct Hn as [-> Hn].
      unfold source. destruct (kind_eqb (tk_kind t) k); [split; [reflexivity|exact Hn]|].
      unfold throw, t_throw, rel_res. split; [|exact Hn]. pose proof Hn as ((p' & Hv' & _) & _). destruct Hv' as [-> _].
      apply (near_at pre (v ++ w) u rest); rewrite <- ?app_assoc; auto.
      + change (lex_pos (pl_lex (ps_lex s))) with (pos_of s). destruct H6 as [-> | ->]; [apply pos_le_refl|rewrite H4; apply pos_after_le].
      + change (lex_pos (pl_lex (ps_lex s))) with (pos_of s). destruct H6 as [-> | ->]; [rewrite H4; apply pos_after_le|apply pos_le_refl].
  Qed.
  Lemma sim_skip_tok : sim eq skip_tok t_skip_tok.
  Proof. unfold skip_tok, t_skip_tok. sim_tac. Qed.
  Hint Resolve sim_expect_next sim_peek_expect sim_expect sim_skip_tok : sim.
  Lemma sim_check_ident sp s p1 p2 ctx : sim eq (check_ident sp s p1 p2 ctx) (t_check_ident src sp s p1 p2 ctx).
  Proof.
    unfold check_ident, t_check_ident. sim_tac. apply sim_push_opt. intros d E. exact (semi_ident _ _ _ _ _ _ _ E).
  Qed.
  Hint Resolve sim_check_ident : sim.
  Lemma sim_check_is_label sp s : sim eq (check_is_label sp s) (t_check_is_label src sp s).
  Proof. unfold check_is_label, t_check_is_label. sim_tac. Qed.
  Lemma sim_check_is_property_name sp s : sim eq (check_is_property_name sp s) (t_check_is_property_name src sp s).
  Proof. unfold check_is_property_name, t_check_is_property_name. sim_tac. Qed.
  Lemma sim_check_is_node_name sp s : sim eq (check_is_node_name sp s) (t_check_is_node_name src sp s).
  Proof. unfold check_is_node_name, t_check_is_node_name. sim_tac. Qed.
  Hint Resolve sim_check_is_label sim_check_is_property_name sim_check_is_node_name : sim.
  Lemma sim_check_path sp p : sim eq (check_path sp p) (t_check_path src sp p).
  Proof. induction p; cbn [check_path t_check_path]; sim_tac. Qed.
  Hint Resolve sim_check_path : sim.
  Lemma sim_reference t r : sim eq (p_reference t r) (t_p_reference src t r).
  Proof. unfold p_reference, t_p_reference. destruct r; sim_tac. Qed.
  Hint Resolve sim_reference : sim.
  Lemma sim_skip_expression f : forall d, sim eq (skip_expression f d) (t_skip_expression f d).
  Proof. induction f; intros d; cbn [skip_expression t_skip_expression]; sim_tac. Qed.
  Hint Resolve sim_skip_expression : sim.
  Lemma sim_number_u32 f : sim eq (number_u32 f) (t_number_u32 src f).
  Proof. unfold number_u32, t_number_u32. sim_tac. Qed.
  (** the errors of the function for a cell *)
  Definition mild {A} (m : TM A) : Prop := forall st d st', m st = TErr d st' -> ~ says_semicolon d.
  Lemma mild_ret {A} (a : A) : mild (t_ret a).
  Proof. intros st d st' E. discriminate E. Qed.
  Lemma mild_push d0 : mild (t_push d0).
  Proof. intros st d st' E. discriminate E. Qed.
  Lemma mild_throw {A} d0 : ~ says_semicolon d0 -> mild (@t_throw A d0).
  Proof. intros H st d st' E. injection E as <- _. exact H. Qed.
  Lemma mild_bind {A B} (m : TM A) (k : A -> TM B) : mild m -> (forall a, mild (k a)) -> mild (t_bind m k).
  Proof. intros Hm Hk st d st' E. unfold t_bind in E. destruct (m st) eqn:E1; [exact (Hk _ _ _ _ E)|injection E as <- _; exact (Hm _ _ _ E1)|discriminate E]. Qed.
  Create HintDb mild.
  Ltac mild_tac := repeat first
    [ progress intros | solve [auto with mild]
    | apply mild_ret | apply mild_push | apply mild_bind
    | apply mild_throw; first [apply semi_expected; discriminate|apply semi_new; discriminate]
    | match goal with
      | |- mild (match ?x with _ => _ end) => destruct x eqn:?
      | |- mild (if ?x then _ else _) => destruct x eqn:?
      end
    | solve [auto] | intros ? ? ? E; discriminate E ].
  Lemma mild_check sp s p1 p2 c : mild (t_check_ident src sp s p1 p2 c).
  Proof. unfold t_check_ident, t_source. mild_tac. destruct (check_ident_diag _ _ _ _ _ _); cbn [t_push_opt]; mild_tac. Qed.
  Hint Resolve mild_check : mild.
  Lemma mild_path sp p : mild (t_check_path src sp p).
  Proof. induction p; cbn [t_check_path]; unfold t_check_is_node_name; mild_tac. Qed.
  Lemma mild_expression f : forall d, mild (t_skip_expression f d).
  Proof. induction f; intros d; cbn [t_skip_expression]; unfold t_skip_tok, t_no_fuel, t_peek, t_next; mild_tac. Qed.
  Hint Resolve mild_path mild_expression : mild.
  Lemma number_error f : mild (t_number_u32 src f).
  Proof.
    unfold t_number_u32, t_expect_next, t_cur_pos, t_source, t_next, t_peek, t_p_reference, t_check_is_label. mild_tac.
  Qed.
  (** after its first token it does not fail, and the failure before is about that token *)
  Definition sure {A} (m : TM A) : Prop := forall st d st', m st <> TErr d st'.
  Lemma sure_bind {A B} (m : TM A) (k : A -> TM B) : sure m -> (forall a, sure (k a)) -> sure (t_bind m k).
  Proof.
    intros Hm Hk st d st'. unfold t_bind. destruct (m st) eqn:E; [apply Hk|exfalso; eapply Hm; exact E|discriminate].
  Qed.
  Ltac sure_tac := repeat first
    [ progress intros
    | match goal with
      | H : forall _, sure _ |- _ => apply H
      | H : sure _ |- _ => exact H
      | |- sure (t_bind _ _) => apply sure_bind
      | |- sure (match ?x with _ => _ end) => destruct x
      | |- sure (if ?x then _ else _) => destruct x
      end
    | intros ? ? ?; discriminate ].
  Lemma sure_check_ident sp s p1 p2 ctx : sure (t_check_ident src sp s p1 p2 ctx).
  Proof. unfold t_check_ident, t_push_opt. sure_tac. Qed.
  Lemma sure_node sp n : sure (t_check_is_node_name src sp n).
  Proof. pose proof sure_check_ident. unfold t_check_is_node_name. sure_tac; apply H. Qed.
  Lemma sure_path sp p : sure (t_check_path src sp p).
  Proof. induction p; cbn [t_check_path]; sure_tac. apply sure_node. Qed.
  Lemma sure_reference t r : sure (t_p_reference src t r).
  Proof.
    unfold t_p_reference, t_check_is_label. destruct r; apply sure_bind; try (apply sure_check_ident); sure_tac. apply sure_path.
  Qed.
  Lemma sure_expression f : forall n, sure (t_skip_expression f n).
  Proof. induction f; intros n; cbn [t_skip_expression]; unfold t_skip_tok; sure_tac. Qed.
  Lemma number_same f s s' st st' d d' : rel s st -> number_u32 f s = RErr d s' -> t_number_u32 src f st = TErr d' st' ->
    dg_kind d' = UnexpectedEOF \/ d = d'.
  Proof.
    intros Hr. pose proof (sim_expect_next s st Hr) as H. unfold number_u32, t_number_u32, bind at 1, t_bind at 1.
    assert (He : forall d1 st1, t_expect_next src st = TErr d1 st1 -> dg_kind d1 = UnexpectedEOF).
    { intros d1 st1. unfold t_expect_next, t_bind, t_cur_pos, t_next, t_source, t_ret, t_throw.
      destruct (hd_error (t_toks st)); [discriminate|]. intros E. injection E as <- <-. reflexivity. }
    unfold rel_res in H. destruct (expect_next s) as [t s1|d1 s1| |], (t_expect_next src st) as [t' st1|d1' st1|] eqn:E; try contradiction;
      try (intros; discriminate).
    - destruct H as [<- _]. intros E1 E2. right.
      destruct (tk_kind t);
        try (unfold throw in E1; unfold t_throw in E2; injection E1 as <- _; injection E2 as <- _; reflexivity); exfalso.
      + revert E2. apply sure_bind; [apply sure_expression|]. intros _. sure_tac.
      + revert E2. match goal with |- ?m _ = _ -> _ => assert (K : sure m) by sure_tac end. apply K.
      + revert E2. apply sure_bind; [apply sure_reference|]. sure_tac.
    - intros _ E2. injection E2 as <- _. left. eapply He. reflexivity.
  Qed.
  Lemma sim_memreserve_number : sim eq memreserve_number (t_memreserve_number src).
  Proof.
    intros s [toks ds] Hr. pose proof Hr as ((p & Hv & Hu) & _). cbn [t_toks] in Hv.
    pose proof (sim_next s _ Hr) as Hn.
    unfold memreserve_number, t_memreserve_number, expect_next, t_expect_next, bind, t_bind, cur_pos, t_cur_pos, t_source, t_ret, source, ret in *.
    unfold t_next in *. cbn [t_toks t_diags] in *. destruct toks as [|t toks]; cbn [hd_error tl] in *.
    - unfold rel_res in Hn. destruct (next s) as [o s'| | |]; try contradiction. destruct Hn as [-> Hn].
      unfold source, throw, t_throw, rel_res. split; [|exact Hn]. destruct Hn as ((p' & Hv' & _) & _). destruct Hv' as [-> _]. apply err_sim_eof.
    - destruct (next_near s p t toks Hv) as (pre & v & w & u & rest & H1 & H2 & H3 & H4 & H5 & _ & _ & H7).
      unfold rel_res, wp in Hn, H7. destruct (next s) as [o s'| | |]; try contradiction. destruct Hn as [-> Hn].
      assert (Ht : rel_res (@eq (wtok N)) (throw (diag_expected (as_span (pos_offset (last_of s') 1)) src [k_num]) s')
        (t_throw (diag_expected (tk_span t) src [k_num]) (mkTS toks ds))).
      { split; [|exact Hn]. destruct H7 as [_ ->].
        apply (near_at pre (v ++ w) u rest); rewrite <- ?app_assoc; auto.
        - eapply pos_le_trans; [apply (pos_after_le pre v)|].
          rewrite <- (pos_offset_0 (pos_after (pre ++ v))) at 1. apply pos_offset_le. lia.
        - rewrite H4. replace (pre ++ v ++ w ++ u) with ((pre ++ v) ++ w ++ u) by (rewrite <- !app_assoc; reflexivity).
          destruct (w ++ u) as [|c b] eqn:E; [destruct w; [destruct u; [cbn in H5; lia|discriminate]|discriminate]|].
          apply offset_in. }
      unfold throw, t_throw in Ht. pose proof Hn as ((p' & Hv' & _) & _). destruct Hv' as [Es _].
      destruct (tk_kind t); try (unfold last_pos, t_last_pos, t_ret, throw, t_throw; rewrite Es; exact Ht).
      match goal with |- rel_res _ (match ?x with _ => _ end _) _ => destruct x as [n|e] end; [split; [reflexivity|exact Hn]|].
      assert (Nd : ~ says_semicolon (diag_int_error (tk_span t) (tk_source t) e)) by (apply semi_new; discriminate).
      exact (sim_bind eq eq _ _ (fun _ => ret (mkWT 0 t)) (fun _ => t_ret (mkWT 0 t)) (sim_push _ _ (push_refl _ Nd))
        (fun _ _ _ => sim_ret eq _ _ eq_refl) s' (mkTS toks ds) Hn).
  Qed.
  Lemma sim_byte_string : sim eq byte_string (t_byte_string src).
  Proof. unfold byte_string, t_byte_string. sim_tac. Qed.
  Lemma sim_skip_optional_label : sim eq skip_optional_label t_skip_optional_label.
  Proof. unfold skip_optional_label, t_skip_optional_label. sim_tac. Qed.
  Hint Resolve sim_number_u32 sim_memreserve_number sim_byte_string sim_skip_optional_label : sim.
  Lemma sim_cells_loop f : forall acc, sim eq (cells_loop f acc) (t_cells_loop src f acc).
  Proof.
    induction f; intros acc; cbn [cells_loop t_cells_loop]; sim_tac.
    eapply sim_catch; [apply sim_number_u32|sim_tac|]. intros d d' (s & s' & st & st' & Hr & E' & E) He. eapply sim_bind; [|sim_tac].
    apply sim_push, push_quiet; [exact (proj1 He)|exact (number_same _ _ _ _ _ _ _ Hr E' E)|exact (number_error _ _ _ _ E)].
  Qed.
  Lemma sim_bytes_loop f : forall acc, sim eq (bytes_loop f acc) (t_bytes_loop src f acc).
  Proof. induction f; intros acc; cbn [bytes_loop t_bytes_loop]; sim_tac. Qed.
  Lemma sim_bits_prefix : sim eq bits_prefix (t_bits_prefix src).
  Proof. unfold bits_prefix, t_bits_prefix. sim_tac. Qed.
  Hint Resolve sim_cells_loop sim_bytes_loop sim_bits_prefix : sim.
  Lemma sim_property_value f : sim eq (property_value f) (t_property_value src f).
  Proof. unfold property_value, t_property_value. sim_tac. Qed.
  Hint Resolve sim_property_value : sim.
  Lemma sim_property_values f : forall acc, sim eq (property_values f acc) (t_property_values src f acc).
  Proof. induction f; intros acc; cbn [property_values t_property_values]; sim_tac. Qed.
  Lemma sim_property_name : sim eq p_property_name (t_p_property_name src).
  Proof. unfold p_property_name, t_p_property_name. sim_tac. Qed.
  Lemma sim_node_name : sim eq p_node_name (t_p_node_name src).
  Proof. unfold p_node_name, t_p_node_name. sim_tac. Qed.
  Hint Resolve sim_property_values sim_property_name sim_node_name : sim.
  Lemma rel_push {A B} (R : A -> B -> Prop) a b d d' s st : rel s st -> push_sim d d' -> R a b ->
    rel_res R ((push d ;; ret a) s) ((t_push d' ;^ t_ret b) st).
  Proof.
    intros Hr Hp Hab. exact (sim_bind eq R _ _ (fun _ => ret a) (fun _ => t_ret b) (sim_push _ _ Hp) (fun _ _ _ => sim_ret R _ _ Hab) s st Hr).
  Qed.
  Lemma sim_expect_semicolon : sim eq expect_semicolon (t_expect_semicolon src rl).
  Proof.
    intros s [toks ds] Hr. pose proof Hr as ((p & Hv & Hu) & Hd & Hi). cbn [t_toks t_diags] in *.
    unfold expect_semicolon, t_expect_semicolon. fold skip_unknown. fold t_skip_unknown.
    pose proof (wp_peek text src text_valid s p toks
      (fun o s' => o = hd_error toks /\ view s' p toks /\ rel s' (mkTS toks ds) /\ peeked_of s' = Some (hd_error toks)) (fun _ _ => False) Hv) as H.
    unfold bind at 1, t_bind at 1. unfold t_peek. cbn [t_toks]. unfold wp in H. destruct (peek s) as [o s1| | |];
      try (exfalso; apply H; intros; (split; [reflexivity|]); split; [assumption|]; split; [eapply same_rel; eassumption|assumption]).
    destruct H as (-> & Hv1 & Hr1 & Hk); [intros; (split; [reflexivity|]); split; [assumption|]; split; [eapply same_rel; eassumption|assumption]|].
    pose proof Hv1 as (Es & pre & Ep & Hpre & Hw). rewrite Hk in Hw. destruct toks as [|t toks]; cbn [hd_error] in *.
    - unfold bind at 1 2, t_bind at 1 2, last_pos, t_here, source, t_source, t_ret. cbn [t_toks length]. rewrite Es. apply rel_push; [exact Hr1| |reflexivity].
      split; [split; [apply diag_sim_expected|apply alike_expected]|]. intros K _. destruct (Hu K) as (c & Ec & Epc). destruct Hw as (_ & _ & _ & v & post & Ht & El & Hn & Hvc).
      exists c, [], pre, v, post. split; [exact Ec|]. split; [reflexivity|]. split; [exact Ht|]. split; [exact Hpre|]. split; [congruence|].
      split; [unfold last_of in El; rewrite El; reflexivity|]. split; [exact Hvc|exact Hn].
    - assert (U : semicolon_skips (tk_kind t) = true ->
        rel_res eq ((let! sp := skip_unknown in let! src0 := source in push (diag_expected sp src0 [Semicolon]);; ret None) s1)
          ((let^ sp := t_skip_unknown in let^ src0 := t_source src in t_push (diag_expected sp src0 [Semicolon]);^ t_ret (@None token)) (mkTS (t :: toks) ds))).
      { intros Eu. assert (Nk : ~ known t) by (unfold known; rewrite Eu; discriminate).
        pose proof (sim_skip_unknown s1 _ Hr1 ltac:(intros t' E'; injection E' as <-; exact Nk)) as Hs. unfold bind at 1, t_bind at 1.
        unfold rel_res in Hs at 1. destruct (skip_unknown s1) as [sp s2| | |], (t_skip_unknown (mkTS (t :: toks) ds)) as [sp' st2| |]; try contradiction; try exact I; [|exact Hs].
        destruct Hs as [<- Hr2]. unfold bind at 1, t_bind at 1, source, t_source, t_ret. pose proof Hr2 as ((p2 & (Es2 & _) & _) & _). rewrite Es2.
        apply rel_push; [exact Hr2| |reflexivity]. split; [split; [apply diag_sim_refl|apply alike_expected]|]. intros K _. exfalso. destruct (Hu K) as (c' & Ec & _). apply Nk.
        rewrite Ec in K. apply Forall_app in K. exact (Forall_inv (proj2 K)). }
      assert (G : rel_res eq ((let! sp := (let! p := last_pos in ret (as_char_span p)) in let! src0 := source in push (diag_expected sp src0 [Semicolon]);; ret None) s1)
          ((let^ sp := (let^ p := t_here in t_ret (as_char_span p)) in let^ src0 := t_source src in t_push (diag_expected sp src0 [Semicolon]);^ t_ret (@None token)) (mkTS (t :: toks) ds))).
      { unfold bind at 1 2 3, t_bind at 1 2 3, last_pos, t_here, source, t_source, ret at 1, t_ret at 1 2. cbn [t_toks]. rewrite Es. apply rel_push; [exact Hr1| |reflexivity].
        split; [split; [apply diag_sim_expected|apply alike_expected]|]. intros K _. destruct (Hu K) as (c & Ec & Epc).
        destruct Hw as (m & v & w & u & toks' & E' & (Hg & Hvc) & Hws & Ht & Hsp & Htk & El & _). injection E' as <-.
        exists c, (t :: toks), pre, v, (w ++ u ++ rest_of s1). split; [exact Ec|]. split; [reflexivity|]. split; [exact Ht|]. split; [exact Hpre|]. split; [congruence|].
        split; [unfold last_of in El; rewrite El; reflexivity|]. split; [exact Hvc|]. exists w, u, m, (rest_of s1). split; [reflexivity|]. split; [exact Hg|]. split; [exact Hws|].
        split; [exact Hsp|]. rewrite Htk. reflexivity. }
      destruct (tk_kind t) eqn:E; cbn [semicolon_skips]; try exact G; first [exact (sim_next s1 _ Hr1)|exact (U eq_refl)].
  Qed.
  Hint Resolve sim_expect_semicolon : sim.
  Lemma sim_check_omit o : sim eq (check_omit o) (t_check_omit src o).
  Proof. unfold check_omit, t_check_omit. sim_tac. Qed.
  Lemma sim_check_order n p : sim eq (check_order n p) (t_check_order src n p).
  Proof. unfold check_order, t_check_order. sim_tac. Qed.
  Hint Resolve sim_check_omit sim_check_order : sim.
  (** an error about the token that was looked at *)
  Lemma sim_after_name {A} (R : A -> A -> Prop) k k' ks :
    (forall t, tk_kind t = OpenBrace \/ tk_kind t = Equal \/ tk_kind t = Semicolon -> sim R (k t) (k' t)) ->
    (forall t, tk_kind t <> OpenBrace -> tk_kind t <> Equal -> tk_kind t <> Semicolon ->
       k t = (let! p := last_pos in let! src := source in throw (diag_expected (as_span p) src ks))
       /\ k' t = (let^ p := t_last_pos in let^ src := t_source src in t_throw (diag_expected (tk_span t) src ks))) ->
    sim R (bind peek_expect k) (t_bind (t_peek_expect src) k').
  Proof.
    intros Hk Ht s [toks ds] Hr. pose proof Hr as ((p & Hv & Hu) & _). cbn [t_toks] in Hv.
    pose proof (sim_peek s _ Hr) as Hn.
    unfold peek_expect, t_peek_expect, t_bind, bind, last_pos, t_last_pos, cur_pos, t_cur_pos, t_source, t_ret, source, ret in *.
    unfold t_peek in *. cbn [t_toks t_diags] in *. destruct toks as [|t toks]; cbn [hd_error tl] in *.
    - unfold rel_res in Hn. destruct (peek s) as [o s'| | |]; try contradiction. destruct Hn as [-> Hn].
      unfold throw, t_throw, t_source, t_ret, rel_res. split; [|exact Hn]. destruct Hv as [-> _]. apply err_sim_eof.
    - destruct (next_near s p t toks Hv) as (pre & v & w & u & rest & H1 & H2 & H3 & H4 & H5 & _ & H7 & _).
      unfold rel_res, wp in Hn, H7. destruct (peek s) as [o s'| | |]; try contradiction. destruct Hn as [-> Hn].
      assert (D : (tk_kind t = OpenBrace \/ tk_kind t = Equal \/ tk_kind t = Semicolon)
        \/ (tk_kind t <> OpenBrace /\ tk_kind t <> Equal /\ tk_kind t <> Semicolon)).
      { destruct (tk_kind t); auto; right; (split; [discriminate|split; discriminate]). }
      destruct D as [D|(D1 & D2 & D3)]; [exact (Hk t D _ _ Hn)|].
      destruct (Ht t D1 D2 D3) as [-> ->].
      unfold t_bind, bind, last_pos, source, t_last_pos, t_source, t_ret, throw, t_throw, rel_res. split; [|exact Hn].
      pose proof Hn as ((p' & Hv' & _) & _). destruct Hv' as [-> _]. destruct H7 as [_ H7]. unfold last_of in H7. rewrite H7.
      apply (near_at pre (v ++ w) u rest); rewrite <- ?app_assoc; auto.
      + apply pos_after_le.
      + rewrite H4. replace (pre ++ v ++ w ++ u) with ((pre ++ v) ++ w ++ u) by (rewrite <- !app_assoc; reflexivity). apply pos_after_le.
  Qed.
  Lemma sim_payload_loop f : forall items nd, sim eq (payload_loop f items nd) (t_payload_loop src rl f items nd).
  Proof.
    induction f; intros items nd; cbn [payload_loop t_payload_loop];
      repeat first
        [ match goal with |- sim _ (bind peek_expect _) _ =>
            eapply sim_after_name; [intros ? [E|[E|E]]; cbv beta; rewrite !E; clear E
              |intros tok2 ? ? ?; cbv beta; destruct (tk_kind tok2); try congruence; (split; reflexivity)]
          end
        | sim_step ].
  Qed.
  Hint Resolve sim_payload_loop : sim.
  Lemma sim_node_payload f : sim eq (node_payload f) (t_node_payload src rl f).
  Proof. unfold node_payload, t_node_payload. sim_tac. Qed.
  Lemma sim_parse_reference : sim eq parse_reference (t_parse_reference src).
  Proof. unfold parse_reference, t_parse_reference. sim_tac. Qed.
  Hint Resolve sim_node_payload sim_parse_reference : sim.
  Lemma sim_primary f : sim eq (p_primary f) (t_p_primary src incl rl f).
  Proof. unfold p_primary, t_p_primary. sim_tac. Qed.
  Hint Resolve sim_primary : sim.
  Lemma sim_file_loop f : forall acc, sim eq (file_loop f acc) (t_file_loop src incl rl f acc).
  Proof. induction f; intros acc; cbn [file_loop t_file_loop]; sim_tac. Qed.
  Hint Resolve sim_file_loop : sim.
  Lemma sim_file f : sim eq (p_file f) (t_p_file src incl rl f).
  Proof. unfold p_file, t_p_file. sim_tac. Qed.
End Sim.

(** the token-level parse of a text *)
Definition t_parse (incl : list fpath) (text : list N) (src : fpath) (toks : list token) : tres dts_file :=
  t_p_file src incl (relex text src) (S (S (length text))) (mkTS toks []).

Lemma parse_rel incl text src toks : valid_utf8 text = true -> lexed src NameExpected [] text toks ->
  rel text src incl toks (parser_new incl text src) (mkTS toks []).
Proof.
  intros Hv Ht. split; [|split; [constructor|reflexivity]]. exists pos_zero. split.
  2:{ intros _. exists []. split; reflexivity. }
  split; [reflexivity|]. exists []. split; [rewrite pos_after_nil; reflexivity|]. split; [left; reflexivity|]. unfold peeked_of. cbn. left.
  split; [reflexivity|]. split; [reflexivity|]. split; [exact Ht|]. exists [], text. split; [reflexivity|].
  rewrite pos_after_nil. reflexivity.
Qed.
Lemma parse_behind incl text src toks : valid_utf8 text = true -> tokenize text src = Done toks ->
  match parse_text incl text src, t_parse incl text src toks with
  | ROk f s, TOk f' st => f = f' /\ Forall2 (push_sim text src toks) (ps_diags s) (t_diags st)
  | RErr d s, TErr d' st => err_sim text d d' /\ Forall2 (push_sim text src toks) (ps_diags s) (t_diags st)
  | _, _ => False
  end.
Proof.
  intros Hv Ht. apply (tokenize_iff text src toks Hv) in Ht. pose proof (parse_rel incl text src toks Hv Ht) as Hr.
  pose proof (sim_file text src incl toks Hv (S (S (length text))) _ _ Hr) as H.
  pose proof (parse_safe text src Hv incl) as Hs. unfold wp in Hs.
  unfold rel_res, t_parse, parse_text in *.
  destruct (p_file _ _), (t_p_file _ _ _ _ _); try contradiction; destruct H as (H1 & H2 & H3 & H4); auto.
Qed.
Lemma push_diags text src toks ds ds' : Forall2 (push_sim text src toks) ds ds' -> Forall2 diag_sim ds ds'.
Proof. induction 1 as [|d d' ds ds' [[H _] _] _ IH]; constructor; assumption. Qed.
Lemma parse_near incl text src toks : valid_utf8 text = true -> tokenize text src = Done toks ->
  match parse_text incl text src, t_parse incl text src toks with
  | ROk f s, TOk f' st => f = f' /\ Forall2 diag_sim (ps_diags s) (t_diags st)
  | RErr d s, TErr d' st => err_sim text d d' /\ Forall2 diag_sim (ps_diags s) (t_diags st)
  | _, _ => False
  end.
Proof.
  intros Hv Ht. pose proof (parse_behind incl text src toks Hv Ht) as H.
  destruct (parse_text incl text src), (t_parse incl text src toks); auto; destruct H as [H1 H2]; (split; [exact H1|exact (push_diags _ _ _ _ _ H2)]).
Qed.
Lemma parse_sim incl text src toks : valid_utf8 text = true -> tokenize text src = Done toks ->
  match parse_text incl text src, t_parse incl text src toks with
  | ROk f s, TOk f' st => f = f' /\ Forall2 diag_sim (ps_diags s) (t_diags st)
  | RErr d s, TErr d' st => diag_sim d d' /\ Forall2 diag_sim (ps_diags s) (t_diags st)
  | _, _ => False
  end.
Proof.
  intros Hv Ht. pose proof (parse_near incl text src toks Hv Ht) as H.
  destruct (parse_text incl text src), (t_parse incl text src toks); auto.
  destruct H as [[H1 _] H2]. auto.
Qed.
