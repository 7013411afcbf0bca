(** Parser states as token sequences, and weakest preconditions for parser functions *)
From Verif Require Import Parser LexSpec ReaderProofs Utf8 LexerProofs LexerProofs2 LexerProofs3.
From Coq Require Import ZifyBool.

(** ** Weakest preconditions: no panic, no lack of fuel, [Q] on Ok and [E] on Err *)
Definition wp {A} (m : M A) (s : pstate) (Q : A -> pstate -> Prop) (E : diag -> pstate -> Prop) : Prop :=
  match m s with
  | ROk a s' => Q a s'
  | RErr d s' => E d s'
  | RPanic => False
  | RNoFuel => False
  end.

Lemma wp_conseq {A} (m : M A) s (Q Q' : A -> pstate -> Prop) (E E' : diag -> pstate -> Prop) :
  wp m s Q E -> (forall a s', Q a s' -> Q' a s') -> (forall d s', E d s' -> E' d s') -> wp m s Q' E'.
Proof. unfold wp. intros H HQ HE. destruct (m s); auto. Qed.
Lemma wp_ret {A} (a : A) s (Q : A -> pstate -> Prop) E : Q a s -> wp (ret a) s Q E.
Proof. exact (fun H => H). Qed.
Lemma wp_throw {A} d s (Q : A -> pstate -> Prop) (E : diag -> pstate -> Prop) : E d s -> wp (throw d) s Q E.
Proof. exact (fun H => H). Qed.
Lemma wp_bind {A B} (m : M A) (f : A -> M B) s Q E :
  wp m s (fun a s' => wp (f a) s' Q E) E -> wp (bind m f) s Q E.
Proof. unfold wp, bind. destruct (m s); auto. Qed.
Lemma wp_catch {A B} (m : M A) (f : A -> M B) (g : diag -> M B) s Q E :
  wp m s (fun a s' => wp (f a) s' Q E) (fun d s' => wp (g d) s' Q E) -> wp (catch m f g) s Q E.
Proof. unfold wp, catch. destruct (m s); auto. Qed.

(** ** The remaining tokens of a parser state *)
Definition utf8 (t : list N) : Prop := valid_utf8 t = true.
Section View.
  Context (text : list N) (src : fpath).
  Hypothesis text_valid : utf8 text.

  (** a token with the slice of the text it covers *)
  Definition tok_at (t : token) : Prop := exists m a u rest,
    text = a ++ u ++ rest /\ spells m (tk_kind t) u rest
    /\ t = tok_of src (pos_after a) (pos_after (a ++ u)) (tk_kind t).

  (** the prefix [pre] of the text ends with a token *)
  Definition ends_token (pre : list N) : Prop := exists m k a u rest,
    pre = a ++ u /\ text = pre ++ rest /\ spells m k u rest.
  (** the prefix [a] ends with a token (or is empty), or with a comment some way behind one *)
  Definition ends_token_or_comment (a : list N) : Prop := exists pre v,
    a = pre ++ v /\ (pre = [] \/ ends_token pre) /\ (v = [] \/ ends_comment v).
  (** no token any more *)
  Definition no_more (r : list N) : Prop :=
    end_gap r \/ exists g u, r = g ++ u /\ gap g /\ unterminated u.

  Definition lex_mode (s : pstate) : mode := mode_of (lx_state (pl_lex (ps_lex s))).
  Definition rest_of (s : pstate) : list N := rd_rest (lx_rd (pl_lex (ps_lex s))).
  Definition pos_of (s : pstate) : position := rd_pos (lx_rd (pl_lex (ps_lex s))).
  Definition last_of (s : pstate) : position := lx_last (pl_lex (ps_lex s)).
  Definition peeked_of (s : pstate) : option (option token) := pl_peeked (ps_lex s).

  (** [view s p toks]: the last token taken from [s] ends at [p], the tokens to come are [toks] *)
  Definition at_end (s : pstate) (pre : list N) (toks : list token) : Prop :=
    toks = [] /\ rest_of s = [] /\ pos_of s = pos_after text
    /\ (exists v post, text = pre ++ v ++ post /\ last_of s = pos_after (pre ++ v)
          /\ no_more (v ++ post) /\ (v = [] \/ ends_comment v \/ post = [])).
  Definition view (s : pstate) (p : position) (toks : list token) : Prop :=
    lx_src (pl_lex (ps_lex s)) = src
    /\ exists pre, p = pos_after pre /\ (pre = [] \/ ends_token pre) /\
       match peeked_of s with
       | None =>
         (text = pre ++ rest_of s /\ pos_of s = p /\ lexed src (lex_mode s) pre (rest_of s) toks
          /\ (exists a post, text = a ++ post /\ last_of s = pos_after a))
         \/ at_end s pre toks
       | Some None => at_end s pre toks
       | Some (Some t) =>
         exists m v w u toks', toks = t :: toks' /\ (gap (v ++ w) /\ (v = [] \/ ends_comment v)) /\ Forall ws_char w
         /\ text = pre ++ v ++ w ++ u ++ rest_of s
         /\ spells m (tk_kind t) u (rest_of s)
         /\ t = tok_of src (pos_after (pre ++ v ++ w)) (pos_after (pre ++ v ++ w ++ u)) (tk_kind t)
         /\ last_of s = pos_after (pre ++ v)
         /\ pos_of s = tk_end t
         /\ lexed src (lex_mode s) (pre ++ v ++ w ++ u) (rest_of s) toks'
       end.

  (** bytes still to be read, counting a peeked token as one *)
  Definition left (s : pstate) : nat :=
    length (rest_of s) + match peeked_of s with Some (Some _) => 1 | _ => 0 end.

  Definition same_diags (s s' : pstate) : Prop := ps_diags s' = ps_diags s /\ ps_incl s' = ps_incl s.
  Definition last_in (s : pstate) : Prop := exists a c post, text = a ++ c :: post /\ last_of s = pos_after a
    /\ ends_token_or_comment a.

  Lemma lexed_prefix_valid pre rest : text = pre ++ rest -> valid_utf8 (pre ++ rest) = true.
  Proof. intros <-. exact text_valid. Qed.

  (** one call of the underlying lexer *)
  Lemma lex_next_view lx pre toks :
    lx_src lx = src -> text = pre ++ rd_rest (lx_rd lx) -> rd_pos (lx_rd lx) = pos_after pre ->
    lexed src (mode_of (lx_state lx)) pre (rd_rest (lx_rd lx)) toks ->
    exists lx', lex_next lx = Done (hd_error toks, lx') /\ lx_src lx' = src
    /\ match toks with
       | [] => rd_rest (lx_rd lx') = [] /\ rd_pos (lx_rd lx') = pos_after text
               /\ mode_of (lx_state lx') = mode_of (lx_state lx)
               /\ (exists v post, text = pre ++ v ++ post /\ lx_last lx' = pos_after (pre ++ v)
                     /\ no_more (v ++ post) /\ (v = [] \/ ends_comment v \/ post = []))
       | t :: toks' => exists v w u, (gap (v ++ w) /\ (v = [] \/ ends_comment v)) /\ Forall ws_char w
         /\ text = pre ++ v ++ w ++ u ++ rd_rest (lx_rd lx')
         /\ spells (mode_of (lx_state lx)) (tk_kind t) u (rd_rest (lx_rd lx'))
         /\ t = tok_of src (pos_after (pre ++ v ++ w)) (pos_after (pre ++ v ++ w ++ u)) (tk_kind t)
         /\ lx_last lx' = pos_after (pre ++ v)
         /\ rd_pos (lx_rd lx') = tk_end t
         /\ mode_of (lx_state lx') = mode_after (tk_kind t) (mode_of (lx_state lx))
         /\ lexed src (mode_of (lx_state lx')) (pre ++ v ++ w ++ u) (rd_rest (lx_rd lx')) toks'
       end.
  Proof.
    destruct lx as [[rest p] src' st l]. cbn [lx_src lx_rd rd_rest rd_pos lx_state].
    intros -> Ht -> Hl. pose proof (lexed_prefix_valid pre rest Ht) as Hv.
    apply lexed_next in Hl. destruct toks as [|t toks].
    - destruct (lex_next_ok _ rest None (pos_after pre) src st l pre eq_refl Hl Hv)
        as (lx' & E & Hs & (v & w & Hlast & Hvw & Hvc) & Hr & Hm).
      exists lx'. split; [exact E|]. split; [exact Hs|]. rewrite Hr. cbn [rd_rest rd_pos].
      split; [reflexivity|]. split; [rewrite adv_pos_after, <- Ht; reflexivity|]. split; [exact Hm|].
      exists v, w. rewrite <- Hvw. split; [exact Ht|]. split; [rewrite Hlast; apply adv_pos_after|].
      split; [|tauto]. inversion Hl; subst; [left; assumption|right; eauto].
    - destruct Hl as (g & k & u & rest' & Er & Hn & -> & Hl').
      destruct (lex_next_ok _ rest _ (pos_after pre) src st l pre eq_refl Hn Hv)
        as (lx' & E & Hs & _ & Hr & Hm & v & w & Hlast & Hg & Hw & Hvc).
      exists lx'. split.
      { rewrite E. cbn [next_result hd_error]. rewrite !adv_pos_after. reflexivity. }
      split; [exact Hs|]. exists v, w, u. rewrite Hr.
      unfold tk_end. cbn [rd_rest rd_pos tok_of tk_kind tk_span span_end].
      assert (Hgap : gap g /\ spells (mode_of st) k u rest').
      { inversion Hn; subst. auto. }
      destruct Hgap as [Hgap Hsp]. subst g. split; [exact (conj Hgap Hvc)|]. split; [exact Hw|].
      rewrite adv_pos_after. rewrite Hlast, adv_pos_after, Hm, Er in *.
      rewrite <- !app_assoc in *. repeat split; auto.
  Qed.

  Lemma lexed_fun m pre rest toks toks' : text = pre ++ rest ->
    lexed src m pre rest toks -> lexed src m pre rest toks' -> toks = toks'.
  Proof.
    intros Ht H H'. pose proof (lexed_prefix_valid pre rest Ht) as Hv.
    set (st := match m with NameExpected => ExpectingNodeOrPropertyName | Elsewhere => OtherState end).
    assert (Hm : mode_of st = m) by (destruct m; reflexivity).
    pose proof (lex_all_complete src m pre rest toks H st pos_zero (S (length rest)) Hm Hv) as E.
    pose proof (lex_all_complete src m pre rest toks' H' st pos_zero (S (length rest)) Hm Hv) as E'.
    rewrite E in E' by lia. specialize (E' ltac:(lia)). congruence.
  Qed.

  (** the first token to come *)
  Lemma view_head s p t toks : view s p (t :: toks) ->
    tok_at t /\ tk_source t = src /\ pos_le p (tk_start t) /\ pos_lt (tk_start t) (tk_end t).
  Proof.
    intros (Hs & pre & -> & _ & Hv).
    assert (G : forall m v w u rest, text = pre ++ v ++ w ++ u ++ rest ->
      spells m (tk_kind t) u rest ->
      t = tok_of src (pos_after (pre ++ v ++ w)) (pos_after (pre ++ v ++ w ++ u)) (tk_kind t) ->
      tok_at t /\ tk_source t = src /\ pos_le (pos_after pre) (tk_start t) /\ pos_lt (tk_start t) (tk_end t)).
    { intros m v w u rest H1 H2 H3. pose proof (spells_nonempty _ _ _ _ H2) as Hn. split; [|rewrite H3; split; [|split]].
      - exists m, (pre ++ v ++ w), u, rest. rewrite <- !app_assoc. auto.
      - reflexivity.
      - apply pos_after_le.
      - destruct u as [|c u]; [cbn in Hn; lia|].
        replace (pre ++ v ++ w ++ c :: u) with ((pre ++ v ++ w) ++ c :: u) by (rewrite <- !app_assoc; reflexivity).
        apply pos_after_lt. }
    destruct (peeked_of s) as [[t'|]|].
    - destruct Hv as (m & v & w & u & toks' & E & _ & _ & H1 & H2 & H3 & _). injection E as <- <-.
      exact (G m v w u _ H1 H2 H3).
    - destruct Hv as (E & _). discriminate.
    - destruct Hv as [(Ht & Hp & Hl & _)|(E & _)]; [|discriminate]. apply lexed_next in Hl.
      destruct Hl as (g & k & u & rest & Er & Hn & Et & Hl).
      assert (Ek : k = tk_kind t) by (rewrite Et; reflexivity). rewrite Ek in Et.
      assert (Hsp : spells (lex_mode s) k u rest) by (inversion Hn; assumption).
      rewrite Ek in Hsp. rewrite Er in Ht. exact (G _ [] g u rest Ht Hsp Et).
  Qed.

  (** where the lexer stood before the peeked token *)
  Lemma view_last s p t toks : view s p (t :: toks) -> peeked_of s = Some (Some t) ->
    last_in s /\ pos_le p (last_of s) /\ pos_le (last_of s) (tk_start t).
  Proof.
    intros (Hs & pre & -> & Hpre & Hv) E. rewrite E in Hv.
    destruct Hv as (m & v & w & u & toks' & _ & (_ & Hvc) & _ & Ht & Hsp & Hk & Hl & _).
    rewrite Hl. split; [|split].
    - pose proof (spells_nonempty _ _ _ _ Hsp) as Hn.
      exists (pre ++ v). destruct (w ++ u ++ rest_of s) as [|c r] eqn:Er.
      + apply (f_equal (@length N)) in Er. rewrite !app_length in Er. cbn in Er. lia.
      + exists c, r. rewrite <- app_assoc. split; [exact Ht|]. split; [exact Hl|]. exists pre, v. auto.
    - apply pos_after_le.
    - rewrite Hk. change (pos_le (pos_after (pre ++ v)) (pos_after (pre ++ v ++ w))). rewrite app_assoc.
      apply pos_after_le.
  Qed.

  Lemma view_at_end s pre : lx_src (pl_lex (ps_lex s)) = src -> peeked_of s = Some None \/ peeked_of s = None ->
    pre = [] \/ ends_token pre -> at_end s pre [] -> view s (pos_after pre) [].
  Proof.
    intros Hs [E|E] Hpre H; (split; [exact Hs|]); exists pre; rewrite E; auto.
  Qed.

  (** ** Primitives *)
  Lemma wp_peek s p toks (Q : option token -> pstate -> Prop) E :
    view s p toks ->
    (forall s', view s' p toks -> same_diags s s' -> (left s' <= left s)%nat ->
       peeked_of s' = Some (hd_error toks) ->
       Q (hd_error toks) s') ->
    wp peek s Q E.
  Proof.
    intros Hv HQ. unfold wp, peek, lift_pl, pl_peek.
    destruct (pl_peeked (ps_lex s)) as [o|] eqn:Ep.
    - assert (Eo : o = hd_error toks).
      { destruct Hv as (_ & pre & _ & _ & Hv). unfold peeked_of in Hv. rewrite Ep in Hv. destruct o as [t|].
        - destruct Hv as (m & v & w & u & toks' & -> & _). reflexivity.
        - destruct Hv as (-> & _). reflexivity. }
      rewrite Eo in *. destruct s as [pl ds incl]. cbn [ps_lex ps_diags ps_incl] in *. apply HQ.
      + exact Hv.
      + split; reflexivity.
      + lia.
      + exact Ep.
    - destruct s as [[lx pk] ds incl]. cbn [ps_lex ps_diags ps_incl pl_lex pl_peeked] in *. subst pk.
      destruct Hv as (Hs & pre & -> & Hpre & Hv). unfold peeked_of in Hv. cbn [ps_lex pl_peeked] in Hv.
      destruct Hv as [(Ht & Hp & Hl & _)|(-> & Hr & Hp & v0 & post0 & E0 & _ & Hno & _)].
      + unfold rest_of, pos_of, lex_mode in *. cbn [ps_lex pl_lex] in *.
        destruct (lex_next_view lx pre toks Hs Ht Hp Hl) as (lx' & E1 & Hs' & Hn).
        rewrite E1. cbn [obind]. apply HQ.
        * split; [exact Hs'|]. exists pre. split; [reflexivity|]. split; [exact Hpre|].
          unfold peeked_of, at_end, rest_of, pos_of, last_of, lex_mode. cbn [ps_lex pl_lex pl_peeked].
          destruct toks as [|t toks]; cbn [hd_error].
          -- destruct Hn as (H1 & H2 & H3 & H4). auto.
          -- destruct Hn as (v & w & u & H1 & H2 & H3 & H4 & H5 & H6 & H7 & H8 & H9).
             exists (mode_of (lx_state lx)), v, w, u, toks. auto 12.
        * split; reflexivity.
        * unfold left, peeked_of, rest_of. cbn [ps_lex pl_lex pl_peeked].
          destruct toks as [|t toks]; cbn [hd_error].
          -- destruct Hn as (H1 & _). rewrite H1. cbn [length]. lia.
          -- destruct Hn as (v & w & u & _ & _ & H3 & H4 & _). apply spells_nonempty in H4.
             assert (Hlen : length (rd_rest (lx_rd lx)) = length (v ++ w ++ u ++ rd_rest (lx_rd lx'))).
             { rewrite Ht in H3. apply app_inv_head in H3. rewrite H3. reflexivity. }
             rewrite !app_length in Hlen. lia.
        * reflexivity.
      + unfold rest_of, pos_of in *. cbn [ps_lex pl_lex] in *.
        assert (Hl : lexed src (mode_of (lx_state lx)) text (rd_rest (lx_rd lx)) []).
        { rewrite Hr. apply lx_end. left. apply gap_nil. }
        assert (Ht : text = text ++ rd_rest (lx_rd lx)) by (rewrite Hr, app_nil_r; reflexivity).
        destruct (lex_next_view lx text [] Hs Ht Hp Hl) as (lx' & E1 & Hs' & H1 & H2 & H3 & v & post & H4 & H5 & _).
        rewrite E1. cbn [obind hd_error]. apply HQ.
        * apply view_at_end; [exact Hs'|left; reflexivity|exact Hpre|]. split; [reflexivity|].
          unfold rest_of, pos_of, last_of. cbn [ps_lex pl_lex]. split; [exact H1|]. split; [exact H2|].
          assert (Hvp : v ++ post = []).
          { apply (app_inv_head text). rewrite <- H4, app_nil_r. reflexivity. }
          apply app_eq_nil in Hvp. destruct Hvp as [-> ->]. rewrite app_nil_r in H5.
          exists (v0 ++ post0), []. rewrite !app_nil_r. split; [exact E0|]. rewrite <- E0. auto.
        * split; reflexivity.
        * unfold left, peeked_of, rest_of. cbn [ps_lex pl_lex pl_peeked]. rewrite H1. cbn [length]. lia.
        * reflexivity.
  Qed.

  Lemma pl_next_after_peek pl o pl' : pl_peek pl = Done (o, pl') ->
    pl_next pl = Done (o, mkPL (pl_lex pl') None).
  Proof.
    unfold pl_peek, pl_next. destruct (pl_peeked pl) as [x|].
    - intros E. injection E as <- <-. reflexivity.
    - destruct (lex_next (pl_lex pl)) as [[x lx]| |]; cbn [obind]; try discriminate.
      intros E. injection E as <- <-. reflexivity.
  Qed.

  Lemma wp_next s p toks (Q : option token -> pstate -> Prop) E :
    view s p toks ->
    match toks with
    | [] => forall s', view s' p [] -> same_diags s s' -> (left s' <= left s)%nat -> Q None s'
    | t :: toks' => forall s', view s' (tk_end t) toks' -> same_diags s s' -> (left s' < left s)%nat ->
        peeked_of s' = None -> last_in s' -> Q (Some t) s'
    end ->
    wp next s Q E.
  Proof.
    intros Hv HQ. set (Q' := fun (o : option token) s' => o = hd_error toks
      /\ view s' p toks /\ same_diags s s' /\ (left s' <= left s)%nat /\ peeked_of s' = Some (hd_error toks)).
    assert (Hp : wp peek s Q' E).
    { apply (wp_peek s p toks Q' E Hv). unfold Q'. auto. }
    unfold wp, peek, next, lift_pl in *.
    destruct (pl_peek (ps_lex s)) as [[o pl']| |] eqn:Ep; try contradiction.
    rewrite (pl_next_after_peek _ _ _ Ep). unfold Q' in Hp. destruct Hp as (-> & Hv' & Hd & Hl & Hk).
    clear Q' Ep Hv. destruct pl' as [lx pk]. unfold peeked_of in Hk. cbn [ps_lex pl_peeked pl_lex] in *. subst pk.
    destruct toks as [|t toks]; cbn [hd_error] in *.
    - apply HQ.
      + destruct Hv' as (Hs & pre & -> & Hpre & He). apply view_at_end; [exact Hs|right; reflexivity|exact Hpre|]. exact He.
      + exact Hd.
      + exact Hl.
    - pose proof (view_last _ _ _ _ Hv' eq_refl) as [Hli _].
      destruct Hv' as (Hs & pre & -> & _ & m & v & w & u & toks' & E' & Hg & Hw & H1 & H2 & H3 & H4 & H5 & H6).
      injection E' as <-. apply HQ.
      + split; [exact Hs|]. exists (pre ++ v ++ w ++ u). split; [rewrite H3; reflexivity|]. split.
        { right. exists m, (tk_kind t), (pre ++ v ++ w), u. eexists. rewrite <- !app_assoc. eauto. }
        unfold peeked_of. cbn [ps_lex pl_peeked]. left. unfold rest_of, pos_of, last_of, lex_mode in *.
        cbn [ps_lex pl_lex] in *. split; [rewrite <- !app_assoc; exact H1|]. split; [exact H5|].
        split; [exact H6|]. exists (pre ++ v), (w ++ u ++ rd_rest (lx_rd lx)).
        rewrite <- !app_assoc. auto.
      + exact Hd.
      + unfold left, peeked_of, rest_of in *. cbn [ps_lex pl_lex pl_peeked] in *. lia.
      + reflexivity.
      + exact Hli.
  Qed.
End View.
