(** Nodes and files: no panic, enough fuel, diagnostics and tree inside the text (C09, C16, C17) *)
From Verif Require Import Parser LexSpec ReaderProofs Utf8 LexerProofs LexerProofs2 LexerProofs3 ParserBase ParserSafe.
From Coq Require Import ZifyBool.

Section Safe2.
  Context (text : list N) (src : fpath).
  Hypothesis text_valid : utf8 text.

  Notation view := (view text src).
  Notation tok_at := (tok_at text src).
  Notation last_in := (last_in text).
  Notation diag_ok := (diag_ok text src).
  Notation step := (step text src).
  Notation good := (good text src).
  Notation bad := (bad text src).
  Notation pushes := (pushes text src).

  (** the payload: the items found are those given and new ones in between *)
  Definition payload_post (items : list item) (s : pstate) (p : position) (pl : payload) (s' : pstate) : Prop :=
    exists new, pl_items pl = items ++ new
      /\ good 1 (fun pl => flat_map item_toks new ++ [pl_end pl]) s p pl s'.

  Lemma payload_cons items it s p n s1 p1 m f nd toks1 :
    step n s p (item_toks it) s1 p1 -> view s1 p1 toks1 ->
    (left s1 < left s)%nat -> (left s <= f)%nat ->
    (forall items nd s p toks, view s p toks -> (left s < f)%nat ->
       wp (payload_loop f items nd) s (payload_post items s p) (bad 0 s p)) ->
    m = payload_loop f (items ++ [it]) nd ->
    wp m s1 (payload_post items s p) (bad 0 s p).
  Proof.
    intros H Hv Hl Hf IH ->. eapply wp_conseq; [eapply (IH (items ++ [it]) nd s1 p1 _ Hv); lia| |].
    - intros pl s2 (new & En & p2 & toks2 & Hv2 & H2). exists (it :: new). split.
      + rewrite En, <- app_assoc. reflexivity.
      + exists p2, toks2. split; [exact Hv2|]. cbn [flat_map]. rewrite <- app_assoc.
        eapply step_weaken; [|eapply step_trans; eassumption]. lia.
    - intros d s2 Hd. eapply bad_weaken; [|eapply bad_trans; eassumption]. lia.
  Qed.

  Lemma check_order_pushes nd p st q toks lo hi : view st q toks ->
    (forall t, In t (opt_tok (pr_label p) ++ [wt_tok (pr_name p)] ++ [pr_end p]) -> tok_at t) ->
    seq lo (opt_tok (pr_label p) ++ [wt_tok (pr_name p)] ++ [pr_end p]) hi ->
    pushes (check_order nd p) tt st.
  Proof.
    intros Hv Ht Hs. unfold check_order. destruct nd; [|apply (pushes_ret text src)].
    unfold bind, source, ParserSafe.pushes. rewrite (view_source _ _ _ _ _ Hv).
    exact (pushes_push text src _ _ (diag_prop_ok text src lo hi p Ht Hs _)).
  Qed.
  Lemma check_omit_pushes omit st q toks : view st q toks ->
    (forall t, omit = Some t -> tok_at t) -> pushes (check_omit omit) tt st.
  Proof.
    intros Hv Ht. unfold check_omit. destruct omit as [t|]; [|apply (pushes_ret text src)].
    unfold bind, source, ParserSafe.pushes. rewrite (view_source _ _ _ _ _ Hv).
    apply (pushes_push text src). split; [reflexivity|]. split; [apply (span_in_tok text src), Ht, eq_refl|].
    apply (pl_token _ _ _ t); [intros [X _]; discriminate|apply Ht, eq_refl|reflexivity].
  Qed.

  Lemma seq_inv_app lo l1 l2 hi : seq lo (l1 ++ l2) hi -> exists mid, seq lo l1 mid /\ seq mid l2 hi.
  Proof.
    revert lo. induction l1 as [|t l IH]; intros lo H; cbn [app] in H.
    - exists lo. split; [apply pos_le_refl|exact H].
    - destruct H as (H1 & H2 & H3). destruct (IH _ H3) as (mid & H4 & H5). exists mid. cbn [seq]. auto.
  Qed.
  (** leaving out the middle *)
  Lemma seq_skip lo l1 l2 l3 hi : seq lo (l1 ++ l2 ++ l3) hi -> seq lo (l1 ++ l3) hi.
  Proof.
    intros H. apply seq_inv_app in H. destruct H as (m & H1 & H). apply seq_inv_app in H.
    destruct H as (m' & H2 & H3). eapply seq_app; [exact H1|]. eapply seq_lo; [eapply seq_le, H2|exact H3].
  Qed.

  Lemma seqt_inv_app lo l1 l2 hi : seqt text src lo (l1 ++ l2) hi ->
    exists mid, seqt text src lo l1 mid /\ seqt text src mid l2 hi.
  Proof.
    intros [H F]. apply seq_inv_app in H. destruct H as (mid & H1 & H2). apply Forall_app in F.
    exists mid. split; split; tauto.
  Qed.
  Lemma seqt_skip lo l1 l2 l3 hi : seqt text src lo (l1 ++ l2 ++ l3) hi -> seqt text src lo (l1 ++ l3) hi.
  Proof.
    intros [H F]. split; [eapply seq_skip, H|]. rewrite !Forall_app in *. tauto.
  Qed.

  Definition opt_list (o : option token) : list token := match o with Some t => [t] | None => [] end.

  (** taking a token, for several step statements at once *)
  Definition moves (s0 : pstate) (p0 : position) (s : pstate) (p : position) (t : token) (s1 : pstate) : Prop :=
    (forall n ts, step n s0 p0 ts s p -> step (S n) s0 p0 (ts ++ [t]) s1 (tk_end t))
    /\ (forall n ts, step n s0 p0 ts s p -> step (S n) s0 p0 ts s1 (tk_end t)).

  Lemma run_take {B} n0 s0 p0 ts0 (Q : B -> pstate -> Prop) b (k : token -> M B) s p toks :
    step n0 s0 p0 ts0 s p -> view s p toks -> (b <= n0)%nat ->
    (forall t toks' s1, toks = t :: toks' -> tok_at t -> tk_source t = src ->
       view s1 (tk_end t) toks' -> moves s0 p0 s p t s1 ->
       peeked_of s1 = None -> last_in s1 -> (left s1 < left s)%nat -> wp (k t) s1 Q (bad b s0 p0)) ->
    wp (bind expect_next k) s Q (bad b s0 p0).
  Proof.
    intros H0 Hv Hb Hk. apply wp_bind. eapply wp_expect_next; [exact text_valid|exact Hv|].
    destruct toks as [|t toks].
    - intros s1 Hv1 Hd Hl. eapply bad_end; eauto.
    - intros s1 Hv1 Hd Hl Hp Hi. destruct (head_facts _ _ _ _ _ _ Hv) as (Ht & Hs & _).
      eapply Hk; eauto. split; intros n ts Hst; [eapply step_next|eapply step_drop]; eassumption.
  Qed.

  Lemma run_skip2 {B} s0 p0 (Q : B -> pstate -> Prop) b (k : unit -> M B) s p t toks :
    view s p (t :: toks) ->
    (forall s1, view s1 (tk_end t) toks -> moves s0 p0 s p t s1 -> peeked_of s1 = None -> last_in s1 ->
       (left s1 < left s)%nat -> wp (k tt) s1 Q (bad b s0 p0)) ->
    wp (bind skip_tok k) s Q (bad b s0 p0).
  Proof.
    intros Hv Hk. apply wp_bind. eapply wp_skip_tok; [exact text_valid|exact Hv|]. intros s1 Hv1 Hd Hl Hp Hi.
    eapply Hk; eauto. split; intros n ts Hst; [eapply step_next|eapply step_drop]; eassumption.
  Qed.

  Lemma property_safe f items nd s p omit label name x t2 values e s1 s2 p2 toks2 n1 n2 :
    (forall items nd s p toks, view s p toks -> (left s < f)%nat ->
       wp (payload_loop f items nd) s (payload_post items s p) (bad 0 s p)) ->
    (left s <= f)%nat ->
    (forall t, omit = Some t -> tok_at t) -> (forall w, label = Some w -> tok_at (wt_tok w)) -> tok_at name -> tok_at e ->
    step n1 s p (opt_tok label ++ [name] ++ [e]) s1 p2 ->
    step n2 s p (item_toks (IProperty (mkProp label (mkWT x name) values e))) s2 p2 ->
    view s2 p2 toks2 -> (left s2 < left s)%nat ->
    t2 = mkProp label (mkWT x name) values e ->
    wp (check_omit omit ;; check_order nd t2 ;; payload_loop f (items ++ [IProperty t2]) nd) s2
       (payload_post items s p) (bad 0 s p)
    /\ wp (check_order nd t2 ;; check_omit omit ;; payload_loop f (items ++ [IProperty t2]) nd) s2
       (payload_post items s p) (bad 0 s p).
  Proof.
    intros IH Hf Ho Hl Hn He H1 H2 Hv Hlt ->.
    set (pr := mkProp label (mkWT x name) values e).
    assert (Hc : forall st q toks, view st q toks -> pushes (check_order nd pr) tt st).
    { intros st q toks Hst. eapply (check_order_pushes nd pr st q toks p p2 Hst).
      - intros t Hin. cbn [pr pr_label pr_name pr_end wt_tok] in Hin. apply in_app_or in Hin.
        destruct Hin as [Hin|[<-|[<-|[]]]]; auto. destruct label as [w|]; [|contradiction].
        destruct Hin as [<-|[]]. auto.
      - destruct H1 as (_ & [H1 _] & _). exact H1. }
    split.
    - eapply run_pushes; [exact H2|exact Hv|eapply check_omit_pushes; eassumption|]. intros s3 Hv3 H3 _ L3.
      eapply run_pushes; [exact H3|exact Hv3|eapply Hc, Hv3|]. intros s4 Hv4 H4 _ L4.
      eapply payload_cons; [exact H4|exact Hv4|lia|exact Hf|exact IH|reflexivity].
    - eapply run_pushes; [exact H2|exact Hv|eapply Hc, Hv|]. intros s3 Hv3 H3 _ L3.
      eapply run_pushes; [exact H3|exact Hv3|eapply check_omit_pushes; eassumption|]. intros s4 Hv4 H4 _ L4.
      eapply payload_cons; [exact H4|exact Hv4|lia|exact Hf|exact IH|reflexivity].
  Qed.

  Lemma payload_loop_safe f : forall items nd s p toks, view s p toks -> (left s < f)%nat ->
    wp (payload_loop f items nd) s (payload_post items s p) (bad 0 s p).
  Proof.
    induction f as [|f IH]; intros items nd s p toks Hv Hf; [lia|]. cbn [payload_loop].
    set (Q := payload_post items s p).
    eapply run_take; [apply step_refl|exact Hv|lia|].
    intros t0 toks0 s1 -> Ht0 Hs0 Hv1 [H1 H1'] Hk1 Hi1 L1.
    specialize (H1 _ _ (step_refl _ _ _ _)). specialize (H1' _ _ (step_refl _ _ _ _)). cbn [app] in H1.
    destruct (kind_eqb (tk_kind t0) (Directive DeleteNode)).
    { eapply run_bind; [exact H1|eapply node_name_safe; [exact text_valid|exact Hv1]|lia|].
      intros nm s2 p2 toks2 Hv2 H2 L2.
      eapply run_bind; [exact H2|eapply semicolon_good; [exact text_valid|exact Hv2|exact (step_pos _ _ _ _ _ _ _ _ H2 ltac:(discriminate))]|lia|].
      intros o s3 p3 toks3 Hv3 H3 L3. unfold none_toks in H3. rewrite app_nil_r in H3.
      eapply (payload_cons items (IDeletedNode t0 nm)); [exact H3|exact Hv3|lia| |exact IH|reflexivity]; lia. }
    destruct (kind_eqb (tk_kind t0) (Directive DeleteProperty)).
    { eapply run_bind; [exact H1|eapply property_name_safe; [exact text_valid|exact Hv1]|lia|].
      intros nm s2 p2 toks2 Hv2 H2 L2.
      eapply run_bind; [exact H2|eapply semicolon_good; [exact text_valid|exact Hv2|exact (step_pos _ _ _ _ _ _ _ _ H2 ltac:(discriminate))]|lia|].
      intros o s3 p3 toks3 Hv3 H3 L3. unfold none_toks in H3. rewrite app_nil_r in H3.
      eapply (payload_cons items (IDeletedProperty t0 nm)); [exact H3|exact Hv3|lia| |exact IH|reflexivity]; lia. }
    (* /omit-if-no-ref/ *)
    apply wp_bind. eapply (wp_conseq _ _ (fun to s2 => exists toks2,
      (forall t, snd to = Some t -> tok_at t) /\ tok_at (fst to) /\ tk_source (fst to) = src
      /\ view s2 (tk_end (fst to)) toks2 /\ (left s2 < left s)%nat
      /\ step 1 s p (opt_list (snd to) ++ [fst to]) s2 (tk_end (fst to))
      /\ step 1 s p [fst to] s2 (tk_end (fst to))) _ (bad 0 s p)); [| |auto].
    { destruct (kind_eqb (tk_kind t0) (Directive OmitIfNoRef)).
      - eapply run_take; [exact H1|exact Hv1|lia|]. intros t1 toks1 s2 -> Ht1 Hs1 Hv2 [H2 _] _ _ L2.
        apply wp_ret. exists toks1. cbn [fst snd opt_list]. split; [intros t E; injection E as <-; exact Ht0|].
        split; [exact Ht1|]. split; [exact Hs1|]. split; [exact Hv2|]. split; [lia|].
        split; [eapply (step_weaken _ _ 2); [lia|exact (H2 _ _ H1)]|eapply (step_weaken _ _ 2); [lia|exact (H2 _ _ H1')]].
      - apply wp_ret. exists toks0. cbn [fst snd opt_list]. split; [discriminate|]. auto 8. }
    intros [tok omit] s2 (toks2 & Hom & Htok & Hstok & Hv2 & L2 & A2 & B2). cbn [fst snd] in *.
    (* label *)
    apply wp_bind. eapply (wp_conseq _ _ (fun tl s3 => exists toks3,
      (forall w, snd tl = Some w -> tok_at (wt_tok w)) /\ tok_at (fst tl) /\ tk_source (fst tl) = src
      /\ view s3 (tk_end (fst tl)) toks3 /\ (left s3 < left s)%nat
      /\ step 1 s p (opt_list omit ++ opt_tok (snd tl) ++ [fst tl]) s3 (tk_end (fst tl))
      /\ step 1 s p (opt_tok (snd tl) ++ [fst tl]) s3 (tk_end (fst tl))
      /\ step 1 s p [fst tl] s3 (tk_end (fst tl))) _ (bad 0 s p)); [| |auto].
    { assert (G0 : wp (ret (tok, None)) s2 (fun tl s3 => exists toks3,
        (forall w, snd tl = Some w -> tok_at (wt_tok w)) /\ tok_at (fst tl) /\ tk_source (fst tl) = src
        /\ view s3 (tk_end (fst tl)) toks3 /\ (left s3 < left s)%nat
        /\ step 1 s p (opt_list omit ++ @opt_tok str (snd tl) ++ [fst tl]) s3 (tk_end (fst tl))
        /\ step 1 s p (opt_tok (snd tl) ++ [fst tl]) s3 (tk_end (fst tl))
        /\ step 1 s p [fst tl] s3 (tk_end (fst tl))) (bad 0 s p)).
      { apply wp_ret. exists toks2. cbn [fst snd opt_tok app]. split; [discriminate|]. auto 10. }
      destruct (tk_kind tok) eqn:Ek; try exact G0.
      eapply run_pushes; [exact A2|exact Hv2| |].
      { eapply check_ident_pushes; [exact Hv2|eapply tok_room; [exact Htok|]; rewrite Ek; reflexivity|reflexivity]. }
      intros s3 Hv3 A3 El L3. assert (B3 : step 1 s p [tok] s3 (tk_end tok)).
      { destruct A3 as (X & _ & Y). destruct B2 as (_ & Z & _). split; [exact X|]. split; [exact Z|exact Y]. }
      assert (C3 : step 1 s p (opt_list omit) s3 (tk_end tok)).
      { destruct A3 as (X & Z & Y). split; [exact X|]. split; [|exact Y].
        rewrite <- (app_nil_r (opt_list omit)). eapply (seqt_skip _ _ [tok]). rewrite app_nil_r. exact Z. }
      eapply run_take; [exact A3|exact Hv3|lia|]. intros t1 toks1 s4 -> Ht1 Hs1 Hv4 [H4 _] _ _ L4.
      apply wp_ret. exists toks1. cbn [fst snd opt_tok wt_tok]. split; [intros w E; injection E as <-; exact Htok|].
      split; [exact Ht1|]. split; [exact Hs1|]. split; [exact Hv4|]. split; [lia|].
      specialize (H4 1%nat).
      split; [|split].
      - rewrite app_assoc. eapply (step_weaken _ _ 2); [lia|]. exact (H4 _ A3).
      - eapply (step_weaken _ _ 2); [lia|]. exact (H4 _ B3).
      - eapply (step_weaken _ _ 2); [lia|]. exact (H4 [] (step_forget _ _ _ _ _ _ _ _ B3)). }
    intros [name label] s3 (toks3 & Hlab & Hname & Hsname & Hv3 & L3 & A3 & B3 & C3). cbn [fst snd] in *.
    clear Htok Hstok tok s2 toks2 Hv2 L2 A2 B2 H1 H1'.
    destruct (tk_kind name) eqn:Ek;
      try (eapply run_throw; [exact A3|lia|exact Hv3|apply diag_tok; [assumption..|discriminate]]).
    - (* closing brace *)
      apply wp_bind. eapply wp_conseq; [eapply expect_semicolon_safe; [exact text_valid|exact Hv3|exact (step_pos _ _ _ _ _ _ _ _ C3 ltac:(discriminate))]| |].
      + intros o s4 ((p4 & toks4 & Hv4 & H4) & Ho). apply wp_ret. exists []. rewrite app_nil_r. split; [reflexivity|].
        exists p4, toks4. split; [exact Hv4|]. cbn [flat_map app pl_end].
        destruct o as [e|]; cbn [or_token opt_toks] in *.
        * eapply (step_weaken _ _ (1 + 0)); [lia|]. change [e] with ([] ++ [e]).
          eapply step_trans; [eapply step_forget, C3|exact H4].
        * eapply (step_weaken _ _ (1 + 0)); [lia|]. rewrite <- (app_nil_r [name]). eapply step_trans; [exact C3|exact H4].
      + intros d s4 Hd. eapply bad_weaken; [|eapply bad_trans; [exact C3|exact Hd]]. lia.
    - (* a name *)
      eapply run_peek_expect; [exact text_valid|exact C3|exact Hv3|lia|]. intros t2 toks4 s4 -> Hv4 C4 Hk4 L4.
      assert (A4 : step 1 s p (opt_list omit ++ opt_tok label ++ [name]) s4 (tk_end name)).
      { destruct C4 as (X & _ & Y). destruct A3 as (_ & Z & _). split; [exact X|]. split; [exact Z|exact Y]. }
      assert (B4 : step 1 s p (opt_tok label ++ [name]) s4 (tk_end name)).
      { destruct C4 as (X & _ & Y). destruct B3 as (_ & Z & _). split; [exact X|]. split; [exact Z|exact Y]. }
      destruct (head_facts _ _ _ _ _ _ Hv4) as (Ht2 & Hs2 & Hp2 & Hlt2).
      destruct (tk_kind t2) eqn:Ek2;
        try (apply wp_bind, wp_last_pos; eapply run_source; [exact Hv4|];
             eapply run_throw; [exact A4|lia|exact Hv4|];
             split; [reflexivity|]; split; [eapply span_in_last, view_last; eassumption|];
             apply (pl_point _ _ _ (last_of s4));
               [apply not_semicolons; discriminate|eapply point_last, view_last; eassumption|reflexivity]).
      + (* property without values *)
        eapply run_skip2; [exact Hv4|]. intros s5 Hv5 [H5 H5'] _ _ L5.
        specialize (H5 _ _ B4). rewrite <- app_assoc in H5.
        eapply run_pushes; [exact H5|exact Hv5| |].
        { eapply check_ident_pushes; [exact Hv5|eapply tok_room; [exact Hname|]; rewrite Ek; reflexivity|reflexivity]. }
        intros s6 Hv6 H6 _ L6.
        eapply (property_safe f items nd s p omit label name s0 _ [] t2 s6 s6); eauto; try lia.
        cbn [item_toks]. unfold prop_toks. cbn [pr_label pr_name pr_end pr_values wt_tok]. rewrite Ek2.
        cbn [flat_map app]. exact H6.
      + (* property with values *)
        eapply run_skip2; [exact Hv4|]. intros s5 Hv5 [H5 H5'] _ _ L5.
        specialize (H5 _ _ B4). specialize (H5' _ _ B4). rewrite <- app_assoc in H5.
        eapply wp_bind, wp_pushes.
        { eapply check_ident_pushes; [exact Hv5|eapply tok_room; [exact Hname|]; rewrite Ek; reflexivity|reflexivity]. }
        intros s6 El6 He6. pose proof (step_same_lex text src s5 (tk_end t2) s6 El6 He6) as H56.
        assert (Hv6 : view s6 (tk_end t2) toks4) by (eapply view_same_lex; eassumption).
        assert (L6 : (left s6 <= left s5)%nat) by (apply step_left in H56; lia).
        apply wp_bind. eapply wp_conseq;
          [eapply (property_values_safe text src text_valid f [] s6 (tk_end t2) [] s6 _ _ 0); [exact Hv6|lia|apply step_refl]| |].
        2:{ intros d s7 Hd. eapply bad_weaken; [|eapply bad_trans; [|exact Hd]; eapply step_trans; [exact H5|exact H56]]. lia. }
        intros values s7 (p7 & toks7 & Hv7 & H7). cbn [app] in H7.
        apply wp_bind. eapply wp_conseq; [eapply expect_semicolon_safe; [exact text_valid|exact Hv7|]| |].
        { eapply (step_pos text src); [eapply step_trans; [exact H5|eapply step_trans; [exact H56|exact H7]]|]. destruct label; discriminate. }
        2:{ intros d s8 Hd. eapply bad_weaken; [|eapply bad_trans; [|exact Hd]; eapply step_trans; [eapply step_trans; [exact H5|exact H56]|exact H7]]. lia. }
        intros o s8 ((p8 & toks8 & Hv8 & H8) & Ho).
        assert (L8 : (left s8 < left s)%nat) by (apply step_left in H7, H8; lia).
        assert (Ht8 : tok_at (or_token o t2)).
        { destruct o as [e|]; [|exact Ht2]. exact (proj2 Ho). }
        pose proof (step_trans _ _ _ _ _ _ _ _ _ _ _ _ H56 (step_trans _ _ _ _ _ _ _ _ _ _ _ _ H7 H8)) as H58.
        cbn [app] in H58.
        pose proof (step_trans _ _ _ _ _ _ _ _ _ _ _ _ H5 H58) as Hwith.
        pose proof (step_trans _ _ _ _ _ _ _ _ _ _ _ _ H5' H58) as Hwithout.
        rewrite <- !app_assoc in Hwith, Hwithout.
        assert (Hends : step 1 s p (opt_tok label ++ [name] ++ [or_token o t2]) s8 p8).
        { destruct o as [e|]; cbn [or_token opt_toks] in *.
          - destruct Hwithout as (X & Y & Z). split; [exact X|]. split; [|lia].
            rewrite app_assoc in Y |- *. eapply seqt_skip, Y.
          - destruct Hwith as (X & Y & Z). split; [exact X|]. split; [|lia].
            rewrite app_nil_r in Y.
            assert (Y' : seqt text src p ((opt_tok label ++ [name] ++ [t2]) ++ flat_map value_toks values) p8).
            { rewrite <- !app_assoc. exact Y. }
            apply seqt_inv_app in Y'. destruct Y' as (mid & [Y1 F1] & [Y2 F2]). split; [|exact F1].
            eapply seq_hi; [exact Y1|]. eapply seq_le, Y2. }
        eapply (property_safe f items nd s p omit label name s0 _ values (or_token o t2) s8 s8); eauto; try lia.
        cbn [item_toks]. unfold prop_toks. cbn [pr_label pr_name pr_end pr_values wt_tok].
        destruct o as [e|]; cbn [or_token opt_toks] in *.
        * destruct Ho as [-> _]. exact Hwithout.
        * rewrite Ek2. rewrite app_nil_r in Hwith. exact Hwith.
      + (* node *)
        eapply run_pushes; [exact A4|exact Hv4|eapply node_name_pushes; eassumption|].
        intros s5 Hv5 A5 _ L5. eapply run_expect; [exact text_valid|exact A5|exact Hv5|lia|].
        intros t toks6 s6 E _ _ _ Hv6 A6 _ _ L6. injection E as <- <-.
        apply wp_bind. eapply wp_conseq; [eapply (IH [] false s6 _ _ Hv6); lia| |].
        2:{ intros d s7 Hd. eapply bad_weaken; [|eapply bad_trans; [exact A6|exact Hd]]. lia. }
        intros pl s7 (new & En & p7 & toks7 & Hv7 & H7). cbn [app] in En.
        eapply (payload_cons items (INode (mkNode label (mkWT (node_name_of s0) name) pl omit)));
          [|exact Hv7| | |exact IH|reflexivity]; try (apply step_left in H7; lia).
        cbn [item_toks node_toks wt_tok]. destruct pl as [its e]. cbn [pl_items pl_end payload_toks] in *. subst its.
        eapply step_trans with (ts := opt_list omit ++ opt_tok label ++ [name]) in H7; [|exact A6].
        rewrite <- !app_assoc in H7. exact H7.
  Qed.

  Lemma node_payload_safe f s p toks : view s p toks -> (left s <= f)%nat ->
    wp (node_payload f) s (good 1 payload_toks s p) (bad 0 s p).
  Proof.
    intros Hv Hf. unfold node_payload. eapply run_expect; [exact text_valid|apply step_refl|exact Hv|lia|].
    intros t toks1 s1 -> _ _ _ Hv1 H1 _ _ L1.
    eapply wp_conseq; [eapply (payload_loop_safe f [] false s1 _ _ Hv1); lia| |].
    - intros pl s2 (new & En & p2 & toks2 & Hv2 & H2). cbn [app] in En. exists p2, toks2. split; [exact Hv2|].
      destruct pl as [its e]. cbn [pl_items pl_end payload_toks] in *. subst its.
      pose proof (step_trans _ _ _ _ _ _ _ _ _ _ _ _ H1 H2) as H. cbn [app] in H. eapply step_weaken; [|exact H]. lia.
    - intros d s2 Hd. eapply bad_weaken; [|eapply bad_trans; [exact H1|exact Hd]]. lia.
  Qed.

  Lemma parse_reference_safe s p toks : view s p toks ->
    wp parse_reference s (good 1 (fun w => [wt_tok w]) s p) (bad 0 s p).
  Proof.
    intros Hv. unfold parse_reference. eapply run_take; [apply step_refl|exact Hv|lia|].
    intros t toks1 s1 -> Ht Hs Hv1 [H1 _] _ _ L1. specialize (H1 _ _ (step_refl _ _ _ _)).
    destruct (tk_kind t) eqn:Ek;
      try (eapply run_throw; [exact H1|lia|exact Hv1|apply diag_tok; [assumption..|discriminate]]).
    destruct (reference_pushes text src t r _ _ s1 Hv1 Ht Hs Ek) as [ref Hr].
    eapply wp_pushes; [exact Hr|]. intros s2 El He. exists (tk_end t), toks1. split; [eapply view_same_lex; eassumption|].
    pose proof (step_trans _ _ _ _ _ _ _ _ _ _ _ _ H1 (step_same_lex text src s1 (tk_end t) s2 El He)) as H. exact H.
  Qed.

  Lemma primary_safe f s p toks : view s p toks -> (left s <= f)%nat ->
    wp (p_primary f) s (good 1 primary_toks s p) (bad 0 s p).
  Proof.
    intros Hv Hf. unfold p_primary. eapply run_take; [apply step_refl|exact Hv|lia|].
    intros t toks1 s1 -> Ht Hs Hv1 [H1 H1'] _ _ L1.
    specialize (H1 _ _ (step_refl _ _ _ _)). specialize (H1' _ _ (step_refl _ _ _ _)). cbn [app] in H1.
    assert (Gsemi : forall {A} n ts s2 p2 toks2 (a : A) f', step n s p ts s2 p2 -> view s2 p2 toks2 ->
      (1 <= n)%nat -> ts <> [] -> ts = f' a -> wp (expect_semicolon ;; ret a) s2 (good 1 f' s p) (bad 0 s p)).
    { intros A n ts s2 p2 toks2 a f' H2 Hv2 Hn Hts Hfa.
      eapply run_bind; [exact H2|eapply semicolon_good; [exact text_valid|exact Hv2|exact (step_pos _ _ _ _ _ _ _ _ H2 Hts)]|lia|].
      intros o s3 p3 toks3 Hv3 H3 _. unfold none_toks in H3. rewrite app_nil_r in H3.
      eapply run_ret; [exact H3|lia|exact Hv3|exact Hfa]. }
    destruct (tk_kind t) eqn:Ek;
      try (eapply run_throw; [exact H1|lia|exact Hv1|apply diag_tok; [assumption..|discriminate]]).
    - (* root *)
      eapply run_bind; [exact H1|eapply node_payload_safe; [exact Hv1|lia]|lia|].
      intros pl s2 p2 toks2 Hv2 H2 _. eapply run_ret; [exact H2|lia|exact Hv2|reflexivity].
    - (* #include *)
      destruct (str_eqb s0 (bs "#include"));
        [|eapply run_throw; [exact H1|lia|exact Hv1|apply diag_tok; [assumption..|discriminate]]].
      eapply run_take; [exact H1'|exact Hv1|lia|]. intros t1 toks2 s2 -> Ht1 Hs1 Hv2 [_ H2] _ _ L2.
      specialize (H2 _ _ H1').
      destruct (tk_kind t1); try (eapply run_throw; [exact H2|lia|exact Hv2|apply diag_tok; [assumption..|discriminate]]).
      eapply run_ret; [exact H2|lia|exact Hv2|reflexivity].
    - (* directives *)
      destruct d; try (eapply run_throw; [exact H1|lia|exact Hv1|apply diag_tok; [assumption..|discriminate]]).
      + eapply Gsemi; [exact H1|exact Hv1|lia|discriminate|reflexivity].
      + eapply run_bind; [exact H1'|eapply memreserve_number_safe; [exact text_valid|exact Hv1]|lia|].
        intros a s2 p2 toks2 Hv2 H2 _.
        eapply run_bind; [exact H2|eapply memreserve_number_safe; [exact text_valid|exact Hv2]|lia|].
        intros l s3 p3 toks3 Hv3 H3 _. eapply Gsemi; [exact H3|exact Hv3|lia|discriminate|reflexivity].
      + eapply run_bind; [exact H1|eapply parse_reference_safe; exact Hv1|lia|].
        intros a s2 p2 toks2 Hv2 H2 _. eapply Gsemi; [exact H2|exact Hv2|lia|discriminate|reflexivity].
      + eapply Gsemi; [exact H1|exact Hv1|lia|discriminate|reflexivity].
      + eapply run_bind; [exact H1|eapply parse_reference_safe; exact Hv1|lia|].
        intros a s2 p2 toks2 Hv2 H2 _. eapply Gsemi; [exact H2|exact Hv2|lia|discriminate|reflexivity].
      + (* /include/ *)
        eapply run_take; [exact H1|exact Hv1|lia|]. intros t1 toks2 s2 -> Ht1 Hs1 Hv2 [H2 _] _ _ L2.
        specialize (H2 _ _ H1). cbn [app] in H2.
        destruct (tk_kind t1); try (eapply run_throw; [exact H2|lia|exact Hv2|apply diag_tok; [assumption..|discriminate]]).
        eapply run_peek; [exact text_valid|exact H2|exact Hv2|]. intros s3 Hv3 H3 _ _.
        assert (G : forall s4 p4 toks4, view s4 p4 toks4 -> step 2 s p [t; t1] s4 p4 ->
          wp (let! paths := include_paths in
              ret (PDirective (AInclude (mkInclude t (mkWT s0 t1) paths)))) s4 (good 1 primary_toks s p) (bad 0 s p)).
        { intros s4 p4 toks4 Hv4 H4. apply wp_bind. unfold wp at 1, include_paths.
          eapply run_ret; [exact H4|lia|exact Hv4|reflexivity]. }
        destruct toks2 as [|t2 toks2]; cbn [hd_error].
        * apply wp_bind, wp_ret. eapply G; eassumption.
        * destruct (kind_eqb (tk_kind t2) Semicolon); [|apply wp_bind, wp_ret; eapply G; eassumption].
          apply wp_bind. eapply run_take; [exact H3|exact Hv3|lia|].
          intros t3 toks3 s4 E Ht3 Hs3 Hv4 [_ H4] _ _ L4. injection E as <- <-. specialize (H4 _ _ H3).
          eapply wp_pushes; [apply pushes_push, diag_tok_from; [eassumption..|discriminate]|]. intros s5 El He.
          eapply (G s5 (tk_end t2) toks2); [eapply view_same_lex; eassumption|].
          pose proof (step_trans _ _ _ _ _ _ _ _ _ _ _ _ H4 (step_same_lex text src s4 (tk_end t2) s5 El He)) as H.
          rewrite app_nil_r in H. eapply step_weaken; [|exact H]. lia.
    - (* referenced node *)
      destruct (reference_pushes text src t r _ _ s1 Hv1 Ht Hs Ek) as [ref Hr].
      eapply run_pushes; [exact H1|exact Hv1|exact Hr|]. intros s2 Hv2 H2 _ L2.
      eapply run_bind; [exact H2|eapply node_payload_safe; [exact Hv2|lia]|lia|].
      intros pl s3 p3 toks3 Hv3 H3 _. eapply run_ret; [exact H3|lia|exact Hv3|reflexivity].
  Qed.

  Lemma file_loop_safe f acc s0 p0 s p toks : view s p toks -> (left s < f)%nat ->
    step 0 s0 p0 (flat_map primary_toks acc) s p ->
    wp (file_loop f acc) s (good 0 (flat_map primary_toks) s0 p0) (bad 0 s0 p0).
  Proof.
    revert acc s p toks. induction f as [|f IH]; intros acc s p toks Hv Hf H0; [lia|]. cbn [file_loop].
    eapply run_peek; [exact text_valid|exact H0|exact Hv|]. intros s1 Hv1 H1 _ L1.
    destruct toks as [|t toks]; cbn [hd_error].
    - eapply run_ret; [exact H1|lia|exact Hv1|reflexivity].
    - eapply run_bind; [exact H1|eapply primary_safe; [exact Hv1|lia]|lia|].
      intros x s2 p2 toks2 Hv2 H2 L2. eapply IH; [exact Hv2|lia|].
      rewrite flat_map_app. cbn [flat_map]. rewrite app_nil_r. eapply step_weaken; [|exact H2]. lia.
  Qed.

  Lemma file_safe f s p toks : view s p toks -> (left s < f)%nat ->
    wp (p_file f) s (fun fl s' => good 0 file_toks s p fl s' /\ fl_source fl = src) (bad 0 s p).
  Proof.
    intros Hv Hf. unfold p_file. eapply run_bind0; [eapply file_loop_safe; [exact Hv|exact Hf|apply step_refl]|lia|].
    intros els s1 p1 toks1 Hv1 H1. eapply run_source; [exact Hv1|]. apply wp_ret. split; [|reflexivity].
    exists p1, toks1. split; [exact Hv1|exact H1].
  Qed.

  Lemma view_new incl : exists toks, view (parser_new incl text src) pos_zero toks.
  Proof.
    destruct (lexed_total src NameExpected [] text) as [toks Hl]. exists toks. split; [reflexivity|].
    exists []. split; [rewrite pos_after_nil; reflexivity|]. split; [left; reflexivity|]. unfold peeked_of. cbn. left.
    split; [reflexivity|]. split; [reflexivity|]. split; [exact Hl|]. exists [], text. split; [reflexivity|].
    rewrite pos_after_nil. reflexivity.
  Qed.

  Lemma parse_safe incl :
    wp (p_file (S (S (length text)))) (parser_new incl text src)
       (fun fl s' => good 0 file_toks (parser_new incl text src) pos_zero fl s' /\ fl_source fl = src)
       (bad 0 (parser_new incl text src) pos_zero).
  Proof.
    destruct (view_new incl) as [toks Hv]. eapply file_safe; [exact Hv|].
    unfold left, rest_of, peeked_of. cbn. lia.
  Qed.
End Safe2.
