(** Spans of a tree whose stored tokens are in order nest *)
From Verif Require Import Parser LexSpec ReaderProofs ParserBase ParserSafe ParserSafe2 TreeSpec.
From Coq Require Import ZifyBool.

(** ** Induction over nodes *)
Section Ind.
  Variable P : node -> Prop.
  Variable Pi : item -> Prop.
  Hypothesis Hn : forall l nm its e o, Forall Pi its -> P (mkNode l nm (mkPayload its e) o).
  Hypothesis Hp : forall p, Pi (IProperty p).
  Hypothesis Hi : forall n, P n -> Pi (INode n).
  Hypothesis Hdn : forall t n, Pi (IDeletedNode t n).
  Hypothesis Hdp : forall t n, Pi (IDeletedProperty t n).
  Fixpoint node_rect' (n : node) : P n :=
    match n with
    | mkNode l nm (mkPayload its e) o =>
      Hn l nm its e o
        ((fix go (its : list item) : Forall Pi its :=
            match its with
            | [] => Forall_nil Pi
            | i :: r => Forall_cons i (item_rect' i) (go r)
            end) its)
    end
  with item_rect' (i : item) : Pi i :=
    match i with
    | IProperty p => Hp p
    | INode n => Hi n (node_rect' n)
    | IDeletedNode t n => Hdn t n
    | IDeletedProperty t n => Hdp t n
    end.
End Ind.

(** every list of tokens [f x] in order between two positions gives a span inside them *)
Definition spanned {A} (toks : A -> list token) (sp : A -> span) (x : A) : Prop :=
  forall lo hi, seq lo (toks x) hi ->
    proper (sp x) /\ pos_le lo (span_start (sp x)) /\ pos_le (span_end (sp x)) hi.

Lemma spanned_bounds {A} (toks : A -> list token) sp l lo hi :
  Forall (spanned toks sp) l -> seq lo (flat_map toks l) hi ->
  in_order (map sp l)
  /\ Forall (fun s => pos_le lo (span_start s) /\ pos_le (span_end s) hi) (map sp l).
Proof.
  intros H. revert lo. induction H as [|x l Hx _ IH]; intros lo Hs; cbn [map].
  - repeat constructor.
  - cbn [flat_map] in Hs. apply seq_inv_app in Hs. destruct Hs as (mid & H1 & H2).
    destruct (Hx _ _ H1) as (Hp & Ha & Hb). destruct (IH _ H2) as ((IP & IO) & IB).
    assert (Hlm := seq_le _ _ _ H1). assert (Hmh := seq_le _ _ _ H2).
    split; [split|].
    + constructor; assumption.
    + constructor; [|exact IO]. eapply Forall_impl; [|exact IB]. intros s [Hs _].
      unfold before. eapply pos_le_trans; eassumption.
    + constructor.
      * split; [exact Ha|]. eapply pos_le_trans; eassumption.
      * eapply Forall_impl; [|exact IB]. intros s [Hs Hs']. split; [eapply pos_le_trans; eassumption|exact Hs'].
Qed.

Lemma in_order_cons s l mid : proper s -> pos_le (span_end s) mid -> in_order l ->
  Forall (fun x => pos_le mid (span_start x)) l -> in_order (s :: l).
Proof.
  intros Hp Hm (Ha & Hb) Hl. split; constructor; auto.
  eapply Forall_impl; [|exact Hl]. intros x Hx. unfold before. eapply pos_le_trans; eassumption.
Qed.

Lemma in_order_of_seq lo l hi : seq lo l hi -> in_order (map tk_span l).
Proof.
  intros H. assert (G : in_order (map tk_span l) /\ Forall (fun s => pos_le lo (span_start s) /\ pos_le (span_end s) hi) (map tk_span l)).
  { apply (spanned_bounds (fun t => [t])).
    - apply Forall_forall. intros t _ lo' hi' (H1 & H2 & H3). auto.
    - clear -H. revert lo H. induction l as [|t l IH]; intros lo H; [exact H|]. cbn in *. destruct H as (H1 & H2 & H3). auto. }
  apply G.
Qed.

Lemma value_spanned v : spanned value_toks pv_span v.
Proof.
  intros lo hi H. destruct v as [s|a cs b|r|a ss b]; cbn [value_toks pv_span] in *.
  - destruct H as (H1 & H2 & H3). auto.
  - apply (seq_skip _ [a]) in H. cbn [app seq] in H. destruct H as (H1 & H2 & H3 & H4 & H5).
    unfold proper, pos_to. cbn [span_start span_end]. split; [|auto].
    eapply pos_lt_le_trans; [exact H2|]. eapply pos_le_trans; [exact H3|apply pos_lt_le, H4].
  - destruct H as (H1 & H2 & H3). auto.
  - apply (seq_skip _ [a]) in H. cbn [app seq] in H. destruct H as (H1 & H2 & H3 & H4 & H5).
    unfold proper, pos_to. cbn [span_start span_end]. split; [|auto].
    eapply pos_lt_le_trans; [exact H2|]. eapply pos_le_trans; [exact H3|apply pos_lt_le, H4].
Qed.

Lemma cell_spans_toks c : cell_spans c = map tk_span (cell_toks c).
Proof. destruct c; reflexivity. Qed.
Lemma cells_spans_toks cs : flat_map cell_spans cs = map tk_span (flat_map cell_toks cs).
Proof.
  induction cs as [|c cs IH]; [reflexivity|]. cbn [flat_map]. rewrite map_app, IH, cell_spans_toks. reflexivity.
Qed.
Lemma value_nested_of_seq v lo hi : seq lo (value_toks v) hi -> value_nested v.
Proof.
  intros H. destruct v as [s|a cs b|r|a ss b]; cbn [value_toks value_nested] in *; auto.
  - apply in_order_of_seq in H. rewrite cells_spans_toks, !map_app in *. exact H.
  - apply in_order_of_seq in H. rewrite !map_app, map_map in H. exact H.
Qed.

(** comparison of positions by way of [lia] *)
Ltac le_chain := unfold proper, before, wt_span, tk_start, tk_end, pos_to in *; cbn [span_start span_end] in *; unfold pos_le, pos_lt in *; lia.

Lemma values_nested vs lo hi : seq lo (flat_map value_toks vs) hi ->
  in_order (map pv_span vs) /\ Forall (fun s => pos_le lo (span_start s) /\ pos_le (span_end s) hi) (map pv_span vs)
  /\ Forall value_nested vs.
Proof.
  intros H. destruct (spanned_bounds value_toks pv_span vs lo hi) as [H1 H2]; [|exact H|].
  - apply Forall_forall. intros v _. apply value_spanned.
  - split; [exact H1|]. split; [exact H2|]. clear H1 H2. revert lo H.
    induction vs as [|v vs IH]; intros lo H; constructor; cbn [flat_map] in H; apply seq_inv_app in H;
      destruct H as (mid & Ha & Hb); [eapply value_nested_of_seq, Ha|eapply IH, Hb].
Qed.

(** label and name in front of the rest of an item *)
Lemma named_seq {A B} (l : option (wtok A)) (nm : wtok B) rest lo hi :
  seq lo (opt_tok l ++ [wt_tok nm] ++ rest) hi ->
  let start := span_start (match l with Some l => wt_span l | None => wt_span nm end) in
  pos_le lo start /\ pos_le start (tk_start (wt_tok nm)) /\ proper (wt_span nm)
  /\ (forall w, l = Some w -> proper (wt_span w) /\ start = span_start (wt_span w) /\ before (wt_span w) (wt_span nm))
  /\ seq (tk_end (wt_tok nm)) rest hi.
Proof.
  destruct l as [w|]; cbn [opt_tok app seq]; intros H.
  - destruct H as (H1 & H2 & H3 & H4 & H5). split; [exact H1|]. split; [eapply pos_le_trans; [apply pos_lt_le, H2|exact H3]|].
    split; [exact H4|]. split; [|exact H5]. intros w' E. injection E as <-. split; [exact H2|]. split; [reflexivity|exact H3].
  - destruct H as (H3 & H4 & H5). split; [exact H3|]. split; [apply pos_le_refl|]. split; [exact H4|].
    split; [discriminate|exact H5].
Qed.

Lemma prop_shape p lo hi : seq lo (prop_toks p) hi ->
  prop_nested p /\ proper (prop_span p) /\ pos_le lo (span_start (prop_span p)) /\ pos_le (span_end (prop_span p)) hi.
Proof.
  destruct p as [l nm vs e]. unfold prop_toks, prop_nested, prop_span. cbn [pr_label pr_name pr_values pr_end].
  intros H. apply named_seq in H. cbn zeta in H.
  set (start := span_start (match l with Some l => wt_span l | None => wt_span nm end)) in *.
  destruct H as (Hlo & Hst & Hnm & Hl & H). unfold pos_to. cbn [span_start span_end].
  assert (G : exists mid, pos_le (tk_end (wt_tok nm)) mid /\ seq mid (flat_map value_toks vs) hi
    /\ pos_le (tk_end (wt_tok nm)) (tk_start e) /\ pos_lt (tk_start e) (tk_end e) /\ pos_le (tk_end e) hi
    /\ (tk_kind e = Equal \/ seq mid (flat_map value_toks vs) (tk_start e))).
  { assert (G : seq (tk_end (wt_tok nm)) (flat_map value_toks vs ++ [e]) hi ->
      exists mid, pos_le (tk_end (wt_tok nm)) mid /\ seq mid (flat_map value_toks vs) hi
        /\ pos_le (tk_end (wt_tok nm)) (tk_start e) /\ pos_lt (tk_start e) (tk_end e) /\ pos_le (tk_end e) hi
        /\ (tk_kind e = Equal \/ seq mid (flat_map value_toks vs) (tk_start e))).
    { intros H'. exists (tk_end (wt_tok nm)). split; [apply pos_le_refl|]. apply seq_inv_app in H'.
      destruct H' as (mid & Ha & Hb & Hc & Hd). cbn [seq] in Hd. assert (Hnm' := seq_le _ _ _ Ha).
      split; [eapply seq_hi; [exact Ha|le_chain]|]. split; [le_chain|]. split; [exact Hc|]. split; [exact Hd|].
      right. eapply seq_hi; [exact Ha|exact Hb]. }
    destruct (tk_kind e); try (apply G, H). cbn [app seq] in H. destruct H as (Ha & Hb & Hc).
    exists (tk_end e). assert (Hd := seq_le _ _ _ Hc). split; [le_chain|]. auto 8. }
  clear H. destruct G as (mid & Hm & Hv & He1 & He2 & He3 & Hk).
  destruct (values_nested _ _ _ Hv) as (V1 & V2 & V3).
  assert (Hnm' : pos_lt (tk_start (wt_tok nm)) (tk_end (wt_tok nm))) by exact Hnm.
  repeat split.
  - exact Hst.
  - change (pos_le (tk_end (wt_tok nm)) (tk_end e)). le_chain.
  - apply (Hl _ H).
  - destruct (Hl _ H) as (_ & E & _). rewrite E. apply pos_le_refl.
  - destruct (Hl _ H) as (_ & _ & Hb). eapply pos_le_trans; [exact Hb|]. change (pos_le (tk_start (wt_tok nm)) (tk_end e)). le_chain.
  - apply (Hl _ H).
  - constructor; [exact Hnm|]. apply V1.
  - constructor; [|apply V1]. eapply Forall_impl; [|exact V2]. intros s [Hs _]. unfold before.
    le_chain.
  - exact V3.
  - destruct Hk as [Hk|Hk]; [left; exact Hk|right].
    destruct (values_nested _ _ _ Hk) as (_ & V & _). apply Forall_forall. intros v Hin.
    rewrite Forall_forall in V. destruct (V (pv_span v)) as [Va Vb]; [apply in_map, Hin|]. split; cbn [span_start span_end].
    + le_chain.
    + eapply pos_le_trans; [exact Vb|]. le_chain.
  - change (pos_lt start (tk_end e)). eapply pos_le_lt_trans; [exact Hst|]. eapply pos_lt_le_trans; [exact Hnm'|]. le_chain.
  - exact Hlo.
  - exact He3.
Qed.

Lemma del_shape {A} t (n : wtok A) lo hi : seq lo [t; wt_tok n] hi ->
  in_order [tk_span t; wt_span n]
  /\ proper (pos_to (tk_start t) (span_end (wt_span n)))
  /\ pos_le lo (tk_start t) /\ pos_le (span_end (wt_span n)) hi.
Proof.
  intros H. pose proof (in_order_of_seq _ _ _ H) as Ho. destruct H as (H1 & H2 & H3 & H4 & H5).
  split; [exact Ho|]. split; [|split; [exact H1|exact H5]]. unfold proper, pos_to. cbn [span_start span_end].
  eapply pos_lt_le_trans; [exact H2|]. eapply pos_le_trans; [exact H3|]. apply pos_lt_le, H4.
Qed.

Definition item_shape (i : item) : Prop := forall lo hi, seq lo (item_toks i) hi ->
  item_nested i /\ proper (item_span i) /\ pos_le lo (span_start (item_span i)) /\ pos_le (span_end (item_span i)) hi.
Definition node_shape (n : node) : Prop := forall lo hi, seq lo (node_toks n) hi ->
  node_nested n /\ proper (node_span n) /\ pos_le lo (span_start (node_span n)) /\ pos_le (span_end (node_span n)) hi.

(** the items between the name and the end of a node *)
Lemma items_shape its lo hi : Forall item_shape its -> seq lo (flat_map item_toks its) hi ->
  in_order (map item_span its)
  /\ Forall (fun s => pos_le lo (span_start s) /\ pos_le (span_end s) hi) (map item_span its)
  /\ Forall item_nested its.
Proof.
  intros Hs H. destruct (spanned_bounds item_toks item_span its lo hi) as [H1 H2]; [|exact H|].
  - eapply Forall_impl; [|exact Hs]. intros i Hi lo' hi' H'. apply (Hi lo' hi' H').
  - split; [exact H1|]. split; [exact H2|]. clear H1 H2. revert lo H.
    induction Hs as [|i its Hi _ IH]; intros lo H; constructor; cbn [flat_map] in H; apply seq_inv_app in H;
      destruct H as (mid & Ha & Hb); [apply (Hi _ _ Ha)|eapply IH, Hb].
Qed.

Lemma node_shape_intro l nm its e o : Forall item_shape its -> node_shape (mkNode l nm (mkPayload its e) o).
Proof.
  intros Hs lo hi H. cbn [node_toks payload_toks] in H.
  assert (H' : seq lo (opt_tok l ++ [wt_tok nm] ++ flat_map item_toks its ++ [e]) hi).
  { destruct o as [t|]; [|exact H]. apply (seq_skip _ [] [t]) in H. exact H. }
  clear H. apply named_seq in H'. cbn zeta in H'.
  assert (Esp : node_span (mkNode l nm (mkPayload its e) o)
    = pos_to (span_start (match l with Some l => wt_span l | None => wt_span nm end)) (tk_end e)) by reflexivity.
  rewrite Esp.
  set (start := span_start (match l with Some l => wt_span l | None => wt_span nm end)) in *.
  destruct H' as (Hlo & Hst & Hnm & Hl & H). apply seq_inv_app in H. destruct H as (mid & Hi & He1 & He2 & He3).
  cbn [seq] in He3. destruct (items_shape _ _ _ Hs Hi) as (I1 & I2 & I3). assert (Hm := seq_le _ _ _ Hi).
  assert (Hnm' : pos_lt (tk_start (wt_tok nm)) (tk_end (wt_tok nm))) by exact Hnm.
  assert (Hse : pos_lt start (tk_end e)).
  { eapply pos_le_lt_trans; [exact Hst|]. eapply pos_lt_le_trans; [exact Hnm'|]. le_chain. }
  split; [|split; [exact Hse|split; [exact Hlo|exact He3]]].
  constructor; rewrite ?Esp.
  - split; [exact Hst|]. change (pos_le (tk_end (wt_tok nm)) (tk_end e)). le_chain.
  - intros w E. destruct (Hl w E) as (Ha & Hb & Hc). split; [exact Ha|]. split; [|exact Hc].
    split; [cbn [span_start pos_to]; rewrite Hb; apply pos_le_refl|]. cbn [span_end pos_to].
    eapply pos_le_trans; [exact Hc|]. change (pos_le (tk_start (wt_tok nm)) (tk_end e)). le_chain.
  - eapply (in_order_cons _ _ (tk_end (wt_tok nm))); [exact Hnm|apply pos_le_refl|exact I1|].
    eapply Forall_impl; [|exact I2]. intros s [Hs' _]. exact Hs'.
  - apply Forall_forall. intros i Hin. rewrite Forall_forall in I2.
    destruct (I2 (item_span i)) as [Ia Ib]; [apply in_map, Hin|]. split; cbn [span_start span_end pos_to].
    + change (pos_le start (span_start (item_span i))). le_chain.
    + eapply pos_le_trans; [exact Ib|]. le_chain.
  - exact I3.
Qed.

Lemma prop_item_shape p : item_shape (IProperty p).
Proof.
  intros lo hi H. destruct (prop_shape p lo hi H) as (H1 & H2). split; [constructor; exact H1|exact H2].
Qed.
Lemma node_item_shape n : node_shape n -> item_shape (INode n).
Proof. intros Hn lo hi H. destruct (Hn lo hi H) as (H1 & H2). split; [constructor; exact H1|exact H2]. Qed.
Lemma del_node_shape t n : item_shape (IDeletedNode t n).
Proof. intros lo hi H. destruct (del_shape t n lo hi H) as (H1 & H2). split; [constructor; exact H1|exact H2]. Qed.
Lemma del_prop_shape t n : item_shape (IDeletedProperty t n).
Proof. intros lo hi H. destruct (del_shape t n lo hi H) as (H1 & H2). split; [constructor; exact H1|exact H2]. Qed.

Lemma every_item i : item_shape i.
Proof.
  exact (item_rect' node_shape item_shape node_shape_intro prop_item_shape node_item_shape
           del_node_shape del_prop_shape i).
Qed.
Lemma every_node n : node_shape n.
Proof.
  exact (node_rect' node_shape item_shape node_shape_intro prop_item_shape node_item_shape
           del_node_shape del_prop_shape n).
Qed.

Lemma primary_shape p lo hi : seq lo (primary_toks p) hi ->
  primary_nested p
  /\ in_order (primary_spans p)
  /\ Forall (fun s => pos_le lo (span_start s) /\ pos_le (span_end s) hi) (primary_spans p).
Proof.
  assert (One : forall s, proper s -> in_order [s]).
  { intros s Hs. split; constructor; auto; constructor. }
  intros H. destruct p as [[t|t|a l|i|t r|t r]|n|[r [its e]]|s]; cbn [primary_toks primary_nested primary_spans] in *.
  - destruct H as (H1 & H2 & H3). split; [exact I|]. split; [apply One, H2|]. constructor; [split; assumption|constructor].
  - destruct H as (H1 & H2 & H3). split; [exact I|]. split; [apply One, H2|]. constructor; [split; assumption|constructor].
  - destruct (del_shape (wt_tok a) l lo hi H) as (H1 & H2 & H3 & H4). split; [exact H1|]. split; [apply One, H2|].
    constructor; [split; assumption|constructor].
  - destruct (del_shape (in_token i) (in_file_name i) lo hi H) as (H1 & H2 & H3 & H4).
    split; [split; [exact H1|]|split; [apply One, H2|constructor; [split; assumption|constructor]]].
    split; [|apply pos_le_refl]. destruct H as (_ & Ha & Hb & _). cbn [include_span span_start pos_to].
    eapply pos_le_trans; [apply pos_lt_le, Ha|exact Hb].
  - destruct (del_shape t r lo hi H) as (H1 & H2 & H3 & H4). split; [exact H1|]. split; [apply One, H2|].
    constructor; [split; assumption|constructor].
  - destruct (del_shape t r lo hi H) as (H1 & H2 & H3 & H4). split; [exact H1|]. split; [apply One, H2|].
    constructor; [split; assumption|constructor].
  - destruct (every_node n lo hi H) as (H1 & H2 & H3). split; [exact H1|]. split; [apply One, H2|].
    constructor; [split; apply H3|constructor].
  - cbn [rn_reference rn_payload pl_items payload_toks app seq] in *. destruct H as (Ha & Hb & H).
    apply seq_inv_app in H. destruct H as (mid & Hi & He1 & He2 & He3). cbn [seq] in He3.
    assert (Hs : Forall item_shape its). { apply Forall_forall. intros i _. apply every_item. }
    destruct (items_shape _ _ _ Hs Hi) as (I1 & I2 & I3). assert (Hm := seq_le _ _ _ Hi).
    unfold ref_node_span. cbn [rn_reference rn_payload pl_end]. unfold pos_to.
    change (span_start (wt_span r)) with (tk_start (wt_tok r)).
    assert (Hse : pos_lt (tk_start (wt_tok r)) (tk_end e)).
    { eapply pos_lt_le_trans; [exact Hb|]. le_chain. }
    split; [|split; [apply One, Hse|constructor; [split; assumption|constructor]]].
    split; [exact Hb|]. split; [split; [apply pos_le_refl|]|split; [|split; [|exact I3]]].
    + change (pos_le (tk_end (wt_tok r)) (tk_end e)). le_chain.
    + eapply (in_order_cons _ _ (tk_end (wt_tok r))); [exact Hb|apply pos_le_refl|exact I1|].
      eapply Forall_impl; [|exact I2]. intros s [Hs' _]. exact Hs'.
    + apply Forall_forall. intros i Hin. rewrite Forall_forall in I2.
      destruct (I2 (item_span i)) as [Ia Ib]; [apply in_map, Hin|]. split; cbn [span_start span_end].
      * le_chain.
      * eapply pos_le_trans; [exact Ib|]. le_chain.
  - split; [exact I|]. repeat constructor.
Qed.

Lemma in_order_app a b mid : in_order a -> in_order b ->
  Forall (fun s => pos_le (span_end s) mid) a -> Forall (fun s => pos_le mid (span_start s)) b -> in_order (a ++ b).
Proof.
  intros (Pa & Oa) (Pb & Ob) Ha Hb. split; [apply Forall_app; auto|].
  induction Oa as [|x a Hx Oa IH]; [exact Ob|]. cbn [app]. inversion Ha; subst. inversion Pa; subst. constructor; auto.
  apply Forall_app. split; [exact Hx|]. eapply Forall_impl; [|exact Hb]. intros s Hs. unfold before. eapply pos_le_trans; eassumption.
Qed.

Lemma file_shape_bound f lo hi : seq lo (file_toks f) hi ->
  file_nested f /\ Forall (fun sp => pos_le (span_end sp) hi) (flat_map primary_spans (fl_elements f)).
Proof.
  unfold file_toks, file_nested. destruct f as [els src]. cbn [fl_elements].
  assert (G : forall lo, seq lo (flat_map primary_toks els) hi ->
    in_order (flat_map primary_spans els) /\ Forall primary_nested els
    /\ Forall (fun s => pos_le lo (span_start s) /\ pos_le (span_end s) hi) (flat_map primary_spans els)).
  { induction els as [|p els IH]; intros lo' H; cbn [flat_map] in *.
    - repeat constructor.
    - apply seq_inv_app in H. destruct H as (mid & H1 & H2).
      destruct (primary_shape p _ _ H1) as (P1 & P2 & P3). destruct (IH _ H2) as (I1 & I2 & I3).
      assert (Hlm := seq_le _ _ _ H1). assert (Hmh := seq_le _ _ _ H2). split; [|split].
      + apply (in_order_app _ _ mid); auto.
        * eapply Forall_impl; [|exact P3]. intros s [_ Hs]. exact Hs.
        * eapply Forall_impl; [|exact I3]. intros s [Hs _]. exact Hs.
      + constructor; assumption.
      + apply Forall_app. split.
        * eapply Forall_impl; [|exact P3]. intros s [Hs Hs']. split; [exact Hs|eapply pos_le_trans; eassumption].
        * eapply Forall_impl; [|exact I3]. intros s [Hs Hs']. split; [eapply pos_le_trans; eassumption|exact Hs']. }
  intros H. destruct (G lo H) as (G1 & G2 & G3). split; [auto|]. eapply Forall_impl; [|exact G3]. intros s [_ Hs]. exact Hs.
Qed.
