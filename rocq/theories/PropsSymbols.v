(** Document symbols: C46 *)
From Verif Require Import Parser Server LexSpec ReaderProofs ParserBase ParserSafe ParserSafe2 TreeSpec TreeProofs PropsParser Tests.

(** ** Well-formed symbols: the selection and the children are inside the range, the children are non-empty, disjoint, in order *)
Inductive symbol_ok : symbol -> Prop :=
| symbol_ok_intro n k d r s c : proper r -> inside s r ->
    (forall cs, c = Some cs -> in_order (map sy_range cs) /\ Forall (fun x => inside (sy_range x) r) cs /\ Forall symbol_ok cs) ->
    symbol_ok (mkSym n k d r s c).

Lemma payload_syms its e : payload_symbols (mkPayload its e) = map item_symbol its.
Proof. cbn [payload_symbols]. induction its as [|i its IH]; [reflexivity|]. cbn [map]. rewrite <- IH. reflexivity. Qed.
Lemma item_range i : sy_range (item_symbol i) = item_span i.
Proof. destruct i as [p|[l nm [its e] o]|t n|t n]; reflexivity. Qed.
Lemma node_range n : sy_range (node_symbol n) = node_span n.
Proof. destruct n as [l nm [its e] o]; reflexivity. Qed.
Lemma ranges its : map sy_range (map item_symbol its) = map item_span its.
Proof. rewrite map_map. apply map_ext. intros i. apply item_range. Qed.
Lemma in_order_tail s l : in_order (s :: l) -> in_order l.
Proof. intros [H1 H2]. inversion H1; inversion H2; subst. split; assumption. Qed.
Lemma in_order_proper s l : in_order l -> In s l -> proper s.
Proof. intros [H _] Hs. rewrite Forall_forall in H. auto. Qed.

Lemma children_ok r its : in_order (map item_span its) -> Forall (fun i => inside (item_span i) r) its ->
  Forall (fun i => symbol_ok (item_symbol i)) its ->
  in_order (map sy_range (map item_symbol its)) /\ Forall (fun x => inside (sy_range x) r) (map item_symbol its) /\ Forall symbol_ok (map item_symbol its).
Proof.
  intros H1 H2 H3. rewrite ranges. split; [exact H1|]. split; apply Forall_map; [|exact H3].
  eapply Forall_impl; [|exact H2]. intros i Hi. rewrite item_range. exact Hi.
Qed.
Lemma deleted_ok (t : token) {A} (n : wtok A) nm k : in_order [tk_span t; wt_span n] ->
  symbol_ok (mkSym nm k true (mkSpan (tk_start t) (span_end (wt_span n))) (wt_span n) None)
  /\ symbol_ok (mkSym nm k false (mkSpan (tk_start t) (span_end (wt_span n))) (wt_span n) None).
Proof.
  intros [H1 H2]. inversion H1 as [|? ? P1 P2]; subst. inversion P2 as [|? ? P3 _]; subst. inversion H2 as [|? ? B _]; subst. inversion B as [|? ? B' _]; subst.
  split; (constructor; [le_chain|unfold inside; le_chain|discriminate]).
Qed.
Lemma node_ok n : node_nested n -> proper (node_span n) -> symbol_ok (node_symbol n).
Proof.
  apply (node_rect' (fun n => node_nested n -> proper (node_span n) -> symbol_ok (node_symbol n))
                    (fun i => item_nested i -> proper (item_span i) -> symbol_ok (item_symbol i))); clear n.
  - intros l nm its e o IH H P. inversion H as [? ? ? ? ? H1 H2 H3 H4 H5]; subst. cbn [node_symbol]. constructor; [exact P|exact H1|].
    intros cs E. injection E as <-. pose proof (in_order_tail _ _ H3) as H6.
    change ((fix go (l : list item) : list symbol := match l with [] => [] | i :: r => item_symbol i :: go r end) its) with (payload_symbols (mkPayload its e)).
    rewrite payload_syms. apply children_ok; [exact H6|exact H4|].
    apply Forall_forall. intros i Hi. rewrite Forall_forall in IH, H5. apply IH; [exact Hi|auto|].
    eapply in_order_proper; [exact H6|apply in_map, Hi].
  - intros p H P. inversion H as [p' Hp| | |]; subst. cbn [item_symbol]. constructor; [exact P| |discriminate]. exact (proj1 Hp).
  - intros n IH H P. inversion H; subst. apply IH; assumption.
  - intros t n H _. inversion H; subst. apply deleted_ok. assumption.
  - intros t n H _. inversion H; subst. apply deleted_ok. assumption.
Qed.
Lemma item_ok i : item_nested i -> proper (item_span i) -> symbol_ok (item_symbol i).
Proof.
  destruct i as [p|n|t n|t n]; intros H P; inversion H; subst; cbn [item_symbol].
  - constructor; [exact P| |discriminate]. match goal with H : prop_nested _ |- _ => exact (proj1 H) end.
  - apply node_ok; assumption.
  - apply deleted_ok. assumption.
  - apply deleted_ok. assumption.
Qed.
Lemma symbol_spans p s : primary_symbol p = Some s -> primary_spans p = [sy_range s].
Proof.
  destruct p as [d|n|r|x]; cbn [primary_symbol]; try discriminate.
  - destruct d; try discriminate; intros H; injection H as <-; reflexivity.
  - intros H. injection H as <-. rewrite node_range. reflexivity.
  - intros H. injection H as <-. reflexivity.
Qed.
Lemma symbols_sub ps : forall x, In x (Server.filter_map primary_symbol ps) -> exists p, In p ps /\ primary_symbol p = Some x.
Proof.
  induction ps as [|p ps IH]; intros x H; cbn [Server.filter_map] in H; [destruct H|].
  destruct (primary_symbol p) as [y|] eqn:E.
  - destruct H as [<-|H]; [exists p; split; [left; reflexivity|exact E]|]. destruct (IH x H) as (q & H1 & H2). exists q. split; [right; exact H1|exact H2].
  - destruct (IH x H) as (q & H1 & H2). exists q. split; [right; exact H1|exact H2].
Qed.
Lemma in_order_skip a b l : in_order (a ++ b ++ l) -> in_order (a ++ l).
Proof.
  intros [H1 H2]. split.
  - apply Forall_app in H1. destruct H1 as [H1 H3]. apply Forall_app in H3. apply Forall_app. tauto.
  - clear H1. induction a as [|x a IH]; cbn [app] in *.
    + induction b as [|y b IH]; [exact H2|]. inversion H2; subst. auto.
    + inversion H2 as [|? ? F G]; subst. constructor; [|auto]. rewrite !Forall_app in F. rewrite Forall_app. tauto.
Qed.
Lemma symbols_in_order ps : in_order (flat_map primary_spans ps) -> in_order (map sy_range (Server.filter_map primary_symbol ps)).
Proof.
  assert (G : forall a, in_order (a ++ flat_map primary_spans ps) -> in_order (a ++ map sy_range (Server.filter_map primary_symbol ps))).
  { induction ps as [|p ps IH]; intros a H; cbn [flat_map Server.filter_map map] in *; [exact H|].
    destruct (primary_symbol p) as [s|] eqn:E.
    - rewrite (symbol_spans _ _ E) in H. cbn [map]. specialize (IH (a ++ [sy_range s])).
      rewrite <- !app_assoc in IH. apply IH. exact H.
    - apply IH. eapply in_order_skip, H. }
  apply (G []).
Qed.

Theorem C46_well_formed : forall incl text src f s, valid_utf8 text = true -> parse_text incl text src = ROk f s ->
  Forall symbol_ok (file_symbols f) /\ in_order (map sy_range (file_symbols f)).
Proof.
  intros incl text src f s Hv E. destruct (C17_spans_nest _ _ _ _ _ Hv E) as [[H1 H2] _].
  assert (Ho : in_order (map sy_range (file_symbols f))) by (apply symbols_in_order, H1).
  split; [|exact Ho]. apply Forall_forall. intros x Hx. pose proof (in_order_proper (sy_range x) _ Ho (in_map _ _ _ Hx)) as P.
  unfold file_symbols in Hx. apply symbols_sub in Hx. destruct Hx as (p & Hp & Es). rewrite Forall_forall in H2. specialize (H2 p Hp).
  destruct p as [d|n|[r [its e]]|y]; cbn [primary_symbol] in Es; try discriminate.
  - destruct d as [t|t|a l|i|t r|t r]; try discriminate; injection Es as <-; cbn [primary_nested sy_range] in *.
    + destruct H2 as [H2 H3]. constructor; [exact P|exact H3|discriminate].
    + apply (proj1 (deleted_ok t r _ _ H2)).
    + apply (proj2 (deleted_ok t r _ _ H2)).
  - injection Es as <-. rewrite node_range in P. apply node_ok; assumption.
  - injection Es as <-. cbn [primary_nested rn_reference rn_payload pl_items sy_range] in *. destruct H2 as (K1 & K2 & K3 & K4 & K5).
    constructor; [exact P|exact K2|]. intros cs Ec. injection Ec as <-.
    change ((fix go (l : list item) : list symbol := match l with [] => [] | i :: r => item_symbol i :: go r end) its) with (payload_symbols (mkPayload its e)).
    rewrite payload_syms. pose proof (in_order_tail _ _ K3) as K6.
    apply children_ok; [exact K6|exact K4|]. apply Forall_forall. intros i Hi. rewrite Forall_forall in K5. apply item_ok; [auto|].
    eapply in_order_proper; [exact K6|apply in_map, Hi].
Qed.
Print Assumptions C46_well_formed.

(** ** One symbol per element: the outline of the tree, in pre-order with depths *)
Inductive entry := ENode | EProperty | EDeletedNode | EDeletedProperty | EInclude | EOmission.
Fixpoint node_outline (depth : nat) (n : node) : list (nat * entry * span) :=
  match n with
  | mkNode _ _ (mkPayload its _) _ =>
    (depth, ENode, node_span n) ::
    flat_map (fun i => match i with
                       | IProperty p => [(S depth, EProperty, prop_span p)]
                       | INode m => node_outline (S depth) m
                       | IDeletedNode t m => [(S depth, EDeletedNode, pos_to (tk_start t) (span_end (wt_span m)))]
                       | IDeletedProperty t m => [(S depth, EDeletedProperty, pos_to (tk_start t) (span_end (wt_span m)))]
                       end) its
  end.
Definition item_outline (depth : nat) (i : item) : list (nat * entry * span) :=
  match i with
  | IProperty p => [(depth, EProperty, prop_span p)]
  | INode m => node_outline depth m
  | IDeletedNode t m => [(depth, EDeletedNode, pos_to (tk_start t) (span_end (wt_span m)))]
  | IDeletedProperty t m => [(depth, EDeletedProperty, pos_to (tk_start t) (span_end (wt_span m)))]
  end.
Definition primary_outline (p : primary) : list (nat * entry * span) :=
  match p with
  | PDirective (AInclude i) => [(0%nat, EInclude, include_span i)]
  | PDirective (ADeletedNode t r) => [(0%nat, EDeletedNode, pos_to (tk_start t) (span_end (wt_span r)))]
  | PDirective (AOmitIfNoRef t r) => [(0%nat, EOmission, pos_to (tk_start t) (span_end (wt_span r)))]
  | PDirective _ | PCStyleInclude _ => []
  | PRoot n => node_outline 0 n
  | PReferencedNode r => (0%nat, ENode, ref_node_span r) :: flat_map (item_outline 1) (pl_items (rn_payload r))
  end.
(** how a symbol shows what it stands for *)
Definition symbol_entry (k : symbol_kind) (deprecated : bool) : entry :=
  match k, deprecated with
  | SkModule, false => ENode
  | SkModule, true => EDeletedNode
  | SkProperty, false => EProperty
  | SkProperty, true => EDeletedProperty
  | SkFile, _ => EInclude
  | SkField, _ => EOmission
  end.
Fixpoint symbol_outline (depth : nat) (s : symbol) : list (nat * entry * span) :=
  match s with
  | mkSym _ k d r _ c =>
    (depth, symbol_entry k d, r) :: match c with Some cs => flat_map (symbol_outline (S depth)) cs | None => [] end
  end.

Lemma flat_map_map {A B C} (f : A -> B) (g : B -> list C) l : flat_map g (map f l) = flat_map (fun x => g (f x)) l.
Proof. induction l as [|x l IH]; [reflexivity|]. cbn. rewrite IH. reflexivity. Qed.
Lemma flat_map_ext_in {A B} (f g : A -> list B) l : Forall (fun x => f x = g x) l -> flat_map f l = flat_map g l.
Proof. induction 1 as [|x l H _ IH]; [reflexivity|]. cbn. rewrite H, IH. reflexivity. Qed.
Lemma node_outlined n : forall d, symbol_outline d (node_symbol n) = node_outline d n.
Proof.
  apply (node_rect' (fun n => forall d, symbol_outline d (node_symbol n) = node_outline d n)
                    (fun i => forall d, symbol_outline d (item_symbol i) = item_outline d i)); clear n.
  - intros l nm its e o IH d. cbn [node_symbol symbol_outline node_outline symbol_entry]. f_equal.
    change ((fix go (l : list item) : list symbol := match l with [] => [] | i :: r => item_symbol i :: go r end) its) with (payload_symbols (mkPayload its e)).
    rewrite payload_syms, flat_map_map. apply flat_map_ext_in. eapply Forall_impl; [|exact IH]. intros i Hi. apply Hi.
  - reflexivity.
  - intros n IH d. apply IH.
  - reflexivity.
  - reflexivity.
Qed.
Lemma item_outlined i d : symbol_outline d (item_symbol i) = item_outline d i.
Proof. destruct i as [p|n|t n|t n]; try reflexivity. apply node_outlined. Qed.

Theorem C46_one_per_element : forall f, flat_map (symbol_outline 0) (file_symbols f) = flat_map primary_outline (fl_elements f).
Proof.
  intros f. unfold file_symbols. induction (fl_elements f) as [|p ps IH]; [reflexivity|]. cbn [Server.filter_map flat_map].
  destruct p as [d|n|[r [its e]]|y].
  - destruct d; cbn [primary_symbol primary_outline flat_map app symbol_outline symbol_entry]; try exact IH; rewrite IH; reflexivity.
  - cbn [primary_symbol flat_map primary_outline]. rewrite IH, node_outlined. reflexivity.
  - cbn [primary_symbol flat_map primary_outline symbol_outline symbol_entry rn_payload pl_items].
    change ((fix go (l : list item) : list symbol := match l with [] => [] | i :: r => item_symbol i :: go r end) its) with (payload_symbols (mkPayload its e)).
    rewrite IH, payload_syms, flat_map_map. cbn [app]. f_equal. f_equal. apply flat_map_ext_in, Forall_forall. intros i _. apply item_outlined.
  - exact IH.
Qed.
Print Assumptions C46_one_per_element.

Definition text46 : str := bs "/dts-v1/; /include/ ""x"" / { l: a = <1>; n@1 { b; /delete-property/ c; }; }; &l { d; }; /delete-node/ &l; /omit-if-no-ref/ &m;".
Definition tree46 : dts_file := match parse_text [] text46 (bs "f") with ROk f _ => f | _ => mkFile [] [] end.
Example C46_case : map (fun x => (fst (fst x), snd (fst x), pos_char (span_start (snd x)), pos_char (span_end (snd x)))) (flat_map (symbol_outline 0) (file_symbols tree46))
  = [(0%nat, EInclude, 10, 23); (0%nat, ENode, 24, 75); (1%nat, EProperty, 28, 39); (1%nat, ENode, 40, 72); (2%nat, EProperty, 46, 48);
     (2%nat, EDeletedProperty, 49, 68); (0%nat, ENode, 76, 86); (1%nat, EProperty, 81, 83); (0%nat, EDeletedNode, 87, 103); (0%nat, EOmission, 105, 124)].
Proof. vm_compute. reflexivity. Qed.
