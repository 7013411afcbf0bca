(** The grammar reads a token list in one way only: phrases end at the same place *)
From Verif Require Import Parser LexSpec Grammar GrammarComplete GrammarSound PropsGrammar PropsConcat.

Ltac clash := unfold is in *; congruence.

Lemma opt_label_det l t1 l1 t2 l2 : opt_label l (t1 :: l1) -> opt_label l (t2 :: l2) ->
  (forall s, ~ is (Label s) t1) -> (forall s, ~ is (Label s) t2) -> t1 = t2 /\ l1 = l2.
Proof.
  intros H1 H2 N1 N2. inversion H1 as [|u s l0 Hu]; subst; inversion H2 as [|u' s' l0' Hu']; subst; auto.
  - destruct (N1 _ Hu').
  - destruct (N2 _ Hu).
Qed.
Lemma parens_det l r : parens l r -> forall u1 r1 u2 r2 r', r = u1 :: r1 -> is CloseParen u1 -> parens l r' -> r' = u2 :: r2 -> is CloseParen u2 -> r1 = r2.
Proof.
  induction 1 as [l|t l l' N1 N2 _ IH|t l u l' l'' Ht Hu H1 IH1 _ IH2]; intros u1 r1 u2 r2 r' E1 C1 H' E2 C2.
  - subst. inversion H'; subst; [congruence|contradiction|clash].
  - subst. inversion H'; subst; [clash|eapply IH; eauto|clash].
  - subst. inversion H'; subst; [clash|clash|].
    match goal with K : parens l (?v :: ?m), Hv : is CloseParen ?v |- _ => pose proof (IH1 u l' v m _ eq_refl Hu K eq_refl Hv); subst end.
    eapply IH2; eauto.
Qed.
Lemma cell_det l c1 l1 c2 l2 : g_cell l c1 l1 -> g_cell l c2 l2 -> l1 = l2.
Proof.
  intros H1 H2. inversion H1; subst; inversion H2; subst; try reflexivity; try clash.
  match goal with A : parens ?x (?u :: l1), B : parens ?x (?v :: l2) |- _ => apply (parens_det x (u :: l1) A u l1 v l2 (v :: l2) eq_refl); auto end.
Qed.
Lemma cell_head l c l1 : g_cell l c l1 -> exists t r, l = t :: r /\ (forall s, ~ is (Label s) t) /\ ~ is ChevronRight t.
Proof. intros H. inversion H; subst; eexists _, _; (split; [reflexivity|]); split; intros; intros K; clash. Qed.
Lemma chevron_head t : is ChevronRight t -> forall s, ~ is (Label s) t.
Proof. intros H s K. clash. Qed.
Lemma cells_det l cs1 e1 l1 : g_cells l cs1 e1 l1 -> forall cs2 e2 l2, g_cells l cs2 e2 l2 -> l1 = l2.
Proof.
  induction 1 as [l t l' Hl Ht|l l1 c l2 cs t l' Hl Hc _ IH]; intros cs2 e2 l2' H2.
  - inversion H2 as [? ? ? Hl2 Ht2|? m1 ? ? ? ? ? Hl2 Hc2 _]; subst.
    + eapply opt_label_det; eauto using chevron_head.
    + destruct (cell_head _ _ _ Hc2) as (u & r & -> & N1 & N2). destruct (opt_label_det _ _ _ _ _ Hl Hl2) as [-> _]; eauto using chevron_head. contradiction.
  - destruct (cell_head _ _ _ Hc) as (u & r & -> & N1 & N2). inversion H2 as [? ? ? Hl2 Ht2|? m1 ? ? ? ? ? Hl2 Hc2 Hr]; subst.
    + destruct (opt_label_det _ _ _ _ _ Hl Hl2) as [-> _]; eauto using chevron_head. contradiction.
    + destruct (cell_head _ _ _ Hc2) as (u' & r' & -> & N1' & N2'). destruct (opt_label_det _ _ _ _ _ Hl Hl2) as [-> ->]; eauto.
      pose proof (cell_det _ _ _ _ _ Hc Hc2). subst. eauto.
Qed.
Lemma bytes_det l cs1 e1 l1 : g_bytes l cs1 e1 l1 -> forall cs2 e2 l2, g_bytes l cs2 e2 l2 -> l1 = l2.
Proof.
  assert (N : forall e s x, element_text e s -> ~ is (Label x) e) by (intros e s x [H|H] K; clash).
  assert (C : forall e s, element_text e s -> ~ is CloseBracket e) by (intros e s [H|H] K; clash).
  assert (L : forall e s, is CloseBracket e -> ~ is (Label s) e) by (intros e s H K; clash).
  induction 1 as [l t l' Hl Ht|l e s b l2 bs t l' Hl He Hb _ IH]; intros cs2 e2 l2' H2;
    inversion H2 as [? ? ? Hl2 Ht2|? e' s' ? m ? ? ? Hl2 He2 Hb2 Hr]; subst.
  - eapply opt_label_det; eauto.
  - destruct (opt_label_det _ _ _ _ _ Hl Hl2) as [-> _]; eauto. destruct (C _ _ He2 Ht).
  - destruct (opt_label_det _ _ _ _ _ Hl Hl2) as [-> _]; eauto. destruct (C _ _ He Ht2).
  - destruct (opt_label_det _ _ _ _ _ Hl Hl2) as [-> ->]; eauto.
Qed.
Lemma bits_det l t1 l1 t2 l2 : g_bits l (t1 :: l1) -> g_bits l (t2 :: l2) -> ~ is (Directive Bits) t1 -> ~ is (Directive Bits) t2 -> t1 = t2 /\ l1 = l2.
Proof. intros H1 H2 N1 N2. inversion H1; subst; inversion H2; subst; auto; contradiction. Qed.
Lemma value_det l v1 l1 v2 l2 : g_value l v1 l1 -> g_value l v2 l2 -> l1 = l2.
Proof.
  intros H1 H2. inversion H1; subst; inversion H2; subst;
    match goal with A : g_bits l (?t1 :: ?m1), B : g_bits l (?t2 :: ?m2) |- _ =>
      assert (N1 : ~ is (Directive Bits) t1) by (intros K; clash); assert (N2 : ~ is (Directive Bits) t2) by (intros K; clash);
      destruct (bits_det _ _ _ _ _ A B N1 N2) as [-> ->] end; try reflexivity; try clash; [eapply cells_det; eauto|eapply bytes_det; eauto].
Qed.
Lemma value_head l v l1 : g_value l v l1 -> exists t r, l = t :: r /\ (forall s, ~ is (Label s) t).
Proof.
  intros H. inversion H as [? t s ? Hb|? t r x ? Hb|? t ? ? ? ? Hb|? t ? ? ? ? Hb]; subst; inversion Hb; subst;
    (eexists _, _; split; [reflexivity|]; intros x' K; clash).
Qed.
Lemma values_det l vs1 l1 : g_values l vs1 l1 -> forall vs2 l2, g_values l vs2 l2 -> l1 = l2.
Proof.
  assert (S : forall l m1 v1 r1 m2 v2 r2, opt_label l m1 -> g_value m1 v1 r1 -> opt_label l m2 -> g_value m2 v2 r2 -> r1 = r2).
  { intros l0 m1 v1 r1 m2 v2 r2 A B C D. destruct (value_head _ _ _ B) as (t & r & -> & N1). destruct (value_head _ _ _ D) as (t' & r' & -> & N2).
    destruct (opt_label_det _ _ _ _ _ A C N1 N2) as [-> ->]. eapply value_det; eauto. }
  induction 1 as [l l1 v l2 l' H1 H2 H3 (t & r & -> & Nc & Nl)|l l1 v l2 c l3 vs l' H1 H2 H3 H4 _ IH]; intros vs2 l2' H'.
  - inversion H' as [? ? ? ? ? G1 G2 G3 (t' & r' & -> & Nc' & Nl')|? ? ? ? c ? ? ? G1 G2 G3 G4 G5]; subst; pose proof (S _ _ _ _ _ _ _ H1 H2 G1 G2); subst.
    + inversion H3; subst; inversion G3; subst; try reflexivity; exfalso; [eapply Nl; eauto|eapply Nl'; eauto].
    + exfalso. inversion H3; subst; inversion G3; subst; try contradiction; try clash. eapply Nl; eauto.
  - inversion H' as [? ? ? ? ? G1 G2 G3 (t' & r' & -> & Nc' & Nl')|? ? ? ? c' ? ? ? G1 G2 G3 G4 G5]; subst; pose proof (S _ _ _ _ _ _ _ H1 H2 G1 G2); subst.
    + exfalso. inversion H3; subst; inversion G3; subst; try contradiction; try clash. eapply Nl'; eauto.
    + assert (E : l3 = l6) by (inversion H3; subst; inversion G3; subst; try reflexivity; clash). subst. eauto.
Qed.
Lemma end_det l e1 l1 e2 l2 : g_end l e1 l1 0 -> g_end l e2 l2 0 -> l1 = l2.
Proof. intros H1 H2. inversion H1; subst; inversion H2; subst. reflexivity. Qed.

(** ** Items *)
Definition closes (seen : bool) (l r : list token) : Prop :=
  exists its l1 o l2 lb c l3 e, g_items seen l its l1 0 /\ g_omit l1 o l2 /\ g_label l2 lb (c :: l3) /\ is CloseBrace c /\ g_end l3 e r 0.
Definition has_node (its : list item) : bool := existsb (fun i => match i with INode _ => true | _ => false end) its.

(** is there an omit directive, and what comes behind it and a label *)
Definition strip (l : list token) : bool * list token :=
  let (o, l1) := match l with t :: r => if kind_eqb (tk_kind t) (Directive OmitIfNoRef) then (true, r) else (false, l) | [] => (false, []) end in
  (o, match l1 with t :: r => match tk_kind t with Label _ => r | _ => l1 end | [] => [] end).
Definition thing (t : token) : Prop := ~ is (Directive OmitIfNoRef) t /\ forall s, ~ is (Label s) t.
Lemma thing_not_label t r : thing t -> match tk_kind t with Label _ => r | _ => t :: r end = t :: r.
Proof. intros [_ N]. destruct (tk_kind t) eqn:E; try reflexivity. destruct (N _ E). Qed.
Lemma strip_prefix l o l1 lb t l2 : g_omit l o l1 -> g_label l1 lb (t :: l2) -> thing t ->
  strip l = (match o with Some _ => true | None => false end, t :: l2).
Proof.
  intros Ho Hl Ht. unfold strip. inversion Ho as [|d l0 Hd]; subst; inversion Hl as [|u s l0' Hu Hs]; subst.
  - rewrite kind_eqb_false by apply Ht. rewrite (thing_not_label _ _ Ht). reflexivity.
  - unfold is in Hu. rewrite Hu, kind_eqb_false by discriminate. rewrite Hu. reflexivity.
  - rewrite (kind_eqb_true _ _ Hd). rewrite (thing_not_label _ _ Ht). reflexivity.
  - rewrite (kind_eqb_true _ _ Hd). unfold is in Hu. rewrite Hu. reflexivity.
Qed.
Lemma strip_thing t l : thing t -> strip (t :: l) = (false, t :: l).
Proof. intros Ht. exact (strip_prefix (t :: l) None (t :: l) None t l (go_none _) (gl_none _) Ht). Qed.
Lemma thing_kind t k : is k t -> k <> Directive OmitIfNoRef -> (forall s, k <> Label s) -> thing t.
Proof. unfold is. intros H N1 N2. split; [intros K; clash|intros s K; exact (N2 s (eq_trans (eq_sym H) K))]. Qed.
Ltac thing_tac := eapply thing_kind; [eassumption|discriminate|discriminate].

(** the first thing in braces *)
Inductive first_thing (seen : bool) (l r : list token) : Prop :=
| ft_close om c l3 e : strip l = (om, c :: l3) -> is CloseBrace c -> g_end l3 e r 0 -> first_thing seen l r
| ft_delete_node d t s nm l1 e l2 : strip l = (false, d :: t :: l1) -> is (Directive DeleteNode) d -> is (Ident s) t -> node_text s nm ->
    legal_node_name nm -> g_end l1 e l2 0 -> closes seen l2 r -> first_thing seen l r
| ft_delete_property d t s l1 e l2 : strip l = (false, d :: t :: l1) -> is (Directive DeleteProperty) d -> is (Ident s) t -> legal_property_name s ->
    g_end l1 e l2 0 -> closes seen l2 r -> first_thing seen l r
| ft_property t s q l1 vs l2 e l3 : strip l = (false, t :: q :: l1) -> is (Ident s) t -> legal_property_name s -> is Equal q -> g_values l1 vs l2 ->
    g_end l2 e l3 0 -> seen = false -> closes false l3 r -> first_thing seen l r
| ft_empty t s e l1 : strip l = (false, t :: e :: l1) -> is (Ident s) t -> legal_property_name s -> is Semicolon e -> seen = false ->
    closes false l1 r -> first_thing seen l r
| ft_node om t s nm b l2 pl l3 : strip l = (om, t :: b :: l2) -> is (Ident s) t -> node_text s nm -> legal_node_name nm -> is OpenBrace b ->
    g_body l2 pl l3 0 -> closes true l3 r -> first_thing seen l r.
Lemma closes_first seen l r : closes seen l r -> first_thing seen l r.
Proof.
  intros (its & l1 & o & l2 & lb & c & l3 & e & Hi & Ho & Hl & Hc & He).
  assert (K : forall seen' its' m, g_items seen' m its' l1 0 -> closes seen' m r) by (intros; exists its', l1, o, l2, lb, c, l3, e; auto).
  remember 0%nat as n0 eqn:En. destruct Hi; try (apply zero_sum in En; destruct En as [-> ->]); subst.
  - eapply ft_close; [eapply strip_prefix; [eassumption|eassumption|thing_tac]|eassumption|eassumption].
  - eapply ft_delete_node; [apply strip_thing; thing_tac|eassumption|eassumption|eassumption|eassumption|eassumption|eauto].
  - eapply ft_delete_property; [apply strip_thing; thing_tac|eassumption|eassumption|eassumption|eassumption|eauto].
  - eapply ft_property; [eapply (strip_prefix _ None); [constructor|eassumption|thing_tac]|eassumption|eassumption|eassumption|eassumption|eassumption|reflexivity|eauto].
  - eapply ft_empty; [eapply (strip_prefix _ None); [constructor|eassumption|thing_tac]|eassumption|eassumption|eassumption|reflexivity|eauto].
  - eapply ft_node; [eapply strip_prefix; [eassumption|eassumption|thing_tac]|eassumption|eassumption|eassumption|eassumption|eassumption|eauto].
Qed.
Lemma body_closes l pl r : g_body l pl r 0 -> closes false l r.
Proof.
  intros H. remember 0%nat as n0 eqn:En. destruct H. apply zero_sum in En. destruct En as [-> ->]. repeat eexists; eassumption.
Qed.

(** two strippings of the same list *)
Ltac same_strip :=
  match goal with A : strip ?l = _, B : strip ?l = _ |- _ => rewrite A in B; clear A end;
  match goal with B : (_, _) = (_, _) |- _ => try (exfalso; injection B; intros; subst; clash); injection B; clear B; intros; subst end.
Lemma body_items_det :
  (forall l p l' n, g_body l p l' n -> n = 0%nat -> forall r, closes false l r -> r = l')
  /\ (forall seen l its l1 n, g_items seen l its l1 n -> n = 0%nat -> forall r, closes seen l r -> closes (seen || has_node its) l1 r).
Proof.
  apply (g_body_items_ind
    (fun l p l' n _ => n = 0%nat -> forall r, closes false l r -> r = l')
    (fun seen l its l1 n _ => n = 0%nat -> forall r, closes seen l r -> closes (seen || has_node its) l1 r)).
  - intros l its n l1 o l2 lb c l3 e l4 m Hi IH Ho Hl Hc He E r H. apply zero_sum in E. destruct E as [-> ->].
    specialize (IH eq_refl r H). apply closes_first in IH.
    assert (Hs : strip l1 = (match o with Some _ => true | None => false end, c :: l3)) by (eapply strip_prefix; [eassumption|eassumption|thing_tac]).
    destruct IH; same_strip. eapply end_det; eassumption.
  - intros seen l _ r H. cbn [has_node existsb]. rewrite orb_false_r. exact H.
  - intros seen d t s nm l e l1 m its l2 n Hd Ht Hn Hl He Hi IH E r H. apply zero_sum in E. destruct E as [-> ->].
    assert (Hs : strip (d :: t :: l) = (false, d :: t :: l)) by (apply strip_thing; thing_tac).
    apply closes_first in H. destruct H; same_strip. apply (IH eq_refl). rewrite (end_det _ _ _ _ _ He H4). assumption.
  - intros seen d t s l e l1 m its l2 n Hd Ht Hn He Hi IH E r H. apply zero_sum in E. destruct E as [-> ->].
    assert (Hs : strip (d :: t :: l) = (false, d :: t :: l)) by (apply strip_thing; thing_tac).
    apply closes_first in H. destruct H; same_strip. apply (IH eq_refl). rewrite (end_det _ _ _ _ _ He H3). assumption.
  - intros l lb t s q l1 vs l2 e l3 m its l4 n Hlb Ht Hs Hq Hv He Hi IH E r H. apply zero_sum in E. destruct E as [-> ->].
    assert (Hst : strip l = (false, t :: q :: l1)) by (eapply (strip_prefix _ None); [constructor|eassumption|thing_tac]).
    apply closes_first in H. destruct H; same_strip. apply (IH eq_refl). rewrite (values_det _ _ _ Hv _ _ H3) in He. rewrite (end_det _ _ _ _ _ He H4). assumption.
  - intros l lb t s e l1 its l2 n Hlb Ht Hs Hq Hi IH -> r H.
    assert (Hst : strip l = (false, t :: e :: l1)) by (eapply (strip_prefix _ None); [constructor|eassumption|thing_tac]).
    apply closes_first in H. destruct H; same_strip. apply (IH eq_refl). assumption.
  - intros seen l o l1 lb t s nm b l2 pl l3 m its l4 n Ho Hlb Ht Hn Hl Hb Hbd IHb Hi IH E r H. apply zero_sum in E. destruct E as [-> ->].
    assert (Hst : strip l = (match o with Some _ => true | None => false end, t :: b :: l2)) by (eapply strip_prefix; [eassumption|eassumption|thing_tac]).
    apply closes_first in H. destruct H; same_strip. cbn [has_node existsb]. rewrite orb_true_r. apply (IH eq_refl).
    rewrite <- (IHb eq_refl _ (body_closes _ _ _ H4)). assumption.
Qed.
Lemma primary_det incl l p1 l1 p2 l2 : g_primary incl l p1 l1 0 -> g_primary incl l p2 l2 0 -> l1 = l2.
Proof.
  intros H1 H2. inversion H1; subst; inversion H2; subst; try clash; try reflexivity; try (eapply end_det; eassumption);
    match goal with A : g_body ?x _ l1 0, B : g_body ?x _ l2 0 |- _ => symmetry; exact (proj1 body_items_det _ _ _ _ A eq_refl _ (body_closes _ _ _ B)) end.
Qed.
