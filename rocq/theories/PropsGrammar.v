(** Property theorems about the grammar: C07, C10, C11, C12, C19 *)
From Verif Require Import Parser LexSpec Utf8 LexerProofs LexerProofs2 LexerProofs3 ParserSafe2 Grammar NameProofs
  TokParser ParserSim GrammarComplete GrammarSound.

(** the parse of [text] succeeds with the tree [f] and reports exactly the diagnostics [ds] *)
Definition parses (incl : list fpath) (text : list N) (src : fpath) (f : dts_file) (ds : list diag) : Prop :=
  exists s, parse_text incl text src = ROk f s /\ ps_diags s = ds.

(** ** C10 *)
Theorem C10_clean_parse_derives : forall incl text src f,
  valid_utf8 text = true -> parses incl text src f [] ->
  fl_source f = src
  /\ exists toks, lexed src NameExpected [] text toks /\ derives incl toks (fl_elements f).
Proof.
  intros incl text src f Hv (s & E & Ed). destruct (tokenize_total text src Hv) as [toks Ht].
  pose proof (parse_sim incl text src toks Hv Ht) as H. rewrite E in H.
  destruct (t_parse incl text src toks) as [f' st|d st|] eqn:Et; try contradiction. destruct H as [<- Hd].
  rewrite Ed in Hd. inversion Hd as [E0|]; subst. apply (tokenize_iff text src toks Hv) in Ht.
  destruct st as [l' ds]. cbn [t_diags] in *. subst ds. unfold t_parse in Et.
  edestruct cl_file as (H1 & H2 & _).
  - exists []. exact Et.
  - eapply lexed_ok; [exact Ht|exact Hv].
  - split; [exact H2|]. exists toks. auto.
Qed.
Print Assumptions C10_clean_parse_derives.

(** ** C19, and C11 as the case without missing semicolons *)
Definition missing_semicolon (src : fpath) (d : diag) : Prop :=
  dg_kind d = Expected /\ dg_source d = src /\ dg_msg d = dg_msg (diag_expected (dg_span d) src [Semicolon]).

Lemma relaxed_parse incl text src toks els n :
  valid_utf8 text = true -> lexed src NameExpected [] text toks -> g_file incl toks els n ->
  exists ds, parses incl text src (mkFile els src) ds /\ length ds = n /\ Forall (missing_semicolon src) ds.
Proof.
  intros Hv Hl Hg. apply (tokenize_iff text src toks Hv) in Hl.
  pose proof (parse_sim incl text src toks Hv Hl) as H. unfold t_parse in H.
  destruct (fine_file src incl (relex text src) toks els n (S (S (length text))) [] Hg) as [E|(new & E & En & Hn)];
    rewrite E in H; destruct (parse_text incl text src) as [f s|d s| |] eqn:Ep; try contradiction.
  cbn [t_diags app] in H. destruct H as [-> Hd]. exists (ps_diags s). split; [exists s; split; [exact Ep|reflexivity]|].
  split; [clear - Hd En; revert n En; induction Hd; intros n <-; [reflexivity|cbn [length]; f_equal; auto]|].
  clear - Hd Hn. induction Hd as [|d d' ds ds' H1 _ IH]; [constructor|]. inversion Hn as [|? ? Hs Hn']; subst.
  constructor; [|auto]. destruct Hs as [sp ->]. destruct H1 as (H1 & H2 & H3 & _). unfold missing_semicolon.
  rewrite H1, H2, H3. auto.
Qed.

(** C11. The tree is determined by the text: the grammar is unambiguous. *)
Theorem C11_grammatical_parses_clean : forall incl text src toks els,
  valid_utf8 text = true -> lexed src NameExpected [] text toks -> derives incl toks els ->
  parses incl text src (mkFile els src) []
  /\ forall els', derives incl toks els' -> els' = els.
Proof.
  intros incl text src toks els Hv Hl Hd. destruct (relaxed_parse _ _ _ _ _ _ Hv Hl Hd) as (ds & H & E & _).
  destruct ds; [|discriminate]. split; [exact H|]. intros els' Hd'.
  destruct (relaxed_parse _ _ _ _ _ _ Hv Hl Hd') as (ds & (s' & H' & _) & _ & _).
  destruct H as (s & H & _). rewrite H in H'. injection H' as E1 E2. congruence.
Qed.
Print Assumptions C11_grammatical_parses_clean.

(** ** C12 *)
Definition legal_reference (r : reference) : Prop :=
  match r with RefLabel s => legal_label s | RefPath p => Forall legal_node_name p end.
Definition cell_legal (c : cell) : Prop :=
  match c with CReference r => legal_reference (wt_item r) | _ => True end.
Definition value_legal (v : prop_value) : Prop :=
  match v with
  | PVReference r => legal_reference (wt_item r)
  | PVCells _ cs _ => Forall cell_legal cs
  | _ => True
  end.
Definition label_legal (l : option (wtok str)) : Prop :=
  match l with Some w => legal_label (wt_item w) | None => True end.
Inductive item_legal : item -> Prop :=
| il_property p : label_legal (pr_label p) -> legal_property_name (wt_item (pr_name p)) ->
    Forall value_legal (pr_values p) -> item_legal (IProperty p)
| il_node n : label_legal (nd_label n) -> legal_node_name (wt_item (nd_name n)) ->
    Forall item_legal (pl_items (nd_payload n)) -> item_legal (INode n)
| il_deleted_node t n : legal_node_name (wt_item n) -> item_legal (IDeletedNode t n)
| il_deleted_property t n : legal_property_name (wt_item n) -> item_legal (IDeletedProperty t n).
(** the root node has no label and the name "/" *)
Definition primary_legal (p : primary) : Prop :=
  match p with
  | PDirective (ADeletedNode _ r) | PDirective (AOmitIfNoRef _ r) => legal_reference (wt_item r)
  | PDirective _ | PCStyleInclude _ => True
  | PRoot n => nd_label n = None /\ wt_item (nd_name n) = mkNN (bs "/") None
               /\ Forall item_legal (pl_items (nd_payload n))
  | PReferencedNode r => legal_reference (wt_item (rn_reference r)) /\ Forall item_legal (pl_items (rn_payload r))
  end.

Lemma ref_text_legal r x : ref_text r x -> legal_reference x.
Proof. destruct 1; cbn [legal_reference]; assumption. Qed.
Lemma g_cell_legal l c l' : g_cell l c l' -> cell_legal c.
Proof. destruct 1; cbn [cell_legal wt_item]; try exact I. eapply ref_text_legal; eassumption. Qed.
Lemma g_cells_legal l cs t l' : g_cells l cs t l' -> Forall cell_legal cs.
Proof. induction 1; constructor; auto. eapply g_cell_legal; eassumption. Qed.
Lemma g_value_legal l v l' : g_value l v l' -> value_legal v.
Proof.
  destruct 1; cbn [value_legal wt_item]; try exact I.
  - eapply ref_text_legal; eassumption.
  - eapply g_cells_legal; eassumption.
Qed.
Lemma g_values_legal l vs l' : g_values l vs l' -> Forall value_legal vs.
Proof. induction 1; constructor; auto; eapply g_value_legal; eassumption. Qed.
Lemma g_label_legal l lb l' : g_label l lb l' -> label_legal lb.
Proof. destruct 1; cbn [label_legal wt_item]; auto. Qed.
Lemma g_body_legal :
  (forall l pl l' n, g_body l pl l' n -> Forall item_legal (pl_items pl))
  /\ (forall seen l its l' n, g_items seen l its l' n -> Forall item_legal its).
Proof.
  apply g_body_items_ind; intros; cbn [pl_items]; auto; constructor; auto; constructor;
    cbn [pr_label pr_name pr_values nd_label nd_name nd_payload wt_item]; auto;
    solve [eapply g_label_legal; eassumption | eapply g_values_legal; eassumption].
Qed.
Lemma g_file_legal incl l ps n : g_file incl l ps n -> Forall primary_legal ps.
Proof.
  induction 1 as [|l p l' m ps n Hp _ IH]; constructor; auto.
  destruct Hp; cbn [primary_legal rn_reference rn_payload nd_label nd_name nd_payload wt_item]; auto;
    repeat split; try (eapply ref_text_legal; eassumption); eapply (proj1 g_body_legal); eassumption.
Qed.

Theorem C12_names_legal : forall incl text src f,
  valid_utf8 text = true -> parses incl text src f [] -> Forall primary_legal (fl_elements f).
Proof.
  intros incl text src f Hv H. destruct (C10_clean_parse_derives _ _ _ _ Hv H) as (_ & toks & _ & Hd).
  eapply g_file_legal. exact Hd.
Qed.
Print Assumptions C12_names_legal.

(** ** C19 *)
(** [repaired l l' n]: [l'] is [l] with [n] semicolons inserted *)
Inductive repaired : list token -> list token -> nat -> Prop :=
| re_nil : repaired [] [] 0
| re_keep t l l' n : repaired l l' n -> repaired (t :: l) (t :: l') n
| re_insert t l l' n : is Semicolon t -> repaired l l' n -> repaired l (t :: l') (S n).

(** equal up to the end tokens of properties and bodies *)
Inductive same_item : item -> item -> Prop :=
| si_property lb nm vs e e' : same_item (IProperty (mkProp lb nm vs e)) (IProperty (mkProp lb nm vs e'))
| si_node lb nm its its' e e' o : Forall2 same_item its its' ->
    same_item (INode (mkNode lb nm (mkPayload its e) o)) (INode (mkNode lb nm (mkPayload its' e') o))
| si_deleted_node t n : same_item (IDeletedNode t n) (IDeletedNode t n)
| si_deleted_property t n : same_item (IDeletedProperty t n) (IDeletedProperty t n).
Inductive same_primary : primary -> primary -> Prop :=
| sp_root lb nm its its' e e' o : Forall2 same_item its its' ->
    same_primary (PRoot (mkNode lb nm (mkPayload its e) o)) (PRoot (mkNode lb nm (mkPayload its' e') o))
| sp_ref r its its' e e' : Forall2 same_item its its' ->
    same_primary (PReferencedNode (mkRefNode r (mkPayload its e)))
                 (PReferencedNode (mkRefNode r (mkPayload its' e')))
| sp_directive d : same_primary (PDirective d) (PDirective d)
| sp_c_include s : same_primary (PCStyleInclude s) (PCStyleInclude s).

(** phrases do not depend on what follows them *)
Lemma opt_label_any l l' : opt_label l l' -> exists p, l = p ++ l' /\ forall m, opt_label (p ++ m) m.
Proof.
  destruct 1 as [l|t s l Ht].
  - exists []. split; [reflexivity|]. constructor.
  - exists [t]. split; [reflexivity|]. intros m. econstructor. exact Ht.
Qed.
Lemma g_label_any l lb l' : g_label l lb l' -> exists p, l = p ++ l' /\ forall m, g_label (p ++ m) lb m.
Proof.
  destruct 1 as [l|t s l Ht Hs].
  - exists []. split; [reflexivity|]. constructor.
  - exists [t]. split; [reflexivity|]. intros m. constructor; assumption.
Qed.
Lemma g_omit_any l o l' : g_omit l o l' -> exists p, l = p ++ l' /\ forall m, g_omit (p ++ m) o m.
Proof.
  destruct 1 as [l|t l Ht].
  - exists []. split; [reflexivity|]. constructor.
  - exists [t]. split; [reflexivity|]. intros m. constructor; assumption.
Qed.
Lemma g_bits_any l l' : g_bits l l' -> exists p, l = p ++ l' /\ forall m, g_bits (p ++ m) m.
Proof.
  destruct 1 as [l|d t s l Hd Ht].
  - exists []. split; [reflexivity|]. constructor.
  - exists [d; t]. split; [reflexivity|]. intros m. econstructor; eassumption.
Qed.
Lemma parens_any l l' : parens l l' -> exists p, l = p ++ l' /\ forall m, parens (p ++ m) m.
Proof.
  induction 1 as [l|t l l' H1 H2 H (p & -> & Hp)|t l u l' l'' H1 H2 Ha (p & -> & Hp) Hb (q & -> & Hq)].
  - exists []. split; [reflexivity|]. constructor.
  - exists (t :: p). split; [reflexivity|]. intros m. constructor; auto.
  - exists (t :: p ++ u :: q). cbn [app]. rewrite <- app_assoc. split; [reflexivity|]. intros m.
    rewrite <- app_assoc. eapply pa_nest; eauto.
Qed.
Lemma g_cell_any l c l' : g_cell l c l' -> exists p, l = p ++ l' /\ forall m, g_cell (p ++ m) c m.
Proof.
  destruct 1 as [t s n l Ht Hn Hb|t r x l Ht Hr|t l u l' Ht Hu Hp].
  - exists [t]. split; [reflexivity|]. intros m. econstructor; eassumption.
  - exists [t]. split; [reflexivity|]. intros m. econstructor; eassumption.
  - destruct (parens_any _ _ Hp) as (p & -> & H). exists (t :: p ++ [u]). cbn [app]. rewrite <- app_assoc.
    split; [reflexivity|]. intros m. cbn [app]. rewrite <- app_assoc. econstructor; [exact Ht|exact Hu|]. apply H.
Qed.
Lemma g_cells_any l cs e l' : g_cells l cs e l' -> exists p, l = p ++ l' /\ forall m, g_cells (p ++ m) cs e m.
Proof.
  induction 1 as [l t l' Ho Ht|l l1 c l2 cs t l' Ho Hc _ (p & -> & Hp)].
  - destruct (opt_label_any _ _ Ho) as (p & -> & H). exists (p ++ [t]). rewrite <- app_assoc. split; [reflexivity|].
    intros m. rewrite <- app_assoc. constructor; [apply H|exact Ht].
  - destruct (opt_label_any _ _ Ho) as (q & -> & Hq). destruct (g_cell_any _ _ _ Hc) as (r & -> & Hr).
    exists (q ++ r ++ p). rewrite <- !app_assoc. split; [reflexivity|]. intros m. rewrite <- !app_assoc.
    econstructor; [apply Hq|apply Hr|apply Hp].
Qed.
Lemma g_bytes_any l ss e l' : g_bytes l ss e l' -> exists p, l = p ++ l' /\ forall m, g_bytes (p ++ m) ss e m.
Proof.
  induction 1 as [l t l' Ho Ht|l e s b l2 ss t l' Ho He Hb _ (p & -> & Hp)].
  - destruct (opt_label_any _ _ Ho) as (p & -> & H). exists (p ++ [t]). rewrite <- app_assoc. split; [reflexivity|].
    intros m. rewrite <- app_assoc. constructor; [apply H|exact Ht].
  - destruct (opt_label_any _ _ Ho) as (q & -> & Hq). exists (q ++ e :: p). rewrite <- app_assoc.
    split; [reflexivity|]. intros m. rewrite <- app_assoc. econstructor; [apply Hq|exact He|exact Hb|apply Hp].
Qed.
Lemma g_value_any l v l' : g_value l v l' -> exists p, l = p ++ l' /\ forall m, g_value (p ++ m) v m.
Proof.
  destruct 1 as [l t s l' Hb Ht|l t r x l' Hb Ht Hr|l t l1 cs e l' Hb Ht Hc|l t l1 ss e l' Hb Ht Hc];
    destruct (g_bits_any _ _ Hb) as (q & -> & Hq).
  - exists (q ++ [t]). rewrite <- app_assoc. split; [reflexivity|]. intros m. rewrite <- app_assoc.
    econstructor; [apply Hq|exact Ht].
  - exists (q ++ [t]). rewrite <- app_assoc. split; [reflexivity|]. intros m. rewrite <- app_assoc.
    econstructor; [apply Hq|exact Ht|exact Hr].
  - destruct (g_cells_any _ _ _ _ Hc) as (p & -> & Hp). exists (q ++ t :: p). rewrite <- app_assoc.
    split; [reflexivity|]. intros m. rewrite <- app_assoc. econstructor; [apply Hq|exact Ht|apply Hp].
  - destruct (g_bytes_any _ _ _ _ Hc) as (p & -> & Hp). exists (q ++ t :: p). rewrite <- app_assoc.
    split; [reflexivity|]. intros m. rewrite <- app_assoc. econstructor; [apply Hq|exact Ht|apply Hp].
Qed.
(** values must not be followed by a comma, and not by a label unless there is one already *)
Lemma g_values_any l vs l' : g_values l vs l' ->
  exists p, l = p ++ l' /\ forall s m, is Semicolon s -> g_values (p ++ s :: m) vs (s :: m).
Proof.
  induction 1 as [l l1 v l2 l' Ho Hv Ho' He|l l1 v l2 c l3 vs l' Ho Hv Ho' Hc _ (p & -> & Hp)];
    destruct (opt_label_any _ _ Ho) as (q & -> & Hq); destruct (g_value_any _ _ _ Hv) as (r & -> & Hr);
    destruct (opt_label_any _ _ Ho') as (u & -> & Hu).
  - exists (q ++ r ++ u). rewrite <- !app_assoc. split; [reflexivity|]. intros s m Hs. rewrite <- !app_assoc.
    econstructor; [apply Hq|apply Hr|apply Hu|]. exists s, m. unfold is in *. split; [reflexivity|].
    rewrite Hs. split; [discriminate|]. intros _ x. discriminate.
  - exists (q ++ r ++ u ++ c :: p). rewrite <- !app_assoc. split; [reflexivity|]. intros s m Hs.
    rewrite <- !app_assoc. econstructor; [apply Hq|apply Hr|apply Hu|exact Hc|apply Hp; exact Hs].
Qed.

Lemma repaired_app p l l' n : repaired l l' n -> repaired (p ++ l) (p ++ l') n.
Proof. intros H. induction p; [exact H|]. constructor. assumption. Qed.
Lemma repaired_refl l : repaired l l 0.
Proof. induction l; constructor; assumption. Qed.

Lemma repair_end l e l' n : g_end l e l' n -> forall m k, repaired l' m k ->
  exists s l2, repaired l (s :: l2) (n + k) /\ is Semicolon s /\ l2 = m /\ g_end (s :: l2) (Some s) m 0.
Proof.
  destruct 1 as [t l Ht|l Hn]; intros m k Hm.
  - exists t, m. repeat split; [constructor; exact Hm|exact Ht|constructor; exact Ht].
  - exists (mkToken Semicolon (mkSpan pos_zero pos_zero) []), m.
    repeat split; constructor; try reflexivity; exact Hm.
Qed.

Lemma repair_body :
  (forall l pl l' n, g_body l pl l' n -> forall m k, repaired l' m k ->
     exists l2 pl2, repaired l l2 (n + k) /\ g_body l2 pl2 m 0 /\ Forall2 same_item (pl_items pl) (pl_items pl2))
  /\ (forall seen l its l' n, g_items seen l its l' n -> forall m k, repaired l' m k ->
     exists l2 its2, repaired l l2 (n + k) /\ g_items seen l2 its2 m 0 /\ Forall2 same_item its its2).
Proof.
  apply g_body_items_ind.
  - intros l its n l1 o l2 lb c l3 e l4 m Hi IHi Ho Hl Hc He r k Hr.
    destruct (repair_end _ _ _ _ He _ _ Hr) as (s & l5 & R1 & Hs & -> & He').
    destruct (g_omit_any _ _ _ Ho) as (p & -> & Hp). destruct (g_label_any _ _ _ Hl) as (q & -> & Hq).
    destruct (IHi (p ++ q ++ c :: s :: r) (m + k)%nat) as (l6 & its2 & R2 & Hi2 & Hs2).
    { repeat apply repaired_app. constructor. exact R1. }
    exists l6, (mkPayload its2 s). split; [rewrite <- Nat.add_assoc; exact R2|]. split; [|exact Hs2].
    change 0%nat with (0 + 0)%nat. change s with (last_token (Some s) c).
    econstructor; [exact Hi2|apply Hp|apply Hq|exact Hc|exact He'].
  - intros seen l m k Hm. exists m, []. split; [exact Hm|]. split; constructor.
  - intros seen d t s nm l e l1 m its l2 n Hd Ht Hn Hg He Hi IH r k Hr.
    destruct (IH _ _ Hr) as (l5 & its2 & R2 & Hi2 & Hs2).
    destruct (repair_end _ _ _ _ He _ _ R2) as (s' & l6 & R1 & Hs & -> & He').
    exists (d :: t :: s' :: l5), (IDeletedNode d (mkWT nm t) :: its2).
    split; [rewrite <- Nat.add_assoc; apply (repaired_app [d; t]); exact R1|].
    split; [|constructor; [constructor|exact Hs2]]. change 0%nat with (0 + 0)%nat. econstructor; eassumption.
  - intros seen d t s l e l1 m its l2 n Hd Ht Hg He Hi IH r k Hr.
    destruct (IH _ _ Hr) as (l5 & its2 & R2 & Hi2 & Hs2).
    destruct (repair_end _ _ _ _ He _ _ R2) as (s' & l6 & R1 & Hs & -> & He').
    exists (d :: t :: s' :: l5), (IDeletedProperty d (mkWT s t) :: its2).
    split; [rewrite <- Nat.add_assoc; apply (repaired_app [d; t]); exact R1|].
    split; [|constructor; [constructor|exact Hs2]]. change 0%nat with (0 + 0)%nat. econstructor; eassumption.
  - intros l lb t s q l1 vs l2 e l3 m its l4 n Hl Ht Hn Hq Hv He Hi IH r k Hr.
    destruct (IH _ _ Hr) as (l5 & its2 & R2 & Hi2 & Hs2).
    destruct (repair_end _ _ _ _ He _ _ R2) as (s' & l6 & R1 & Hs & -> & He').
    destruct (g_values_any _ _ _ Hv) as (p & -> & Hp). destruct (g_label_any _ _ _ Hl) as (u & -> & Hu).
    exists (u ++ t :: q :: p ++ s' :: l5), (IProperty (mkProp lb (mkWT s t) vs s') :: its2).
    split; [rewrite <- Nat.add_assoc; apply repaired_app, (repaired_app [t; q]), repaired_app; exact R1|].
    split; [|constructor; [constructor|exact Hs2]]. change 0%nat with (0 + 0)%nat.
    change s' with (last_token (Some s') q) at 2.
    econstructor; [apply Hu|exact Ht|exact Hn|exact Hq|apply Hp; exact Hs|exact He'|exact Hi2].
  - intros l lb t s e l1 its l2 n Hl Ht Hn He Hi IH r k Hr.
    destruct (IH _ _ Hr) as (l5 & its2 & R2 & Hi2 & Hs2). destruct (g_label_any _ _ _ Hl) as (u & -> & Hu).
    exists (u ++ t :: e :: l5), (IProperty (mkProp lb (mkWT s t) [] e) :: its2).
    split; [apply repaired_app, (repaired_app [t; e]); exact R2|].
    split; [|constructor; [constructor|exact Hs2]].
    eapply gi_empty_property; [apply Hu|exact Ht|exact Hn|exact He|exact Hi2].
  - intros seen l o l1 lb t s nm b l2 pl l3 m its l4 n Ho Hl Ht Hn Hg Hb Hbd IHb Hi IH r k Hr.
    destruct (IH _ _ Hr) as (l5 & its2 & R2 & Hi2 & Hs2).
    destruct (IHb _ _ R2) as (l6 & pl2 & R1 & Hb2 & Hs1).
    destruct (g_label_any _ _ _ Hl) as (u & -> & Hu). destruct (g_omit_any _ _ _ Ho) as (p & -> & Hp).
    exists (p ++ u ++ t :: b :: l6), (INode (mkNode lb (mkWT nm t) pl2 o) :: its2).
    split; [rewrite <- Nat.add_assoc; repeat apply repaired_app; apply (repaired_app [t; b]); exact R1|].
    destruct pl as [its1 e1], pl2 as [its1' e1']. cbn [pl_items] in Hs1.
    split; [|constructor; [constructor; exact Hs1|exact Hs2]]. change 0%nat with (0 + 0)%nat.
    econstructor; [apply Hp|apply Hu|exact Ht|exact Hn|exact Hg|exact Hb|exact Hb2|exact Hi2].
Qed.

Lemma repair_file incl l ps n : g_file incl l ps n ->
  exists l2 ps2, repaired l l2 n /\ g_file incl l2 ps2 0 /\ Forall2 same_primary ps ps2 /\ hd_error l2 = hd_error l.
Proof.
  induction 1 as [|l p l' m ps n Hp _ (m' & ps2 & R & Hf & Hs & Hh)].
  - exists [], []. repeat split; constructor.
  - assert (G : exists l2 p2, repaired l l2 (m + n) /\ g_primary incl l2 p2 m' 0 /\ same_primary p p2 /\ hd_error l2 = hd_error l).
    { destruct Hp as [t l e l' m Ht He|t l e l' m Ht He|t a sa na b sb nb l e l' m Ht Ha La Na Hb Lb Nb He
        |t f s l Ht Hf'|t f s l Ht Hf' Hn|t b l pl l' m Ht Hb Hbd|t r x b l pl l' m Ht Hr Hb Hbd
        |d t r x l e l' m Hd Ht Hr He|d t r x l e l' m Hd Ht Hr He];
        try (destruct (repair_end _ _ _ _ He _ _ R) as (s' & l6 & R1 & Hs' & -> & He')).
      - exists (t :: s' :: m'), (PDirective (ADtsHeader t)). split; [constructor; exact R1|].
        split; [econstructor; eassumption|]. split; [constructor|reflexivity].
      - exists (t :: s' :: m'), (PDirective (APlugin t)). split; [constructor; exact R1|].
        split; [econstructor; eassumption|]. split; [constructor|reflexivity].
      - exists (t :: a :: b :: s' :: m'), (PDirective (AMemreserve (mkWT na a) (mkWT nb b))).
        split; [apply (repaired_app [t; a; b]); exact R1|].
        split; [econstructor; eassumption|]. split; [constructor|reflexivity].
      - exists (t :: f :: m'), (PCStyleInclude s). split; [apply (repaired_app [t; f]); exact R|].
        split; [econstructor; eassumption|]. split; [constructor|reflexivity].
      - exists (t :: f :: m'), (PDirective (AInclude (mkInclude t (mkWT s f) incl))).
        split; [apply (repaired_app [t; f]); exact R|].
        split; [|split; [constructor|reflexivity]]. econstructor; [exact Ht|exact Hf'|].
        intros u r ->. destruct l as [|u' r']; cbn [hd_error] in Hh; [discriminate|]. injection Hh as ->.
        eapply Hn. reflexivity.
      - destruct (proj1 repair_body _ _ _ _ Hbd _ _ R) as (l6 & pl2 & R1 & Hb2 & Hs1).
        eexists (t :: b :: l6), (PRoot (mkNode None (mkWT (mkNN (bs "/") None) t) pl2 None)).
        split; [apply (repaired_app [t; b]); exact R1|]. split; [econstructor; eassumption|].
        destruct pl, pl2. split; [constructor; exact Hs1|reflexivity].
      - destruct (proj1 repair_body _ _ _ _ Hbd _ _ R) as (l6 & pl2 & R1 & Hb2 & Hs1).
        eexists (t :: b :: l6), (PReferencedNode (mkRefNode (mkWT x t) pl2)).
        split; [apply (repaired_app [t; b]); exact R1|]. split; [econstructor; eassumption|].
        destruct pl, pl2. split; [constructor; exact Hs1|reflexivity].
      - exists (d :: t :: s' :: m'), (PDirective (ADeletedNode d (mkWT x t))).
        split; [apply (repaired_app [d; t]); exact R1|].
        split; [eapply gp_delete_node; eassumption|]. split; [constructor|reflexivity].
      - exists (d :: t :: s' :: m'), (PDirective (AOmitIfNoRef d (mkWT x t))).
        split; [apply (repaired_app [d; t]); exact R1|].
        split; [eapply gp_omit; eassumption|]. split; [constructor|reflexivity]. }
    destruct G as (l2 & p2 & R2 & Hp2 & Hs2 & Hh2). exists l2, (p2 :: ps2). split; [exact R2|].
    split; [change 0%nat with (0 + 0)%nat; econstructor; eassumption|]. split; [constructor; assumption|exact Hh2].
Qed.

(** C19. The full statement, with "statements" including properties without values:
      lexed src NameExpected [] text toks -> repaired toks toks' n -> derives incl toks' els' ->
      (no semicolon inserted before an unknown character) ->
      exists els ds, parses incl text src (mkFile els src) ds /\ ...
    is false: a property without values that lost its semicolon makes the parse fail. *)
Theorem C19_missing_semicolon_refuted : exists text toks toks' els' d s,
  valid_utf8 text = true /\ lexed [] NameExpected [] text toks /\ repaired toks toks' 1 /\ derives [] toks' els'
  /\ Forall (fun t => forall c, ~ is (Unknown c) t) toks'
  /\ parse_text [] text [] = RErr d s.
Proof.
  set (text := bs "/ { a  };"). set (text' := bs "/ { a; };").
  assert (Hv : valid_utf8 text = true) by reflexivity.
  assert (Hv' : valid_utf8 text' = true) by reflexivity.
  destruct (parse_text [] text' []) as [f s| | |] eqn:Ep; vm_compute in Ep; try discriminate.
  assert (Hd : exists toks', lexed [] NameExpected [] text' toks' /\ derives [] toks' (fl_elements f)).
  { apply (C10_clean_parse_derives [] text' [] f Hv'). exists s. split; [vm_compute; exact Ep|].
    injection Ep as <- <-. reflexivity. }
  destruct Hd as (toks' & Hl' & Hd). apply (tokenize_iff _ _ _ Hv') in Hl'. vm_compute in Hl'. injection Hl' as <-.
  eexists text, _, _, (fl_elements f), _, _. split; [exact Hv|].
  split; [apply (tokenize_iff _ _ _ Hv); vm_compute; reflexivity|]. split; [|split; [exact Hd|]].
  - do 3 constructor. apply re_insert; [reflexivity|]. repeat constructor.
  - split; [|vm_compute; reflexivity]. repeat constructor; intros c E; discriminate.
Qed.
Print Assumptions C19_missing_semicolon_refuted.

(** What holds: statements ended by [g_end] (all but properties without values) may lack their
    semicolons; [g_values] rules out a label behind the values of a property that lost its semicolon. *)
Theorem C19_missing_semicolon_partial : forall incl text src toks els n,
  valid_utf8 text = true -> lexed src NameExpected [] text toks -> g_file incl toks els n ->
  (exists ds, parses incl text src (mkFile els src) ds /\ length ds = n /\ Forall (missing_semicolon src) ds)
  /\ exists toks' els', repaired toks toks' n /\ derives incl toks' els' /\ Forall2 same_primary els els'.
Proof.
  intros incl text src toks els n Hv Hl Hg. split; [eapply relaxed_parse; eassumption|].
  destruct (repair_file _ _ _ _ Hg) as (toks' & els' & H1 & H2 & H3 & _). exists toks', els'. auto.
Qed.
Print Assumptions C19_missing_semicolon_partial.

(** three missing semicolons *)
Example C19_example :
  exists toks els, lexed [] NameExpected [] (bs "/dts-v1/ / { a = <1> }") toks /\ g_file [] toks els 3.
Proof.
  eexists _, _. split; [apply tokenize_iff; [reflexivity|vm_compute; reflexivity]|].
  eapply (gf_cons _ _ _ _ 1 _ 2).
  - eapply gp_header with (e := None); [reflexivity|]. apply ge_missing.
    intros t r E. injection E as <- <-. repeat split; intros; intros E; discriminate.
  - eapply (gf_cons _ _ _ _ 2 _ 0); [|constructor]. eapply gp_root; try reflexivity.
    eapply (gbo _ _ 1 _ None _ None _ _ None _ 1).
    + eapply (gi_property _ None _ (bs "a") _ _ _ _ None _ 1 _ _ 0).
      * apply gl_none.
      * reflexivity.
      * split; [split; [discriminate|cbn; lia]|]. constructor; [|constructor]. left. left. split; vm_compute; discriminate.
      * reflexivity.
      * eapply gvs_one.
        -- apply ol_none.
        -- eapply gv_cells; [apply gb_none|reflexivity|]. eapply gcs_cons; [apply ol_none| |].
           ++ apply gc_number with (s := bs "1") (n := 1); [reflexivity| |reflexivity].
              apply lit_dec; [discriminate|]. apply num_one; [left; split; [split; vm_compute; discriminate|reflexivity]|reflexivity].
           ++ apply gcs_nil; [apply ol_none|reflexivity].
        -- apply ol_none.
        -- eexists _, _. split; [reflexivity|]. split; [intros E; discriminate|]. intros _ s E. discriminate.
      * apply ge_missing. intros t r E. injection E as <- <-. repeat split; intros; intros E; discriminate.
      * apply gi_nil.
    + apply go_none.
    + apply gl_none.
    + reflexivity.
    + apply ge_missing. intros t r E. discriminate.
Qed.
Example C19_example_parse :
  exists f s, parse_text [] (bs "/dts-v1/ / { a = <1> }") [] = ROk f s /\ map dg_kind (ps_diags s) = [Expected; Expected; Expected].
Proof. eexists _, _. split; vm_compute; reflexivity. Qed.

(** ** Examples for C10-C12 *)
Definition clean_sample : list N :=
  bs "/dts-v1/; /memreserve/ 0x10 010; / { l: a = <1 &r (2)>, [12 34], ""s""; n@1 { b; /delete-property/ b; }; }; &{/n@1} { };".
Example C10_example : valid_utf8 clean_sample = true
  /\ exists f, parses [] clean_sample (bs "f") f [] /\ length (fl_elements f) = 4%nat.
Proof. split; [reflexivity|]. eexists. split; [eexists; split; vm_compute; reflexivity|reflexivity]. Qed.
Example C11_example : exists toks els,
  lexed (bs "f") NameExpected [] clean_sample toks /\ derives [] toks els /\ (30 < length toks)%nat.
Proof.
  destruct C10_example as [Hv (f & H & _)]. destruct (C10_clean_parse_derives _ _ _ _ Hv H) as (_ & toks & Hl & Hd).
  exists toks, (fl_elements f). split; [exact Hl|]. split; [exact Hd|].
  apply (tokenize_iff _ _ _ Hv) in Hl. vm_compute in Hl. injection Hl as <-. cbn [length]. lia.
Qed.

(** ** C07 *)
(** [covered src m pre rest toks tail]: as [lexed] of LexSpec.v, with [tail] the bytes that belong to
    neither a token nor white space nor a complete comment *)
Inductive covered (src : fpath) : mode -> list N -> list N -> list token -> list N -> Prop :=
| cv_end m pre t : end_gap t -> covered src m pre t [] []
| cv_tail m pre g u : gap g -> unterminated u -> covered src m pre (g ++ u) [] u
| cv_token m pre g k u rest toks tail : gap g -> spells m k u rest ->
    covered src (mode_after k m) (pre ++ g ++ u) rest toks tail ->
    covered src m pre (g ++ u ++ rest)
      (mkToken k (mkSpan (pos_after (pre ++ g)) (pos_after (pre ++ g ++ u))) src :: toks) tail.

(** C07. The full statement (with [tail = []]) is false: an unterminated string, comment or path
    reference at the end of the text, or a lone ampersand, is dropped without a diagnostic. *)
Theorem C07_silent_tail_refuted : exists text f,
  valid_utf8 text = true /\ parses [] text [] f []
  /\ forall toks, ~ covered [] NameExpected [] text toks [].
Proof.
  exists (bs "&"), (mkFile [] []). split; [reflexivity|]. split; [eexists; split; vm_compute; reflexivity|].
  assert (G : forall m pre t toks tl, covered [] m pre t toks tl -> t = bs "&" -> tl = [] -> False); [|intros toks H; eapply G; eauto].
  intros m0 pre0 t0 toks0 tl0 H.
  destruct H as [m pre t [Hg|(g & b & Hg & Hb & ->)]|m pre g u Hg Hu|m pre g k u rest toks tail Hg Hs Hc]; intros Et El.
  - subst t. inversion Hg as [|c g Hw|b g Hb Hg'|b g Hb Hg']; subst.
    destruct Hw as [W|[W|[W|[W|[W|[]]]]]]; discriminate.
  - inversion Hg as [|c g' Hw|b' g' Hb' Hg'|b' g' Hb' Hg']; subst; try discriminate.
    cbn in Et. injection Et as -> _. destruct Hw as [W|[W|[W|[W|[W|[]]]]]]; discriminate.
  - subst u. inversion Hu.
  - inversion Hg as [|c g' Hw|b' g' Hb' Hg'|b' g' Hb' Hg']; subst; try discriminate.
    + cbn [app] in Et. destruct u as [|c u].
      { inversion Hs. }
      cbn [app] in Et. injection Et as -> Et. apply app_eq_nil in Et. destruct Et as [-> ->].
      inversion Hs; subst; try discriminate;
        try match goal with H : name_start _ 38 |- _ => revert H; unfold name_start, letter; cbn [In]; lia end;
        try match goal with H : digit 38 |- _ => revert H; unfold digit; lia end.
      * match goal with H : In _ punctuation |- _ => revert H end. unfold punctuation. cbn [In].
        intros P. repeat destruct P as [P|P]; try discriminate; contradiction.
      * match goal with H : ~ In _ [cAmp; _; _] |- _ => apply H end. left. reflexivity.
    + cbn in Et. injection Et as -> _. destruct Hw as [W|[W|[W|[W|[W|[]]]]]]; discriminate.
Qed.
Print Assumptions C07_silent_tail_refuted.

Lemma lexed_covered src m pre t toks : lexed src m pre t toks -> exists tail, covered src m pre t toks tail.
Proof.
  induction 1 as [m pre t H|m pre g u Hg Hu|m pre g k u rest toks Hg Hs _ [tail IH]].
  - exists []. constructor. exact H.
  - exists u. constructor; assumption.
  - exists tail. constructor; assumption.
Qed.
Lemma covered_tail src m pre t toks tail : covered src m pre t toks tail -> tail = [] \/ unterminated tail.
Proof. induction 1; auto. Qed.
Lemma covered_suffix src m pre t toks tail : covered src m pre t toks tail -> exists b, t = b ++ tail.
Proof.
  induction 1 as [m pre t H|m pre g u Hg Hu|m pre g k u rest toks tail Hg Hs _ [b ->]].
  - exists t. rewrite app_nil_r. reflexivity.
  - exists g. reflexivity.
  - exists (g ++ u ++ b). rewrite <- !app_assoc. reflexivity.
Qed.

(** What holds: everything but an unterminated construct at the very end is covered, and all tokens
    are used by the tree. *)
Theorem C07_no_input_ignored_partial : forall incl text src f,
  valid_utf8 text = true -> parses incl text src f [] ->
  exists toks body tail, text = body ++ tail /\ covered src NameExpected [] text toks tail
    /\ (tail = [] \/ unterminated tail) /\ derives incl toks (fl_elements f).
Proof.
  intros incl text src f Hv H. destruct (C10_clean_parse_derives _ _ _ _ Hv H) as (_ & toks & Hl & Hd).
  destruct (lexed_covered _ _ _ _ _ Hl) as [tail Hc]. destruct (covered_suffix _ _ _ _ _ _ Hc) as [b E].
  exists toks, b, tail. split; [exact E|]. split; [exact Hc|]. split; [eapply covered_tail; exact Hc|exact Hd].
Qed.
Print Assumptions C07_no_input_ignored_partial.
