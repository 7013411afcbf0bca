(** C78: one text behind another *)
From Verif Require Import Parser LexSpec LexerProofs2 LexerProofs3 Grammar PropsLexer PropsGrammar DisplayProofs PropsReformat ReaderProofs Utf8.

(** ** Phrases followed by more tokens *)
Lemma opt_label_more z l l' : opt_label l l' -> opt_label (l ++ z) (l' ++ z).
Proof. destruct 1; cbn [app]; econstructor; eassumption. Qed.
Lemma parens_more z l l' : parens l l' -> parens (l ++ z) (l' ++ z).
Proof. induction 1; cbn [app] in *; [constructor|constructor; assumption|eapply pa_nest; eassumption]. Qed.
Lemma cell_more z l c l' : g_cell l c l' -> g_cell (l ++ z) c (l' ++ z).
Proof.
  destruct 1; cbn [app]; [econstructor; eassumption|econstructor; eassumption|].
  eapply gc_expression; [eassumption|eassumption|]. match goal with K : parens _ _ |- _ => apply (parens_more z) in K; exact K end.
Qed.
Lemma cells_more z l cs t l' : g_cells l cs t l' -> g_cells (l ++ z) cs t (l' ++ z).
Proof.
  induction 1; [apply gcs_nil; [apply (opt_label_more z) in H; exact H|assumption]|].
  eapply gcs_cons; [apply opt_label_more; eassumption|apply cell_more; eassumption|assumption].
Qed.
Lemma bytes_more z l cs t l' : g_bytes l cs t l' -> g_bytes (l ++ z) cs t (l' ++ z).
Proof.
  induction 1; [apply gbs_nil; [apply (opt_label_more z) in H; exact H|assumption]|].
  eapply gbs_cons; [apply (opt_label_more z) in H; exact H|eassumption|eassumption|assumption].
Qed.
Lemma bits_more z l l' : g_bits l l' -> g_bits (l ++ z) (l' ++ z).
Proof. destruct 1; cbn [app]; econstructor; eassumption. Qed.
Lemma value_more z l v l' : g_value l v l' -> g_value (l ++ z) v (l' ++ z).
Proof.
  destruct 1; match goal with K : g_bits _ _ |- _ => apply (bits_more z) in K; cbn [app] in K end; [eapply gv_string|eapply gv_reference|eapply gv_cells|eapply gv_bytes];
    try eassumption; [apply cells_more|apply bytes_more]; assumption.
Qed.
Lemma values_end_more z l2 l' : values_end l2 l' -> values_end (l2 ++ z) (l' ++ z).
Proof.
  intros (t & r & -> & H1 & H2). exists t, (r ++ z). split; [reflexivity|]. split; [exact H1|].
  intros E. apply app_inv_tail in E. exact (H2 E).
Qed.
Lemma values_more z l vs l' : g_values l vs l' -> g_values (l ++ z) vs (l' ++ z).
Proof.
  induction 1 as [l l1 v l2 l' H1 H2 H3 H4|l l1 v l2 c l3 vs l' H1 H2 H3 H4 _ IH].
  - apply (gvs_one _ (l1 ++ z) _ (l2 ++ z)); [apply opt_label_more, H1|apply value_more, H2|apply opt_label_more, H3|apply values_end_more, H4].
  - apply (gvs_cons _ (l1 ++ z) _ (l2 ++ z) c (l3 ++ z)); [apply opt_label_more, H1|apply value_more, H2|exact (opt_label_more z _ _ H3)|exact H4|exact IH].
Qed.
Lemma end_more z l e l' : g_end l e l' 0 -> g_end (l ++ z) e (l' ++ z) 0.
Proof. intros H. inversion H; subst. cbn [app]. constructor. assumption. Qed.
Lemma label_more z l lb l' : g_label l lb l' -> g_label (l ++ z) lb (l' ++ z).
Proof. destruct 1; cbn [app]; constructor; assumption. Qed.
Lemma omit_more z l o l' : g_omit l o l' -> g_omit (l ++ z) o (l' ++ z).
Proof. destruct 1; cbn [app]; constructor; assumption. Qed.
Lemma zero_sum m n : (m + n)%nat = 0%nat -> m = 0%nat /\ n = 0%nat.
Proof. lia. Qed.
Lemma body_items_more z :
  (forall l p l' n, g_body l p l' n -> n = 0%nat -> g_body (l ++ z) p (l' ++ z) 0)
  /\ (forall seen l its l' n, g_items seen l its l' n -> n = 0%nat -> g_items seen (l ++ z) its (l' ++ z) 0).
Proof.
  apply (g_body_items_ind
    (fun l p l' n _ => n = 0%nat -> g_body (l ++ z) p (l' ++ z) 0)
    (fun seen l its l' n _ => n = 0%nat -> g_items seen (l ++ z) its (l' ++ z) 0)).
  - intros l its n l1 o l2 lb c l3 e l4 m _ IH Ho Hl Hc He E. apply zero_sum in E. destruct E as [-> ->].
    apply (gbo _ its 0 (l1 ++ z) o (l2 ++ z) lb c (l3 ++ z) e (l4 ++ z) 0); [exact (IH eq_refl)|apply omit_more, Ho|exact (label_more z _ _ _ Hl)|exact Hc|apply end_more, He].
  - constructor.
  - intros seen d t s nm l e l1 m its l2 n H1 H2 H3 H4 H5 _ IH E. apply zero_sum in E. destruct E as [-> ->].
    apply (gi_delete_node seen d t s nm (l ++ z) e (l1 ++ z) 0 its (l2 ++ z) 0); auto using end_more.
  - intros seen d t s l e l1 m its l2 n H1 H2 H3 H5 _ IH E. apply zero_sum in E. destruct E as [-> ->].
    apply (gi_delete_property seen d t s (l ++ z) e (l1 ++ z) 0 its (l2 ++ z) 0); auto using end_more.
  - intros l lb t s q l1 vs l2 e l3 m its l4 n H1 H2 H3 H4 H5 H6 _ IH E. apply zero_sum in E. destruct E as [-> ->].
    apply (gi_property (l ++ z) lb t s q (l1 ++ z) vs (l2 ++ z) e (l3 ++ z) 0 its (l4 ++ z) 0); auto using end_more, values_more. exact (label_more z _ _ _ H1).
  - intros l lb t s e l1 its l2 n H1 H2 H3 H4 _ IH ->.
    apply (gi_empty_property (l ++ z) lb t s e (l1 ++ z) its (l2 ++ z) 0); auto. exact (label_more z _ _ _ H1).
  - intros seen l o l1 lb t s nm b l2 pl l3 m its l4 n H1 H2 H3 H4 H5 H6 _ IH1 _ IH2 E. apply zero_sum in E. destruct E as [-> ->].
    apply (gi_node seen (l ++ z) o (l1 ++ z) lb t s nm b (l2 ++ z) pl (l3 ++ z) 0 its (l4 ++ z) 0); auto using omit_more. exact (label_more z _ _ _ H2).
Qed.
(** what may follow an include *)
Definition no_semicolon (z : list token) : Prop := forall t r, z = t :: r -> ~ is Semicolon t.
Lemma primary_more incl z l p l' n : no_semicolon z -> g_primary incl l p l' n -> n = 0%nat -> g_primary incl (l ++ z) p (l' ++ z) 0.
Proof.
  intros Hz H E. destruct H; subst; cbn [app]; try (econstructor; eauto using end_more; fail).
  - constructor; [assumption|assumption|]. intros u r Eu. destruct l as [|v l]; [exact (Hz _ _ Eu)|].
    injection Eu as <- _. match goal with K : forall u r, _ -> ~ is Semicolon u |- _ => exact (K v l eq_refl) end.
  - apply gp_root; [assumption|assumption|]. eapply (proj1 (body_items_more z)); [eassumption|reflexivity].
  - eapply gp_ref_node; [eassumption|eassumption|eassumption|]. eapply (proj1 (body_items_more z)); [eassumption|reflexivity].
Qed.
Lemma primary_first incl l p l' n : g_primary incl l p l' n -> no_semicolon l.
Proof.
  intros H t r E. unfold is in *. destruct H; injection E as <- _; unfold is in *; congruence.
Qed.
Lemma file_first incl l ps n : g_file incl l ps n -> no_semicolon l.
Proof. destruct 1 as [|l p l' m ps n H _]; [intros t r E; discriminate E|eapply primary_first; exact H]. Qed.
Lemma file_more incl z qs l ps n : derives incl z qs -> g_file incl l ps n -> n = 0%nat -> derives incl (l ++ z) (ps ++ qs).
Proof.
  intros Hz. induction 1 as [|l p l' m ps n H _ IH]; intros E; [exact Hz|]. apply zero_sum in E. destruct E as [-> ->].
  apply (gf_cons incl (l ++ z) p (l' ++ z) 0 (ps ++ qs) 0); [|exact (IH eq_refl)]. eapply primary_more; [|exact H|reflexivity]. eapply file_first; exact Hz.
Qed.

(** ** The end of a clean text *)
Lemma end_suffix l e l' : g_end l e l' 0 -> exists t, l = t :: l' /\ is Semicolon t.
Proof. intros H. inversion H; subst. eexists. split; [reflexivity|assumption]. Qed.
Lemma body_items_suffix :
  (forall l p l' n, g_body l p l' n -> n = 0%nat -> exists c t, l = c ++ t :: l' /\ is Semicolon t)
  /\ (forall seen l its l' n, g_items seen l its l' n -> n = 0%nat -> exists c, l = c ++ l').
Proof.
  apply (g_body_items_ind
    (fun l p l' n _ => n = 0%nat -> exists c t, l = c ++ t :: l' /\ is Semicolon t)
    (fun seen l its l' n _ => n = 0%nat -> exists c, l = c ++ l')).
  - intros l its n l1 o l2 lb c l3 e l4 m _ IH Ho Hl Hc He E. apply zero_sum in E. destruct E as [-> ->].
    destruct (IH eq_refl) as [c1 ->], (g_omit_any _ _ _ Ho) as (c2 & -> & _), (g_label_any _ _ _ Hl) as (c3 & -> & _), (end_suffix _ _ _ He) as (t & -> & Ht).
    exists (c1 ++ c2 ++ c3 ++ [c]), t. split; [|exact Ht]. rewrite <- !app_assoc. reflexivity.
  - intros. exists []. reflexivity.
  - intros seen d t s nm l e l1 m its l2 n H1 H2 H3 H4 H5 _ IH E. apply zero_sum in E. destruct E as [-> ->].
    destruct (IH eq_refl) as [c1 ->], (end_suffix _ _ _ H5) as (u & -> & _). exists (d :: t :: u :: c1). reflexivity.
  - intros seen d t s l e l1 m its l2 n H1 H2 H3 H5 _ IH E. apply zero_sum in E. destruct E as [-> ->].
    destruct (IH eq_refl) as [c1 ->], (end_suffix _ _ _ H5) as (u & -> & _). exists (d :: t :: u :: c1). reflexivity.
  - intros l lb t s q l1 vs l2 e l3 m its l4 n H1 H2 H3 H4 H5 H6 _ IH E. apply zero_sum in E. destruct E as [-> ->].
    destruct (IH eq_refl) as [c1 ->], (end_suffix _ _ _ H6) as (u & -> & _), (g_label_any _ _ _ H1) as (c3 & -> & _), (g_values_any _ _ _ H5) as (c4 & -> & _).
    exists (c3 ++ t :: q :: c4 ++ u :: c1). rewrite <- !app_assoc. cbn [app]. rewrite <- !app_assoc. reflexivity.
  - intros l lb t s e l1 its l2 n H1 H2 H3 H4 _ IH ->.
    destruct (IH eq_refl) as [c1 ->], (g_label_any _ _ _ H1) as (c3 & -> & _). exists (c3 ++ t :: e :: c1). rewrite <- !app_assoc. reflexivity.
  - intros seen l o l1 lb t s nm b l2 pl l3 m its l4 n H1 H2 H3 H4 H5 H6 _ IH1 _ IH2 E. apply zero_sum in E. destruct E as [-> ->].
    destruct (IH1 eq_refl) as (c1 & u & -> & _), (IH2 eq_refl) as [c2 ->], (g_omit_any _ _ _ H1) as (c3 & -> & _), (g_label_any _ _ _ H2) as (c4 & -> & _).
    exists (c3 ++ c4 ++ t :: b :: c1 ++ u :: c2). rewrite <- !app_assoc. cbn [app]. rewrite <- !app_assoc. reflexivity.
Qed.
Definition mode_of (m : mode) (l : list token) : mode := fold_left (fun m t => mode_after (tk_kind t) m) l m.
Lemma mode_of_app m a b : mode_of m (a ++ b) = mode_of (mode_of m a) b.
Proof. apply fold_left_app. Qed.
(** the last token ends on its own: what follows it in the text does not matter *)
Definition firm (k : token_kind) : Prop := k = Semicolon \/ exists s, k = TString s.
Lemma primary_end incl l p l' n : g_primary incl l p l' n -> n = 0%nat ->
  exists c t, l = c ++ t :: l' /\ firm (tk_kind t) /\ mode_of NameExpected (c ++ [t]) = NameExpected.
Proof.
  assert (S : forall c t, is Semicolon t -> firm (tk_kind t) /\ mode_of NameExpected (c ++ [t]) = NameExpected).
  { intros c t H. split; [left; exact H|]. rewrite mode_of_app. cbn. rewrite H. reflexivity. }
  intros H E. destruct H; subst;
    repeat match goal with
    | K : g_end _ _ _ 0 |- _ => apply end_suffix in K; destruct K as (w & -> & ?)
    | K : g_body _ _ _ 0 |- _ => apply (proj1 body_items_suffix) in K; [|reflexivity]; destruct K as (c & w & -> & ?)
    end.
  - exists [t], w. split; [reflexivity|apply S; assumption].
  - exists [t], w. split; [reflexivity|apply S; assumption].
  - exists [t; a; b], w. split; [reflexivity|apply S; assumption].
  - exists [t], f. split; [reflexivity|]. unfold is in *. split; [right; eauto|]. cbn. rewrite H, H0. reflexivity.
  - exists [t], f. split; [reflexivity|]. unfold is in *. split; [right; eauto|]. cbn. rewrite H, H0. reflexivity.
  - exists (t :: b :: c), w. split; [reflexivity|apply S; assumption].
  - exists (t :: b :: c), w. split; [reflexivity|apply S; assumption].
  - exists [d; t], w. split; [reflexivity|apply S; assumption].
  - exists [d; t], w. split; [reflexivity|apply S; assumption].
Qed.
Lemma file_end incl l ps n : g_file incl l ps n -> n = 0%nat ->
  mode_of NameExpected l = NameExpected /\ forall c t, l = c ++ [t] -> firm (tk_kind t).
Proof.
  induction 1 as [|l p l' m ps n H _ IH]; intros E.
  - split; [reflexivity|]. intros c t E1. destruct c; discriminate E1.
  - apply zero_sum in E. destruct E as [-> ->]. destruct (IH eq_refl) as [I1 I2]. destruct (primary_end _ _ _ _ _ H eq_refl) as (c & t & -> & Hf & Hm).
    replace (c ++ t :: l') with ((c ++ [t]) ++ l') by (rewrite <- app_assoc; reflexivity). split.
    + rewrite mode_of_app, Hm. exact I1.
    + intros c' u Eu. destruct l' as [|x l'] using rev_ind.
      * rewrite app_nil_r in Eu. apply app_inj_tail in Eu. destruct Eu as [_ <-]. exact Hf.
      * rewrite app_assoc in Eu. apply app_inj_tail in Eu. destruct Eu as [_ <-]. exact (I2 _ _ eq_refl).
Qed.

(** ** Trees at another place *)
Section Move.
  Context (f : token -> token) (f_kind : forall t, tk_kind (f t) = tk_kind t).
  Definition move {A} (w : wtok A) : wtok A := mkWT (wt_item w) (f (wt_tok w)).
  Definition move_cell (c : cell) : cell :=
    match c with CNumber n => CNumber (move n) | CReference r => CReference (move r) | CExpression => CExpression end.
  Definition move_value (v : prop_value) : prop_value :=
    match v with
    | PVString s => PVString (move s)
    | PVCells t cs e => PVCells (f t) (map move_cell cs) (f e)
    | PVReference r => PVReference (move r)
    | PVBytes t ss e => PVBytes (f t) (map move ss) (f e)
    end.
  Definition move_property (p : property) : property :=
    mkProp (option_map move (pr_label p)) (move (pr_name p)) (map move_value (pr_values p)) (f (pr_end p)).
  Fixpoint move_item (i : item) : item :=
    match i with
    | IProperty p => IProperty (move_property p)
    | INode n => INode (move_node n)
    | IDeletedNode t n => IDeletedNode (f t) (move n)
    | IDeletedProperty t n => IDeletedProperty (f t) (move n)
    end
  with move_node (n : node) : node :=
    match n with mkNode lb nm pl o => mkNode (option_map move lb) (move nm) (move_payload pl) (option_map f o) end
  with move_payload (p : payload) : payload :=
    match p with
    | mkPayload its e =>
      mkPayload ((fix go (l : list item) : list item := match l with [] => [] | i :: r => move_item i :: go r end) its) (f e)
    end.
  Definition move_primary (p : primary) : primary :=
    match p with
    | PDirective (ADtsHeader t) => PDirective (ADtsHeader (f t))
    | PDirective (APlugin t) => PDirective (APlugin (f t))
    | PDirective (AMemreserve a l) => PDirective (AMemreserve (move a) (move l))
    | PDirective (AInclude i) => PDirective (AInclude (mkInclude (f (in_token i)) (move (in_file_name i)) (in_paths i)))
    | PDirective (ADeletedNode t r) => PDirective (ADeletedNode (f t) (move r))
    | PDirective (AOmitIfNoRef t r) => PDirective (AOmitIfNoRef (f t) (move r))
    | PRoot n => PRoot (move_node n)
    | PReferencedNode r => PReferencedNode (mkRefNode (move (rn_reference r)) (move_payload (rn_payload r)))
    | PCStyleInclude s => PCStyleInclude s
    end.
  Lemma is_move k t : is k t -> is k (f t).
  Proof. unfold is. rewrite f_kind. exact (fun x => x). Qed.
  Lemma is_not_move k t : ~ is k t -> ~ is k (f t).
  Proof. unfold is. rewrite f_kind. exact (fun x => x). Qed.
  Hint Resolve is_move is_not_move : mv.
  Lemma opt_label_move l l' : opt_label l l' -> opt_label (map f l) (map f l').
  Proof. destruct 1; cbn [map]; econstructor; eauto with mv. Qed.
  Lemma parens_move l l' : parens l l' -> parens (map f l) (map f l').
  Proof. induction 1; cbn [map] in *; [constructor|constructor; auto with mv|eapply pa_nest; [| |eassumption|eassumption]; auto with mv]. Qed.
  Lemma cell_move l c l' : g_cell l c l' -> g_cell (map f l) (move_cell c) (map f l').
  Proof.
    destruct 1; cbn [map move_cell]; [econstructor; eauto with mv|econstructor; eauto with mv|].
    eapply gc_expression; [auto with mv| |]; [|match goal with K : parens _ _ |- _ => apply parens_move in K; exact K end]. auto with mv.
  Qed.
  Lemma cells_move l cs t l' : g_cells l cs t l' -> g_cells (map f l) (map move_cell cs) (f t) (map f l').
  Proof.
    induction 1; [apply gcs_nil; [apply opt_label_move in H; exact H|auto with mv]|]. cbn [map].
    eapply gcs_cons; [apply opt_label_move; eassumption|apply cell_move; eassumption|assumption].
  Qed.
  Lemma bytes_move l cs t l' : g_bytes l cs t l' -> g_bytes (map f l) (map move cs) (f t) (map f l').
  Proof.
    induction 1; [apply gbs_nil; [apply opt_label_move in H; exact H|auto with mv]|]. cbn [map].
    eapply gbs_cons; [apply opt_label_move in H; exact H| |eassumption|assumption]. destruct H0; [left|right]; auto with mv.
  Qed.
  Lemma bits_move l l' : g_bits l l' -> g_bits (map f l) (map f l').
  Proof. destruct 1; cbn [map]; econstructor; eauto with mv. Qed.
  Lemma value_move l v l' : g_value l v l' -> g_value (map f l) (move_value v) (map f l').
  Proof.
    destruct 1; match goal with K : g_bits _ _ |- _ => apply bits_move in K; cbn [map] in K end; cbn [move_value];
      [eapply gv_string|eapply gv_reference|eapply gv_cells|eapply gv_bytes]; try eassumption; eauto with mv; [apply cells_move|apply bytes_move]; assumption.
  Qed.
  Lemma label_inj l : (exists s t r, l = t :: r /\ is (Label s) t) -> forall l', opt_label l l' -> map f l = map f l' -> l = l'.
  Proof. intros _ l' H E. destruct H; [reflexivity|]. apply (f_equal (@length _)) in E. cbn in E. rewrite !map_length in E. lia. Qed.
  Lemma opt_label_inj l l' : opt_label l l' -> map f l = map f l' -> l = l'.
  Proof. intros H E. destruct H; [reflexivity|]. apply (f_equal (@length _)) in E. cbn in E. rewrite !map_length in E. lia. Qed.
  Lemma values_move l vs l' : g_values l vs l' -> g_values (map f l) (map move_value vs) (map f l').
  Proof.
    induction 1 as [l l1 v l2 l' H1 H2 H3 H4|l l1 v l2 c l3 vs l' H1 H2 H3 H4 _ IH]; cbn [map].
    - apply (gvs_one _ (map f l1) _ (map f l2)); [apply opt_label_move, H1|apply value_move, H2|apply opt_label_move, H3|].
      destruct H4 as (t & r & -> & K1 & K2). exists (f t), (map f r). split; [reflexivity|]. split; [auto with mv|].
      intros E s. apply is_not_move, K2. apply opt_label_inj; assumption.
    - apply (gvs_cons _ (map f l1) _ (map f l2) (f c) (map f l3)); [apply opt_label_move, H1|apply value_move, H2|exact (opt_label_move _ _ H3)|auto with mv|exact IH].
  Qed.
  Lemma end_move l e l' n : g_end l e l' n -> g_end (map f l) (option_map f e) (map f l') n.
  Proof.
    destruct 1 as [t l H|l H]; cbn [map option_map]; [constructor; auto with mv|]. constructor. intros t r E. destruct l as [|u l]; [discriminate|].
    injection E as <- _. destruct (H u l eq_refl) as (K1 & K2 & K3). auto with mv.
  Qed.
  Lemma last_move e t : f (last_token e t) = last_token (option_map f e) (f t).
  Proof. destruct e; reflexivity. Qed.
  Lemma label_move l lb l' : g_label l lb l' -> g_label (map f l) (option_map move lb) (map f l').
  Proof. destruct 1; cbn [map option_map]; constructor; auto with mv. Qed.
  Lemma omit_move l o l' : g_omit l o l' -> g_omit (map f l) (option_map f o) (map f l').
  Proof. destruct 1; cbn [map option_map]; constructor; auto with mv. Qed.
  Lemma move_payload_items its e : move_payload (mkPayload its e) = mkPayload (map move_item its) (f e).
  Proof. reflexivity. Qed.
  Lemma body_items_move :
    (forall l p l' n, g_body l p l' n -> g_body (map f l) (move_payload p) (map f l') n)
    /\ (forall seen l its l' n, g_items seen l its l' n -> g_items seen (map f l) (map move_item its) (map f l') n).
  Proof.
    apply (g_body_items_ind
      (fun l p l' n _ => g_body (map f l) (move_payload p) (map f l') n)
      (fun seen l its l' n _ => g_items seen (map f l) (map move_item its) (map f l') n)).
    - intros l its n l1 o l2 lb c l3 e l4 m _ IH Ho Hl Hc He. rewrite move_payload_items, last_move.
      apply (gbo _ _ n (map f l1) (option_map f o) (map f l2) (option_map move lb) (f c) (map f l3) _ (map f l4) m);
        [exact IH|apply omit_move, Ho|exact (label_move _ _ _ Hl)|auto with mv|apply end_move, He].
    - constructor.
    - intros seen d t s nm l e l1 m its l2 n H1 H2 H3 H4 H5 _ IH. cbn [map move_item].
      apply (gi_delete_node seen (f d) (f t) s nm (map f l) (option_map f e) (map f l1)); auto using end_move with mv.
    - intros seen d t s l e l1 m its l2 n H1 H2 H3 H5 _ IH. cbn [map move_item].
      apply (gi_delete_property seen (f d) (f t) s (map f l) (option_map f e) (map f l1)); auto using end_move with mv.
    - intros l lb t s q l1 vs l2 e l3 m its l4 n H1 H2 H3 H4 H5 H6 _ IH. cbn [map move_item]. unfold move_property. cbn [pr_label pr_name pr_values pr_end].
      rewrite last_move.
      apply (gi_property (map f l) (option_map move lb) (f t) s (f q) (map f l1) (map move_value vs) (map f l2) (option_map f e) (map f l3)); auto using end_move, values_move with mv.
      exact (label_move _ _ _ H1).
    - intros l lb t s e l1 its l2 n H1 H2 H3 H4 _ IH. cbn [map move_item]. unfold move_property. cbn [pr_label pr_name pr_values pr_end map].
      apply (gi_empty_property (map f l) (option_map move lb) (f t) s (f e) (map f l1)); auto with mv. exact (label_move _ _ _ H1).
    - intros seen l o l1 lb t s nm b l2 pl l3 m its l4 n H1 H2 H3 H4 H5 H6 _ IH1 _ IH2. cbn [map move_item move_node].
      apply (gi_node seen (map f l) (option_map f o) (map f l1) (option_map move lb) (f t) s nm (f b) (map f l2) (move_payload pl) (map f l3)); auto using omit_move with mv.
      exact (label_move _ _ _ H2).
  Qed.
  Lemma primary_move incl l p l' n : g_primary incl l p l' n -> g_primary incl (map f l) (move_primary p) (map f l') n.
  Proof.
    destruct 1; cbn [map move_primary move_node option_map]; try (econstructor; eauto using end_move with mv; fail).
    - constructor; auto with mv. intros u r E. destruct l as [|v l]; [discriminate|]. injection E as <- _. apply is_not_move.
      match goal with K : forall u r, _ -> ~ is Semicolon u |- _ => exact (K v l eq_refl) end.
    - apply gp_root; auto with mv. apply (proj1 body_items_move). assumption.
    - eapply gp_ref_node; eauto with mv. apply (proj1 body_items_move). assumption.
  Qed.
  Lemma file_move incl l ps n : g_file incl l ps n -> g_file incl (map f l) (map move_primary ps) n.
  Proof. induction 1; cbn [map]; [constructor|]. econstructor; [apply primary_move; eassumption|assumption]. Qed.
End Move.

(** ** One text behind another *)
Lemma lexed_gap src g : gap g -> forall m pre b toks, lexed src m (pre ++ g) b toks -> lexed src m pre (g ++ b) toks.
Proof.
  intros Hg m pre b toks H. remember (pre ++ g) as q eqn:Eq. destruct H as [m q t Ht|m q h u Hh Hu|m q h k u rest toks Hh Hs Hl]; subst q.
  - apply lx_end. apply end_gap_app; assumption.
  - rewrite app_assoc. apply lx_unterminated; [apply gap_app; assumption|exact Hu].
  - replace (g ++ h ++ u ++ rest) with ((g ++ h) ++ u ++ rest) by (rewrite <- !app_assoc; reflexivity).
    replace ((pre ++ g) ++ h) with (pre ++ g ++ h) by (rewrite <- !app_assoc; reflexivity).
    replace ((pre ++ g) ++ h ++ u) with (pre ++ (g ++ h) ++ u) in * by (rewrite <- !app_assoc; reflexivity).
    apply lx_token; [apply gap_app; assumption|exact Hs|exact Hl].
Qed.
Lemma end_gap_line t : end_gap t -> gap (t ++ [cNL]).
Proof.
  assert (W : ws_char cNL) by (unfold ws_char; cbn [In]; tauto).
  intros [H|(g & b & Hg & Hb & ->)].
  - apply gap_app; [exact H|apply gap_ws; [exact W|constructor]].
  - rewrite <- app_assoc. apply gap_app; [exact Hg|]. replace (([cSlash; cSlash] ++ b) ++ [cNL]) with ([cSlash; cSlash] ++ b ++ [cNL] ++ []) by (rewrite <- app_assoc; reflexivity).
    apply gap_line; [exact Hb|constructor].
Qed.
Lemma firm_spells m k u rest rest' : firm k -> spells m k u rest -> spells m k u rest'.
Proof.
  intros [->|[s ->]] H; inversion H; subst; try (apply sp_punct; assumption); try (apply sp_string; assumption).
Qed.
Lemma spells_more m k u x rest z : spells m k u (x :: rest) -> spells m k u ((x :: rest) ++ z).
Proof.
  intros H. change ((x :: rest) ++ z) with (x :: rest ++ z). inversion H; subst; try (once (econstructor; eassumption));
    [apply sp_name|apply sp_name_at|apply sp_number|apply LexSpec.sp_ref|apply sp_slash]; try assumption;
    intros y r E; injection E as <- _; match goal with K : forall y r, _ -> _ |- _ => exact (K x rest eq_refl) end.
Qed.
Lemma lexed_append src z toksb m pre a toks tail : covered src m pre a toks tail -> tail = [] ->
  (forall c t, toks = c ++ [t] -> firm (tk_kind t)) ->
  lexed src (mode_of m toks) (pre ++ a ++ [cNL]) z toksb -> lexed src m pre (a ++ [cNL] ++ z) (toks ++ toksb).
Proof.
  induction 1 as [m pre t Ht|m pre g u Hg Hu|m pre g k u rest toks tail Hg Hs Hc IH]; intros Et Hf Hz.
  - change ([] ++ toksb) with toksb. rewrite app_assoc.
    exact (lexed_gap _ _ (end_gap_line _ Ht) _ _ _ _ Hz).
  - subst u. inversion Hu.
  - rewrite <- !app_assoc.
    apply lx_token; [exact Hg| |].
    + destruct toks as [|t toks].
      * eapply firm_spells; [exact (Hf [] _ eq_refl)|exact Hs].
      * inversion Hc; subst. destruct (g0 ++ u0 ++ rest0) as [|x y] eqn:E; [|apply spells_more, Hs].
        exfalso. apply app_eq_nil in E. destruct E as [_ E]. apply app_eq_nil in E. destruct E as [-> _]. match goal with K : spells _ _ [] _ |- _ => inversion K end.
    + apply IH; [exact Et| |].
      * intros c t E. apply (Hf (mkToken k (mkSpan (pos_after (pre ++ g)) (pos_after (pre ++ g ++ u))) src :: c) t). rewrite E. reflexivity.
      * cbn [mode_of fold_left tk_kind] in Hz. replace ((pre ++ g ++ u) ++ rest ++ [cNL]) with (pre ++ (g ++ u ++ rest) ++ [cNL]) by (rewrite <- !app_assoc; reflexivity). exact Hz.
Qed.

(** ** C78 *)
(** [k] lines further down *)
Definition pos_down (k : N) (p : position) : position := mkPos (pos_line p + k) (pos_char p).
Definition down (k : N) (t : token) : token :=
  mkToken (tk_kind t) (mkSpan (pos_down k (span_start (tk_span t))) (pos_down k (span_end (tk_span t)))) (tk_source t).
Lemma pos_after_down a x : pos_after ((a ++ [cNL]) ++ x) = pos_down (count_nl a + 1) (pos_after x).
Proof.
  rewrite <- app_assoc. unfold pos_after, pos_down. cbn [app pos_line pos_char]. rewrite since_nl_app_nl. f_equal.
  change (cNL :: x) with ([cNL] ++ x). rewrite !count_nl_app. change (count_nl [cNL]) with 1. lia.
Qed.
Lemma lexed_down src a m pre b toks : lexed src m pre b toks -> lexed src m ((a ++ [cNL]) ++ pre) b (map (down (count_nl a + 1)) toks).
Proof.
  induction 1 as [m pre t Ht|m pre g u Hg Hu|m pre g k u rest toks Hg Hs _ IH]; cbn [map].
  - apply lx_end, Ht.
  - apply lx_unterminated; assumption.
  - rewrite app_assoc in IH. rewrite app_assoc in IH.
    assert (E : down (count_nl a + 1) (mkToken k (mkSpan (pos_after (pre ++ g)) (pos_after (pre ++ g ++ u))) src)
      = mkToken k (mkSpan (pos_after (((a ++ [cNL]) ++ pre) ++ g)) (pos_after (((a ++ [cNL]) ++ pre) ++ g ++ u))) src).
    { unfold down. cbn [tk_kind tk_span span_start span_end tk_source]. rewrite <- !pos_after_down, <- !app_assoc. reflexivity. }
    rewrite E. apply lx_token; [exact Hg|exact Hs|]. rewrite <- !app_assoc in *. exact IH.
Qed.
Lemma covered_lexed src m pre t toks tail : covered src m pre t toks tail -> lexed src m pre t toks.
Proof. induction 1; constructor; assumption. Qed.

(** [a] and [b] read cleanly and [a] has no unterminated tail (C07): the line-separated concatenation reads as the elements of [a]
    followed by those of [b], these as many lines further down as there are before them *)
Theorem C78_concatenation_partial : forall incl src a b fa fb toks, valid_utf8 a = true -> valid_utf8 b = true ->
  parses incl a src fa [] -> parses incl b src fb [] -> covered src NameExpected [] a toks [] ->
  parses incl (a ++ [cNL] ++ b) src (mkFile (fl_elements fa ++ map (move_primary (down (count_nl a + 1))) (fl_elements fb)) src) [].
Proof.
  intros incl src a b fa fb toks Va Vb Pa Pb Hc.
  destruct (C10_clean_parse_derives _ _ _ _ Va Pa) as (_ & ta & La & Da), (C10_clean_parse_derives _ _ _ _ Vb Pb) as (_ & tb & Lb & Db).
  assert (ta = toks) as -> by (apply (C04_lossless a src ta Va) in La; apply covered_lexed, (C04_lossless a src toks Va) in Hc; congruence).
  destruct (file_end _ _ _ _ Da eq_refl) as [Hm Hf].
  assert (L : lexed src NameExpected [] (a ++ [cNL] ++ b) (toks ++ map (down (count_nl a + 1)) tb)).
  { eapply lexed_append; [exact Hc|reflexivity|exact Hf|]. rewrite Hm. cbn [app]. rewrite <- (app_nil_r (a ++ [cNL])). apply lexed_down, Lb. }
  assert (D : derives incl (toks ++ map (down (count_nl a + 1)) tb) (fl_elements fa ++ map (move_primary (down (count_nl a + 1))) (fl_elements fb))).
  { eapply file_more; [|exact Da|reflexivity]. apply file_move; [reflexivity|exact Db]. }
  refine (proj1 (C11_grammatical_parses_clean incl _ src _ _ _ L D)). rewrite (valid_app _ _ Va). cbn [app]. rewrite valid_one; [exact Vb|reflexivity].
Qed.
Print Assumptions C78_concatenation_partial.

(** the text behind an unterminated comment is lost, without a complaint *)
Theorem C78_refuted : exists incl src a b fa fb f, valid_utf8 a = true /\ valid_utf8 b = true
  /\ parses incl a src fa [] /\ parses incl b src fb [] /\ parses incl (a ++ [cNL] ++ b) src f []
  /\ length (fl_elements fa) = 1%nat /\ length (fl_elements fb) = 2%nat /\ length (fl_elements f) = 1%nat.
Proof.
  exists [], (bs "f"), (bs "/dts-v1/; /* x"), (bs "/ { }; / { };"). do 3 eexists. split; [reflexivity|]. split; [reflexivity|].
  split; [eexists; split; vm_compute; reflexivity|]. split; [eexists; split; vm_compute; reflexivity|]. split; [eexists; split; vm_compute; reflexivity|].
  auto.
Qed.
Print Assumptions C78_refuted.

Definition ex78a : str := bs "/dts-v1/;
/include/ ""x.dtsi"" // c".
Definition ex78b : str := bs "/* d */ / { l: n@1 { p = <(1 + 2) &l>; }; };".
Example C78_case : exists fa fb toks, valid_utf8 ex78a = true /\ valid_utf8 ex78b = true
  /\ parses [] ex78a (bs "f") fa [] /\ parses [] ex78b (bs "f") fb [] /\ covered (bs "f") NameExpected [] ex78a toks []
  /\ length (fl_elements fa) = 2%nat /\ length (fl_elements fb) = 1%nat /\ count_nl ex78a + 1 = 2.
Proof.
  do 3 eexists. split; [reflexivity|]. split; [reflexivity|].
  split; [eexists; split; vm_compute; reflexivity|]. split; [eexists; split; vm_compute; reflexivity|].
  split; [|split; [reflexivity|split; [reflexivity|vm_compute; reflexivity]]].
  assert (W : forall c, In c [32; 10] -> ws_char c) by (intros c H; unfold ws_char; cbn [In] in *; intuition).
  unfold ex78a. change (bs "/dts-v1/;
/include/ ""x.dtsi"" // c") with ([] ++ ([cSlash] ++ bs "dts-v1" ++ [cSlash]) ++ [] ++ [cSemi] ++ [10] ++ ([cSlash] ++ bs "include" ++ [cSlash]) ++ bs " " ++ ([cQuote] ++ bs "x.dtsi" ++ [cQuote]) ++ bs " // c").
  apply cv_token; [apply gap_nil|apply (LexSpec.sp_directive _ 100 (bs "ts-v1")); [unfold letter; lia|cbn; intuition discriminate|left; left; reflexivity]|].
  apply cv_token; [apply gap_nil|apply sp_punct; [intros [H|[H|[_ H]]]; revert H; unfold letter; cbn [In]; lia|cbn; auto]|].
  apply cv_token; [apply (gap_ws 10 []); [apply W; cbn; auto|apply gap_nil]|apply (LexSpec.sp_directive _ 105 (bs "nclude")); [unfold letter; lia|cbn; intuition discriminate|left; cbn; tauto]|].
  apply cv_token; [apply (gap_ws 32 []); [apply W; cbn; auto|apply gap_nil]|apply (sp_string _ (bs "x.dtsi") (bs "x.dtsi"))|].
  - apply (proj1 (plain_body (bs "x.dtsi") ltac:(repeat (constructor; [unfold plain_char; cbn; repeat split; (lia || discriminate)|]); constructor))).
  - apply cv_end. right. exists (bs " "), (bs " c"). split; [apply (gap_ws 32 []); [apply W; cbn; auto|apply gap_nil]|]. split; [cbn; intuition discriminate|reflexivity].
Qed.
