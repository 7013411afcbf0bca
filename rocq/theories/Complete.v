(** A run of the token-level parser that stops at the end of the text, without other diagnostics, can be completed *)
From Verif Require Import Parser LexSpec Utf8 LexerProofs Grammar NameProofs TokParser GrammarComplete GrammarSound PropsGrammar PropsConcat GrammarDet.

(** the run stops with "unexpected end of file" and reports nothing else *)
Definition late {A} (m : TM A) (l : list token) : Prop :=
  exists ds d l', m (mkTS l ds) = TErr d (mkTS l' ds) /\ dg_kind d = UnexpectedEOF.

Lemma late_bind {A B} (m : TM A) (k : A -> TM B) l : mono m -> (forall a, mono (k a)) -> late (t_bind m k) l ->
  late m l \/ exists a l', cl m l a l' /\ late (k a) l'.
Proof.
  intros Hm Hk (ds & d & l' & H & Hd). unfold t_bind in H. specialize (Hm (mkTS l ds)).
  destruct (m (mkTS l ds)) as [a [l1 ds1]|d1 s1|] eqn:Em; [|left; injection H as -> ->; exists ds, d, l'; auto|discriminate].
  right. specialize (Hk a (mkTS l1 ds1)). rewrite H in Hk. destruct Hm as [n Hn], Hk as [n' Hn']. cbn [t_diags] in *.
  rewrite Hn, <- app_assoc in Hn'. apply app_nil_inv in Hn'. apply app_eq_nil in Hn'. destruct Hn' as [-> ->].
  rewrite app_nil_r in Hn. subst ds1. exists a, l1. split; [exists ds; exact Em|exists ds, d, l'; auto].
Qed.
Lemma late_ret {A} (a : A) l : ~ late (t_ret a) l.
Proof. intros (ds & d & l' & H & _). discriminate H. Qed.
Lemma late_push d l : ~ late (t_push d) l.
Proof. intros (ds & d' & l' & H & _). discriminate H. Qed.
Lemma late_push_opt d l : ~ late (t_push_opt d) l.
Proof. destruct d; [apply late_push|apply late_ret]. Qed.
Lemma late_nofuel {A} l : ~ late (@t_no_fuel A) l.
Proof. intros (ds & d' & l' & H & _). discriminate H. Qed.
Lemma late_panic {A} l : ~ late (@t_panic A) l.
Proof. intros (ds & d' & l' & H & _). discriminate H. Qed.
Lemma late_peek l : ~ late t_peek l.
Proof. intros (ds & d' & l' & H & _). discriminate H. Qed.
Lemma late_next l : ~ late t_next l.
Proof. intros (ds & d' & l' & H & _). discriminate H. Qed.
Lemma late_skip l : ~ late t_skip_tok l.
Proof. intros (ds & d' & l' & H & _). discriminate H. Qed.
Lemma late_throw {A} d l : late (@t_throw A d) l -> dg_kind d = UnexpectedEOF.
Proof. intros (ds & d' & l' & H & E). injection H as -> _ . exact E. Qed.
Lemma late_expect_next src l : late (t_expect_next src) l -> l = [].
Proof. intros (ds & d' & l' & H & _). destruct l; [reflexivity|discriminate H]. Qed.
Lemma late_peek_expect src l : late (t_peek_expect src) l -> l = [].
Proof. intros (ds & d' & l' & H & _). destruct l; [reflexivity|discriminate H]. Qed.
Lemma late_expect src k l : late (t_expect src k) l -> l = [].
Proof.
  intros (ds & d' & l' & H & E). destruct l as [|x l]; [reflexivity|].
  unfold t_expect, t_bind, t_cur_pos, t_next, t_source, t_ret, t_throw in H. cbn [t_toks t_diags hd_error tl] in H.
  destruct (kind_eqb (tk_kind x) k); [discriminate H|]. injection H as <- _. discriminate E.
Qed.
Lemma late_catch {A B} (m : TM A) (k : A -> TM B) g l : mono m -> (forall a, mono (k a)) -> (forall d, mono (g d)) ->
  (forall d l1 l2 e ds ds', g d (mkTS l1 ds) = TErr e (mkTS l2 ds') -> ds <> ds') ->
  late (t_catch m k g) l -> exists a l', cl m l a l' /\ late (k a) l'.
Proof.
  intros Hm Hk Hg Hne (ds & d & l' & H & Hd). unfold t_catch in H. specialize (Hm (mkTS l ds)).
  destruct (m (mkTS l ds)) as [a [l1 ds1]|d1 [l1 ds1]|] eqn:Em; [| |discriminate].
  - specialize (Hk a (mkTS l1 ds1)). rewrite H in Hk. destruct Hm as [n Hn], Hk as [n' Hn']. cbn [t_diags] in *.
    rewrite Hn, <- app_assoc in Hn'. apply app_nil_inv in Hn'. apply app_eq_nil in Hn'. destruct Hn' as [-> ->].
    rewrite app_nil_r in Hn. subst ds1. exists a, l1. split; [exists ds; exact Em|exists ds, d, l'; auto].
  - exfalso. specialize (Hg d1 (mkTS l1 ds1)). rewrite H in Hg. destruct Hm as [n Hn], Hg as [n' Hn']. cbn [t_diags] in *.
    rewrite Hn, <- app_assoc in Hn'. apply app_nil_inv in Hn'. apply app_eq_nil in Hn'. destruct Hn' as [-> ->].
    rewrite app_nil_r in Hn. subst ds1. eapply Hne; [exact H|reflexivity].
Qed.

(** takes a run apart; one goal for every place where it may have stopped *)
Ltac late_one H :=
  lazymatch type of H with
  | late (t_bind _ _) _ =>
    apply late_bind in H; [|solve [mono_tac]|solve [mono_tac]];
    let a := fresh "a" in let l := fresh "l" in let H1 := fresh "H" in
    destruct H as [H|(a & l & H1 & H)]; [late_one H|cl_one H1]
  | late (t_ret _) _ => exfalso; exact (late_ret _ _ H)
  | late (t_push _) _ => exfalso; exact (late_push _ _ H)
  | late (t_push_opt _) _ => exfalso; exact (late_push_opt _ _ H)
  | late t_no_fuel _ => exfalso; exact (late_nofuel _ H)
  | late t_panic _ => exfalso; exact (late_panic _ H)
  | late t_peek _ => exfalso; exact (late_peek _ H)
  | late t_next _ => exfalso; exact (late_next _ H)
  | late t_skip_tok _ => exfalso; exact (late_skip _ H)
  | late (t_throw _) _ => apply late_throw in H; try discriminate H
  | late (t_expect_next _) _ => apply late_expect_next in H; try subst; try discriminate
  | late (t_peek_expect _) _ => apply late_peek_expect in H; try subst; try discriminate
  | late (t_expect _ _) _ => apply late_expect in H; try subst; try discriminate
  | late (t_source _) _ => exfalso; exact (late_ret _ _ H)
  | late t_last_pos _ => exfalso; exact (late_ret _ _ H)
  | late (t_include_paths _) _ => exfalso; exact (late_ret _ _ H)
  | _ => idtac
  end.

Definition node_legal (s : str) : Prop := exists nm, node_text s nm /\ legal_node_name nm.
(** The inside of braces breaks off in an item that cannot stand there. Either it ends in a name that
    cannot become the name of a node nor, where one may stand, of a property; or it has begun
    a property after a node or with an omit directive. *)
Inductive misplaced : bool -> list token -> Prop :=
| mi_name seen l o l1 lb t s : g_omit l o l1 -> g_label l1 lb [t] -> is (Ident s) t -> ~ node_legal s ->
    (legal_property_name s -> seen = true \/ o <> None) -> misplaced seen l
| mi_property seen l o l1 lb t s q l2 : g_omit l o l1 -> g_label l1 lb (t :: q :: l2) -> is (Ident s) t -> is Equal q ->
    seen = true \/ o <> None -> misplaced seen l
| mi_after seen l it its l1 : g_items seen l (it :: its) l1 0 -> misplaced (seen || has_node (it :: its)) l1 -> misplaced seen l
| mi_inside seen l o l1 lb t s nm b l2 : g_omit l o l1 -> g_label l1 lb (t :: b :: l2) -> is (Ident s) t -> node_text s nm ->
    legal_node_name nm -> is OpenBrace b -> misplaced false l2 -> misplaced seen l.
(** the file breaks off in a misplaced item *)
Inductive misplaced_file (incl : list fpath) : list token -> Prop :=
| mf_root t b l : is Slash t -> is OpenBrace b -> misplaced false l -> misplaced_file incl (t :: b :: l)
| mf_ref t r x b l : is (Ref r) t -> ref_text r x -> is OpenBrace b -> misplaced false l -> misplaced_file incl (t :: b :: l)
| mf_after l p l1 : g_primary incl l p l1 0 -> misplaced_file incl l1 -> misplaced_file incl l.

Section Late.
  Context (src : fpath) (incl : list fpath) (rl : position -> list token).
  Notation ok := (Forall tok_ok).

  Lemma late_check l sp s p1 p2 ctx : ~ late (t_check_ident src sp s p1 p2 ctx) l.
  Proof. unfold t_check_ident. intros H. late_one H. late_one H. Qed.
  Lemma late_check_node l sp n : ~ late (t_check_is_node_name src sp n) l.
  Proof.
    unfold t_check_is_node_name. intros H. destruct (match nn_addr n with None => _ | Some _ => _ end); late_one H.
    - exact (late_check _ _ _ _ _ _ H).
    - destruct (nn_addr n); [exact (late_check _ _ _ _ _ _ H)|late_one H].
  Qed.
  Lemma late_check_path sp p : forall l, ~ late (t_check_path src sp p) l.
  Proof.
    induction p as [|n p IH]; intros l H; cbn [t_check_path] in H; late_one H; [exact (late_check_node _ _ _ H)|exact (IH _ H)].
  Qed.
  Lemma late_reference t r l : ~ late (t_p_reference src t r) l.
  Proof.
    unfold t_p_reference. intros H. destruct r as [s|s]; late_one H.
    - exact (late_check _ _ _ _ _ _ H).
    - late_one H.
    - destruct s; late_one H.
    - late_one H; [exact (late_check_path _ _ _ H)|late_one H].
  Qed.
  Lemma late_skip_label l : ~ late t_skip_optional_label l.
  Proof.
    unfold t_skip_optional_label. intros H. late_one H. subst. destruct (hd_error l0) as [t|]; [|late_one H].
    destruct (tk_kind t); late_one H.
  Qed.
  Lemma late_skip_expression f : forall d l, ~ late (t_skip_expression f d) l.
  Proof.
    induction f as [|f IH]; intros d l H; cbn [t_skip_expression] in H; late_one H. subst.
    destruct (hd_error l0) as [t|]; [|late_one H].
    destruct (tk_kind t); late_one H; try exact (IH _ _ H). destruct (d =? 1); [late_one H|exact (IH _ _ H)].
  Qed.
  Lemma late_number f l : late (t_number_u32 src f) l -> l = [].
  Proof.
    unfold t_number_u32. intros H. late_one H; [reflexivity|]. exfalso.
    destruct (tk_kind a); late_one H.
    - exact (late_skip_expression _ _ _ H).
    - apply late_bind in H; [|mono_tac|mono_tac]. destruct H as [H|(? & ? & _ & H)]; [late_one H|].
      apply late_bind in H; [|mono_tac|mono_tac]. destruct H as [H|(? & ? & _ & H)]; [|late_one H].
      match type of H with late (match ?x with _ => _ end) _ => destruct x; late_one H end.
    - destruct (parse_number u32_lim s); late_one H.
    - exact (late_reference _ _ _ H).
    - late_one H.
  Qed.

  (** ** Words to complete with *)
  Definition w_name : token_kind := Ident (bs "a").
  Definition w_number : token_kind := UnparsedNumber (bs "0").
  Definition w_string : token_kind := TString [].
  Definition w_ref : token_kind := Ref (TRefSimple (bs "a")).
  Definition word (k : token_kind) : Prop :=
    In k [w_name; w_number; w_string; w_ref; Semicolon; OpenBrace; CloseBrace; CloseBracket; ChevronRight; Equal].
  (** the tokens [z] are the words [ks] *)
  Definition words (ks : list token_kind) (z : list token) : Prop := map tk_kind z = ks /\ Forall word ks.
  Lemma words_one k z : words [k] z -> exists t, z = [t] /\ is k t.
  Proof. intros [H _]. destruct z as [|t [|]]; try discriminate H. injection H as H. exists t. auto. Qed.
  Lemma words_cons k ks z : words (k :: ks) z -> exists t z', z = t :: z' /\ is k t /\ words ks z'.
  Proof.
    intros [H W]. destruct z as [|t z]; [discriminate H|]. injection H as H1 H2. exists t, z. split; [reflexivity|]. split; [exact H1|]. split; [exact H2|exact (Forall_inv_tail W)].
  Qed.
  Lemma words_nil z : words [] z -> z = [].
  Proof. intros [H _]. destruct z; [reflexivity|discriminate H]. Qed.
  Lemma words_app ks ks' z : words (ks ++ ks') z -> exists z1 z2, z = z1 ++ z2 /\ words ks z1 /\ words ks' z2.
  Proof.
    revert z. induction ks as [|k ks IH]; intros z H; cbn [app] in H.
    - exists [], z. repeat split; [constructor|apply H|apply H].
    - assert (W : word k) by (destruct H as [_ H]; inversion H; assumption).
      destruct (words_cons _ _ _ H) as (t & z' & -> & Ht & H'). destruct (IH _ H') as (z1 & z2 & -> & [H1 W1] & H2).
      exists (t :: z1), z2. split; [reflexivity|]. split; [|exact H2]. split; [cbn [map]; rewrite Ht, H1; reflexivity|constructor; assumption].
  Qed.

  (** ** Values *)
  Lemma late_cells f : forall acc l, late (t_cells_loop src f acc) l -> ok l ->
    forall z r, is ChevronRight z -> exists cs, g_cells (l ++ z :: r) cs z r.
  Proof.
    induction f as [|f IH]; intros acc l H Ho z r Hz; cbn [t_cells_loop] in H; late_one H; [destruct (late_skip_label _ H)|].
    apply cl_skip_label in H0; [|exact Ho]. destruct H0 as (Hl & Ho1 & _). pose proof (opt_label_more (z :: r) _ _ Hl) as Hl'.
    late_one H.
    - exists []. constructor; assumption.
    - destruct (kind_eqb_spec (tk_kind a0) ChevronRight) as [E|E].
      + late_one H. late_one H.
      + apply late_catch in H; [|mono_tac|mono_tac|mono_tac|].
        2: { intros d l1 l2 c ds ds' Hc E'. unfold t_bind, t_push in Hc. subst ds'.
             assert (Hm0 : mono (t_cells_loop src f acc)) by auto with mono. pose proof (Hm0 (mkTS l1 (ds ++ [d]))) as Hm. cbn [t_toks t_diags] in Hc. rewrite Hc in Hm.
             destruct Hm as [n Hm]. cbn in Hm. rewrite <- app_assoc in Hm. apply app_nil_inv in Hm. discriminate. }
        destruct H as (c & l2 & Hc & H). apply (cl_number src incl) in Hc; [|exact Ho1]. destruct Hc as [Hc Ho2].
        destruct (IH _ _ H Ho2 z r Hz) as [cs Hcs]. exists (c :: cs). eapply gcs_cons; [exact Hl'|apply cell_more; exact Hc|exact Hcs].
  Qed.
  Lemma late_byte_string l : late (t_byte_string src) l -> l = [].
  Proof.
    unfold t_byte_string. intros H. late_one H; [reflexivity|]. exfalso.
    assert (N : forall s, ~ late (if negb (Nat.even (length s)) then
             t_push (diag_from_token a OddNumberOfBytestringElements (bs "Number of elements in byte string must be even")) ;^
             t_ret (mkWT [] a)
           else match decode_pairs s with
                | Done (inl b) => t_ret (mkWT b a)
                | Done (inr e) => t_push (diag_int_error (tk_span a) (tk_source a) e) ;^ t_ret (mkWT [] a)
                | Panic => t_panic
                | NoFuel => t_no_fuel
                end) l0).
    { intros s K. destruct (negb (Nat.even (length s))); [late_one K|]. destruct (decode_pairs s) as [[b|e]| |]; late_one K. }
    destruct (tk_kind a); first [exact (N _ H)|late_one H].
  Qed.
  Lemma late_bytes f : forall acc l, late (t_bytes_loop src f acc) l -> ok l ->
    forall z r, is CloseBracket z -> exists cs, g_bytes (l ++ z :: r) cs z r.
  Proof.
    induction f as [|f IH]; intros acc l H Ho z r Hz; cbn [t_bytes_loop] in H; late_one H; [destruct (late_skip_label _ H)|].
    apply cl_skip_label in H0; [|exact Ho]. destruct H0 as (Hl & Ho1 & _). pose proof (opt_label_more (z :: r) _ _ Hl) as Hl'.
    late_one H.
    - exists []. constructor; assumption.
    - destruct (kind_eqb_spec (tk_kind a0) CloseBracket) as [E|E]; late_one H; late_one H.
      + apply late_byte_string in H. discriminate H.
      + apply (cl_byte_string src incl) in H0; [|exact Ho1]. destruct H0 as (e & s & b & Ee & -> & He & Hb & Ho2). rewrite Ee in *.
        destruct (IH _ _ H Ho2 z r Hz) as [cs Hcs]. eexists (_ :: cs). eapply gbs_cons; [exact Hl'|exact He|exact Hb|exact Hcs].
  Qed.
  Lemma late_bits l : late (t_bits_prefix src) l -> exists d, l = [d] /\ is (Directive Bits) d.
  Proof.
    unfold t_bits_prefix. intros H. late_one H. subst. destruct l0 as [|t l0]; cbn [hd_error] in H; [late_one H|].
    destruct (kind_eqb_spec (tk_kind t) (Directive Bits)) as [E|E]; late_one H. cbn [tl] in H. late_one H.
    - exists t. auto.
    - destruct (tk_kind a0); late_one H.
  Qed.
  Lemma bits_last d t r z : is (Directive Bits) d -> is w_number t -> g_bits (d :: t :: z :: r) (z :: r).
  Proof. intros Hd Ht. eapply gb_some; [exact Hd|exact Ht]. Qed.
  Ltac word_tac := repeat constructor; unfold word; cbn [In]; tauto.
  Lemma late_value f l : late (t_property_value src f) l -> ok l -> exists ks, Forall word ks /\
    forall z, words ks z -> forall r, exists v, g_value (l ++ z ++ r) v r.
  Proof.
    unfold t_property_value. intros H Ho. late_one H.
    - apply late_bits in H. destruct H as (d & -> & Hd). exists [w_number; w_string]. split; [word_tac|].
      intros z Hz r. destruct (words_cons _ _ _ Hz) as (t & z' & -> & Ht & Hz'). destruct (words_one _ _ Hz') as (u & -> & Hu).
      eexists. eapply gv_string; [exact (bits_last d t r u Hd Ht)|exact Hu].
    - apply (cl_bits src incl) in H0; [|exact Ho]. destruct H0 as [Hb Ho1]. late_one H.
      + exists [w_string]. split; [word_tac|]. intros z Hz r. destruct (words_one _ _ Hz) as (u & -> & Hu).
        eexists. eapply gv_string; [exact (bits_more ([u] ++ r) _ _ Hb)|exact Hu].
      + inversion Ho1 as [|? ? Ht Hl1]; subst. unfold tok_ok in Ht. destruct (tk_kind a0) eqn:E; late_one H; try (late_one H; fail).
        * exists [CloseBracket]. split; [word_tac|]. intros z Hz r. destruct (words_one _ _ Hz) as (u & -> & Hu).
          destruct (late_bytes _ _ _ H Hl1 u r Hu) as [cs Hcs]. eexists. eapply gv_bytes; [exact (bits_more ([u] ++ r) _ _ Hb)|exact E|exact Hcs].
        * destruct a1. late_one H.
        * exists [ChevronRight]. split; [word_tac|]. intros z Hz r. destruct (words_one _ _ Hz) as (u & -> & Hu).
          destruct (late_cells _ _ _ H Hl1 u r Hu) as [cs Hcs]. eexists. eapply gv_cells; [exact (bits_more ([u] ++ r) _ _ Hb)|exact E|exact Hcs].
        * destruct a1. late_one H.
        * destruct (late_reference _ _ _ H).
  Qed.
  Lemma late_values f : forall acc l, late (t_property_values src f acc) l -> ok l -> exists ks, Forall word ks /\
    forall z, words ks z -> forall t r, is Semicolon t -> exists vs, g_values (l ++ z ++ t :: r) vs (t :: r).
  Proof.
    assert (Hend : forall l2 t r, is Semicolon t -> values_end l2 (t :: r)).
    { intros l2 t r Ht. exists t, r. unfold is in *. repeat split; congruence. }
    induction f as [|f IH]; intros acc l H Ho; cbn [t_property_values] in H; late_one H; [destruct (late_skip_label _ H)|].
    apply cl_skip_label in H0; [|exact Ho]. destruct H0 as (Hl & Ho1 & _). late_one H.
    - destruct (late_value _ _ H Ho1) as (ks & Hw & Hk). exists ks. split; [exact Hw|]. intros z Hz t r Ht.
      destruct (Hk z Hz (t :: r)) as [v Hv]. exists [v]. eapply gvs_one; [exact (opt_label_more (z ++ t :: r) _ _ Hl)|exact Hv|apply ol_none|apply Hend; exact Ht].
    - apply (cl_value src incl) in H0; [|exact Ho1]. destruct H0 as [Hv Ho2]. late_one H; [destruct (late_skip_label _ H)|].
      apply cl_skip_label in H0; [|exact Ho2]. destruct H0 as (Hl2 & Ho3 & _). late_one H.
      + exists []. split; [constructor|]. intros z Hz t r Ht. apply words_nil in Hz. subst z. exists [a0].
        eapply gvs_one; [exact (opt_label_more (t :: r) _ _ Hl)|exact (value_more (t :: r) _ _ _ Hv)|exact (opt_label_more (t :: r) _ _ Hl2)|apply Hend; exact Ht].
      + destruct (kind_eqb_spec (tk_kind a2) Comma) as [E|E]; late_one H. cbn [tl] in H.
        inversion Ho3 as [|? ? _ Ho4]; subst. destruct (IH _ _ H Ho4) as (ks & Hw & Hk). exists ks. split; [exact Hw|].
        intros z Hz t q Ht. destruct (Hk z Hz t q Ht) as [vs Hvs]. exists (a0 :: vs).
        eapply gvs_cons; [exact (opt_label_more (z ++ t :: q) _ _ Hl)|exact (value_more (z ++ t :: q) _ _ _ Hv)|exact (opt_label_more (z ++ t :: q) _ _ Hl2)|exact E|exact Hvs].
  Qed.

  (** ** Statements *)
  Lemma late_semicolon l : ~ late (t_expect_semicolon src rl) l.
  Proof.
    intros (ds & d & l' & H & _). destruct l as [|t l]; [discriminate H|].
    unfold t_expect_semicolon, t_bind, t_peek in H. cbn [t_toks hd_error] in H. destruct (tk_kind t); discriminate H.
  Qed.
  Lemma late_node_name l : late (t_p_node_name src) l -> l = [].
  Proof.
    unfold t_p_node_name. intros H. late_one H; [reflexivity|]. exfalso. destruct (tk_kind a); late_one H; [|late_one H].
    exact (late_check_node _ _ _ H).
  Qed.
  Lemma late_property_name l : late (t_p_property_name src) l -> l = [].
  Proof.
    unfold t_p_property_name. intros H. late_one H; [reflexivity|]. exfalso. destruct (tk_kind a); late_one H; [|late_one H].
    exact (late_check _ _ _ _ _ _ H).
  Qed.

  Lemma node_legal_dec s : valid_utf8 s = true -> node_legal s \/ ~ node_legal s.
  Proof.
    intros Hv. set (sp := mkSpan pos_zero pos_zero).
    assert (D : Forall (fun o => o = None) (node_checks sp (node_name_of s) src) \/ ~ Forall (fun o => o = None) (node_checks sp (node_name_of s) src)).
    { induction (node_checks sp (node_name_of s) src) as [|o os IH]; [left; constructor|]. destruct o; [right; intros K; inversion K; discriminate|].
      destruct IH as [IH|IH]; [left; constructor; auto|right; intros K; inversion K; auto]. }
    rewrite (node_checks_iff sp (node_name_of s) src (nn_valid_of s Hv)) in D.
    destruct D as [D|D]; [left; exists (node_name_of s); split; [apply node_text_iff; reflexivity|exact D]|right].
    intros (nm & H1 & H2). apply node_text_iff in H1. subst nm. exact (D H2).
  Qed.
  Lemma property_legal_dec s : valid_utf8 s = true -> legal_property_name s \/ ~ legal_property_name s.
  Proof.
    intros Hv. rewrite <- (check_property_iff (mkSpan pos_zero pos_zero) s src Hv). destruct (check_ident_diag _ _ _ _ _ _); [right; discriminate|left; reflexivity].
  Qed.

  (** the inside of braces can be ended *)
  Definition closable (seen : bool) (l : list token) : Prop :=
    exists ks, Forall word ks /\ forall z, words ks z -> forall r, closes seen (l ++ z ++ r) r.
  Definition closing := [CloseBrace; Semicolon].
  Lemma closing_words z r seen : words closing z -> closes seen (z ++ r) r.
  Proof.
    intros H. destruct (words_cons _ _ _ H) as (c & z' & -> & Hc & H'). destruct (words_one _ _ H') as (u & -> & Hu).
    exists [], ([c; u] ++ r), None, ([c; u] ++ r), None, c, ([u] ++ r), (Some u). repeat split; try constructor; assumption.
  Qed.
  Lemma closing_prefix z r seen l o l1 lb : words closing z -> g_omit l o l1 -> g_label l1 lb [] -> closes seen (l ++ z ++ r) r.
  Proof.
    intros H Ho Hl. destruct (words_cons _ _ _ H) as (c & z' & -> & Hc & H'). destruct (words_one _ _ H') as (u & -> & Hu).
    exists [], (l ++ [c; u] ++ r), o, (l1 ++ [c; u] ++ r), lb, c, ([u] ++ r), (Some u). split; [constructor|].
    split; [apply omit_more; exact Ho|]. split; [exact (label_more ([c; u] ++ r) _ _ _ Hl)|]. split; [exact Hc|constructor; exact Hu].
  Qed.
  (** an item before *)
  Lemma closes_item seen seen' l1 l2 r (it : item) : (forall its l3, g_items seen' l2 its l3 0 -> g_items seen l1 (it :: its) l3 0) ->
    closes seen' l2 r -> closes seen l1 r.
  Proof.
    intros H (its & l3 & o & l4 & lb & c & l5 & e & Hi & K). exists (it :: its), l3, o, l4, lb, c, l5, e. split; [apply H; exact Hi|exact K].
  Qed.
  Lemma closes_nil_item seen seen' l1 r (it : item) ks z : words (ks ++ closing) z ->
    (forall z1 z2, z = z1 ++ z2 -> words ks z1 -> forall its l3, g_items seen' (z2 ++ r) its l3 0 -> g_items seen (l1 ++ z ++ r) (it :: its) l3 0) ->
    closes seen (l1 ++ z ++ r) r.
  Proof.
    intros Hz H. destruct (words_app _ _ _ Hz) as (z1 & z2 & E & H1 & H2).
    eapply (closes_item seen seen' _ (z2 ++ r) r it); [exact (H z1 z2 E H1)|]. apply closing_words. exact H2.
  Qed.
  Lemma late_prefix f acc nd l : late (t_payload_loop src rl (S f) acc nd) l -> ok l ->
    (exists o l1 lb, g_omit l o l1 /\ g_label l1 lb [])
    \/ (exists d r, l = d :: r /\ (is (Directive DeleteNode) d \/ is (Directive DeleteProperty) d))
    \/ exists o l1 lb t l2, g_omit l o l1 /\ g_label l1 lb (t :: l2) /\ ok (t :: l2)
         /\ late (GrammarComplete.rest_of_item src rl f acc nd t o lb) l2.
  Proof.
    intros H Ho. cbn [t_payload_loop] in H. late_one H.
    { left. exists None, [], None. split; constructor. }
    inversion Ho as [|t l1 Ht Hl1]; subst.
    destruct (kind_eqb_spec (tk_kind a) (Directive DeleteNode)) as [E1|E1]; [right; left; unfold is; eauto|].
    destruct (kind_eqb_spec (tk_kind a) (Directive DeleteProperty)) as [E2|E2]; [right; left; unfold is; eauto|].
    apply late_bind in H; [|mono_tac|mono_tac]. destruct H as [H|(x & l1 & H0 & H)].
    { left. destruct (kind_eqb_spec (tk_kind a) (Directive OmitIfNoRef)) as [E|E]; late_one H; [|late_one H].
      exists (Some a), [], None. split; constructor. exact E. }
    apply (cl_omit_prefix src incl) in H0; [|exact Ho]. destruct H0 as (o & t & -> & Hom & Ho2). cbv beta iota in H.
    apply late_bind in H; [|mono_tac|mono_tac]. destruct H as [H|(x & l2 & H0 & H)].
    { left. exists o, (t :: l1). inversion Ho2 as [|? ? Ht2 Hl2]; subst. destruct (tk_kind t) eqn:E; late_one H; [destruct (late_check _ _ _ _ _ _ H)|].
      apply (cl_check_label src) in H0; [|exact (ok_label _ _ Ht2 E)]. destruct H0 as [Hs ->]. late_one H; [|late_one H].
      eexists. split; [exact Hom|]. constructor; [exact E|exact Hs]. }
    apply (cl_label_prefix src incl) in H0; [|exact Ho2]. destruct H0 as (lb & u & -> & Hlb & Ho3).
    right. right. exists o, (t :: l1), lb, u, l2. auto.
  Qed.
  Lemma misplaced_item seen it l1 l2 : g_items seen l1 [it] l2 0 ->
    misplaced (match it with INode _ => true | _ => seen end) l2 -> misplaced seen l1.
  Proof.
    intros H Hm. eapply mi_after; [exact H|]. destruct it; cbn [has_node existsb orb]; rewrite ?orb_false_r, ?orb_true_r; exact Hm.
  Qed.
  Lemma closable_item seen seen' it l1 l2 :
    (forall z its l3, g_items seen' (l2 ++ z) its l3 0 -> g_items seen (l1 ++ z) (it :: its) l3 0) ->
    closable seen' l2 -> closable seen l1.
  Proof.
    intros H (ks & Hw & Hk). exists ks. split; [exact Hw|]. intros z Hz r.
    eapply closes_item; [|exact (Hk z Hz r)]. intros its l3 Hi. apply H. exact Hi.
  Qed.
  Lemma item_delete_node seen d t s nm l e l1 : is (Directive DeleteNode) d -> is (Ident s) t -> node_text s nm -> legal_node_name nm ->
    g_end l e l1 0 -> forall z its l3, g_items seen (l1 ++ z) its l3 0 -> g_items seen ((d :: t :: l) ++ z) (IDeletedNode d (mkWT nm t) :: its) l3 0.
  Proof. intros Hd Ht Hn Hl He z its l3 Hi. change 0%nat with (0 + 0)%nat. eapply gi_delete_node; try eassumption. apply end_more. exact He. Qed.
  Lemma item_delete_property seen d t s l e l1 : is (Directive DeleteProperty) d -> is (Ident s) t -> legal_property_name s ->
    g_end l e l1 0 -> forall z its l3, g_items seen (l1 ++ z) its l3 0 -> g_items seen ((d :: t :: l) ++ z) (IDeletedProperty d (mkWT s t) :: its) l3 0.
  Proof. intros Hd Ht Hl He z its l3 Hi. change 0%nat with (0 + 0)%nat. eapply gi_delete_property; try eassumption. apply end_more. exact He. Qed.
  Lemma item_empty l lb t s e l1 : g_label l lb (t :: e :: l1) -> is (Ident s) t -> legal_property_name s -> is Semicolon e ->
    forall z its l3, g_items false (l1 ++ z) its l3 0 -> g_items false (l ++ z) (IProperty (mkProp lb (mkWT s t) [] e) :: its) l3 0.
  Proof. intros Hlb Ht Hl He z its l3 Hi. eapply gi_empty_property; try eassumption. exact (label_more z _ _ _ Hlb). Qed.
  Lemma item_property l lb t s q l1 vs l2 e l3 : g_label l lb (t :: q :: l1) -> is (Ident s) t -> legal_property_name s -> is Equal q ->
    g_values l1 vs l2 -> g_end l2 e l3 0 ->
    forall z its l4, g_items false (l3 ++ z) its l4 0 -> g_items false (l ++ z) (IProperty (mkProp lb (mkWT s t) vs (last_token e q)) :: its) l4 0.
  Proof.
    intros Hlb Ht Hl Hq Hv He z its l4 Hi. change 0%nat with (0 + 0)%nat.
    apply (gi_property (l ++ z) lb t s q (l1 ++ z) vs (l2 ++ z) e (l3 ++ z) 0 its l4 0); auto using values_more, end_more. exact (label_more z _ _ _ Hlb).
  Qed.
  Lemma item_node seen l o l1 lb t s nm b l2 pl l3 : g_omit l o l1 -> g_label l1 lb (t :: b :: l2) -> is (Ident s) t -> node_text s nm ->
    legal_node_name nm -> is OpenBrace b -> g_body l2 pl l3 0 ->
    forall z its l4, g_items true (l3 ++ z) its l4 0 -> g_items seen (l ++ z) (INode (mkNode lb (mkWT nm t) pl o) :: its) l4 0.
  Proof.
    intros Hom Hlb Ht Hn Hl Hb Hbd z its l4 Hi. change 0%nat with (0 + 0)%nat.
    apply (gi_node seen (l ++ z) o (l1 ++ z) lb t s nm b (l2 ++ z) pl (l3 ++ z) 0 its l4 0); auto using omit_more; [exact (label_more z _ _ _ Hlb)|].
    exact (proj1 (body_items_more z) _ _ _ _ Hbd eq_refl).
  Qed.
  (** as a single item *)
  Lemma item_alone seen seen' it l1 l2 : (forall z its l3, g_items seen' (l2 ++ z) its l3 0 -> g_items seen (l1 ++ z) (it :: its) l3 0) ->
    g_items seen l1 [it] l2 0.
  Proof. intros H. specialize (H [] [] l2). rewrite !app_nil_r in H. apply H. constructor. Qed.
  Lemma closable_word seen l it seen' ks : Forall word ks -> (forall z, words ks z -> forall r its l3, g_items seen' r its l3 0 ->
    g_items seen (l ++ z ++ r) (it z r :: its) l3 0) -> closable seen l.
  Proof.
    intros Hw H. exists (ks ++ closing). split; [apply Forall_app; split; [exact Hw|word_tac]|].
    intros z Hz r. destruct (words_app _ _ _ Hz) as (z1 & z2 & -> & H1 & H2). rewrite <- app_assoc.
    eapply (closes_item seen seen' _ (z2 ++ r) r (it z1 (z2 ++ r))); [|apply closing_words; exact H2].
    intros its l3 Hi. apply H; [exact H1|exact Hi].
  Qed.

  Lemma name_legal : node_text (bs "a") (mkNN (bs "a") None) /\ legal_node_name (mkNN (bs "a") None) /\ legal_property_name (bs "a").
  Proof.
    assert (S : short (bs "a")) by (split; [discriminate|cbn; lia]).
    split; [constructor; intros [K|[]]; discriminate K|]. split.
    - right. cbn [nn_name nn_addr]. split; [exact S|]. split; [constructor; [left; vm_compute; intuition discriminate|constructor]|].
      split; [exists 97, []; split; [reflexivity|unfold letter; lia]|]. intros x K. discriminate K.
    - split; [exact S|]. constructor; [left; vm_compute; intuition discriminate|constructor].
  Qed.
  Lemma late_payload f : forall acc nd l, late (t_payload_loop src rl f acc nd) l -> ok l -> closable nd l \/ misplaced nd l.
  Proof.
    destruct name_legal as (Ha1 & Ha2 & Ha3).
    induction f as [|f IH]; intros acc nd l H Ho; [cbn [t_payload_loop] in H; late_one H|].
    destruct (late_prefix _ _ _ _ H Ho) as [(o & l1 & lb & Hom & Hlb)|[(d & r & -> & Hd)|(o & l1 & lb & t & l2 & Hom & Hlb & Ho2 & Hr)]].
    - left. exists closing. split; [word_tac|]. intros z Hz r. eapply closing_prefix; eassumption.
    - cbn [t_payload_loop] in H. late_one H. injection H0 as <- <-. inversion Ho as [|? ? Hdk Hr]; subst.
      destruct (kind_eqb_spec (tk_kind d) (Directive DeleteNode)) as [E1|E1].
      + late_one H.
        * apply late_node_name in H. subst r. left.
          apply (closable_word nd [d] (fun z _ => IDeletedNode d (mkWT (mkNN (bs "a") None) (hd d z))) nd [w_name; Semicolon]); [word_tac|].
          intros z Hz r its l3 Hi. destruct (words_cons _ _ _ Hz) as (t & z' & -> & Ht & Hz'). destruct (words_one _ _ Hz') as (u & -> & Hu).
          cbn [app hd]. apply (item_delete_node nd d t (bs "a") (mkNN (bs "a") None) [u] (Some u) []) with (z := r); auto. constructor. exact Hu.
        * apply (cl_node_name src incl) in H0; [|exact Hr]. destruct H0 as (t & s & nm & -> & -> & Ht & Hn & Hl & Ho1).
          apply late_bind in H; [|mono_tac|mono_tac]. destruct H as [H|(e & l2 & H0 & H)]; [destruct (late_semicolon _ H)|].
          apply (cl_end src incl rl) in H0; [|exact Ho1]. destruct H0 as [He Ho2].
          pose proof (item_delete_node nd d t s nm _ _ _ E1 Ht Hn Hl He) as Hit.
          destruct (IH _ _ _ H Ho2) as [K|K]; [left; exact (closable_item _ _ _ _ _ Hit K)|right; exact (misplaced_item _ _ _ _ (item_alone _ _ _ _ _ Hit) K)].
      + destruct Hd as [Hd|Hd]; unfold is in Hd; [contradiction|]. rewrite (kind_eqb_true _ _ Hd) in H. late_one H.
        * apply late_property_name in H. subst r. left.
          apply (closable_word nd [d] (fun z _ => IDeletedProperty d (mkWT (bs "a") (hd d z))) nd [w_name; Semicolon]); [word_tac|].
          intros z Hz r its l3 Hi. destruct (words_cons _ _ _ Hz) as (t & z' & -> & Ht & Hz'). destruct (words_one _ _ Hz') as (u & -> & Hu).
          cbn [app hd]. apply (item_delete_property nd d t (bs "a") [u] (Some u) []) with (z := r); auto. constructor. exact Hu.
        * apply (cl_property_name src incl) in H0; [|exact Hr]. destruct H0 as (t & s & -> & -> & Ht & Hl & Ho1).
          apply late_bind in H; [|mono_tac|mono_tac]. destruct H as [H|(e & l2 & H0 & H)]; [destruct (late_semicolon _ H)|].
          apply (cl_end src incl rl) in H0; [|exact Ho1]. destruct H0 as [He Ho2].
          pose proof (item_delete_property nd d t s _ _ _ Hd Ht Hl He) as Hit.
          destruct (IH _ _ _ H Ho2) as [K|K]; [left; exact (closable_item _ _ _ _ _ Hit K)|right; exact (misplaced_item _ _ _ _ (item_alone _ _ _ _ _ Hit) K)].
    - clear H. unfold GrammarComplete.rest_of_item in Hr. inversion Ho2 as [|? ? Ht Hl2]; subst.
      destruct (tk_kind t) eqn:E; try (late_one Hr; fail).
      { apply late_bind in Hr; [|mono_tac|mono_tac]. destruct Hr as [Hr|(e & l3 & H0 & Hr)]; [destruct (late_semicolon _ Hr)|late_one Hr]. }
      pose proof (ok_ident _ _ Ht E) as Hv. apply late_bind in Hr; [|mono_tac|mono_tac]. destruct Hr as [Hr|(q & l3 & Hq & Hr)].
      + (* the text ends after the name *)
        apply late_peek_expect in Hr. subst l2. destruct (node_legal_dec s Hv) as [(nm & Hn1 & Hn2)|Hn].
        { left.
          apply (closable_word nd l (fun z _ => INode (mkNode lb (mkWT nm t) (mkPayload [] (last z t)) o)) true [OpenBrace; CloseBrace; Semicolon]); [word_tac|].
          intros z Hz r its l4 Hi. destruct (words_cons _ _ _ Hz) as (b & z' & -> & Hb & Hz'). destruct (words_cons _ _ _ Hz') as (c & z'' & -> & Hc & Hz'').
          destruct (words_one _ _ Hz'') as (u & -> & Hu). cbn [last]. change 0%nat with (0 + 0)%nat.
          eapply gi_node; [apply omit_more; exact Hom|exact (label_more _ _ _ _ Hlb)|exact E|exact Hn1|exact Hn2|exact Hb| |exact Hi].
          change 0%nat with (0 + 0)%nat. eapply (gbo _ [] 0 _ None _ None c _ (Some u)); try constructor; assumption. }
        destruct (property_legal_dec s Hv) as [Hp|Hp].
        * destruct nd; [right; eapply mi_name; eauto|]. destruct o as [o|]; [right; eapply mi_name; eauto; right; discriminate|].
          left. inversion Hom; subst.
          apply (closable_word false l1 (fun z _ => IProperty (mkProp lb (mkWT s t) [] (hd t z))) false [Semicolon]); [word_tac|].
          intros z Hz r its l4 Hi. destruct (words_one _ _ Hz) as (u & -> & Hu). cbn [hd].
          eapply gi_empty_property; [exact (label_more _ _ _ _ Hlb)|exact E|exact Hp|exact Hu|exact Hi].
        * right. eapply mi_name; eauto; intros K; contradiction.
      + apply cl_peek_expect in Hq. destruct Hq as (<- & r & ->). inversion Hl2 as [|? ? Hq Hl3]; subst.
        destruct (tk_kind q) eqn:E2; try (late_one Hr; late_one Hr; late_one Hr; fail).
        * (* semicolon *)
          late_one Hr. cbn [tl] in *. late_one Hr; [destruct (late_check _ _ _ _ _ _ Hr)|]. apply (cl_check_property src) in H; [|exact Hv]. destruct H as [Hs <-].
          late_one Hr; [unfold t_check_order in Hr; destruct nd; late_one Hr; late_one Hr|]. apply (cl_check_order src) in H. destruct H as [-> ->].
          late_one Hr; [unfold t_check_omit in Hr; destruct o; late_one Hr; late_one Hr|]. apply (cl_check_omit src) in H. destruct H as [-> ->].
          inversion Hom; subst. pose proof (item_empty _ _ _ _ _ _ Hlb E Hs E2) as Hit.
          destruct (IH _ _ _ Hr Hl3) as [K|K]; [left; exact (closable_item _ _ _ _ _ Hit K)|right; exact (misplaced_item _ _ _ _ (item_alone _ _ _ _ _ Hit) K)].
        * (* equal *)
          destruct nd; [right; eapply mi_property; eauto|]. destruct o as [o|]; [right; eapply mi_property; eauto; right; discriminate|].
          late_one Hr. cbn [tl] in *. late_one Hr; [destruct (late_check _ _ _ _ _ _ Hr)|]. apply (cl_check_property src) in H; [|exact Hv]. destruct H as [Hs <-].
          inversion Hom; subst. apply late_bind in Hr; [|mono_tac|mono_tac]. destruct Hr as [Hr|(vs & l5 & H & Hr)].
          { left. destruct (late_values _ _ _ Hr Hl3) as (ks & Hw & Hk). exists (ks ++ Semicolon :: closing).
            split; [apply Forall_app; split; [exact Hw|word_tac]|]. intros z Hz x. destruct (words_app _ _ _ Hz) as (z1 & z2 & -> & H1 & H2).
            destruct (words_cons _ _ _ H2) as (u & z3 & -> & Hu & H3). rewrite <- app_assoc. cbn [app].
            destruct (Hk _ H1 u (z3 ++ x) Hu) as [vs Hvs].
            eapply closes_item; [|exact (closing_words z3 x false H3)]. intros its l5 Hi. change 0%nat with (0 + 0)%nat.
            eapply gi_property; [exact (label_more _ _ _ _ Hlb)|exact E|exact Hs|exact E2|exact Hvs|constructor; exact Hu|exact Hi]. }
          apply (cl_values src incl) in H; [|exact Hl3]. destruct H as (ws & -> & Hvs & Ho4). cbn [app] in Hr.
          apply late_bind in Hr; [|mono_tac|mono_tac]. destruct Hr as [Hr|(e & l6 & H & Hr)]; [destruct (late_semicolon _ Hr)|].
          apply (cl_end src incl rl) in H; [|exact Ho4]. destruct H as [He Ho5].
          unfold t_check_omit, t_check_order in Hr. late_one Hr. late_one Hr. late_one Hr.
          pose proof (item_property _ _ _ _ _ _ _ _ _ _ Hlb E Hs E2 Hvs He) as Hit.
          destruct (IH _ _ _ Hr Ho5) as [K|K]; [left; exact (closable_item _ _ _ _ _ Hit K)|right; exact (misplaced_item _ _ _ _ (item_alone _ _ _ _ _ Hit) K)].
        * (* open brace *)
          late_one Hr; [destruct (late_check_node _ _ _ Hr)|]. apply (cl_check_node src incl) in H; [|apply nn_valid_of; exact Hv]. destruct H as [Hn <-].
          assert (Hnt : node_text s (node_name_of s)) by (apply node_text_iff; reflexivity).
          apply late_bind in Hr; [|mono_tac|mono_tac]. destruct Hr as [Hr|(b & l4 & Hb & Hr)]; [apply late_expect in Hr; discriminate Hr|].
          apply cl_expect in Hb. destruct Hb as [Eb Hb]. injection Eb as <- <-.
          apply late_bind in Hr; [|mono_tac|mono_tac]. destruct Hr as [Hr|(pl & l5 & H & Hr)].
          { destruct (IH _ _ _ Hr Hl3) as [(ks & Hw & Hk)|K]; [left|right; eapply mi_inside; eauto].
            exists (ks ++ closing). split; [apply Forall_app; split; [exact Hw|word_tac]|]. intros z Hz x.
            destruct (words_app _ _ _ Hz) as (z1 & z2 & -> & H1 & H2). rewrite <- app_assoc.
            destruct (Hk _ H1 (z2 ++ x)) as (its & m1 & o' & m2 & lb' & c & m3 & e & G1 & G2 & G3 & G4 & G5).
            eapply closes_item; [|exact (closing_words z2 x true H2)]. intros its' l5 Hi. change 0%nat with (0 + 0)%nat.
            eapply gi_node; [apply omit_more; exact Hom|exact (label_more _ _ _ _ Hlb)|exact E|exact Hnt|exact Hn|exact E2| |exact Hi].
            change 0%nat with (0 + 0)%nat. eapply gbo; eassumption. }
          apply (cl_payload src incl rl) in H; [|exact Hl3]. destruct H as (its & m1 & o' & m2 & lb' & c & m3 & e & -> & G1 & G2 & G3 & G4 & G5 & Ho4).
          assert (Hbd : g_body r (mkPayload ([] ++ its) (last_token e c)) l5 0) by (change 0%nat with (0 + 0)%nat; eapply gbo; eassumption).
          pose proof (item_node nd _ _ _ _ _ _ _ _ _ _ _ Hom Hlb E Hnt Hn E2 Hbd) as Hit.
          destruct (IH _ _ _ Hr Ho4) as [K|K]; [left; exact (closable_item _ _ _ _ _ Hit K)|right; exact (misplaced_item _ _ _ _ (item_alone _ _ _ _ _ Hit) K)].
  Qed.
  (** ** Elements of a file *)
  Definition completable (l : list token) : Prop :=
    exists ks, Forall word ks /\ forall z, words ks z -> exists p n, g_primary incl (l ++ z) p [] n /\ n = 0%nat.
  Lemma closes_body l r : closes false l r -> exists pl, g_body l pl r 0.
  Proof.
    intros (its & m1 & o & m2 & lb & c & m3 & e & G1 & G2 & G3 & G4 & G5). eexists. change 0%nat with (0 + 0)%nat. eapply gbo; eassumption.
  Qed.
  Lemma late_node_payload f l : late (t_node_payload src rl f) l -> ok l ->
    l = [] \/ exists b l1, l = b :: l1 /\ is OpenBrace b /\ (closable false l1 \/ misplaced false l1).
  Proof.
    unfold t_node_payload. intros H Ho. late_one H; [left; reflexivity|]. subst. inversion Ho; subst.
    right. exists a, l0. repeat split; auto. eapply late_payload; eassumption.
  Qed.
  Lemma late_parse_reference l : late (t_parse_reference src) l -> l = [].
  Proof.
    unfold t_parse_reference. intros H. late_one H; [reflexivity|]. exfalso. destruct (tk_kind a); late_one H. exact (late_reference _ _ _ H).
  Qed.
  Lemma late_memreserve l : late (t_memreserve_number src) l -> l = [].
  Proof.
    unfold t_memreserve_number. intros H. late_one H; [reflexivity|]. exfalso. destruct (tk_kind a); late_one H; try (late_one H; late_one H; fail).
    destruct (parse_number u64_lim s); late_one H.
  Qed.

  Lemma ref_legal : ref_text (TRefSimple (bs "a")) (RefLabel (bs "a")).
  Proof.
    constructor. split; [split; [discriminate|cbn; lia]|]. split; [constructor; [left; vm_compute; intuition discriminate|constructor]|].
    exists 97, []. split; [reflexivity|left; vm_compute; intuition discriminate].
  Qed.
  Lemma zero_legal : literal (bs "0") 0.
  Proof. constructor. Qed.

  Lemma late_primary f l : late (t_p_primary src incl rl f) l -> ok l -> l = [] \/ completable l \/ misplaced_file incl l.
  Proof.
    pose proof ref_legal as Hra. pose proof zero_legal as Hz0. assert (Hbig : 0 < 2 ^ 64) by lia.
    unfold t_p_primary. intros H Ho. late_one H; [left; reflexivity|]. right. inversion Ho as [|? ? Ht Hl0]; subst.
    assert (Hend : forall u, is Semicolon u -> g_end [u] (Some u) [] 0) by (intros u Hu; constructor; exact Hu).
    destruct (tk_kind a) eqn:E; try (late_one H; fail).
    - (* root *)
      apply late_bind in H; [|mono_tac|mono_tac]. destruct H as [H|(pl & l1 & _ & H)]; [|late_one H].
      destruct (late_node_payload _ _ H Hl0) as [->|(b & l1 & -> & Hb & [(ks & Hw & Hk)|Hm])].
      + left. exists (OpenBrace :: closing). split; [word_tac|]. intros z Hz. destruct (words_cons _ _ _ Hz) as (b & z' & -> & Hb & Hz').
        destruct (closes_body (z' ++ []) []) as [pl Hpl]; [apply closing_words; exact Hz'|]. rewrite app_nil_r in Hpl.
        eexists _, 0%nat. split; [apply gp_root; [exact E|exact Hb|exact Hpl]|reflexivity].
      + left. exists ks. split; [exact Hw|]. intros z Hz. destruct (closes_body _ _ (Hk z Hz [])) as [pl Hpl]. rewrite app_nil_r in Hpl.
        eexists _, 0%nat. split; [apply gp_root; [exact E|exact Hb|exact Hpl]|reflexivity].
      + right. apply mf_root; assumption.
    - (* C include *)
      destruct (str_eqb s (bs "#include")) eqn:Es; [|late_one H]. apply str_eqb_spec in Es. subst s.
      late_one H; [|destruct (tk_kind a0); late_one H].
      left. exists [w_string]. split; [word_tac|]. intros z Hz. destruct (words_one _ _ Hz) as (u & -> & Hu).
      eexists _, 0%nat. split; [eapply gp_c_include; [exact E|exact Hu]|reflexivity].
    - destruct d; try (late_one H; fail).
      + apply late_bind in H; [|mono_tac|mono_tac]. destruct H as [H|(e & l1 & _ & H)]; [destruct (late_semicolon _ H)|late_one H].
      + (* memreserve *)
        left. apply late_bind in H; [|mono_tac|mono_tac]. destruct H as [H|(x & l1 & H0 & H)].
        * apply late_memreserve in H. subst l0. exists [w_number; w_number; Semicolon]. split; [word_tac|]. intros z Hz.
          destruct (words_cons _ _ _ Hz) as (b & z' & -> & Hb & Hz'). destruct (words_cons _ _ _ Hz') as (c & z'' & -> & Hc & Hz'').
          destruct (words_one _ _ Hz'') as (u & -> & Hu).
          eexists _, 0%nat. split; [eapply gp_memreserve; [exact E|exact Hb|exact Hz0|exact Hbig|exact Hc|exact Hz0|exact Hbig|exact (Hend u Hu)]|reflexivity].
        * apply (cl_memreserve src incl) in H0; [|exact Hl0]. destruct H0 as (ta & sa & na & -> & -> & H1 & H2 & H3 & Ho1).
          apply late_bind in H; [|mono_tac|mono_tac]. destruct H as [H|(y & l2 & H0 & H)].
          -- apply late_memreserve in H. subst l1. exists [w_number; Semicolon]. split; [word_tac|]. intros z Hz.
             destruct (words_cons _ _ _ Hz) as (c & z' & -> & Hc & Hz'). destruct (words_one _ _ Hz') as (u & -> & Hu).
             eexists _, 0%nat. split; [eapply gp_memreserve; [exact E|exact H1|exact H2|exact H3|exact Hc|exact Hz0|exact Hbig|exact (Hend u Hu)]|reflexivity].
          -- apply late_bind in H; [|mono_tac|mono_tac]. destruct H as [H|(e & l3 & _ & H)]; [destruct (late_semicolon _ H)|late_one H].
      + (* delete node *)
        left. apply late_bind in H; [|mono_tac|mono_tac]. destruct H as [H|(x & l1 & H0 & H)].
        * apply late_parse_reference in H. subst l0. exists [w_ref; Semicolon]. split; [word_tac|]. intros z Hz.
          destruct (words_cons _ _ _ Hz) as (b & z' & -> & Hb & Hz'). destruct (words_one _ _ Hz') as (u & -> & Hu).
          eexists _, 0%nat. split; [eapply gp_delete_node; [exact E|exact Hb|exact Hra|exact (Hend u Hu)]|reflexivity].
        * apply late_bind in H; [|mono_tac|mono_tac]. destruct H as [H|(e & l3 & _ & H)]; [destruct (late_semicolon _ H)|late_one H].
      + apply late_bind in H; [|mono_tac|mono_tac]. destruct H as [H|(e & l1 & _ & H)]; [destruct (late_semicolon _ H)|late_one H].
      + (* omit *)
        left. apply late_bind in H; [|mono_tac|mono_tac]. destruct H as [H|(x & l1 & H0 & H)].
        * apply late_parse_reference in H. subst l0. exists [w_ref; Semicolon]. split; [word_tac|]. intros z Hz.
          destruct (words_cons _ _ _ Hz) as (b & z' & -> & Hb & Hz'). destruct (words_one _ _ Hz') as (u & -> & Hu).
          eexists _, 0%nat. split; [eapply gp_omit; [exact E|exact Hb|exact Hra|exact (Hend u Hu)]|reflexivity].
        * apply late_bind in H; [|mono_tac|mono_tac]. destruct H as [H|(e & l3 & _ & H)]; [destruct (late_semicolon _ H)|late_one H].
      + (* include *)
        left. late_one H.
        * exists [w_string]. split; [word_tac|]. intros z Hz. destruct (words_one _ _ Hz) as (u & -> & Hu).
          eexists _, 0%nat. split; [eapply gp_include; [exact E|exact Hu|]|reflexivity]. intros x r K. discriminate K.
        * exfalso. destruct (tk_kind a0); try (late_one H; fail). apply late_bind in H; [|mono_tac|mono_tac]. destruct H as [H|(t2 & l2 & H0 & H)]; [late_one H|].
          apply cl_peek in H0. destruct H0 as [-> ->].
          apply late_bind in H; [|mono_tac|mono_tac]. destruct H as [H|(u0 & l3 & H1 & H)].
          -- destruct l2 as [|u l2]; cbn [hd_error] in H; [late_one H|]. destruct (kind_eqb (tk_kind u) Semicolon); [|late_one H].
             late_one H. late_one H.
          -- late_one H. late_one H.
    - (* reference *)
      apply late_bind in H; [|mono_tac|mono_tac]. destruct H as [H|(w & l1 & H0 & H)]; [destruct (late_reference _ _ _ H)|].
      unfold tok_ok in Ht. rewrite E in Ht. apply (cl_reference src incl) in H0; [|exact Ht]. destruct H0 as (-> & x & -> & Hx).
      apply late_bind in H; [|mono_tac|mono_tac]. destruct H as [H|(pl & l2 & _ & H)]; [|late_one H].
      destruct (late_node_payload _ _ H Hl0) as [->|(b & l2 & -> & Hb & [(ks & Hw & Hk)|Hm])].
      + left. exists (OpenBrace :: closing). split; [word_tac|]. intros z Hz. destruct (words_cons _ _ _ Hz) as (b & z' & -> & Hb & Hz').
        destruct (closes_body (z' ++ []) []) as [pl Hpl]; [apply closing_words; exact Hz'|]. rewrite app_nil_r in Hpl.
        eexists _, 0%nat. split; [eapply gp_ref_node; [exact E|exact Hx|exact Hb|exact Hpl]|reflexivity].
      + left. exists ks. split; [exact Hw|]. intros z Hz. destruct (closes_body _ _ (Hk z Hz [])) as [pl Hpl]. rewrite app_nil_r in Hpl.
        eexists _, 0%nat. split; [eapply gp_ref_node; [exact E|exact Hx|exact Hb|exact Hpl]|reflexivity].
      + right. eapply mf_ref; eassumption.
  Qed.

  Lemma primary_more_in l p l' n z : g_primary incl l p l' n -> n = 0%nat -> l' <> [] -> g_primary incl (l ++ z) p (l' ++ z) 0.
  Proof.
    intros H E Hl. destruct H; subst; cbn [app]; try (econstructor; eauto using end_more; fail).
    - constructor; [assumption|assumption|]. intros u r Eu. destruct l as [|v l]; [contradiction|].
      injection Eu as <- _. match goal with K : forall u r, _ -> ~ is Semicolon u |- _ => exact (K v l eq_refl) end.
    - apply gp_root; [assumption|assumption|]. eapply (proj1 (body_items_more z)); [eassumption|reflexivity].
    - eapply gp_ref_node; [eassumption|eassumption|eassumption|]. eapply (proj1 (body_items_more z)); [eassumption|reflexivity].
  Qed.
  Lemma late_file_loop f : forall acc l, late (t_file_loop src incl rl f acc) l -> ok l ->
    (exists ks, Forall word ks /\ forall z, words ks z -> exists ps, derives incl (l ++ z) ps) \/ misplaced_file incl l.
  Proof.
    induction f as [|f IH]; intros acc l H Ho; cbn [t_file_loop] in H; [late_one H|].
    apply late_bind in H; [|mono_tac|mono_tac]. destruct H as [H|(t & l1 & H0 & H)]; [late_one H|].
    apply cl_peek in H0. destruct H0 as [-> <-]. destruct l as [|t l]; cbn [hd_error] in H; [late_one H|].
    apply late_bind in H; [|mono_tac|mono_tac]. destruct H as [H|(p & l1 & H0 & H)].
    - destruct (late_primary _ _ H Ho) as [K|[(ks & Hw & Hk)|K]]; [discriminate K| |right; exact K].
      left. exists ks. split; [exact Hw|]. intros z Hz. destruct (Hk z Hz) as (p & n & Hp & ->).
      exists [p]. change (derives incl ((t :: l) ++ z) [p]) with (g_file incl ((t :: l) ++ z) [p] (0 + 0)). eapply gf_cons; [exact Hp|constructor].
    - apply (cl_primary src incl rl) in H0; [|exact Ho]. destruct H0 as [Hp Ho1].
      assert (Hne : l1 <> []).
      { intros ->. destruct f; cbn [t_file_loop] in H; late_one H. subst. cbn [hd_error] in H. late_one H. }
      destruct (IH _ _ H Ho1) as [(ks & Hw & Hk)|K]; [left|right; eapply mf_after; eassumption].
      exists ks. split; [exact Hw|]. intros z Hz. destruct (Hk z Hz) as [ps Hps]. exists (p :: ps).
      change (derives incl ((t :: l) ++ z) (p :: ps)) with (g_file incl ((t :: l) ++ z) (p :: ps) (0 + 0)).
      eapply gf_cons; [|exact Hps]. eapply primary_more_in; [exact Hp|reflexivity|exact Hne].
  Qed.
  Lemma late_file f l : late (t_p_file src incl rl f) l -> ok l ->
    (exists ks, Forall word ks /\ forall z, words ks z -> exists ps, derives incl (l ++ z) ps) \/ misplaced_file incl l.
  Proof.
    unfold t_p_file. intros H Ho. apply late_bind in H; [|mono_tac|mono_tac]. destruct H as [H|(x & l1 & _ & H)].
    - eapply late_file_loop; eassumption.
    - late_one H. late_one H.
  Qed.

End Late.

(** ** What is misplaced cannot be mended *)
Lemma misplaced_stays seen l : misplaced seen l -> forall z r, ~ closes seen (l ++ z) r.
Proof.
  induction 1 as [seen l o l1 lb t s Ho Hl Ht Hn Hp|seen l o l1 lb t s q l2 Ho Hl Ht Hq Hp|seen l it its l1 Hi _ IH
    |seen l o l1 lb t s nm b l2 Ho Hl Ht Hn Hln Hb _ IH]; intros z r H.
  - assert (Hs : strip (l ++ z) = (match o with Some _ => true | None => false end, t :: z)).
    { eapply strip_prefix; [apply omit_more; exact Ho|exact (label_more z _ _ _ Hl)|thing_tac]. }
    assert (Hps : forall x, is (Ident x) t -> legal_property_name x -> seen = false -> match o with Some _ => true | None => false end = false -> False).
    { intros x Hx Hlp E1 E2. replace x with s in Hlp by clash. destruct (Hp Hlp) as [E|E]; [congruence|]. destruct o; [discriminate|contradiction]. }
    apply closes_first in H. destruct H; try (same_strip; fail).
    + rewrite Hs in H. injection H as E1 -> _. exact (Hps _ H0 H1 H5 E1).
    + rewrite Hs in H. injection H as E1 -> _. exact (Hps _ H0 H1 H3 E1).
    + rewrite Hs in H. injection H as E1 -> _. apply Hn. exists nm. replace s with s0 by clash. auto.
  - assert (Hs : strip (l ++ z) = (match o with Some _ => true | None => false end, t :: q :: l2 ++ z)).
    { eapply strip_prefix; [apply omit_more; exact Ho|exact (label_more z _ _ _ Hl)|thing_tac]. }
    apply closes_first in H. destruct H; try (same_strip; fail).
    rewrite Hs in H. injection H as E1 _ _ _. destruct Hp as [E|E]; [congruence|]. destruct o; [discriminate|contradiction].
  - apply (IH z r). exact (proj2 body_items_det _ _ _ _ _ (proj2 (body_items_more z) _ _ _ _ _ Hi eq_refl) eq_refl _ H).
  - assert (Hs : strip (l ++ z) = (match o with Some _ => true | None => false end, t :: b :: l2 ++ z)).
    { eapply strip_prefix; [apply omit_more; exact Ho|exact (label_more z _ _ _ Hl)|thing_tac]. }
    apply closes_first in H. destruct H; try (same_strip; fail).
    rewrite Hs in H. injection H as _ _ _ E. rewrite <- E in H4. apply (IH z l3). eapply body_closes. exact H4.
Qed.
Lemma misplaced_file_stays incl l : misplaced_file incl l -> forall z ps n, g_file incl (l ++ z) ps n -> n = 0%nat -> False.
Proof.
  assert (E : forall incl l, misplaced_file incl l -> l <> []).
  { intros incl0 l0 H. induction H as [| |x p y Hp _ _]; try discriminate. destruct Hp; discriminate. }
  induction 1 as [t b l Ht Hb Hm|t r x b l Ht Hr Hb Hm|l p l1 Hp Hm IH]; intros z ps n H En;
    inversion H as [EE|? p' l' m ps' n' Hp' Hf EE]; subst.
  - match goal with K : (_ + _)%nat = 0%nat |- _ => apply zero_sum in K; destruct K as [-> ->] end. inversion Hp'; subst; try clash. eapply misplaced_stays; [exact Hm|]. eapply body_closes. eassumption.
  - match goal with K : (_ + _)%nat = 0%nat |- _ => apply zero_sum in K; destruct K as [-> ->] end. inversion Hp'; subst; try clash. eapply misplaced_stays; [exact Hm|]. eapply body_closes. eassumption.
  - destruct l; [inversion Hp|discriminate].
  - match goal with K : (_ + _)%nat = 0%nat |- _ => apply zero_sum in K; destruct K as [-> ->] end.
    pose proof (primary_more_in incl _ _ _ _ z Hp eq_refl (E _ _ Hm)) as Hp2. pose proof (primary_det _ _ _ _ _ _ Hp2 Hp') as K. rewrite <- K in Hf.
    exact (IH z _ _ Hf eq_refl).
Qed.
