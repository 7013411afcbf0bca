(** The texts that the tool refuses: a grammar of what stops it, and where *)
From Verif Require Import Parser LexSpec Utf8 LexerProofs Grammar NameProofs NumProofs ParserSafe TokParser ParserSim GrammarComplete GrammarSound
  Utf8Adequacy NameReport NumReport Forgiving.

(** ** Specification *)
(** why it stops: the text ends, or a token is not one of those that can stand there *)
Inductive stop := AtEnd | AtToken (t : token) (what : str).

(** one token is needed *)
Inductive x_one (fit : token -> Prop) (what : token -> str) : list token -> stop -> Prop :=
| xo_end : x_one fit what [] AtEnd
| xo_other t l : ~ fit t -> x_one fit what (t :: l) (AtToken t (what t)).

Section Refusals.
  Context (src : fpath) (incl : list fpath) (resumes : token -> list token -> Prop).
  (** a parenthesis that is closed by no token but the last *)
  Definition unclosed (l : list token) : Prop := forall u r, is CloseParen u -> parens l (u :: r) -> r = [].

  (** between chevrons only the end of the text stops it *)
  Inductive x_cells : list token -> Prop :=
  | xc_end l : k_skip l [] -> x_cells l
  | xc_cons l l1 c l2 r : k_skip l l1 -> k_cell src l1 c l2 r -> x_cells l2 -> x_cells l
  | xc_other l b l2 : k_skip l (b :: l2) -> no_cell b -> x_cells l2 -> x_cells l
  | xc_open l t l1 : k_skip l (t :: l1) -> is OpenParen t -> unclosed l1 -> x_cells l.
  (** and also between brackets *)
  Inductive x_bytes : list token -> Prop :=
  | xy_end l : k_skip l [] -> x_bytes l
  | xy_cons l e b l2 r : k_skip l (e :: l2) -> k_element e b r -> x_bytes l2 -> x_bytes l.

  Definition no_value (t : token) : Prop :=
    (forall s, ~ is (TString s) t) /\ (forall r, ~ is (Ref r) t) /\ ~ is ChevronLeft t /\ ~ is OpenBracket t.
  Inductive x_value : list token -> stop -> Prop :=
  | xv_bits d : is (Directive Bits) d -> x_value [d] AtEnd
  | xv_end l r : k_bits l [] r -> x_value l AtEnd
  | xv_cells l t l1 r : k_bits l (t :: l1) r -> is ChevronLeft t -> x_cells l1 -> x_value l AtEnd
  | xv_bytes l t l1 r : k_bits l (t :: l1) r -> is OpenBracket t -> x_bytes l1 -> x_value l AtEnd
  | xv_other l t l1 r : k_bits l (t :: l1) r -> no_value t ->
      x_value l (AtToken t (bs "Expected one of string, '<', reference, '['")).
  Inductive x_values : list token -> stop -> Prop :=
  | xvs_value l l1 st : k_skip l l1 -> x_value l1 st -> x_values l st
  | xvs_end l l1 v l2 r : k_skip l l1 -> k_value src l1 v l2 r -> k_skip l2 [] -> x_values l AtEnd
  | xvs_more l l1 v l2 c l3 r st : k_skip l l1 -> k_value src l1 v l2 r -> k_skip l2 (c :: l3) -> is Comma c -> x_values l3 st -> x_values l st.

  Definition x_name : list token -> stop -> Prop := x_one (fun t => exists s, is (Ident s) t) (fun _ => bs "Expected identifier").
  (** after the optional directive [o] and label [lb] *)
  Definition no_item (o : option token) (lb : option (wtok str)) (t : token) : Prop :=
    (forall s, ~ is (Ident s) t) /\ ~ is CloseBrace t
    /\ (lb = None -> forall s, ~ is (Label s) t)
    /\ (lb = None -> o = None -> ~ is (Directive OmitIfNoRef) t /\ ~ is (Directive DeleteNode) t /\ ~ is (Directive DeleteProperty) t).
  Inductive x_body : list token -> stop -> Prop :=
  | xb l its l1 r st : k_items src resumes false l its l1 r -> x_item l1 st -> x_body l st
  with x_item : list token -> stop -> Prop :=
  | xi_end : x_item [] AtEnd
  | xi_delete_node d l st : is (Directive DeleteNode) d -> x_name l st -> x_item (d :: l) st
  | xi_delete_property d l st : is (Directive DeleteProperty) d -> x_name l st -> x_item (d :: l) st
  | xi_omit d : is (Directive OmitIfNoRef) d -> x_item [d] AtEnd
  | xi_label l o t s : g_omit l o [t] -> is (Label s) t -> x_item l AtEnd
  | xi_other l o l1 lb r t l2 : g_omit l o l1 -> k_label src l1 lb (t :: l2) r -> no_item o lb t ->
      x_item l (AtToken t (bs "Expected one of identifier, '}'"))
  | xi_name l o l1 lb r t s l2 st : g_omit l o l1 -> k_label src l1 lb (t :: l2) r -> is (Ident s) t ->
      x_one (fun u => is Semicolon u \/ is Equal u \/ is OpenBrace u) (fun _ => bs "Expected one of ';', '=', '{', /omit-if-no-ref/") l2 st -> x_item l st
  | xi_values l o l1 lb r t s q l2 st : g_omit l o l1 -> k_label src l1 lb (t :: q :: l2) r -> is (Ident s) t -> is Equal q ->
      x_values l2 st -> x_item l st
  | xi_node l o l1 lb r t s b l2 st : g_omit l o l1 -> k_label src l1 lb (t :: b :: l2) r -> is (Ident s) t -> is OpenBrace b ->
      x_body l2 st -> x_item l st.

  (** a block in braces; the message about a missing brace names the token that is there *)
  Inductive x_block : list token -> stop -> Prop :=
  | xk_brace l st : x_one (is OpenBrace) (fun t => bs "Expected " ++ show_kind (tk_kind t)) l st -> x_block l st
  | xk_body b l st : is OpenBrace b -> x_body l st -> x_block (b :: l) st.
  Definition x_number : list token -> stop -> Prop := x_one (fun t => exists s, is (UnparsedNumber s) t) (fun _ => bs "Expected number").
  Definition x_string : list token -> stop -> Prop := x_one (fun t => exists s, is (TString s) t) (fun _ => bs "Expected string").
  Definition x_reference : list token -> stop -> Prop := x_one (fun t => exists r, is (Ref r) t) (fun _ => bs "Expected reference").
  Definition starts_primary (t : token) : Prop :=
    is (Directive DTSVersionHeader) t \/ is (Directive Plugin) t \/ is (Directive MemReserve) t \/ is (Directive Include) t
    \/ is (Directive DeleteNode) t \/ is (Directive OmitIfNoRef) t \/ is Slash t \/ (exists r, is (Ref r) t) \/ is (Ident (bs "#include")) t.
  Inductive x_primary : list token -> stop -> Prop :=
  | xp_other t l : ~ starts_primary t ->
      x_primary (t :: l) (AtToken t (bs "Expected one of /dts-v1/, /memreserve/, /include/, /delete-node/, /omit-if-no-ref/, '/', reference"))
  | xp_address t l st : is (Directive MemReserve) t -> x_number l st -> x_primary (t :: l) st
  | xp_length t a n r l st : is (Directive MemReserve) t -> k_number (2 ^ 64) a n r -> x_number l st -> x_primary (t :: a :: l) st
  | xp_include t l st : is (Directive Include) t \/ is (Ident (bs "#include")) t -> x_string l st -> x_primary (t :: l) st
  | xp_root t l st : is Slash t -> x_block l st -> x_primary (t :: l) st
  | xp_ref_node t x ds l st : k_reference src t x ds -> x_block l st -> x_primary (t :: l) st
  | xp_reference d l st : is (Directive DeleteNode) d \/ is (Directive OmitIfNoRef) d -> x_reference l st -> x_primary (d :: l) st.
  Inductive x_file : list token -> stop -> Prop :=
  | xf_here l st : x_primary l st -> x_file l st
  | xf_later l p l' r st : k_primary src incl resumes l p l' r -> x_file l' st -> x_file l st.
End Refusals.
Scheme x_body_mut := Induction for x_body Sort Prop
with x_item_mut := Induction for x_item Sort Prop.
Combined Scheme x_body_item_ind from x_body_mut, x_item_mut.

Section Refuse.
  Context (src : fpath) (incl : list fpath) (resumes : token -> list token -> Prop) (rl : position -> list token) (X : token -> Prop).
  Notation good := (fun t => tok_ok t /\ X t).
  Notation ok := (Forall good).
  Hypothesis rl_ok : forall p, ok (rl p).
  Hypothesis resumes_iff : forall u l, X u -> (resumes u l <-> l = rl (tk_end u)).

  Definition halts (st : stop) (d : diag) : Prop := match st with
    | AtEnd => dg_kind d = UnexpectedEOF /\ dg_source d = src /\ dg_msg d = bs "Unexpected End of File"
    | AtToken t what => dg_kind d = Expected /\ dg_span d = tk_span t /\ (dg_source d = tk_source t \/ dg_source d = src) /\ dg_msg d = what
    end.

  (** *** Whatever stops it is derived *)
  Definition fails {A} (m : TM A) (Q : stop -> Prop) (l : list token) : Prop :=
    forall ds, match m (mkTS l ds) with TErr d _ => exists st, halts st d /\ Q st | _ => True end.
  Lemma f_bind {A B} (m : TM A) (k : A -> TM B) (R : A -> list token -> list remark -> Prop) Q l :
    fails m Q l -> gives src m R l -> (forall a l' r, R a l' r -> fails (k a) Q l') -> fails (t_bind m k) Q l.
  Proof.
    intros Hm Hg Hk ds. specialize (Hm ds). specialize (Hg ds). unfold t_bind. destruct (m (mkTS l ds)) as [a [l' ds']|d s|]; auto.
    destruct Hg as (new & rs & _ & _ & HR). exact (Hk _ _ _ HR ds').
  Qed.
  Lemma f_conseq {A} (m : TM A) (Q Q' : stop -> Prop) l : fails m Q l -> (forall st, Q st -> Q' st) -> fails m Q' l.
  Proof. intros H HQ ds. specialize (H ds). destruct (m (mkTS l ds)); auto. destruct H as (st & H1 & H2). eauto. Qed.
  Lemma f_sure {A} (m : TM A) Q l : sure m -> fails m Q l.
  Proof. intros H ds. destruct (m (mkTS l ds)) eqn:E; auto. exfalso. exact (H _ _ _ E). Qed.
  Lemma f_ret {A} (a : A) Q l : fails (t_ret a) Q l.
  Proof. intros ds. exact I. Qed.
  Lemma f_bad {A} Q l : fails (@t_no_fuel A) Q l.
  Proof. intros ds. exact I. Qed.
  Lemma f_push d Q l : fails (t_push d) Q l.
  Proof. intros ds. exact I. Qed.
  Lemma f_throw {A} d st (Q : stop -> Prop) l : halts st d -> Q st -> fails (@t_throw A d) Q l.
  Proof. intros H HQ ds. exists st. auto. Qed.
  Lemma f_checks {A} (m : TM unit) (k : TM A) R Q l : checks m R -> (forall new, R new -> fails k Q l) -> fails (m ;^ k) Q l.
  Proof. intros Hm Hk ds. destruct (Hm (mkTS l ds)) as (a & Ea & Ha & _). unfold t_bind. rewrite Ea. exact (Hk _ Ha _). Qed.
  Lemma f_quiet {A B} (m : TM A) (k : A -> TM B) Q l a l' : (forall ds, m (mkTS l ds) = TOk a (mkTS l' ds)) ->
    fails (k a) Q l' -> fails (t_bind m k) Q l.
  Proof. intros Hm Hk ds. unfold t_bind. rewrite Hm. apply Hk. Qed.
  Ltac silent := eapply f_quiet;
    [intros ?ds; lazy beta iota zeta delta [t_peek t_next t_skip_tok t_expect_next t_peek_expect t_bind t_cur_pos t_last_pos t_source t_ret t_here
       t_relex t_throw t_include_paths hd_error tl t_toks t_diags semicolon_skips]; reflexivity|].
  Lemma eof_halts p : halts AtEnd (eof_diag p src).
  Proof. split; [reflexivity|split; reflexivity]. Qed.
  Lemma f_next {A} (k : token -> TM A) (Q : stop -> Prop) l : ok l -> (l = [] -> Q AtEnd) ->
    (forall t l', l = t :: l' -> good t -> ok l' -> fails (k t) Q l') -> fails (let^ t := t_expect_next src in k t) Q l.
  Proof.
    intros Hl He Hk. destruct l as [|t l]; [intros ds; exists AtEnd; split; [apply eof_halts|auto]|]. inversion Hl as [|? ? Ht Hl']; subst.
    silent. apply Hk; auto.
  Qed.
  Lemma f_peek_expect {A} (k : token -> TM A) (Q : stop -> Prop) l : (l = [] -> Q AtEnd) ->
    (forall t l', l = t :: l' -> fails (k t) Q l) -> fails (let^ t := t_peek_expect src in k t) Q l.
  Proof.
    intros He Hk. destruct l as [|t l]; [intros ds; exists AtEnd; split; [apply eof_halts|auto]|]. silent. eapply Hk. reflexivity.
  Qed.
  Lemma f_skip_tok {A} (k : TM A) Q t l : fails k Q l -> fails (t_skip_tok ;^ k) Q (t :: l).
  Proof. intros Hk. silent; exact Hk. Qed.
  Lemma f_skip_label l Q : fails t_skip_optional_label Q l.
  Proof.
    apply f_sure. intros st d st' E. unfold t_skip_optional_label, t_bind, t_peek in E. destruct (hd_error (t_toks st)) as [u|]; [|discriminate].
    destruct (tk_kind u); discriminate.
  Qed.
  Lemma f_end Q l : fails (t_expect_semicolon src rl) Q l.
  Proof.
    apply f_sure. intros [l0 ds] d st' E. unfold t_expect_semicolon, t_bind, t_peek in E. cbn [t_toks] in E.
    destruct l0 as [|u l0]; cbn [hd_error] in E; [discriminate|].
    destruct (tk_kind u); cbn [semicolon_skips] in E; try discriminate E;
      lazy beta iota zeta delta [t_expect_next t_bind t_cur_pos t_next t_source t_ret t_relex t_push hd_error tl t_toks t_diags] in E; discriminate E.
  Qed.
  Lemma f_check_omit o Q l : fails (t_check_omit src o) Q l.
  Proof. destruct o; [intros ds; exact I|apply f_ret]. Qed.
  Lemma f_check_order nd p Q l : fails (t_check_order src nd p) Q l.
  Proof. destruct nd; [intros ds; exact I|apply f_ret]. Qed.

  Lemma cell_given f l : ok l -> gives src (t_number_u32 src f) (fun c l' _ => ok l' /\ ((exists r, k_cell src l c l' r)
    \/ l' = [] /\ exists t l1, l = t :: l1 /\ is OpenParen t /\ unclosed l1)) l.
  Proof.
    intros Ho. unfold t_number_u32. apply (gives_next src X); [exact Ho|]. intros t l' -> [Ht Hx] Hl.
    destruct (tk_kind t) eqn:E; try (apply gives_throw).
    - intros ds. unfold t_bind. destruct (t_skip_expression f 1 (mkTS l' ds)) as [u [l1 ds1]|d s1|] eqn:Es; [|exact I|exact I].
      pose proof (skip_quiet _ _ _ _ _ _ Es) as E1. cbn [t_diags] in E1. subst ds1. unfold t_peek. cbn [t_toks].
      destruct l1 as [|x l1]; cbn [hd_error].
      + unfold t_push, t_ret. cbn [t_toks t_diags]. eexists [_], [Exactly _]. split; [reflexivity|]. split; [|split; [constructor|]; right; split; [reflexivity|]].
        * constructor; [|constructor]. split; [reflexivity|]; split; [intros [K _]; discriminate K|discriminate].
        * exists t, l'. split; [reflexivity|]. split; [exact E|]. intros v r Hv Hp.
          destruct (runs_expression f l' v r Hp Hv ds) as [K|K]; rewrite Es in K; [discriminate K|injection K as _ K]. congruence.
      + unfold t_ret. exists [], []. rewrite app_nil_r. cbn [t_diags t_toks]. split; [reflexivity|]. split; [constructor|].
        assert (Hc : cl (t_skip_expression f 1) l' u (x :: l1)) by (exists ds; exact Es).
        apply cl_skip_expression in Hc; [|exact incl|lia|discriminate]. change (N.to_nat 1) with 1%nat in Hc.
        inversion Hc as [|n l2 v l3 l4 Hp Hu Hz]; subst. inversion Hz; subst.
        split; [apply (parens_good X) in Hp; [|exact Hl]; inversion Hp; assumption|]. left. exists []. eapply kc_expression; eassumption.
    - eapply (gives_int src u32_lim t s l' (fun w r => k_cell src (t :: l') (CNumber w) l' r)); [reflexivity|exact Ht|exact E|intros; constructor; assumption|].
      intros w r H. split; [exact Hl|]. left. exists r. exact H.
    - eapply gives_then; [apply gives_reference; [exact Ht|exact E]|]. intros w l1 rs (-> & x & ds & -> & Hr & ->). apply gives_ret.
      split; [exact Hl|]. left. eexists. constructor; exact Hr.
  Qed.
  Lemma f_cells f : forall acc l, ok l -> fails (t_cells_loop src f acc) (fun st => st = AtEnd /\ x_cells src l) l.
  Proof.
    induction f as [|f IH]; intros acc l Ho; cbn [t_cells_loop]; [apply f_bad|].
    eapply f_bind; [apply f_skip_label|apply (gives_skip_label src X); exact Ho|]. intros _ l1 r (-> & Hk & Ho1).
    apply f_peek_expect; [intros ->; split; [reflexivity|apply xc_end; exact Hk]|]. intros t l2 ->.
    destruct (kind_eqb_spec (tk_kind t) ChevronRight) as [E|E].
    - apply f_next; [exact Ho1|discriminate|]. intros. apply f_ret.
    - intros ds. unfold t_catch. pose proof (cell_given f (t :: l2) Ho1 ds) as G.
      destruct (t_number_u32 src f (mkTS (t :: l2) ds)) as [c [l3 ds3]|d s3|] eqn:En; [| |exact I].
      + destruct G as (new & rs & _ & _ & Ho3 & G). cbn [t_toks] in *. pose proof (IH (acc ++ [c]) l3 Ho3 ds3) as G1.
        destruct (t_cells_loop src f (acc ++ [c]) (mkTS l3 ds3)) as [p s4|d s4|]; auto.
        destruct G1 as (st & H1 & -> & H2). exists AtEnd. split; [exact H1|]. split; [reflexivity|].
        destruct G as [[r G]|(_ & t' & l4 & K & Ht' & Hu)]; [eapply xc_cons; eassumption|]. injection K as <- <-. eapply xc_open; eassumption.
      + apply number_err in En. destruct En as (-> & -> & N1 & N2 & N3). unfold t_bind, t_push. cbn [t_toks t_diags].
        inversion Ho1 as [|? ? _ Ho2]; subst.
        match goal with |- context [t_cells_loop src f acc (mkTS l2 ?x)] => pose proof (IH acc l2 Ho2 x) as G1; destruct (t_cells_loop src f acc (mkTS l2 x)) as [p s4|d s4|]; auto end.
        destruct G1 as (st & H1 & -> & H2). exists AtEnd. split; [exact H1|]. split; [reflexivity|]. eapply xc_other; [exact Hk| |exact H2].
        split; [exact N1|]. split; [exact N2|]. split; [exact N3|exact E].
  Qed.
  Lemma f_element Q t l : ok (t :: l) -> fails (t_byte_string src) Q (t :: l).
  Proof.
    intros Ho. unfold t_byte_string. apply f_next; [exact Ho|discriminate|]. intros t' l' K _ _. injection K as <- <-.
    assert (G : forall s, fails (if negb (Nat.even (length s)) then
               t_push (diag_from_token t OddNumberOfBytestringElements (bs "Number of elements in byte string must be even")) ;^
               t_ret (mkWT [] t)
             else match decode_pairs s with
                  | Done (inl b) => t_ret (mkWT b t)
                  | Done (inr e) => t_push (diag_int_error (tk_span t) (tk_source t) e) ;^ t_ret (mkWT [] t)
                  | Panic => t_panic
                  | NoFuel => t_no_fuel
                  end) Q l).
    { intros s. destruct (negb (Nat.even (length s))); [intros ds; exact I|]. destruct (decode_pairs s) as [[b|e]| |]; intros ds; exact I. }
    destruct (tk_kind t); try (intros ds; exact I); apply G.
  Qed.
  Lemma f_bytes f : forall acc l, ok l -> fails (t_bytes_loop src f acc) (fun st => st = AtEnd /\ x_bytes l) l.
  Proof.
    induction f as [|f IH]; intros acc l Ho; cbn [t_bytes_loop]; [apply f_bad|].
    eapply f_bind; [apply f_skip_label|apply (gives_skip_label src X); exact Ho|]. intros _ l1 r (-> & Hk & Ho1).
    apply f_peek_expect; [intros ->; split; [reflexivity|apply xy_end; exact Hk]|]. intros t l2 ->. inversion Ho1 as [|? ? _ Ho2]; subst.
    destruct (kind_eqb_spec (tk_kind t) CloseBracket) as [E|E].
    - apply f_skip_tok. apply f_ret.
    - eapply f_bind; [apply f_element; exact Ho1|eapply (gives_element src X); [reflexivity|exact Ho1|exact E]|]. intros w l3 r (-> & b & -> & He).
      eapply f_conseq; [apply IH; exact Ho2|]. intros st (-> & H). split; [reflexivity|]. eapply xy_cons; eassumption.
  Qed.
  Lemma f_value f l : ok l -> fails (t_property_value src f) (x_value src l) l.
  Proof.
    intros Ho. unfold t_property_value. eapply f_bind; [|apply (gives_bits src X); exact Ho|].
    { unfold t_bits_prefix. destruct l as [|d l]; [silent; apply f_ret|]. silent. cbn [hd_error]. inversion Ho as [|? ? _ Ho1]; subst.
      destruct (kind_eqb_spec (tk_kind d) (Directive Bits)) as [E|E]; [|apply f_ret]. apply f_skip_tok.
      apply f_next; [exact Ho1|intros ->; apply xv_bits; exact E|]. intros t l1 -> _ _. destruct (tk_kind t); intros ds; exact I. }
    intros _ l1 r (Hb & Ho1). apply f_next; [exact Ho1|intros ->; eapply xv_end; exact Hb|]. intros t l2 -> [Ht Hx] Ho2.
    assert (N : no_value t -> fails (@t_throw prop_value (diag_expected (tk_span t) (tk_source t) [k_string; ChevronLeft; k_ref; OpenBracket])) (x_value src l) l2).
    { intros Hn. eapply f_throw; [|eapply xv_other; [exact Hb|exact Hn]]. split; [reflexivity|]. split; [reflexivity|]. split; [left; reflexivity|reflexivity]. }
    unfold no_value, is in N. destruct (tk_kind t) eqn:E; try (apply N; split; [discriminate|]; split; [discriminate|]; split; discriminate).
    - eapply f_bind; [|apply (gives_bytes src X); exact Ho2|intros [a b] ? ? _; apply f_ret].
      eapply f_conseq; [apply f_bytes; exact Ho2|]. intros st (-> & H). eapply xv_bytes; eassumption.
    - eapply f_bind; [|apply (gives_cells src incl X); exact Ho2|intros [a b] ? ? _; apply f_ret].
      eapply f_conseq; [apply f_cells; exact Ho2|]. intros st (-> & H). eapply xv_cells; eassumption.
    - apply f_ret.
    - eapply f_bind; [apply f_sure, sure_reference|apply gives_reference; [exact Ht|exact E]|intros; apply f_ret].
  Qed.
  Lemma f_values f : forall acc l, ok l -> fails (t_property_values src f acc) (x_values src l) l.
  Proof.
    induction f as [|f IH]; intros acc l Ho; cbn [t_property_values]; [apply f_bad|].
    eapply f_bind; [apply f_skip_label|apply (gives_skip_label src X); exact Ho|]. intros _ l1 r (-> & Hk & Ho1).
    eapply f_bind; [eapply f_conseq; [apply f_value; exact Ho1|intros st H; eapply xvs_value; eassumption]|apply (gives_value src incl X); exact Ho1|].
    intros v l2 r (Hv & Ho2).
    eapply f_bind; [apply f_skip_label|apply (gives_skip_label src X); exact Ho2|]. intros _ l3 r0 (-> & Hk2 & Ho3).
    apply f_peek_expect; [intros ->; eapply xvs_end; eassumption|]. intros t l4 ->. inversion Ho3 as [|? ? _ Ho4]; subst.
    destruct (kind_eqb_spec (tk_kind t) Comma) as [E|E]; [|apply f_ret].
    apply f_skip_tok. eapply f_conseq; [apply IH; exact Ho4|]. intros st H. eapply xvs_more; eassumption.
  Qed.
  Lemma f_node_name l : ok l -> fails (t_p_node_name src) (x_name l) l.
  Proof.
    intros Ho. unfold t_p_node_name. apply f_next; [exact Ho|intros ->; constructor|]. intros t l' -> [Ht Hx] Hl.
    destruct (tk_kind t) eqn:E; try (eapply f_throw; [|apply xo_other; intros [s' K]; unfold is in K; congruence];
      split; [reflexivity|]; split; [reflexivity|]; split; [left; reflexivity|reflexivity]).
    eapply f_checks; [apply check_node, nn_valid_of; eapply ok_ident; eassumption|intros; apply f_ret].
  Qed.
  Lemma f_property_name l : ok l -> fails (t_p_property_name src) (x_name l) l.
  Proof.
    intros Ho. unfold t_p_property_name. apply f_next; [exact Ho|intros ->; constructor|]. intros t l' -> [Ht Hx] Hl.
    destruct (tk_kind t) eqn:E; try (eapply f_throw; [|apply xo_other; intros [s' K]; unfold is in K; congruence];
      split; [reflexivity|]; split; [reflexivity|]; split; [left; reflexivity|reflexivity]).
    eapply f_checks; [apply check_property; eapply ok_ident; eassumption|intros; apply f_ret].
  Qed.
  Lemma f_expect_brace {A} (k : TM A) (Q : stop -> Prop) l : ok l ->
    (forall st, x_one (is OpenBrace) (fun t => bs "Expected " ++ show_kind (tk_kind t)) l st -> Q st) ->
    (forall t l', l = t :: l' -> is OpenBrace t -> ok l' -> fails k Q l') -> fails (t_expect src OpenBrace ;^ k) Q l.
  Proof.
    intros Ho HQ Hk. destruct l as [|t l]; [intros ds; exists AtEnd; split; [apply eof_halts|apply HQ; constructor]|].
    inversion Ho as [|? ? _ Hl]; subst. intros ds. unfold t_bind at 1.
    unfold t_expect, t_bind, t_cur_pos, t_next, t_ret, t_source. cbn [t_toks hd_error t_diags tl].
    destruct (kind_eqb_spec (tk_kind t) OpenBrace) as [E|E]; [eapply Hk; [reflexivity|exact E|exact Hl]|].
    eexists. split; [|apply HQ; apply xo_other; exact E]. split; [reflexivity|]. split; [reflexivity|]. split; [right; reflexivity|reflexivity].
  Qed.
  Lemma omit_given a l : ok (a :: l) ->
    gives src (if kind_eqb (tk_kind a) (Directive OmitIfNoRef) then let^ t := t_expect_next src in t_ret (t, Some a) else t_ret (a, None))
      (fun p l' _ => exists o t, p = (t, o) /\ g_omit (a :: l) o (t :: l') /\ ok (t :: l') /\ (o = None -> t = a /\ ~ is (Directive OmitIfNoRef) t)) l.
  Proof.
    intros Ho. inversion Ho as [|? ? Ha Hl]; subst. destruct (kind_eqb_spec (tk_kind a) (Directive OmitIfNoRef)) as [E|E].
    - apply (gives_next src X); [exact Hl|]. intros t l' -> _ _. apply gives_ret. exists (Some a), t.
      split; [reflexivity|]. split; [constructor; exact E|]. split; [exact Hl|discriminate].
    - apply gives_ret. exists None, a. split; [reflexivity|]. split; [constructor|]. split; [exact Ho|auto].
  Qed.
  Lemma label_given a l : ok (a :: l) ->
    gives src (match tk_kind a with
           | Label s => t_check_is_label src (tk_span a) s ;^ let^ t := t_expect_next src in t_ret (t, Some (mkWT s a))
           | _ => t_ret (a, None)
           end)
      (fun p l' _ => exists lb t r, p = (t, lb) /\ k_label src (a :: l) lb (t :: l') r /\ ok (t :: l') /\ (lb = None -> t = a /\ forall s, ~ is (Label s) t)) l.
  Proof.
    intros Ho. inversion Ho as [|? ? [Ha Hx] Hl]; subst.
    destruct (tk_kind a) eqn:E; try (apply gives_ret; exists None, a, []; split; [reflexivity|]; split; [constructor|]; split; [exact Ho|];
      intros _; split; [reflexivity|]; unfold is; rewrite E; discriminate).
    eapply gives_checks; [apply check_label; eapply ok_label; eassumption|]. intros new Hn.
    apply (gives_next src X); [exact Hl|]. intros t l' -> _ _. apply gives_ret. eexists (Some (mkWT s a)), t, _.
    split; [reflexivity|]. split; [constructor; eassumption|]. split; [exact Hl|discriminate].
  Qed.
  Definition stuck (nd : bool) (l : list token) (st : stop) : Prop := exists its l1 r, k_items src resumes nd l its l1 r /\ x_item src resumes l1 st.
  Lemma f_payload f : forall acc nd l, ok l -> fails (t_payload_loop src rl f acc nd) (stuck nd l) l.
  Proof.
    induction f as [|f IH]; intros acc nd l Ho; [apply f_bad|]. cbn [t_payload_loop].
    assert (Here : forall st, x_item src resumes l st -> stuck nd l st).
    { intros st H. exists [], l, []. split; [constructor|exact H]. }
    assert (More : forall it l1 r (nd' : bool) (l0 : list token), (forall its l2 r2, k_items src resumes nd' l1 its l2 r2 -> k_items src resumes nd l (it :: its) l2 (r r2)) ->
      forall st, stuck nd' l1 st -> stuck nd l st).
    { intros it l1 r nd' l0 H st (its & l2 & r2 & H1 & H2). exists (it :: its), l2, (r r2). split; [apply H; exact H1|exact H2]. }
    apply f_next; [exact Ho|intros ->; apply Here; constructor|]. intros a l1 -> Ha Ho1.
    destruct (kind_eqb_spec (tk_kind a) (Directive DeleteNode)) as [E1|E1];
      [|destruct (kind_eqb_spec (tk_kind a) (Directive DeleteProperty)) as [E2|E2]].
    - eapply f_bind; [eapply f_conseq; [apply f_node_name; exact Ho1|intros st H; apply Here; apply xi_delete_node; assumption]
        |apply (gives_node_name src X); exact Ho1|]. intros w l2 r (Ho2 & t & s & nm & ds & -> & -> & Et & Hn & Hr & ->).
      eapply f_bind; [apply f_end|apply (gives_end src resumes rl X rl_ok resumes_iff); exact Ho2|]. intros e0 l3 re0 (He0 & Ho3).
      eapply f_conseq; [apply IH; exact Ho3|]. eapply More; [exact []|]. intros its l4 r2 H. eapply ki_delete_node; eassumption.
    - eapply f_bind; [eapply f_conseq; [apply f_property_name; exact Ho1|intros st H; apply Here; apply xi_delete_property; assumption]
        |apply (gives_property_name src X); exact Ho1|]. intros w l2 r (Ho2 & t & s & ds & -> & -> & Et & Hr & ->).
      eapply f_bind; [apply f_end|apply (gives_end src resumes rl X rl_ok resumes_iff); exact Ho2|]. intros e0 l3 re0 (He0 & Ho3).
      eapply f_conseq; [apply IH; exact Ho3|]. eapply More; [exact []|]. intros its l4 r2 H. eapply ki_delete_property; eassumption.
    - eapply f_bind; [|apply omit_given; exact Ho|].
      { destruct (kind_eqb_spec (tk_kind a) (Directive OmitIfNoRef)) as [E|E]; [|apply f_ret].
        apply f_next; [exact Ho1|intros ->; apply Here; apply xi_omit; exact E|]. intros. apply f_ret. }
      intros p l2 r (o & t0 & -> & Hom & Ho2 & So). cbv beta iota.
      eapply f_bind; [|apply label_given; exact Ho2|].
      { inversion Ho2 as [|? ? [Ht0 _] Ho3]; subst. destruct (tk_kind t0) eqn:E; try apply f_ret.
        eapply f_checks; [apply check_label; eapply ok_label; eassumption|]. intros _ _.
        apply f_next; [exact Ho3|intros ->; apply Here; eapply xi_label; [exact Hom|exact E]|]. intros. apply f_ret. }
      intros p l3 _ (lb & t & rb & -> & Hlb & Ho3 & Sl). cbv beta iota.
      inversion Ho3 as [|? ? [Ht Hx] Ho4]; subst.
      assert (N : (forall s, ~ is (Ident s) t) -> ~ is CloseBrace t ->
        fails (@t_throw payload (diag_expected (tk_span t) (tk_source t) [k_ident; CloseBrace])) (stuck nd (a :: l1)) l3).
      { intros N1 N2. eapply f_throw; [|apply Here; eapply xi_other; [exact Hom|exact Hlb|]].
        - split; [reflexivity|]. split; [reflexivity|]. split; [left; reflexivity|reflexivity].
        - split; [exact N1|]. split; [exact N2|]. split; [intros K; exact (proj2 (Sl K))|]. intros K1 K2.
          destruct (Sl K1) as [-> _], (So K2) as [-> K3]. split; [exact K3|]. split; [exact E1|exact E2]. }
      destruct (tk_kind t) eqn:E; try (apply N; unfold is; congruence).
      + eapply f_bind; [apply f_end|apply (gives_end src resumes rl X rl_ok resumes_iff); exact Ho4|]. intros. apply f_ret.
      + apply f_peek_expect; [intros ->; apply Here; eapply xi_name; [exact Hom|exact Hlb|exact E|constructor]|].
        intros t2 l5 ->. inversion Ho4 as [|? ? _ Ho5]; subst.
        destruct (tk_kind t2) eqn:E3;
          try (silent; silent; eapply f_throw; [|apply Here; eapply xi_name; [exact Hom|exact Hlb|exact E|apply xo_other; unfold is; intros [K|[K|K]]; congruence]];
               split; [reflexivity|]; split; [reflexivity|]; split; [right; reflexivity|reflexivity]).
        * apply f_skip_tok. eapply f_checks; [apply check_property; eapply ok_ident; eassumption|]. intros ds Hr.
          eapply f_bind; [apply f_check_order|apply gives_check_order|]. intros _ l6 r1 (-> & _).
          eapply f_bind; [apply f_check_omit|apply gives_check_omit|]. intros _ l6 r2 (-> & _).
          eapply f_conseq; [apply IH; exact Ho5|]. eapply More; [exact []|]. intros its l4 r3 H. eapply ki_empty_property; eassumption.
        * apply f_skip_tok. eapply f_checks; [apply check_property; eapply ok_ident; eassumption|]. intros ds Hr.
          eapply f_bind; [eapply f_conseq; [apply f_values; exact Ho5|intros st H; apply Here; eapply xi_values; eassumption]
            |apply (gives_values src incl X); exact Ho5|]. intros p l6 rv (Ho6 & vs & -> & Hvs). cbn [app].
          eapply f_bind; [apply f_end|apply (gives_end src resumes rl X rl_ok resumes_iff); exact Ho6|]. intros e0 l7 re0 (He0 & Ho7).
          eapply f_bind; [apply f_check_omit|apply gives_check_omit|]. intros _ l8 r2 (-> & _).
          eapply f_bind; [apply f_check_order|apply gives_check_order|]. intros _ l8 r1 (-> & _).
          eapply f_conseq; [apply IH; exact Ho7|]. eapply More; [exact []|]. intros its l4 r3 H. eapply ki_property; eassumption.
        * eapply f_checks; [apply check_node, nn_valid_of; eapply ok_ident; eassumption|]. intros ds Hr.
          apply f_expect_brace; [exact Ho4| |].
          { intros st K. exfalso. inversion K as [|? ? K1]; subst. exact (K1 E3). }
          intros b l6 Eb Hb _. injection Eb as <- <-.
          eapply f_bind; [eapply f_conseq; [apply IH; exact Ho5|]|apply (gives_payload src incl resumes rl X rl_ok resumes_iff); exact Ho5|].
          { intros st (its & l6 & r6 & H1 & H2). apply Here. eapply xi_node; [exact Hom|exact Hlb|exact E|exact E3|]. eapply xb; eassumption. }
          intros pl l7 rp (Ho7 & its1 & r1 & l4 & o1 & l8 & lb1 & rb1 & c1 & l10 & e1 & re1 & -> & Hits1 & Hom1 & Hlb1 & Hc1 & He1 & ->). cbn [app].
          eapply f_conseq; [apply IH; exact Ho7|]. eapply More; [exact []|]. intros its l6 r3 H.
          eapply ki_node; try eassumption; [apply node_text_iff; reflexivity|eapply kbo; eassumption].
  Qed.
  Lemma f_block f l : ok l -> fails (t_node_payload src rl f) (x_block src resumes l) l.
  Proof.
    intros Ho. unfold t_node_payload. apply f_expect_brace; [exact Ho|intros st H; apply xk_brace; exact H|]. intros b l1 -> Hb Ho1.
    eapply f_conseq; [apply f_payload; exact Ho1|]. intros st (its & l2 & r & H1 & H2). apply xk_body; [exact Hb|]. eapply xb; eassumption.
  Qed.
  Lemma f_parse_reference l : ok l -> fails (t_parse_reference src) (x_reference l) l.
  Proof.
    intros Ho. unfold t_parse_reference. apply f_next; [exact Ho|intros ->; constructor|]. intros t l' -> [Ht Hx] Hl.
    destruct (tk_kind t) eqn:E; try (eapply f_throw; [|apply xo_other; intros [s' K]; unfold is in K; congruence];
      split; [reflexivity|]; split; [reflexivity|]; split; [left; reflexivity|reflexivity]).
    apply f_sure, sure_reference.
  Qed.
  Lemma f_memreserve l : ok l -> fails (t_memreserve_number src) (x_number l) l.
  Proof.
    intros Ho. unfold t_memreserve_number. apply f_next; [exact Ho|intros ->; constructor|]. intros t l' -> [Ht Hx] Hl.
    destruct (tk_kind t) eqn:E; try (silent; silent; eapply f_throw; [|apply xo_other; intros [s' K]; unfold is in K; congruence];
      split; [reflexivity|]; split; [reflexivity|]; split; [right; reflexivity|reflexivity]).
    destruct (parse_number u64_lim s); intros ds; exact I.
  Qed.
  Lemma f_primary f l : ok l -> l <> [] -> fails (t_p_primary src incl rl f) (x_primary src resumes l) l.
  Proof.
    intros Ho Hne. unfold t_p_primary. apply f_next; [exact Ho|congruence|]. intros t l1 -> [Ht Hx] Ho1.
    assert (N : ~ starts_primary t -> fails (@t_throw primary (diag_expected (tk_span t) (tk_source t)
                  [Directive DTSVersionHeader; Directive MemReserve; Directive Include;
                   Directive DeleteNode; Directive OmitIfNoRef; Slash; k_ref])) (x_primary src resumes (t :: l1)) l1).
    { intros H. eapply f_throw; [|apply xp_other; exact H]. split; [reflexivity|]. split; [reflexivity|]. split; [left; reflexivity|reflexivity]. }
    assert (Str : forall (k : token -> str -> TM primary) u l2, l1 = u :: l2 -> is (Directive Include) t \/ is (Ident (bs "#include")) t ->
      (forall s, fails (k u s) (x_primary src resumes (t :: l1)) l2) ->
      fails (match tk_kind u with TString s => k u s | _ => t_throw (diag_expected (tk_span u) (tk_source u) [k_string]) end) (x_primary src resumes (t :: l1)) l2).
    { intros k u l2 -> Hi Hk. destruct (tk_kind u) eqn:E2; try apply Hk;
        (eapply f_throw; [|apply xp_include; [exact Hi|apply xo_other; intros [s' K]; unfold is in K; congruence]];
         split; [reflexivity|]; split; [reflexivity|]; split; [left; reflexivity|reflexivity]). }
    unfold starts_primary, is in N.
    destruct (tk_kind t) eqn:E; try (apply N; intros [K|[K|[K|[K|[K|[K|[K|[[? K]|K]]]]]]]]; discriminate K).
    - eapply f_bind; [|apply (gives_node_payload src incl resumes rl X rl_ok resumes_iff); exact Ho1|intros; apply f_ret].
      eapply f_conseq; [apply f_block; exact Ho1|]. intros st H. apply xp_root; assumption.
    - destruct (str_eqb s (bs "#include")) eqn:Es.
      2:{ apply N. intros [K|[K|[K|[K|[K|[K|[K|[[? K]|K]]]]]]]]; try discriminate K. injection K as ->. rewrite (proj2 (str_eqb_spec _ _) eq_refl) in Es. discriminate. }
      apply str_eqb_spec in Es. subst s.
      apply f_next; [exact Ho1|intros ->; apply xp_include; [right; exact E|constructor]|]. intros u l2 El _ Ho2.
      apply (Str (fun _ s => t_ret (PCStyleInclude s)) u l2 El); [right; exact E|]. intros s. apply f_ret.
    - destruct d; try (apply N; intros [K|[K|[K|[K|[K|[K|[K|[[? K]|K]]]]]]]]; discriminate K).
      + eapply f_bind; [apply f_end|apply (gives_end src resumes rl X rl_ok resumes_iff); exact Ho1|intros; apply f_ret].
      + eapply f_bind; [eapply f_conseq; [apply f_memreserve; exact Ho1|intros st H; apply xp_address; assumption]|apply (gives_memreserve src X); exact Ho1|].
        intros wa l2 ra (Ho2 & a & na & -> & -> & Ha).
        eapply f_bind; [eapply f_conseq; [apply f_memreserve; exact Ho2|intros st H; eapply xp_length; eassumption]|apply (gives_memreserve src X); exact Ho2|].
        intros wb l3 rb (Ho3 & b & nb & -> & -> & Hb).
        eapply f_bind; [apply f_end|apply (gives_end src resumes rl X rl_ok resumes_iff); exact Ho3|intros; apply f_ret].
      + eapply f_bind; [eapply f_conseq; [apply f_parse_reference; exact Ho1|intros st H; apply xp_reference; [left; exact E|exact H]]
          |apply (gives_parse_reference src X); exact Ho1|]. intros w l2 r (Ho2 & _).
        eapply f_bind; [apply f_end|apply (gives_end src resumes rl X rl_ok resumes_iff); exact Ho2|intros; apply f_ret].
      + eapply f_bind; [apply f_end|apply (gives_end src resumes rl X rl_ok resumes_iff); exact Ho1|intros; apply f_ret].
      + eapply f_bind; [eapply f_conseq; [apply f_parse_reference; exact Ho1|intros st H; apply xp_reference; [right; exact E|exact H]]
          |apply (gives_parse_reference src X); exact Ho1|]. intros w l2 r (Ho2 & _).
        eapply f_bind; [apply f_end|apply (gives_end src resumes rl X rl_ok resumes_iff); exact Ho2|intros; apply f_ret].
      + apply f_next; [exact Ho1|intros ->; apply xp_include; [left; exact E|constructor]|]. intros u l2 El _ Ho2.
        apply (Str (fun u f0 => let^ t2 := t_peek in
          (match t2 with
           | Some tok2 => if kind_eqb (tk_kind tok2) Semicolon then
               let^ tok3 := t_expect_next src in
               t_push (diag_from_token tok3 ParserError (bs "Include directive must not end with a semicolon"))
             else t_ret tt
           | None => t_ret tt
           end) ;^
          let^ paths := t_include_paths incl in
          t_ret (PDirective (AInclude (mkInclude t (mkWT f0 u) paths)))) u l2 El); [left; exact E|]. intros s ds.
        unfold t_bind, t_peek. cbn [t_toks]. destruct l2 as [|v l2]; cbn [hd_error]; [exact I|].
        destruct (kind_eqb (tk_kind v) Semicolon); exact I.
    - eapply f_bind; [apply f_sure, sure_reference|apply gives_reference; [exact Ht|exact E]|]. intros w l2 rs (-> & x & ds & -> & Hr & ->).
      eapply f_bind; [|apply (gives_node_payload src incl resumes rl X rl_ok resumes_iff); exact Ho1|intros; apply f_ret].
      eapply f_conseq; [apply f_block; exact Ho1|]. intros st H. eapply xp_ref_node; eassumption.
  Qed.
  Lemma f_file_loop f : forall acc l, ok l -> fails (t_file_loop src incl rl f acc) (x_file src incl resumes l) l.
  Proof.
    induction f as [|f IH]; intros acc l Ho; cbn [t_file_loop]; [apply f_bad|].
    silent. destruct l as [|t l]; cbn [hd_error]; [apply f_ret|].
    eapply f_bind; [eapply f_conseq; [apply f_primary; [exact Ho|discriminate]|intros st H; apply xf_here; exact H]
      |apply (gives_primary src incl resumes rl X rl_ok resumes_iff); exact Ho|]. intros p l1 r (Ho1 & Hp).
    eapply f_conseq; [apply IH; exact Ho1|]. intros st H. eapply xf_later; eassumption.
  Qed.
  Lemma f_file f l : ok l -> fails (t_p_file src incl rl f) (x_file src incl resumes l) l.
  Proof.
    intros Ho. unfold t_p_file. eapply f_bind; [apply f_file_loop; exact Ho|apply (gives_file_loop src incl resumes rl X rl_ok resumes_iff); exact Ho|].
    intros; apply f_ret.
  Qed.

  (** *** Whatever is derived stops it *)
  Definition stops {A} (m : TM A) (l : list token) (st : stop) : Prop :=
    ok l -> forall ds, m (mkTS l ds) = TBad \/ exists d s, m (mkTS l ds) = TErr d s /\ halts st d.
  Lemma s_first {A B} (m : TM A) (k : A -> TM B) l st : stops m l st -> stops (t_bind m k) l st.
  Proof. intros H Ho ds. unfold t_bind. destruct (H Ho ds) as [->|(d & s & -> & Hd)]; [left; reflexivity|right; eauto]. Qed.
  Lemma s_then {A B} (m : TM A) (k : A -> TM B) l a l' r st : yields src X m l a l' r -> stops (k a) l' st -> stops (t_bind m k) l st.
  Proof.
    intros Hm Hk Ho ds. destruct (Hm Ho) as [Ho' Hy]. unfold t_bind. destruct (Hy ds) as [->|(new & -> & _)]; [left; reflexivity|]. exact (Hk Ho' _).
  Qed.
  Lemma s_checks {A} (m : TM unit) (k : TM A) R l st : checks m R -> stops k l st -> stops (m ;^ k) l st.
  Proof.
    intros Hm Hk Ho ds. destruct (Hm (mkTS l ds)) as (new & En & _). unfold t_bind. rewrite En. cbn [t_toks t_diags]. exact (Hk Ho _).
  Qed.
  Lemma s_throw {A} d l st : halts st d -> stops (@t_throw A d) l st.
  Proof. intros H _ ds. right. exists d, (mkTS l ds). auto. Qed.
  Lemma s_fuel {A} l st : stops (@t_no_fuel A) l st.
  Proof. intros _ ds. left. reflexivity. Qed.
  Lemma s_quiet {A B} (m : TM A) (k : A -> TM B) l a l' st : (forall ds, m (mkTS l ds) = TOk a (mkTS l' ds)) -> (ok l -> ok l') ->
    stops (k a) l' st -> stops (t_bind m k) l st.
  Proof. intros Hm Hl Hk Ho ds. unfold t_bind. rewrite Hm. exact (Hk (Hl Ho) _). Qed.
  Ltac quiet := eapply s_quiet;
    [intros ?ds; lazy beta iota zeta delta [t_peek t_next t_skip_tok t_expect_next t_peek_expect t_bind t_cur_pos t_last_pos t_source t_ret t_here
       t_relex t_throw t_include_paths hd_error tl t_toks t_diags semicolon_skips]; reflexivity
    |first [exact (fun H => H)|let H := fresh in intros H; inversion H; assumption]|].
  Lemma s_next_end {A} (k : token -> TM A) : stops (let^ t := t_expect_next src in k t) [] AtEnd.
  Proof. intros _ ds. right. eexists _, _. split; [reflexivity|apply eof_halts]. Qed.
  Lemma s_peek_end {A} (k : token -> TM A) : stops (let^ t := t_peek_expect src in k t) [] AtEnd.
  Proof. intros _ ds. right. eexists _, _. split; [reflexivity|apply eof_halts]. Qed.
  Lemma s_next {A} (k : token -> TM A) t l st : (good t -> stops (k t) l st) -> stops (let^ t := t_expect_next src in k t) (t :: l) st.
  Proof. intros Hk Ho. inversion Ho as [|? ? Ht Hl]; subst. revert Ho. quiet. exact (Hk Ht). Qed.
  Lemma s_peek_expect {A} (k : token -> TM A) t l st : stops (k t) (t :: l) st -> stops (let^ t := t_peek_expect src in k t) (t :: l) st.
  Proof. intros Hk. quiet. exact Hk. Qed.
  Lemma s_skip {A} (k : TM A) t l st : stops k l st -> stops (t_skip_tok ;^ k) (t :: l) st.
  Proof. intros Hk. quiet. exact Hk. Qed.

  Lemma number_open f t l ds : is OpenParen t -> t_number_u32 src f (mkTS (t :: l) ds) =
    match t_skip_expression f 1 (mkTS l ds) with
    | TOk _ s => TOk CExpression (match hd_error (t_toks s) with
        | None => mkTS (t_toks s) (t_diags s ++ [diag_from_token t UnbalancedParentheses (bs "Unbalanced parentheses")])
        | Some _ => s
        end)
    | TErr d s => TErr d s
    | TBad => TBad
    end.
  Proof.
    intros Ht. unfold t_number_u32, t_bind at 1. unfold t_expect_next, t_bind at 1 2, t_cur_pos, t_next, t_source, t_ret at 1 2. cbn [t_toks t_diags hd_error tl].
    unfold t_bind at 1, t_ret at 1. unfold t_ret at 1. unfold is in Ht. rewrite Ht. unfold t_bind at 1.
    destruct (t_skip_expression f 1 (mkTS l ds)) as [u [l1 ds1]|d s1|]; [|reflexivity|reflexivity].
    unfold t_bind, t_peek. cbn [t_toks t_diags]. destruct l1; reflexivity.
  Qed.
  Lemma cell_read f l c l' r : k_cell src l c l' r -> ok l -> forall ds, t_number_u32 src f (mkTS l ds) = TBad
    \/ exists new, t_number_u32 src f (mkTS l ds) = TOk c (mkTS l' (ds ++ new)).
  Proof.
    intros H Ho ds. destruct l' as [|y l'].
    - destruct H as [t n l r Hn|t x l ds' Hr|t l u l' Ht Hu Hp].
      + enough (Y : yields src X (t_number_u32 src f) (t :: l) (CNumber (mkWT n t)) l r).
        { destruct (Y Ho) as [_ H]. destruct (H ds) as [->|(new & -> & _)]; eauto. }
        unfold t_number_u32. apply y_next. intros [Hk Hx].
        assert (E : exists s, is (UnparsedNumber s) t) by (destruct Hn; eauto). destruct E as [s E]. pose proof E as E'. unfold is in E'. rewrite E'.
        exact (y_int src X u32_lim t s n r cell (fun w => CNumber w) l eq_refl Hk E Hn).
      + enough (Y : yields src X (t_number_u32 src f) (t :: l) (CReference (mkWT x t)) l (map Exactly ds')).
        { destruct (Y Ho) as [_ H]. destruct (H ds) as [->|(new & -> & _)]; eauto. }
        unfold t_number_u32. apply y_next. intros [Hk Hx].
        assert (E : exists s, is (Ref s) t) by (destruct Hr; eauto). destruct E as [s E]. pose proof E as E'. unfold is in E'. rewrite E'.
        rewrite <- (app_nil_r (map Exactly ds')). eapply y_bind; [exact (y_reference src X t s x ds' l Hk E Hr)|apply y_ret].
      + rewrite (number_open f t l ds Ht). destruct (runs_expression f l u l' Hp Hu ds) as [->| ->]; [left; reflexivity|]. right.
        cbn [t_toks t_diags]. destruct l' as [|v l']; cbn [hd_error]; [eexists; reflexivity|]. exists []. rewrite app_nil_r. reflexivity.
    - destruct (y_cell src X f l c (y :: l') r H ltac:(discriminate) Ho) as [_ Y]. destruct (Y ds) as [->|(new & -> & _)]; eauto.
  Qed.
  Lemma open_read f t l ds : is OpenParen t -> unclosed l -> t_number_u32 src f (mkTS (t :: l) ds) = TBad
    \/ exists new, t_number_u32 src f (mkTS (t :: l) ds) = TOk CExpression (mkTS [] (ds ++ new)).
  Proof.
    intros Ht Hu. rewrite (number_open f t l ds Ht).
    destruct (t_skip_expression f 1 (mkTS l ds)) as [u [l1 ds1]|d s1|] eqn:Es; [|exfalso; eapply sure_expression; exact Es|left; reflexivity].
    pose proof (skip_quiet _ _ _ _ _ _ Es) as E1. cbn [t_diags] in E1. subst ds1. cbn [t_toks t_diags].
    destruct l1 as [|x l1]; cbn [hd_error]; [right; eexists; reflexivity|]. exfalso.
    assert (Hc : cl (t_skip_expression f 1) l u (x :: l1)) by (exists ds; exact Es).
    apply cl_skip_expression in Hc; [|exact incl|lia|discriminate]. change (N.to_nat 1) with 1%nat in Hc.
    inversion Hc as [|n l2 v l3 l4 Hp Hv Hz]; subst. inversion Hz; subst. specialize (Hu _ _ Hv Hp). discriminate Hu.
  Qed.
  Lemma s_cells l : x_cells src l -> forall f acc, stops (t_cells_loop src f acc) l AtEnd.
  Proof.
    induction 1 as [l Hk|l l1 c l2 r Hk Hc _ IH|l b l2 Hk Hb _ IH|l t l1 Hk Ht Hu]; intros [|f] acc; cbn [t_cells_loop]; try apply s_fuel;
      (eapply s_then; [apply y_skip_label; exact Hk|]).
    - apply s_peek_end.
    - pose proof (cell_read f _ _ _ _ Hc) as Hr. pose proof (keep_cell src X _ _ _ _ Hc) as Hkeep.
      destruct (cell_head _ _ _ _ _ Hc) as (u & q & -> & Nu). apply s_peek_expect. rewrite kind_eqb_false by exact Nu.
      intros Ho ds. unfold t_catch. destruct (Hr Ho ds) as [->|(new & ->)]; [left; reflexivity|]. exact (IH _ _ (Hkeep Ho) _).
    - destruct Hb as (B1 & B2 & B3 & B4). apply s_peek_expect. rewrite kind_eqb_false by exact B4.
      intros Ho ds. inversion Ho as [|? ? _ Ho2]; subst.
      assert (En : exists d, t_number_u32 src f (mkTS (b :: l2) ds) = TErr d (mkTS l2 ds)).
      { unfold t_number_u32, t_bind at 1. unfold t_expect_next, t_bind at 1 2, t_cur_pos, t_next, t_source, t_ret at 1 2. cbn [t_toks t_diags hd_error tl].
        unfold t_bind at 1, t_ret at 1. unfold t_ret at 1. unfold is in *.
        destruct (tk_kind b) eqn:E; try (eexists; reflexivity); exfalso; first [exact (B3 eq_refl)|eapply B1; reflexivity|eapply B2; reflexivity]. }
      destruct En as [d En]. unfold t_catch. rewrite En. unfold t_bind, t_push. cbn [t_toks t_diags]. exact (IH _ _ Ho2 _).
    - apply s_peek_expect. rewrite kind_eqb_false by (unfold is in Ht; congruence). intros Ho ds. unfold t_catch.
      destruct (open_read f t l1 ds Ht Hu) as [->|(new & ->)]; [left; reflexivity|].
      destruct f as [|f]; [left; reflexivity|]. right. eexists _, _. split; [reflexivity|apply eof_halts].
  Qed.
  Lemma s_bytes l : x_bytes l -> forall f acc, stops (t_bytes_loop src f acc) l AtEnd.
  Proof.
    induction 1 as [l Hk|l e b l2 r Hk He _ IH]; intros [|f] acc; cbn [t_bytes_loop]; try apply s_fuel;
      (eapply s_then; [apply y_skip_label; exact Hk|]).
    - apply s_peek_end.
    - apply s_peek_expect. rewrite kind_eqb_false by (eapply element_head; eassumption).
      eapply s_then; [apply y_element; exact He|]. apply IH.
  Qed.
  Lemma s_value f l st : x_value src l st -> stops (t_property_value src f) l st.
  Proof.
    unfold t_property_value. intros [d Hd|l0 r Hb|l0 t l1 r Hb Ht Hx|l0 t l1 r Hb Ht Hx|l0 t l1 r Hb (N1 & N2 & N3 & N4)].
    - apply s_first. unfold t_bits_prefix. quiet. cbn [hd_error]. rewrite kind_eqb_true by exact Hd. apply s_skip, s_next_end.
    - eapply s_then; [apply y_bits; exact Hb|]. apply s_next_end.
    - eapply s_then; [apply y_bits; exact Hb|]. apply s_next. intros _. unfold is in Ht. rewrite Ht. apply s_first, s_cells, Hx.
    - eapply s_then; [apply y_bits; exact Hb|]. apply s_next. intros _. unfold is in Ht. rewrite Ht. apply s_first, s_bytes, Hx.
    - eapply s_then; [apply y_bits; exact Hb|]. apply s_next. intros _. unfold is in *.
      destruct (tk_kind t) eqn:E; try (exfalso; first [exact (N3 eq_refl)|exact (N4 eq_refl)|eapply N1; reflexivity|eapply N2; reflexivity]);
        (apply s_throw; split; [reflexivity|]; split; [reflexivity|]; split; [left; reflexivity|reflexivity]).
  Qed.
  Lemma s_values l st : x_values src l st -> forall f acc, stops (t_property_values src f acc) l st.
  Proof.
    induction 1 as [l l1 st Hk Hx|l l1 v l2 r Hk Hv Hk2|l l1 v l2 c l3 r st Hk Hv Hk2 Hc _ IH]; intros [|f] acc; cbn [t_property_values]; try apply s_fuel;
      (eapply s_then; [apply y_skip_label; exact Hk|]).
    - apply s_first, s_value, Hx.
    - eapply s_then; [apply y_value; exact Hv|]. eapply s_then; [apply y_skip_label; exact Hk2|]. apply s_peek_end.
    - eapply s_then; [apply y_value; exact Hv|]. eapply s_then; [apply y_skip_label; exact Hk2|]. apply s_peek_expect.
      rewrite kind_eqb_true by exact Hc. apply s_skip, IH.
  Qed.
  Ltac halt := apply s_throw; split; [reflexivity|]; split; [reflexivity|]; split; [first [left; reflexivity|right; reflexivity]|reflexivity].
  Lemma s_node_name l st : x_name l st -> stops (t_p_node_name src) l st.
  Proof.
    intros [|t l0 N]; unfold t_p_node_name; [apply s_next_end|]. apply s_next. intros _.
    destruct (tk_kind t) eqn:E; try halt. exfalso. apply N. exists s. exact E.
  Qed.
  Lemma s_property_name l st : x_name l st -> stops (t_p_property_name src) l st.
  Proof.
    intros [|t l0 N]; unfold t_p_property_name; [apply s_next_end|]. apply s_next. intros _.
    destruct (tk_kind t) eqn:E; try halt. exfalso. apply N. exists s. exact E.
  Qed.
  Lemma s_prefix f acc nd l o l1 lb rb t l2 st :
    g_omit l o l1 -> k_label src l1 lb (t :: l2) rb -> (lb = None -> forall s, ~ is (Label s) t) ->
    (lb = None -> o = None -> ~ is (Directive OmitIfNoRef) t /\ ~ is (Directive DeleteNode) t /\ ~ is (Directive DeleteProperty) t) ->
    (good t -> stops (rest_of_item src rl f acc nd t o lb) l2 st) ->
    stops (t_payload_loop src rl (S f) acc nd) l st.
  Proof.
    intros Ho Hlb N1 N2 Hend. cbn [t_payload_loop].
    assert (Hl : lb = None -> forall (A : Type) (x : str -> A) (y : A), match tk_kind t with Label s => x s | _ => y end = y).
    { intros E A x y. specialize (N1 E). unfold is in N1. destruct (tk_kind t); try reflexivity. exfalso. eapply N1; reflexivity. }
    inversion Ho as [l0|d l0 Hd]; subst; inversion Hlb as [l0'|u s' l0' ds Ht Hs]; subst; apply s_next; intros Hg.
    - destruct (N2 eq_refl eq_refl) as (M1 & M2 & M3). rewrite !kind_eqb_false by assumption.
      quiet. cbv beta iota. rewrite Hl by reflexivity. quiet. cbv beta iota. exact (Hend Hg).
    - unfold is in Ht. rewrite Ht, !kind_eqb_false by discriminate. quiet. cbv beta iota. rewrite Ht.
      destruct Hg as [Hg _]. intros Hok. inversion Hok as [|? ? Hgt _]; subst. revert Hok.
      eapply (s_then _ _ _ (t, Some (mkWT s' u)) l2); [|cbv beta iota; exact (Hend Hgt)].
      eapply y_bind; [eapply y_checks; [apply check_label; eapply ok_label; eassumption|apply label_report_fun|exact Hs]|].
      apply y_next. intros _. apply y_ret.
    - unfold is in Hd. rewrite Hd, kind_eqb_false, kind_eqb_false, kind_eqb_true by congruence.
      intros Hok. inversion Hok as [|? ? Hgt _]; subst. revert Hok.
      quiet. cbv beta iota. rewrite Hl by reflexivity. quiet. cbv beta iota. exact (Hend Hgt).
    - unfold is in Hd, Ht. rewrite Hd, kind_eqb_false, kind_eqb_false, kind_eqb_true by congruence.
      intros Hok. inversion Hok as [|? ? Hgu Hok']; subst. inversion Hok' as [|? ? Hgt _]; subst. revert Hok.
      quiet. cbv beta iota. rewrite Ht.
      eapply (s_then _ _ _ (t, Some (mkWT s' u)) l2); [|cbv beta iota; exact (Hend Hgt)].
      eapply y_bind; [eapply y_checks; [apply check_label; eapply ok_label; [apply Hgu|exact Ht]|apply label_report_fun|exact Hs]|].
      apply y_next. intros _. apply y_ret.
  Qed.
  Ltac no_prefix Ht := unfold is in *; intros; rewrite Ht; first [discriminate|split; [discriminate|split; discriminate]].
  Lemma s_items seen l its l1 r st : k_items src resumes seen l its l1 r ->
    (forall f acc seen', stops (t_payload_loop src rl f acc seen') l1 st) -> forall f acc, stops (t_payload_loop src rl f acc seen) l st.
  Proof.
    intros Hi HK. induction Hi as [seen l|seen d t s nm ds l e l1 re its l2 r Hd Ht Hn Hr He _ IH|seen d t s ds l e l1 re its l2 r Hd Ht Hr He _ IH
      |seen l o l0 lb rb t s ds q l1 vs l2 rv e l3 re its l4 r Ho Hlb Ht Hs Hq Hv He _ IH
      |seen l o l0 lb rb t s ds e l1 its l2 r Ho Hlb Ht Hs He _ IH
      |seen l o l1 lb rb t s nm ds b l2 bp l3 r0 its l4 r Ho Hlb Ht Hn Hl Hb Hbo _ IH]; intros f acc; [apply HK|destruct f as [|f]; [apply s_fuel|]..].
    - cbn [t_payload_loop]. apply s_next. intros _. unfold is in Hd. rewrite Hd, kind_eqb_true by reflexivity.
      eapply s_then; [eapply y_node_name; eassumption|]. eapply s_then; [apply (y_end src resumes rl X rl_ok resumes_iff); exact He|]. apply IH. exact HK.
    - cbn [t_payload_loop]. apply s_next. intros _. unfold is in Hd. rewrite Hd, kind_eqb_false, kind_eqb_true by congruence.
      eapply s_then; [eapply y_property_name; eassumption|]. eapply s_then; [apply (y_end src resumes rl X rl_ok resumes_iff); exact He|]. apply IH. exact HK.
    - eapply s_prefix; [exact Ho|exact Hlb|no_prefix Ht..|]. intros [Hg _]. unfold rest_of_item. unfold is in Ht, Hq. rewrite Ht.
      apply s_peek_expect. rewrite Hq. apply s_skip.
      eapply s_then; [eapply y_checks; [apply check_property; eapply ok_ident; eassumption|apply property_report_fun|exact Hs]|].
      eapply s_then; [apply (y_values src X _ _ _ _ Hv f [])|].
      eapply s_then; [apply (y_end src resumes rl X rl_ok resumes_iff); exact He|].
      eapply s_then; [apply y_omit|]. cbn [app]. eapply s_then; [apply y_order|]. apply IH. exact HK.
    - eapply s_prefix; [exact Ho|exact Hlb|no_prefix Ht..|]. intros [Hg _]. unfold rest_of_item. unfold is in Ht, He. rewrite Ht.
      apply s_peek_expect. rewrite He. apply s_skip.
      eapply s_then; [eapply y_checks; [apply check_property; eapply ok_ident; eassumption|apply property_report_fun|exact Hs]|].
      eapply s_then; [apply y_order|]. eapply s_then; [apply y_omit|]. apply IH. exact HK.
    - eapply s_prefix; [exact Ho|exact Hlb|no_prefix Ht..|]. intros [Hg _]. unfold rest_of_item. pose proof Hb as Hb'. unfold is in Ht, Hb. rewrite Ht.
      apply s_peek_expect. rewrite Hb. apply node_text_iff in Hn. subst nm.
      eapply s_then; [eapply y_checks; [apply check_node, nn_valid_of; eapply ok_ident; eassumption|apply node_report_fun|exact Hl]|].
      eapply s_then; [apply y_runs; [apply runs_expect; exact Hb'|intros K; inversion K; assumption]|].
      eapply s_then; [apply (proj1 (y_items src resumes rl X rl_ok resumes_iff)); exact Hbo|]. apply IH. exact HK.
  Qed.
  Lemma s_body_item : (forall l st, x_body src resumes l st -> forall f acc seen, seen = false -> stops (t_payload_loop src rl f acc seen) l st)
    /\ (forall l st, x_item src resumes l st -> forall f acc seen, stops (t_payload_loop src rl f acc seen) l st).
  Proof.
    apply x_body_item_ind.
    - intros l its l1 r st Hi _ IH f acc seen ->. eapply s_items; [exact Hi|exact IH].
    - intros [|f] acc seen; [apply s_fuel|]. cbn [t_payload_loop]. apply s_next_end.
    - intros d l st Hd Hx [|f] acc seen; [apply s_fuel|]. cbn [t_payload_loop]. apply s_next. intros _. rewrite kind_eqb_true by exact Hd.
      apply s_first, s_node_name, Hx.
    - intros d l st Hd Hx [|f] acc seen; [apply s_fuel|]. cbn [t_payload_loop]. apply s_next. intros _. unfold is in Hd.
      rewrite Hd, kind_eqb_false, kind_eqb_true by congruence. apply s_first, s_property_name, Hx.
    - intros d Hd [|f] acc seen; [apply s_fuel|]. cbn [t_payload_loop]. apply s_next. intros _. unfold is in Hd.
      rewrite Hd, kind_eqb_false, kind_eqb_false, kind_eqb_true by congruence. apply s_first, s_next_end.
    - intros l o t s Ho Ht [|f] acc seen; [apply s_fuel|]. cbn [t_payload_loop].
      inversion Ho as [l0|d l0 Hd]; subst; apply s_next; intros [Hg _].
      + unfold is in Ht. rewrite Ht, !kind_eqb_false by discriminate. quiet. cbv beta iota. rewrite Ht. apply s_first.
        eapply s_checks; [apply check_label; eapply ok_label; eassumption|]. apply s_next_end.
      + unfold is in Hd, Ht. rewrite Hd, kind_eqb_false, kind_eqb_false, kind_eqb_true by congruence.
        intros Hok. inversion Hok as [|? ? [Hgt _] _]; subst. revert Hok. quiet. cbv beta iota. rewrite Ht. apply s_first.
        eapply s_checks; [apply check_label; eapply ok_label; eassumption|]. apply s_next_end.
    - intros l o l1 lb r t l2 Ho Hlb (N1 & N2 & N3 & N4) [|f] acc seen; [apply s_fuel|].
      eapply s_prefix; [exact Ho|exact Hlb|exact N3|exact N4|]. intros _. unfold rest_of_item. unfold is in N1, N2.
      destruct (tk_kind t) eqn:E; try halt; exfalso; [exact (N2 eq_refl)|eapply N1; reflexivity].
    - intros l o l1 lb r t s l2 st Ho Hlb Ht Hx [|f] acc seen; [apply s_fuel|].
      eapply s_prefix; [exact Ho|exact Hlb|no_prefix Ht..|]. intros _. unfold rest_of_item. unfold is in Ht. rewrite Ht.
      destruct Hx as [|u l2 Nu]; [apply s_peek_end|]. apply s_peek_expect. unfold is in Nu.
      destruct (tk_kind u) eqn:E; try (quiet; quiet; halt); exfalso; apply Nu; auto.
    - intros l o l1 lb r t s q l2 st Ho Hlb Ht Hq Hx [|f] acc seen; [apply s_fuel|].
      eapply s_prefix; [exact Ho|exact Hlb|no_prefix Ht..|]. intros [Hg _]. unfold rest_of_item. unfold is in Ht, Hq. rewrite Ht.
      apply s_peek_expect. rewrite Hq. apply s_skip.
      eapply s_checks; [apply check_property; eapply ok_ident; eassumption|]. apply s_first, s_values, Hx.
    - intros l o l1 lb r t s b l2 st Ho Hlb Ht Hb _ IH [|f] acc seen; [apply s_fuel|].
      eapply s_prefix; [exact Ho|exact Hlb|no_prefix Ht..|]. intros [Hg _]. unfold rest_of_item. pose proof Hb as Hb'. unfold is in Ht, Hb. rewrite Ht.
      apply s_peek_expect. rewrite Hb. eapply s_checks; [apply check_node, nn_valid_of; eapply ok_ident; eassumption|].
      eapply s_then; [apply y_runs; [apply runs_expect; exact Hb'|intros K; inversion K; assumption]|]. apply s_first, IH. reflexivity.
  Qed.
  Lemma s_block l st : x_block src resumes l st -> forall f, stops (t_node_payload src rl f) l st.
  Proof.
    intros [l0 st0 Hx|b l0 st0 Hb Hx] f; unfold t_node_payload.
    - apply s_first. intros Ho ds. right. destruct Hx as [|t l0 N]; [eexists _, _; split; [reflexivity|apply eof_halts]|].
      unfold t_expect, t_bind, t_cur_pos, t_next, t_ret, t_source. cbn [t_toks hd_error t_diags tl]. rewrite kind_eqb_false by exact N.
      eexists _, _. split; [reflexivity|]. split; [reflexivity|]. split; [reflexivity|]. split; [right; reflexivity|reflexivity].
    - eapply s_then; [apply y_runs; [apply runs_expect; exact Hb|intros K; inversion K; assumption]|]. exact (proj1 s_body_item _ _ Hx _ _ _ eq_refl).
  Qed.
  Lemma s_memreserve l st : x_number l st -> stops (t_memreserve_number src) l st.
  Proof.
    intros [|t l0 N]; unfold t_memreserve_number; [apply s_next_end|]. apply s_next. intros _.
    destruct (tk_kind t) eqn:E; try (quiet; quiet; halt). exfalso. apply N. exists s. exact E.
  Qed.
  Lemma s_parse_reference l st : x_reference l st -> stops (t_parse_reference src) l st.
  Proof.
    intros [|t l0 N]; unfold t_parse_reference; [apply s_next_end|]. apply s_next. intros _.
    destruct (tk_kind t) eqn:E; try halt. exfalso. apply N. exists r. exact E.
  Qed.
  Lemma s_primary l st : x_primary src resumes l st -> forall f, stops (t_p_primary src incl rl f) l st.
  Proof.
    intros H f. unfold t_p_primary.
    destruct H as [t l N|t l st Ht Hx|t a n r l st Ht Ha Hx|t l st Ht Hx|t l st Ht Hx|t x ds l st Hr Hx|d l st Hd Hx]; apply s_next; intros Hg.
    - unfold starts_primary, is in N. destruct (tk_kind t) eqn:E; try halt; try (exfalso; apply N; tauto).
      + destruct (str_eqb s (bs "#include")) eqn:Es; [|halt]. exfalso. apply N. apply str_eqb_spec in Es. subst s. tauto.
      + destruct d; try halt; exfalso; apply N; tauto.
      + exfalso. apply N. do 7 right. left. eauto.
    - unfold is in Ht. rewrite Ht. apply s_first, s_memreserve, Hx.
    - unfold is in Ht. rewrite Ht. eapply s_then; [apply y_memreserve; exact Ha|]. apply s_first, s_memreserve, Hx.
    - unfold is in Ht. destruct Ht as [Ht|Ht]; rewrite Ht.
      + destruct Hx as [|u l N]; [apply s_next_end|]. apply s_next. intros _. destruct (tk_kind u) eqn:E; try halt. exfalso. apply N. exists s. exact E.
      + change (str_eqb (bs "#include") (bs "#include")) with true. cbn iota.
        destruct Hx as [|u l N]; [apply s_next_end|]. apply s_next. intros _. destruct (tk_kind u) eqn:E; try halt. exfalso. apply N. exists s. exact E.
    - unfold is in Ht. rewrite Ht. apply s_first, s_block, Hx.
    - assert (E : exists s, is (Ref s) t) by (destruct Hr; eauto). destruct E as [s E]. pose proof E as E'. unfold is in E'. rewrite E'.
      eapply s_then; [exact (y_reference src X t s x ds l (proj1 Hg) E Hr)|]. apply s_first, s_block, Hx.
    - unfold is in Hd. destruct Hd as [Hd|Hd]; rewrite Hd; apply s_first, s_parse_reference, Hx.
  Qed.
  Lemma s_file_loop l st : x_file src incl resumes l st -> forall f acc, stops (t_file_loop src incl rl f acc) l st.
  Proof.
    induction 1 as [l st Hx|l p l' r st Hp _ IH]; intros [|f] acc; cbn [t_file_loop]; try apply s_fuel.
    - assert (E : exists t q, l = t :: q) by (destruct Hx; eauto). destruct E as (t & q & ->). quiet. cbn [hd_error]. apply s_first, s_primary, Hx.
    - pose proof Hp as Hp'. destruct (k_primary_nonempty _ _ _ _ _ _ _ Hp) as (t & q & ->). quiet. cbn [hd_error].
      eapply s_then; [apply (y_primary src incl resumes rl X rl_ok resumes_iff); exact Hp'|]. apply IH.
  Qed.
  Lemma s_file f l st : x_file src incl resumes l st -> stops (t_p_file src incl rl f) l st.
  Proof. intros H. unfold t_p_file. apply s_first, s_file_loop, H. Qed.
End Refuse.
