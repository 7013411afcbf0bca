(** The whole language that the tool reads: the grammar with every mistake that does not stop it, and what it says *)
From Verif Require Import Parser LexSpec Utf8 LexerProofs Grammar NameProofs NumProofs ParserSafe TokParser ParserSim GrammarComplete GrammarSound
  Utf8Adequacy NameReport NumReport.

(** ** Specification *)
(** a diagnostic, or that a semicolon is missing (at a place that the tokens do not determine) *)
Inductive remark := Exactly (d : diag) | NoSemicolon.

Section ForgivingGrammar.
  (** [resumes u l]: the tokens after the unknown character [u] where a semicolon was expected *)
  Context (src : fpath) (incl : list fpath) (resumes : token -> list token -> Prop).
  Definition wanted (what : str) (t : token) : remark := Exactly (mkDiag Expected (tk_span t) (tk_source t) what).
  Definition unreadable (why : str) (t : token) : remark := Exactly (mkDiag IntError (tk_span t) (tk_source t) why).
  Definition no_label (l : list token) : Prop := forall t r s, l = t :: r -> ~ is (Label s) t.

  (** a label where it means nothing *)
  Inductive k_skip : list token -> list token -> Prop :=
  | ks_none l : no_label l -> k_skip l l
  | ks_label t s l : is (Label s) t -> k_skip (t :: l) l.

  Inductive k_reference : token -> reference -> list diag -> Prop :=
  | kr_label s t ds : is (Ref (TRefSimple s)) t -> label_report src t s ds -> k_reference t (RefLabel s) ds
  | kr_path s p t ds : is (Ref (TRefPath s)) t -> s <> [] -> path_text s p -> path_report src t p ds -> k_reference t (RefPath p) ds
  | kr_empty t : is (Ref (TRefPath [])) t ->
      k_reference t (RefPath []) [mkDiag PathCannotBeEmpty (tk_span t) (tk_source t) (bs "Path cannot be empty")].

  (** a number below [b]; any other counts as zero *)
  Inductive k_number (b : N) (t : token) : N -> list remark -> Prop :=
  | kn_number s n : is (UnparsedNumber s) t -> literal s n -> n < b -> k_number b t n []
  | kn_bad s why : is (UnparsedNumber s) t -> number_complaint b s why -> k_number b t 0 [unreadable why t].

  Inductive k_cell : list token -> cell -> list token -> list remark -> Prop :=
  | kc_number t n l r : k_number (2 ^ 32) t n r -> k_cell (t :: l) (CNumber (mkWT n t)) l r
  | kc_reference t x l ds : k_reference t x ds -> k_cell (t :: l) (CReference (mkWT x t)) l (map Exactly ds)
  | kc_expression t l u l' : is OpenParen t -> is CloseParen u -> parens l (u :: l') -> k_cell (t :: l) CExpression l' [].
  Definition no_cell (t : token) : Prop :=
    (forall s, ~ is (UnparsedNumber s) t) /\ (forall r, ~ is (Ref r) t) /\ ~ is OpenParen t /\ ~ is ChevronRight t.
  (** between chevrons: anything that is no cell is passed over *)
  Inductive k_cells : list token -> list cell -> token -> list token -> list remark -> Prop :=
  | kcs_nil l t l' : k_skip l (t :: l') -> is ChevronRight t -> k_cells l [] t l' []
  | kcs_cons l l1 c l2 r cs t l' r' : k_skip l l1 -> k_cell l1 c l2 r -> k_cells l2 cs t l' r' ->
      k_cells l (c :: cs) t l' (r ++ r')
  | kcs_other l b l2 cs t l' r' : k_skip l (b :: l2) -> no_cell b -> k_cells l2 cs t l' r' ->
      k_cells l cs t l' (wanted (bs "Expected one of number, reference, '('") b :: r').

  (** an element of a byte string; what is no sequence of bytes counts as empty *)
  Inductive k_element (t : token) : str -> list remark -> Prop :=
  | kl_bytes s b : element_text t s -> byte_text s b -> k_element t b []
  | kl_odd s : element_text t s -> Nat.odd (length s) = true ->
      k_element t [] [Exactly (mkDiag OddNumberOfBytestringElements (tk_span t) (tk_source t) (bs "Number of elements in byte string must be even"))]
  | kl_bad s : element_text t s -> Nat.even (length s) = true -> (forall b, ~ byte_text s b) ->
      k_element t [] [unreadable (bs "invalid digit found in string") t]
  | kl_other : (forall s, ~ element_text t s) -> ~ is CloseBracket t -> k_element t [] [wanted (bs "Expected one of number, identifier") t].
  Inductive k_bytes : list token -> list (wtok str) -> token -> list token -> list remark -> Prop :=
  | kbs_nil l t l' : k_skip l (t :: l') -> is CloseBracket t -> k_bytes l [] t l' []
  | kbs_cons l e b l2 r ws t l' r' : k_skip l (e :: l2) -> k_element e b r -> k_bytes l2 ws t l' r' ->
      k_bytes l (mkWT b e :: ws) t l' (r ++ r').

  Inductive k_bits : list token -> list token -> list remark -> Prop :=
  | kb_none l : (forall t r, l = t :: r -> ~ is (Directive Bits) t) -> k_bits l l []
  | kb_width d t s l : is (Directive Bits) d -> is (UnparsedNumber s) t -> k_bits (d :: t :: l) l []
  | kb_other d t l : is (Directive Bits) d -> (forall s, ~ is (UnparsedNumber s) t) ->
      k_bits (d :: t :: l) l [wanted (bs "Expected number") t].
  Inductive k_value : list token -> prop_value -> list token -> list remark -> Prop :=
  | kv_string l t s l' r : k_bits l (t :: l') r -> is (TString s) t -> k_value l (PVString (mkWT s t)) l' r
  | kv_reference l t x l' r ds : k_bits l (t :: l') r -> k_reference t x ds ->
      k_value l (PVReference (mkWT x t)) l' (r ++ map Exactly ds)
  | kv_cells l t l1 cs e l' r r' : k_bits l (t :: l1) r -> is ChevronLeft t -> k_cells l1 cs e l' r' ->
      k_value l (PVCells t cs e) l' (r ++ r')
  | kv_bytes l t l1 ws e l' r r' : k_bits l (t :: l1) r -> is OpenBracket t -> k_bytes l1 ws e l' r' ->
      k_value l (PVBytes t ws e) l' (r ++ r').
  Inductive k_values : list token -> list prop_value -> list token -> list remark -> Prop :=
  | kvs_one l l1 v l2 t l3 r : k_skip l l1 -> k_value l1 v l2 r -> k_skip l2 (t :: l3) -> ~ is Comma t -> k_values l [v] (t :: l3) r
  | kvs_cons l l1 v l2 c l3 r vs l' r' : k_skip l l1 -> k_value l1 v l2 r -> k_skip l2 (c :: l3) -> is Comma c ->
      k_values l3 vs l' r' -> k_values l (v :: vs) l' (r ++ r').

  (** the end of a statement; an unknown character in the place of the semicolon is passed over *)
  Inductive k_end : list token -> option token -> list token -> list remark -> Prop :=
  | ke_semicolon t l : is Semicolon t -> k_end (t :: l) (Some t) l []
  | ke_missing l : (forall t r, l = t :: r -> ~ is Semicolon t /\ forall c, ~ is (Unknown c) t) -> k_end l None l [NoSemicolon]
  | ke_unknown u c l l' : is (Unknown c) u -> resumes u l' -> k_end (u :: l) None l' [NoSemicolon].

  Inductive k_label : list token -> option (wtok str) -> list token -> list remark -> Prop :=
  | kl_none l : k_label l None l []
  | kl_some t s l ds : is (Label s) t -> label_report src t s ds -> k_label (t :: l) (Some (mkWT s t)) l (map Exactly ds).
  Definition misplaced_omit (o : option token) : list remark :=
    match o with
    | Some t => [Exactly (mkDiag IncorrectDirective (tk_span t) src (bs "The /omit-if-no-ref/ directive can only be used on nodes"))]
    | None => []
    end.
  (** from the label or the name to the last token *)
  Definition misplaced_property (seen : bool) (lb : option (wtok str)) (t e : token) : list remark :=
    if seen then
      [Exactly (mkDiag PropertyAfterNode
        (mkSpan (tk_start (match lb with Some w => wt_tok w | None => t end)) (tk_end e)) src
        (bs "Properties must be placed before nodes"))]
    else [].
  (** items of braces; [seen]: a node came before *)
  Inductive k_body : list token -> payload -> list token -> list remark -> Prop :=
  | kbo l its r l1 o l2 lb rl c l3 e l4 re :
      k_items false l its l1 r -> g_omit l1 o l2 -> k_label l2 lb (c :: l3) rl -> is CloseBrace c ->
      k_end l3 e l4 re -> k_body l (mkPayload its (last_token e c)) l4 (r ++ rl ++ re)
  with k_items : bool -> list token -> list item -> list token -> list remark -> Prop :=
  | ki_nil seen l : k_items seen l [] l []
  | ki_delete_node seen d t s nm ds l e l1 re its l2 r :
      is (Directive DeleteNode) d -> is (Ident s) t -> node_text s nm -> node_report src t nm ds ->
      k_end l e l1 re -> k_items seen l1 its l2 r ->
      k_items seen (d :: t :: l) (IDeletedNode d (mkWT nm t) :: its) l2 (map Exactly ds ++ re ++ r)
  | ki_delete_property seen d t s ds l e l1 re its l2 r :
      is (Directive DeleteProperty) d -> is (Ident s) t -> property_report src t s ds ->
      k_end l e l1 re -> k_items seen l1 its l2 r ->
      k_items seen (d :: t :: l) (IDeletedProperty d (mkWT s t) :: its) l2 (map Exactly ds ++ re ++ r)
  | ki_property seen l o l0 lb rl t s ds q l1 vs l2 rv e l3 re its l4 r :
      g_omit l o l0 -> k_label l0 lb (t :: q :: l1) rl -> is (Ident s) t -> property_report src t s ds -> is Equal q ->
      k_values l1 vs l2 rv -> k_end l2 e l3 re -> k_items seen l3 its l4 r ->
      k_items seen l (IProperty (mkProp lb (mkWT s t) vs (last_token e q)) :: its) l4
        (rl ++ map Exactly ds ++ rv ++ re ++ misplaced_omit o ++ misplaced_property seen lb t (last_token e q) ++ r)
  | ki_empty_property seen l o l0 lb rl t s ds e l1 its l2 r :
      g_omit l o l0 -> k_label l0 lb (t :: e :: l1) rl -> is (Ident s) t -> property_report src t s ds -> is Semicolon e ->
      k_items seen l1 its l2 r ->
      k_items seen l (IProperty (mkProp lb (mkWT s t) [] e) :: its) l2
        (rl ++ map Exactly ds ++ misplaced_property seen lb t e ++ misplaced_omit o ++ r)
  | ki_node seen l o l1 lb rl t s nm ds b l2 pl l3 rb its l4 r :
      g_omit l o l1 -> k_label l1 lb (t :: b :: l2) rl -> is (Ident s) t -> node_text s nm ->
      node_report src t nm ds -> is OpenBrace b -> k_body l2 pl l3 rb -> k_items true l3 its l4 r ->
      k_items seen l (INode (mkNode lb (mkWT nm t) pl o) :: its) l4 (rl ++ map Exactly ds ++ rb ++ r).

  Inductive k_primary : list token -> primary -> list token -> list remark -> Prop :=
  | kp_header t l e l' r : is (Directive DTSVersionHeader) t -> k_end l e l' r -> k_primary (t :: l) (PDirective (ADtsHeader t)) l' r
  | kp_plugin t l e l' r : is (Directive Plugin) t -> k_end l e l' r -> k_primary (t :: l) (PDirective (APlugin t)) l' r
  | kp_memreserve t a na ra b nb rb l e l' r : is (Directive MemReserve) t -> k_number (2 ^ 64) a na ra -> k_number (2 ^ 64) b nb rb ->
      k_end l e l' r -> k_primary (t :: a :: b :: l) (PDirective (AMemreserve (mkWT na a) (mkWT nb b))) l' (ra ++ rb ++ r)
  | kp_c_include t f s l : is (Ident (bs "#include")) t -> is (TString s) f -> k_primary (t :: f :: l) (PCStyleInclude s) l []
  | kp_include t f s l : is (Directive Include) t -> is (TString s) f -> (forall u r, l = u :: r -> ~ is Semicolon u) ->
      k_primary (t :: f :: l) (PDirective (AInclude (mkInclude t (mkWT s f) incl))) l []
  | kp_include_semicolon t f s e l : is (Directive Include) t -> is (TString s) f -> is Semicolon e ->
      k_primary (t :: f :: e :: l) (PDirective (AInclude (mkInclude t (mkWT s f) incl))) l
        [Exactly (mkDiag ParserError (tk_span e) (tk_source e) (bs "Include directive must not end with a semicolon"))]
  | kp_root t b l pl l' r : is Slash t -> is OpenBrace b -> k_body l pl l' r ->
      k_primary (t :: b :: l) (PRoot (mkNode None (mkWT (mkNN (bs "/") None) t) pl None)) l' r
  | kp_ref_node t x ds b l pl l' r : k_reference t x ds -> is OpenBrace b -> k_body l pl l' r ->
      k_primary (t :: b :: l) (PReferencedNode (mkRefNode (mkWT x t) pl)) l' (map Exactly ds ++ r)
  | kp_delete_node d t x ds l e l' r : is (Directive DeleteNode) d -> k_reference t x ds -> k_end l e l' r ->
      k_primary (d :: t :: l) (PDirective (ADeletedNode d (mkWT x t))) l' (map Exactly ds ++ r)
  | kp_omit d t x ds l e l' r : is (Directive OmitIfNoRef) d -> k_reference t x ds -> k_end l e l' r ->
      k_primary (d :: t :: l) (PDirective (AOmitIfNoRef d (mkWT x t))) l' (map Exactly ds ++ r).
  Inductive k_file : list token -> list primary -> list remark -> Prop :=
  | kf_nil : k_file [] [] []
  | kf_cons l p l' r ps r' : k_primary l p l' r -> k_file l' ps r' -> k_file l (p :: ps) (r ++ r').
End ForgivingGrammar.
Scheme k_body_mut := Induction for k_body Sort Prop
with k_items_mut := Induction for k_items Sort Prop.
Combined Scheme k_body_items_ind from k_body_mut, k_items_mut.

(** ** The parser follows the grammar *)
Section Follow.
  Context (src : fpath) (incl : list fpath) (resumes : token -> list token -> Prop) (rl : position -> list token) (X : token -> Prop).
  Notation good := (fun t => tok_ok t /\ X t).
  Notation ok := (Forall good).
  Hypothesis rl_ok : forall p, ok (rl p).
  Hypothesis resumes_iff : forall u l, X u -> (resumes u l <-> l = rl (tk_end u)).

  Definition heeds (r : remark) (d : diag) : Prop := match r with
    | Exactly d' => d = d' /\ ~ says_semicolon d' /\ dg_kind d' <> UnexpectedEOF
    | NoSemicolon => semi_diag src d
    end.

  (** *** Whatever it reads is derived *)
  Definition gives {A} (m : TM A) (Q : A -> list token -> list remark -> Prop) (l : list token) : Prop :=
    forall ds, match m (mkTS l ds) with
               | TOk a s => exists new rs, t_diags s = ds ++ new /\ Forall2 heeds rs new /\ Q a (t_toks s) rs
               | _ => True
               end.
  Lemma gives_bind {A B} (m : TM A) (k : A -> TM B) Q l :
    gives m (fun a l' r1 => gives (k a) (fun b l'' r2 => Q b l'' (r1 ++ r2)) l') l -> gives (t_bind m k) Q l.
  Proof.
    intros H ds. specialize (H ds). unfold t_bind. destruct (m (mkTS l ds)) as [a [l' ds']|d s|]; auto.
    destruct H as (new & rs & E & F & H). cbn [t_diags t_toks] in *. specialize (H ds'). destruct (k a (mkTS l' ds')) as [b s|d s|]; auto.
    destruct H as (new' & rs' & E' & F' & H). exists (new ++ new'), (rs ++ rs'). split; [rewrite E', E, app_assoc; reflexivity|].
    split; [apply Forall2_app; assumption|exact H].
  Qed.
  Lemma gives_conseq {A} (m : TM A) (Q Q' : A -> list token -> list remark -> Prop) l :
    gives m Q l -> (forall a l' rs, Q a l' rs -> Q' a l' rs) -> gives m Q' l.
  Proof.
    intros H Hq ds. specialize (H ds). destruct (m (mkTS l ds)); auto. destruct H as (new & rs & E & F & H). eauto 6.
  Qed.
  Lemma gives_ret {A} (a : A) (Q : A -> list token -> list remark -> Prop) l : Q a l [] -> gives (t_ret a) Q l.
  Proof. intros H ds. exists [], []. rewrite app_nil_r. auto. Qed.
  Lemma gives_throw {A} d Q l : gives (@t_throw A d) Q l.
  Proof. intros ds. exact I. Qed.
  Lemma gives_bad {A} Q l : gives (@t_no_fuel A) Q l.
  Proof. intros ds. exact I. Qed.
  Lemma gives_push d r (Q : unit -> list token -> list remark -> Prop) l : heeds r d -> Q tt l [r] -> gives (t_push d) Q l.
  Proof. intros H Hq ds. exists [d], [r]. split; [reflexivity|]. split; [constructor; [exact H|constructor]|exact Hq]. Qed.
  (** sequencing with what is taken for granted *)
  Lemma gives_quiet {A B} (m : TM A) (k : A -> TM B) Q l a l' : (forall ds, m (mkTS l ds) = TOk a (mkTS l' ds)) ->
    gives (k a) Q l' -> gives (t_bind m k) Q l.
  Proof. intros Hm Hk ds. unfold t_bind. rewrite Hm. apply Hk. Qed.
  Ltac silent := eapply gives_quiet;
    [intros ?ds; lazy beta iota zeta delta [t_peek t_next t_skip_tok t_expect_next t_peek_expect t_bind t_cur_pos t_last_pos t_source t_ret t_here
       t_relex t_throw t_include_paths hd_error tl t_toks t_diags semicolon_skips]; reflexivity|].
  Lemma gives_next {A} (k : token -> TM A) Q l : ok l ->
    (forall t l', l = t :: l' -> good t -> ok l' -> gives (k t) Q l') -> gives (let^ t := t_expect_next src in k t) Q l.
  Proof.
    intros Hl Hk. destruct l as [|t l]; [intros ds; exact I|]. inversion Hl as [|? ? Ht Hl']; subst.
    silent. apply Hk; auto.
  Qed.
  Lemma gives_peek_expect {A} (k : token -> TM A) Q l :
    (forall t l', l = t :: l' -> gives (k t) Q l) -> gives (let^ t := t_peek_expect src in k t) Q l.
  Proof.
    intros Hk. destruct l as [|t l]; [intros ds; exact I|]. silent. eapply Hk. reflexivity.
  Qed.
  Lemma gives_skip_tok {A} (k : TM A) Q t l : gives k Q l -> gives (t_skip_tok ;^ k) Q (t :: l).
  Proof. intros Hk. silent; exact Hk. Qed.
  Lemma gives_then {A B} (m : TM A) (k : A -> TM B) (R : A -> list token -> list remark -> Prop) Q l :
    gives m R l -> (forall a l' r, R a l' r -> gives (k a) (fun b l'' r2 => Q b l'' (r ++ r2)) l') -> gives (t_bind m k) Q l.
  Proof. intros Hm Hk. apply gives_bind. eapply gives_conseq; [exact Hm|]. exact Hk. Qed.

  Lemma naming_heeds new : filter naming new = new -> Forall2 heeds (map Exactly new) new.
  Proof.
    induction new as [|d new IH]; cbn [filter]; intros H; [constructor|].
    destruct (naming d) eqn:E.
    - injection H as H. constructor; [|auto]. split; [reflexivity|]. unfold naming in E. split; [intros [K _]|intros K]; rewrite K in E; discriminate.
    - exfalso. assert (L : forall l, (length (filter naming l) <= length l)%nat).
      { induction l as [|x l IHl]; cbn; [lia|]. destruct (naming x); cbn; lia. }
      specialize (L new). rewrite H in L. cbn [length] in L. lia.
  Qed.
  Lemma gives_checks {A} (m : TM unit) (k : TM A) R Q l : checks m R ->
    (forall new, R new -> gives k (fun b l' d => Q b l' (map Exactly new ++ d)) l) -> gives (m ;^ k) Q l.
  Proof.
    intros Hm Hk. apply gives_bind. intros ds. destruct (Hm (mkTS l ds)) as (a & Ea & Ha & Fa). rewrite Ea.
    exists a, (map Exactly a). cbn [t_toks t_diags]. split; [reflexivity|]. split; [apply naming_heeds; exact Fa|]. apply Hk. exact Ha.
  Qed.

  (** *** Values *)
  Lemma gives_skip_label l : ok l -> gives t_skip_optional_label (fun _ l' r => r = [] /\ k_skip l l' /\ ok l') l.
  Proof.
    intros Ho. unfold t_skip_optional_label. destruct l as [|t l].
    { silent. cbn [hd_error]. apply gives_ret. split; [reflexivity|]. split; [|exact Ho].
      apply ks_none. intros u r s E. discriminate E. }
    silent. cbn [hd_error].
    destruct (tk_kind t) eqn:E;
      try (apply gives_ret; split; [reflexivity|]; split; [|exact Ho]; apply ks_none; intros u' r' s' E'; injection E' as <- <-;
           unfold is; rewrite E; discriminate).
    intros ds. exists [], []. rewrite app_nil_r. split; [reflexivity|]. split; [constructor|]. split; [reflexivity|].
    split; [apply (ks_label t s); exact E|]. inversion Ho; assumption.
  Qed.
  Lemma valid_label t s : tok_ok t -> is (Ref (TRefSimple s)) t -> valid_utf8 s = true.
  Proof. unfold tok_ok, is. intros H E. rewrite E in H. eapply ascii_valid; [|exact H]. exact label_char_ascii. Qed.
  Lemma gives_reference t r l : tok_ok t -> is (Ref r) t ->
    gives (t_p_reference src t r) (fun w l' rs => l' = l /\ exists x ds, w = mkWT x t /\ k_reference src t x ds /\ rs = map Exactly ds) l.
  Proof.
    intros Ht E. unfold t_p_reference. destruct r as [s|s].
    - eapply gives_checks; [apply check_label; eapply valid_label; eassumption|]. intros new Hn. apply gives_ret.
      split; [reflexivity|]. exists (RefLabel s), new. rewrite app_nil_r. split; [reflexivity|]. split; [|reflexivity]. eapply kr_label; eassumption.
    - assert (Hs : valid_utf8 s = true) by (unfold tok_ok in Ht; unfold is in E; rewrite E in Ht; exact Ht).
      assert (Hp : path_text s (npath_of s)) by (apply path_text_iff; reflexivity).
      destruct s as [|c s].
      + eapply (gives_checks _ _ (fun d => d = [_])); [apply checks_push; reflexivity|]. intros new ->.
        cbn [npath_of]. eapply (gives_checks _ _ (fun d => d = [])); [apply checks_ret; reflexivity|]. intros new ->.
        apply gives_ret. split; [reflexivity|]. eexists (RefPath []), _. split; [reflexivity|]. split; [apply kr_empty; exact E|reflexivity].
      + silent.
        eapply gives_checks; [apply check_path; eapply path_valid; [exact Hp|exact Hs]|]. intros new Hn. apply gives_ret.
        split; [reflexivity|]. eexists (RefPath _), new. rewrite app_nil_r. split; [reflexivity|]. split; [|reflexivity].
        eapply kr_path; [exact E|discriminate|exact Hp|exact Hn].
  Qed.
  Lemma gives_int b t s l (K : wtok N -> list remark -> Prop) : 0 < b -> tok_ok t -> is (UnparsedNumber s) t ->
    (forall n r, k_number b t n r -> K (mkWT n t) r) ->
    forall A (f : wtok N -> A) (Q : A -> list token -> list remark -> Prop), (forall w r, K w r -> Q (f w) l r) ->
    gives (match parse_number b s with
           | IntOk n => t_ret (f (mkWT n t))
           | IntErr e => t_push (diag_int_error (tk_span t) (tk_source t) e) ;^ t_ret (f (mkWT 0 t))
           end) Q l.
  Proof.
    intros Hb Ht E HK A f Q HQ. unfold tok_ok in Ht. pose proof E as E'. unfold is in E'. rewrite E' in Ht. destruct Ht as [H1 H2].
    destruct (parse_number b s) as [n|e] eqn:En.
    - apply parse_number_iff in En; auto. destruct En. apply gives_ret, HQ, HK. econstructor; eassumption.
    - apply gives_bind. apply (gives_push _ (unreadable (int_error_msg e) t)); [split; [reflexivity|]; split; [intros [K0 _]; discriminate K0|discriminate]|].
      apply gives_ret, HQ, HK. eapply kn_bad; [exact E|]. apply number_err_iff; auto. exists e. split; [exact En|reflexivity].
  Qed.
  Lemma skip_quiet f : forall n l ds a s, t_skip_expression f n (mkTS l ds) = TOk a s -> t_diags s = ds.
  Proof.
    induction f as [|f IH]; intros n l ds a s E; cbn [t_skip_expression] in E; [discriminate|].
    unfold t_bind, t_peek, t_skip_tok, t_next, t_ret in E. cbn [t_toks t_diags] in E. destruct (hd_error l) as [u|]; [|injection E as <- <-; reflexivity].
    unfold t_bind in E. cbn [t_toks t_diags] in E. destruct (tk_kind u); try (eapply IH; exact E).
    destruct (n =? 1); [injection E as <- <-; reflexivity|eapply IH; exact E].
  Qed.
  Lemma parens_good l l' : parens l l' -> ok l -> ok l'.
  Proof.
    induction 1; intros Ho; [exact Ho|inversion Ho; subst; auto|]. inversion Ho as [|? ? Hg Hr]; subst.
    apply IHparens2. specialize (IHparens1 Hr). inversion IHparens1; subst. assumption.
  Qed.
  Lemma gives_cell f l : ok l -> gives (t_number_u32 src f) (fun c l' r => l' = [] \/ (k_cell src l c l' r /\ ok l')) l.
  Proof.
    intros Ho. unfold t_number_u32. apply gives_next; [exact Ho|]. intros t l' -> [Ht Hx] Hl.
    destruct (tk_kind t) eqn:E; try (apply gives_throw).
    - intros ds. unfold t_bind. destruct (t_skip_expression f 1 (mkTS l' ds)) as [u [l1 ds1]|d s1|] eqn:Es; [|exact I|exact I].
      pose proof (skip_quiet _ _ _ _ _ _ Es) as E1. cbn [t_diags] in E1. subst ds1. unfold t_peek. cbn [t_toks].
      destruct l1 as [|x l1]; cbn [hd_error].
      + unfold t_push, t_ret. cbn [t_toks t_diags]. eexists [_], [Exactly _]. split; [reflexivity|]. split; [|left; reflexivity].
        constructor; [|constructor]. split; [reflexivity|]; split; [intros [K _]; discriminate K|discriminate].
      + unfold t_ret. exists [], []. rewrite app_nil_r. cbn [t_diags t_toks]. split; [reflexivity|]. split; [constructor|]. right.
        assert (Hc : cl (t_skip_expression f 1) l' u (x :: l1)) by (exists ds; exact Es).
        apply cl_skip_expression in Hc; [|exact incl|lia|discriminate]. change (N.to_nat 1) with 1%nat in Hc.
        inversion Hc as [|n l2 v l3 l4 Hp Hu Hz]; subst. inversion Hz; subst.
        split; [eapply kc_expression; eassumption|]. apply parens_good in Hp; [|exact Hl]. inversion Hp; assumption.
    - eapply (gives_int u32_lim t s l' (fun w r => k_cell src (t :: l') (CNumber w) l' r)); [reflexivity|exact Ht|exact E|intros; constructor; assumption|].
      intros w r H. right. auto.
    - eapply gives_then; [apply gives_reference; [exact Ht|exact E]|]. intros w l1 rs (-> & x & ds & -> & Hr & ->). apply gives_ret.
      rewrite app_nil_r. right. split; [constructor; exact Hr|exact Hl].
  Qed.
  Lemma number_err f t l ds d s : t_number_u32 src f (mkTS (t :: l) ds) = TErr d s ->
    s = mkTS l ds /\ d = mkDiag Expected (tk_span t) (tk_source t) (bs "Expected one of number, reference, '('")
    /\ (forall s, ~ is (UnparsedNumber s) t) /\ (forall r, ~ is (Ref r) t) /\ ~ is OpenParen t.
  Proof.
    unfold t_number_u32, t_bind at 1. unfold t_expect_next, t_bind at 1 2, t_cur_pos, t_next, t_source, t_ret at 1 2. cbn [t_toks t_diags hd_error tl].
    unfold t_bind at 1, t_ret at 1. unfold t_ret at 1. unfold is.
    destruct (tk_kind t) eqn:E;
      try (intros E1; injection E1 as <- <-; split; [reflexivity|]; split; [reflexivity|]; split; [intros; discriminate|]; split; [intros; discriminate|discriminate]);
      intros E1; exfalso; revert E1.
    - apply (sure_bind (t_skip_expression f 1)); [apply sure_expression|]. intros _ st d1 st1. unfold t_bind, t_peek.
      destruct (hd_error (t_toks st)); discriminate.
    - destruct (parse_number u32_lim s0); discriminate.
    - apply (sure_bind (t_p_reference src t r)); [apply sure_reference|]. intros ? ? ? ?. discriminate.
  Qed.
  Lemma k_cells_nonempty l cs e l' r : k_cells src l cs e l' r -> l <> [].
  Proof.
    assert (G : forall a b, k_skip a b -> b <> [] -> a <> []) by (intros a b [] ?; [assumption|discriminate]).
    destruct 1; (eapply G; [eassumption|]); try discriminate.
    match goal with H : k_cell _ _ _ _ _ |- _ => destruct H; discriminate end.
  Qed.
  Lemma gives_cells f : forall acc l, ok l ->
    gives (t_cells_loop src f acc) (fun p l' r => ok l' /\ exists cs e, p = (acc ++ cs, e) /\ k_cells src l cs e l' r) l.
  Proof.
    induction f as [|f IH]; intros acc l Ho; cbn [t_cells_loop]; [apply gives_bad|].
    eapply gives_then; [apply gives_skip_label; exact Ho|]. intros _ l1 r (-> & Hk & Ho1). cbn [app].
    apply gives_peek_expect. intros t l2 ->. destruct (kind_eqb_spec (tk_kind t) ChevronRight) as [E|E].
    - apply gives_next; [exact Ho1|]. intros t' l3 Et [_ _] Hl3. injection Et as <- <-. apply gives_ret. split; [exact Hl3|].
      exists [], t. rewrite app_nil_r. split; [reflexivity|]. apply kcs_nil; assumption.
    - intros ds. unfold t_catch. pose proof (gives_cell f (t :: l2) Ho1 ds) as G.
      destruct (t_number_u32 src f (mkTS (t :: l2) ds)) as [c [l3 ds3]|d s3|] eqn:En; [| |exact I].
      + destruct G as (new & rs & E1 & F1 & G). cbn [t_diags t_toks] in *. subst ds3. destruct G as [->|[Hc Ho3]].
        { pose proof (IH (acc ++ [c]) [] (Forall_nil _) (ds ++ new)) as G. destruct (t_cells_loop src f (acc ++ [c]) (mkTS [] (ds ++ new))); auto.
          destruct G as (? & ? & _ & _ & _ & cs & e & _ & K). apply k_cells_nonempty in K. contradiction. }
        pose proof (IH (acc ++ [c]) l3 Ho3 (ds ++ new)) as G. destruct (t_cells_loop src f (acc ++ [c]) (mkTS l3 (ds ++ new))) as [p s4| |]; auto.
        destruct G as (new' & rs' & E2 & F2 & Ho4 & cs & e & -> & K). exists (new ++ new'), (rs ++ rs').
        split; [rewrite E2, app_assoc; reflexivity|]. split; [apply Forall2_app; assumption|]. split; [exact Ho4|]. exists (c :: cs), e.
        rewrite <- app_assoc. split; [reflexivity|]. eapply kcs_cons; eassumption.
      + clear G. apply number_err in En. destruct En as (-> & -> & N1 & N2 & N3). unfold t_bind, t_push. cbn [t_toks t_diags].
        inversion Ho1 as [|? ? _ Ho2]; subst.
        match goal with |- context [t_cells_loop src f acc (mkTS l2 ?x)] => pose proof (IH acc l2 Ho2 x) as G; destruct (t_cells_loop src f acc (mkTS l2 x)) as [p s4| |]; auto end.
        destruct G as (new' & rs' & E2 & F2 & Ho4 & cs & e & -> & K). eexists (_ :: new'), (wanted _ t :: rs').
        split; [rewrite E2, <- app_assoc; reflexivity|]. split; [constructor; [|exact F2]|].
        { split; [reflexivity|]. split; [intros [_ K1]; discriminate K1|discriminate]. }
        split; [exact Ho4|]. exists cs, e. split; [reflexivity|]. eapply kcs_other; [exact Hk| |exact K]. split; [exact N1|]. split; [exact N2|]. split; [exact N3|exact E].
  Qed.
  Lemma gives_element l t l' : l = t :: l' -> ok l -> ~ is CloseBracket t ->
    gives (t_byte_string src) (fun w l'' r => l'' = l' /\ exists b, w = mkWT b t /\ k_element t b r) l.
  Proof.
    intros El Ho Nc. unfold t_byte_string. apply gives_next; [exact Ho|]. intros t' l2 Et [Ht Hx] Hl. rewrite El in Et. injection Et as <- <-.
    assert (G : forall s, element_text t s -> Forall (fun c => c < 128) s ->
      gives (if negb (Nat.even (length s)) then
               t_push (diag_from_token t OddNumberOfBytestringElements (bs "Number of elements in byte string must be even")) ;^
               t_ret (mkWT [] t)
             else match decode_pairs s with
                  | Done (inl b) => t_ret (mkWT b t)
                  | Done (inr e) => t_push (diag_int_error (tk_span t) (tk_source t) e) ;^ t_ret (mkWT [] t)
                  | Panic => t_panic
                  | NoFuel => t_no_fuel
                  end) (fun w l'' r => l'' = l' /\ exists b, w = mkWT b t /\ k_element t b r) l').
    { intros s Hs Ha. destruct (Nat.even (length s)) eqn:Ee; cbn [negb].
      - destruct (decode_pairs s) as [[b|e]| |] eqn:Ed; try (intros ds; exact I).
        + apply gives_ret. split; [reflexivity|]. exists b. split; [reflexivity|]. eapply kl_bytes; [exact Hs|]. apply decode_pairs_iff; auto.
        + apply gives_bind. pose proof (decode_err _ _ Ed) as ->.
          apply (gives_push _ (unreadable (bs "invalid digit found in string") t)); [split; [reflexivity|]; split; [intros [K _]; discriminate K|discriminate]|]. apply gives_ret. split; [reflexivity|].
          exists []. split; [reflexivity|]. eapply kl_bad; [exact Hs|exact Ee|]. intros b Hb. apply (decode_pairs_iff s b Ha) in Hb.
          destruct Hb as [_ Hb]. congruence.
      - apply gives_bind. eapply gives_push; [|apply gives_ret; split; [reflexivity|]; exists []; split; [reflexivity|]; eapply kl_odd; [exact Hs|]].
        + split; [reflexivity|]. split; [intros [K _]; discriminate K|discriminate].
        + unfold Nat.odd. rewrite Ee. reflexivity. }
    unfold tok_ok in Ht. destruct (tk_kind t) eqn:E;
      try (apply gives_bind; eapply gives_push; [|apply gives_ret; split; [reflexivity|]; exists []; split; [reflexivity|]; apply kl_other; [|exact Nc]];
           [split; [reflexivity|]; split; [intros [_ K]; discriminate K|discriminate]|intros s' [K|K]; unfold is in K; congruence]).
    - apply G; [right; exact E|exact Ht].
    - apply G; [left; exact E|]. eapply Forall_impl; [|apply Ht]. exact alnum_ascii.
  Qed.
  Lemma gives_bytes f : forall acc l, ok l ->
    gives (t_bytes_loop src f acc) (fun p l' r => ok l' /\ exists ws e, p = (acc ++ ws, e) /\ k_bytes l ws e l' r) l.
  Proof.
    induction f as [|f IH]; intros acc l Ho; cbn [t_bytes_loop]; [apply gives_bad|].
    eapply gives_then; [apply gives_skip_label; exact Ho|]. intros _ l1 r (-> & Hk & Ho1). cbn [app].
    apply gives_peek_expect. intros t l2 ->. inversion Ho1 as [|? ? _ Ho2]; subst.
    destruct (kind_eqb_spec (tk_kind t) CloseBracket) as [E|E].
    - apply gives_skip_tok. apply gives_ret. split; [exact Ho2|].
      exists [], t. rewrite app_nil_r. split; [reflexivity|]. apply kbs_nil; assumption.
    - eapply gives_then; [eapply gives_element; [reflexivity|exact Ho1|exact E]|]. intros w l3 r (-> & b & -> & He).
      eapply gives_conseq; [apply IH; exact Ho2|]. cbn beta. intros p l4 r' (Ho4 & ws & e & -> & K). split; [exact Ho4|].
      exists (mkWT b t :: ws), e. rewrite <- app_assoc. split; [reflexivity|]. eapply kbs_cons; eassumption.
  Qed.
  Lemma gives_bits l : ok l -> gives (t_bits_prefix src) (fun _ l' r => k_bits l l' r /\ ok l') l.
  Proof.
    intros Ho. unfold t_bits_prefix. destruct l as [|d l].
    { silent. cbn [hd_error]. apply gives_ret. split; [|exact Ho]. apply kb_none. intros t r E. discriminate E. }
    silent. cbn [hd_error]. inversion Ho as [|? ? _ Ho1]; subst.
    destruct (kind_eqb_spec (tk_kind d) (Directive Bits)) as [E|E].
    - apply gives_skip_tok. apply gives_next; [exact Ho1|]. intros t l1 -> _ Ho2.
      destruct (tk_kind t) eqn:E';
        try (eapply gives_push; [|split; [apply kb_other; [exact E|intros s'; unfold is; rewrite E'; discriminate]|exact Ho2]];
             split; [reflexivity|]; split; [intros [_ K]; discriminate K|discriminate]).
      apply gives_ret. split; [eapply kb_width; eassumption|exact Ho2].
    - apply gives_ret. split; [|exact Ho]. apply kb_none. intros t r K. injection K as <- <-. exact E.
  Qed.
  Lemma gives_value f l : ok l -> gives (t_property_value src f) (fun v l' r => k_value src l v l' r /\ ok l') l.
  Proof.
    intros Ho. unfold t_property_value. eapply gives_then; [apply gives_bits; exact Ho|]. intros _ l1 r (Hb & Ho1).
    apply gives_next; [exact Ho1|]. intros t l2 -> [Ht Hx] Ho2.
    destruct (tk_kind t) eqn:E; try (apply gives_throw).
    - eapply gives_then; [apply gives_bytes; exact Ho2|]. intros p l3 r' (Ho3 & ws & e & -> & K). cbv beta iota. apply gives_ret.
      cbn [app]. rewrite app_nil_r. split; [eapply kv_bytes; eassumption|exact Ho3].
    - eapply gives_then; [apply gives_cells; exact Ho2|]. intros p l3 r' (Ho3 & ws & e & -> & K). cbv beta iota. apply gives_ret.
      cbn [app]. rewrite app_nil_r. split; [eapply kv_cells; eassumption|exact Ho3].
    - apply gives_ret. rewrite app_nil_r. split; [eapply kv_string; eassumption|exact Ho2].
    - eapply gives_then; [apply gives_reference; [exact Ht|exact E]|]. intros w l3 rs (-> & x & ds & -> & Hr & ->). apply gives_ret.
      rewrite app_nil_r. split; [eapply kv_reference; eassumption|exact Ho2].
  Qed.
  Lemma gives_values f : forall acc l, ok l ->
    gives (t_property_values src f acc) (fun p l' r => ok l' /\ exists vs, p = acc ++ vs /\ k_values src l vs l' r) l.
  Proof.
    induction f as [|f IH]; intros acc l Ho; cbn [t_property_values]; [apply gives_bad|].
    eapply gives_then; [apply gives_skip_label; exact Ho|]. intros _ l1 r (-> & Hk & Ho1). cbn [app].
    eapply gives_then; [apply gives_value; exact Ho1|]. intros v l2 r (Hv & Ho2).
    eapply gives_then; [apply gives_skip_label; exact Ho2|]. intros _ l3 r0 (-> & Hk2 & Ho3). cbn [app].
    apply gives_peek_expect. intros t l4 ->. inversion Ho3 as [|? ? _ Ho4]; subst.
    destruct (kind_eqb_spec (tk_kind t) Comma) as [E|E].
    - apply gives_skip_tok. eapply gives_conseq; [apply IH; exact Ho4|]. cbn beta. intros p l5 r' (Ho5 & vs & -> & K). split; [exact Ho5|].
      exists (v :: vs). rewrite <- app_assoc. split; [reflexivity|]. eapply kvs_cons; eassumption.
    - apply gives_ret. rewrite app_nil_r. split; [exact Ho3|]. exists [v]. split; [reflexivity|]. eapply kvs_one; eassumption.
  Qed.

  (** *** Statements *)
  Lemma gives_end l : ok l -> gives (t_expect_semicolon src rl) (fun e l' r => k_end resumes l e l' r /\ ok l') l.
  Proof.
    intros Ho. unfold t_expect_semicolon. destruct l as [|t l].
    { silent. cbn [hd_error]. silent.
      silent. apply gives_bind.
      eapply (gives_push _ NoSemicolon); [eexists; reflexivity|]. apply gives_ret. split; [|constructor]. apply ke_missing. intros t r E. discriminate E. }
    silent. cbn [hd_error]. inversion Ho as [|? ? [Ht Hx] Hl]; subst.
    assert (G : semicolon_skips (tk_kind t) = false -> ~ is Semicolon t ->
      gives (let^ sp := (let^ p := t_here in t_ret (as_char_span p)) in
             let^ src0 := t_source src in t_push (diag_expected sp src0 [Semicolon]) ;^ t_ret None)
        (fun e l' r => k_end resumes (t :: l) e l' r /\ ok l') (t :: l)).
    { intros H1 H2. silent. silent. apply gives_bind.
      eapply (gives_push _ NoSemicolon); [eexists; reflexivity|]. apply gives_ret. split; [|exact Ho]. apply ke_missing.
      intros u r E. injection E as <- <-. split; [exact H2|]. intros c E. unfold is in E. rewrite E in H1. discriminate H1. }
    destruct (tk_kind t) eqn:E; cbn [semicolon_skips] in *; try (apply G; [reflexivity|unfold is; rewrite E; discriminate]).
    - intros ds. exists [], []. rewrite app_nil_r. split; [reflexivity|]. split; [constructor|]. split; [apply ke_semicolon; exact E|exact Hl].
    - exfalso. unfold tok_ok in Ht. rewrite E in Ht. exact Ht.
    - silent. silent. apply gives_bind.
      eapply (gives_push _ NoSemicolon); [eexists; reflexivity|]. apply gives_ret. split; [|apply rl_ok].
      eapply ke_unknown; [exact E|]. apply resumes_iff; [exact Hx|reflexivity].
  Qed.
  Lemma gives_node_name l : ok l -> gives (t_p_node_name src) (fun w l' r => ok l' /\ exists t s nm ds, l = t :: l' /\ w = mkWT nm t
    /\ is (Ident s) t /\ node_text s nm /\ node_report src t nm ds /\ r = map Exactly ds) l.
  Proof.
    intros Ho. unfold t_p_node_name. apply gives_next; [exact Ho|]. intros t l' -> [Ht Hx] Hl.
    destruct (tk_kind t) eqn:E; try (apply gives_throw).
    eapply gives_checks; [apply check_node, nn_valid_of; eapply ok_ident; eassumption|]. intros new Hn. apply gives_ret. split; [exact Hl|].
    eexists t, s, _, new. rewrite app_nil_r. repeat (split; [first [reflexivity|exact E|exact Hn|apply node_text_iff; reflexivity]|]). reflexivity.
  Qed.
  Lemma gives_property_name l : ok l -> gives (t_p_property_name src) (fun w l' r => ok l' /\ exists t s ds, l = t :: l' /\ w = mkWT s t
    /\ is (Ident s) t /\ property_report src t s ds /\ r = map Exactly ds) l.
  Proof.
    intros Ho. unfold t_p_property_name. apply gives_next; [exact Ho|]. intros t l' -> [Ht Hx] Hl.
    destruct (tk_kind t) eqn:E; try (apply gives_throw).
    eapply gives_checks; [apply check_property; eapply ok_ident; eassumption|]. intros new Hn. apply gives_ret. split; [exact Hl|].
    eexists t, s, new. rewrite app_nil_r. repeat (split; [first [reflexivity|exact E|exact Hn]|]). reflexivity.
  Qed.
  Lemma gives_omit_prefix a l : ok (a :: l) ->
    gives (if kind_eqb (tk_kind a) (Directive OmitIfNoRef) then let^ t := t_expect_next src in t_ret (t, Some a) else t_ret (a, None))
      (fun p l' r => r = [] /\ exists o t, p = (t, o) /\ g_omit (a :: l) o (t :: l') /\ ok (t :: l')) l.
  Proof.
    intros Ho. inversion Ho as [|? ? Ha Hl]; subst. destruct (kind_eqb_spec (tk_kind a) (Directive OmitIfNoRef)) as [E|E].
    - apply gives_next; [exact Hl|]. intros t l' -> _ _. apply gives_ret. split; [reflexivity|]. exists (Some a), t.
      split; [reflexivity|]. split; [constructor; exact E|exact Hl].
    - apply gives_ret. split; [reflexivity|]. exists None, a. split; [reflexivity|]. split; [constructor|exact Ho].
  Qed.
  Lemma gives_label_prefix a l : ok (a :: l) ->
    gives (match tk_kind a with
           | Label s => t_check_is_label src (tk_span a) s ;^ let^ t := t_expect_next src in t_ret (t, Some (mkWT s a))
           | _ => t_ret (a, None)
           end)
      (fun p l' r => exists lb t, p = (t, lb) /\ k_label src (a :: l) lb (t :: l') r /\ ok (t :: l')) l.
  Proof.
    intros Ho. inversion Ho as [|? ? [Ha Hx] Hl]; subst.
    destruct (tk_kind a) eqn:E; try (apply gives_ret; exists None, a; split; [reflexivity|]; split; [constructor|exact Ho]).
    eapply gives_checks; [apply check_label; eapply ok_label; eassumption|]. intros new Hn.
    apply gives_next; [exact Hl|]. intros t l' -> _ _. apply gives_ret. rewrite app_nil_r. exists (Some (mkWT s a)), t.
    split; [reflexivity|]. split; [constructor; assumption|exact Hl].
  Qed.
  Lemma gives_check_omit o l : gives (t_check_omit src o) (fun _ l' r => l' = l /\ r = misplaced_omit src o) l.
  Proof.
    destruct o as [t|]; [|apply gives_ret; auto]. cbn [t_check_omit]. silent. eapply gives_push; [|split; reflexivity].
    split; [reflexivity|]. split; [intros [K _]; discriminate K|discriminate].
  Qed.
  Lemma gives_check_order seen lb t s vs e l : gives (t_check_order src seen (mkProp lb (mkWT s t) vs e))
    (fun _ l' r => l' = l /\ r = misplaced_property src seen lb t e) l.
  Proof.
    destruct seen; [|apply gives_ret; auto]. cbn [t_check_order]. silent.
    eapply gives_push; [|split; reflexivity]. split; [destruct lb; reflexivity|]. split; [intros [K _]; discriminate K|discriminate].
  Qed.
  Lemma gives_expect_brace {A} (k : TM A) Q l : ok l ->
    (forall t l', l = t :: l' -> is OpenBrace t -> ok l' -> gives k Q l') -> gives (t_expect src OpenBrace ;^ k) Q l.
  Proof.
    intros Ho Hk. destruct l as [|t l]; [intros ds; exact I|]. inversion Ho as [|? ? _ Hl]; subst. intros ds. unfold t_bind at 1.
    unfold t_expect, t_bind, t_cur_pos, t_next, t_ret, t_source. cbn [t_toks hd_error t_diags tl].
    destruct (kind_eqb_spec (tk_kind t) OpenBrace) as [E|E]; [|exact I]. eapply Hk; [reflexivity|exact E|exact Hl].
  Qed.
  Lemma gives_payload f : forall acc nd l, ok l -> gives (t_payload_loop src rl f acc nd) (fun pl l' r => ok l' /\
    exists its r0 l1 o l2 lb rb c l3 e re, pl = mkPayload (acc ++ its) (last_token e c) /\ k_items src resumes nd l its l1 r0
      /\ g_omit l1 o l2 /\ k_label src l2 lb (c :: l3) rb /\ is CloseBrace c /\ k_end resumes l3 e l' re /\ r = r0 ++ rb ++ re) l.
  Proof.
    induction f as [|f IH]; intros acc nd l Ho; [apply gives_bad|]. cbn [t_payload_loop].
    apply gives_next; [exact Ho|]. intros a l1 -> Ha Ho1.
    destruct (kind_eqb_spec (tk_kind a) (Directive DeleteNode)) as [E1|E1];
      [|destruct (kind_eqb_spec (tk_kind a) (Directive DeleteProperty)) as [E2|E2]].
    - eapply gives_then; [apply gives_node_name; exact Ho1|]. intros w l2 r (Ho2 & t & s & nm & ds & -> & -> & Et & Hn & Hr & ->).
      eapply gives_then; [apply gives_end; exact Ho2|]. intros e0 l3 re0 (He0 & Ho3).
      eapply gives_conseq; [apply IH; exact Ho3|]. cbn beta.
      intros pl l9 r9 (Ho9 & its & r0 & l4 & o & l5 & lb & rb & c & l6 & e & re & -> & Hits & Hom & Hlb & Hc & He & ->). split; [exact Ho9|].
      exists (IDeletedNode a (mkWT nm t) :: its), (map Exactly ds ++ re0 ++ r0), l4, o, l5, lb, rb, c, l6, e, re. rewrite <- !app_assoc.
      split; [reflexivity|]. split; [eapply ki_delete_node; eassumption|]. repeat (split; [assumption|]). reflexivity.
    - eapply gives_then; [apply gives_property_name; exact Ho1|]. intros w l2 r (Ho2 & t & s & ds & -> & -> & Et & Hr & ->).
      eapply gives_then; [apply gives_end; exact Ho2|]. intros e0 l3 re0 (He0 & Ho3).
      eapply gives_conseq; [apply IH; exact Ho3|]. cbn beta.
      intros pl l9 r9 (Ho9 & its & r0 & l4 & o & l5 & lb & rb & c & l6 & e & re & -> & Hits & Hom & Hlb & Hc & He & ->). split; [exact Ho9|].
      exists (IDeletedProperty a (mkWT s t) :: its), (map Exactly ds ++ re0 ++ r0), l4, o, l5, lb, rb, c, l6, e, re. rewrite <- !app_assoc.
      split; [reflexivity|]. split; [eapply ki_delete_property; eassumption|]. repeat (split; [assumption|]). reflexivity.
    - eapply gives_then; [apply gives_omit_prefix; exact Ho|]. intros p l2 r (-> & o0 & t0 & -> & Hom0 & Ho2). cbv beta iota. cbn [app].
      eapply gives_then; [apply gives_label_prefix; exact Ho2|]. intros p l3 rl0 (lb0 & t & -> & Hlb0 & Ho3). cbv beta iota.
      inversion Ho3 as [|? ? [Ht Hx] Ho4]; subst. destruct (tk_kind t) eqn:E; try (apply gives_throw).
      + eapply gives_then; [apply gives_end; exact Ho4|]. intros e l4 re (He & Ho5). apply gives_ret. rewrite app_nil_r. split; [exact Ho5|].
        exists [], [], (a :: l1), o0, (t0 :: l2), lb0, rl0, t, l3, e, re. rewrite app_nil_r.
        split; [destruct e; reflexivity|]. split; [constructor|]. repeat (split; [assumption|]). reflexivity.
      + apply gives_peek_expect. intros t2 l5 ->. inversion Ho4 as [|? ? _ Ho5]; subst.
        destruct (tk_kind t2) eqn:E3;
          try (silent; silent; apply gives_throw).
        * apply gives_skip_tok. eapply gives_checks; [apply check_property; eapply ok_ident; eassumption|]. intros ds Hr.
          eapply gives_then; [apply gives_check_order|]. intros _ l6 r1 (-> & ->).
          eapply gives_then; [apply gives_check_omit|]. intros _ l6 r2 (-> & ->).
          eapply gives_conseq; [apply IH; exact Ho5|]. cbn beta.
          intros pl l9 r9 (Ho9 & its & r0 & l4 & o & l6 & lb & rb & c & l7 & e & re & -> & Hits & Hom & Hlb & Hc & He & ->). split; [exact Ho9|].
          eexists (_ :: its), _, l4, o, l6, lb, rb, c, l7, e, re. rewrite <- app_assoc.
          split; [reflexivity|]. split; [eapply ki_empty_property; eassumption|]. repeat (split; [assumption|]). rewrite <- !app_assoc. reflexivity.
        * apply gives_skip_tok. eapply gives_checks; [apply check_property; eapply ok_ident; eassumption|]. intros ds Hr.
          eapply gives_then; [apply gives_values; exact Ho5|]. intros p l6 rv (Ho6 & vs & -> & Hvs). cbn [app].
          eapply gives_then; [apply gives_end; exact Ho6|]. intros e0 l7 re0 (He0 & Ho7).
          eapply gives_then; [apply gives_check_omit|]. intros _ l8 r2 (-> & ->).
          eapply gives_then; [apply gives_check_order|]. intros _ l8 r1 (-> & ->).
          eapply gives_conseq; [apply IH; exact Ho7|]. cbn beta.
          intros pl l9 r9 (Ho9 & its & r0 & l4 & o & l8 & lb & rb & c & l10 & e & re & -> & Hits & Hom & Hlb & Hc & He & ->). split; [exact Ho9|].
          eexists (_ :: its), _, l4, o, l8, lb, rb, c, l10, e, re. rewrite <- app_assoc.
          split; [reflexivity|]. change (or_token e0 t2) with (last_token e0 t2).
          split; [eapply ki_property; eassumption|]. repeat (split; [assumption|]). rewrite <- !app_assoc. reflexivity.
        * eapply gives_checks; [apply check_node, nn_valid_of; eapply ok_ident; eassumption|]. intros ds Hr.
          apply gives_expect_brace; [exact Ho4|]. intros b l6 Eb Hb _. injection Eb as <- <-.
          eapply gives_then; [apply IH; exact Ho5|].
          intros pl l7 rp (Ho7 & its1 & r1 & l4 & o1 & l8 & lb1 & rb1 & c1 & l10 & e1 & re1 & -> & Hits1 & Hom1 & Hlb1 & Hc1 & He1 & ->). cbn [app].
          eapply gives_conseq; [apply IH; exact Ho7|]. cbn beta.
          intros pl l9 r9 (Ho9 & its & r0 & l11 & o & l12 & lb & rb & c & l13 & e & re & -> & Hits & Hom & Hlb & Hc & He & ->). split; [exact Ho9|].
          eexists (_ :: its), _, l11, o, l12, lb, rb, c, l13, e, re. rewrite <- app_assoc.
          split; [reflexivity|]. split; [eapply ki_node; try eassumption; [apply node_text_iff; reflexivity|eapply kbo; eassumption]|].
          repeat (split; [assumption|]). rewrite <- !app_assoc. reflexivity.
  Qed.
  Lemma gives_node_payload f l : ok l ->
    gives (t_node_payload src rl f) (fun pl l' r => ok l' /\ exists b l1, l = b :: l1 /\ is OpenBrace b /\ k_body src resumes l1 pl l' r) l.
  Proof.
    intros Ho. unfold t_node_payload. apply gives_expect_brace; [exact Ho|]. intros b l1 -> Hb Ho1.
    eapply gives_conseq; [apply gives_payload; exact Ho1|]. cbn beta.
    intros pl l9 r9 (Ho9 & its & r0 & l11 & o & l12 & lb & rb & c & l13 & e & re & -> & Hits & Hom & Hlb & Hc & He & ->). split; [exact Ho9|].
    exists b, l1. split; [reflexivity|]. split; [exact Hb|]. eapply kbo; eassumption.
  Qed.
  Lemma gives_parse_reference l : ok l -> gives (t_parse_reference src)
    (fun w l' r => ok l' /\ exists t x ds, l = t :: l' /\ w = mkWT x t /\ k_reference src t x ds /\ r = map Exactly ds) l.
  Proof.
    intros Ho. unfold t_parse_reference. apply gives_next; [exact Ho|]. intros t l' -> [Ht Hx] Hl.
    destruct (tk_kind t) eqn:E; try (apply gives_throw).
    eapply gives_conseq; [apply gives_reference; [exact Ht|exact E]|]. cbn beta. intros w l1 rs (-> & x & ds & -> & Hr & ->). split; [exact Hl|].
    exists t, x, ds. auto.
  Qed.
  Lemma gives_memreserve l : ok l -> gives (t_memreserve_number src)
    (fun w l' r => ok l' /\ exists t n, l = t :: l' /\ w = mkWT n t /\ k_number (2 ^ 64) t n r) l.
  Proof.
    intros Ho. unfold t_memreserve_number. apply gives_next; [exact Ho|]. intros t l' -> [Ht Hx] Hl.
    destruct (tk_kind t) eqn:E;
      try (silent; silent; apply gives_throw).
    eapply (gives_int u64_lim t s l' (fun w r => exists n, w = mkWT n t /\ k_number (2 ^ 64) t n r) ltac:(reflexivity) Ht E _ _ (fun w => w)).
    intros w r (n & -> & Hn). split; [exact Hl|]. exists t, n. auto.
    Unshelve. intros n r Hn. exists n. auto.
  Qed.
  Lemma gives_primary f l : ok l -> gives (t_p_primary src incl rl f) (fun p l' r => ok l' /\ k_primary src incl resumes l p l' r) l.
  Proof.
    intros Ho. unfold t_p_primary. apply gives_next; [exact Ho|]. intros t l1 -> [Ht Hx] Ho1.
    destruct (tk_kind t) eqn:E; try (apply gives_throw).
    - eapply gives_then; [apply gives_node_payload; exact Ho1|]. intros pl l2 r (Ho2 & b & l3 & -> & Hb & Hp). apply gives_ret. rewrite app_nil_r.
      split; [exact Ho2|]. apply kp_root; assumption.
    - destruct (str_eqb s (bs "#include")) eqn:Es; [|apply gives_throw]. apply str_eqb_spec in Es. subst s.
      apply gives_next; [exact Ho1|]. intros u l2 -> _ Ho2. destruct (tk_kind u) eqn:E2; try (apply gives_throw). apply gives_ret.
      split; [exact Ho2|]. apply kp_c_include; assumption.
    - destruct d; try (apply gives_throw).
      + eapply gives_then; [apply gives_end; exact Ho1|]. intros e l2 r (He & Ho2). apply gives_ret. rewrite app_nil_r. split; [exact Ho2|].
        eapply kp_header; eassumption.
      + eapply gives_then; [apply gives_memreserve; exact Ho1|]. intros wa l2 ra (Ho2 & a & na & -> & -> & Ha).
        eapply gives_then; [apply gives_memreserve; exact Ho2|]. intros wb l3 rb (Ho3 & b & nb & -> & -> & Hb).
        eapply gives_then; [apply gives_end; exact Ho3|]. intros e l4 r (He & Ho4). apply gives_ret. rewrite app_nil_r. split; [exact Ho4|].
        eapply kp_memreserve; eassumption.
      + eapply gives_then; [apply gives_parse_reference; exact Ho1|]. intros w l2 r (Ho2 & u & x & ds & -> & -> & Hr & ->).
        eapply gives_then; [apply gives_end; exact Ho2|]. intros e l4 r (He & Ho4). apply gives_ret. rewrite app_nil_r. split; [exact Ho4|].
        eapply kp_delete_node; eassumption.
      + eapply gives_then; [apply gives_end; exact Ho1|]. intros e l2 r (He & Ho2). apply gives_ret. rewrite app_nil_r. split; [exact Ho2|].
        eapply kp_plugin; eassumption.
      + eapply gives_then; [apply gives_parse_reference; exact Ho1|]. intros w l2 r (Ho2 & u & x & ds & -> & -> & Hr & ->).
        eapply gives_then; [apply gives_end; exact Ho2|]. intros e l4 r (He & Ho4). apply gives_ret. rewrite app_nil_r. split; [exact Ho4|].
        eapply kp_omit; eassumption.
      + apply gives_next; [exact Ho1|]. intros u l2 -> _ Ho2. destruct (tk_kind u) eqn:E2; try (apply gives_throw).
        silent. destruct l2 as [|e l2]; cbn [hd_error].
        * silent. silent. apply gives_ret. split; [exact Ho2|].
          apply kp_include; [exact E|exact E2|]. intros v r K. discriminate K.
        * inversion Ho2 as [|? ? _ Ho3]; subst. destruct (kind_eqb_spec (tk_kind e) Semicolon) as [E3|E3].
          -- apply gives_bind. apply gives_next; [exact Ho2|]. intros e' l3 K _ _. injection K as <- <-.
             eapply gives_push; [|silent; apply gives_ret; split; [exact Ho3|apply kp_include_semicolon; assumption]].
             split; [reflexivity|]. split; [intros [K _]; discriminate K|discriminate].
          -- silent. silent. apply gives_ret. split; [exact Ho2|].
             apply kp_include; [exact E|exact E2|]. intros v r K. injection K as <- <-. exact E3.
    - eapply gives_then; [apply gives_reference; [exact Ht|exact E]|]. intros w l2 rs (-> & x & ds & -> & Hr & ->).
      eapply gives_then; [apply gives_node_payload; exact Ho1|]. intros pl l2 r' (Ho2 & b & l3 & -> & Hb & Hp). apply gives_ret. rewrite app_nil_r.
      split; [exact Ho2|]. apply kp_ref_node; assumption.
  Qed.
  Lemma gives_file_loop f : forall acc l, ok l ->
    gives (t_file_loop src incl rl f acc) (fun p l' r => exists ps, p = acc ++ ps /\ k_file src incl resumes l ps r) l.
  Proof.
    induction f as [|f IH]; intros acc l Ho; cbn [t_file_loop]; [apply gives_bad|].
    silent. destruct l as [|t l]; cbn [hd_error].
    - apply gives_ret. exists []. rewrite app_nil_r. split; [reflexivity|constructor].
    - eapply gives_then; [apply gives_primary; exact Ho|]. intros p l1 r (Ho1 & Hp). eapply gives_conseq; [apply IH; exact Ho1|]. cbn beta.
      intros p' l2 r' (ps & -> & Hps). exists (p :: ps). rewrite <- app_assoc. split; [reflexivity|]. eapply kf_cons; eassumption.
  Qed.
  Lemma gives_file f l : ok l -> gives (t_p_file src incl rl f) (fun p _ r => exists ps, p = mkFile ps src /\ k_file src incl resumes l ps r) l.
  Proof.
    intros Ho. unfold t_p_file. eapply gives_then; [apply gives_file_loop; exact Ho|]. intros p l1 r (ps & -> & Hps). cbn [app].
    silent. apply gives_ret. rewrite app_nil_r. exists ps. auto.
  Qed.

  (** *** Whatever is derived is read *)
  Definition told {A} (x : tres A) (a : A) (l' : list token) (ds : list diag) (r : list remark) : Prop :=
    x = TBad \/ exists new, x = TOk a (mkTS l' (ds ++ new)) /\ Forall2 heeds r new.
  Definition yields {A} (m : TM A) (l : list token) (a : A) (l' : list token) (r : list remark) : Prop :=
    ok l -> ok l' /\ forall ds, told (m (mkTS l ds)) a l' ds r.
  Lemma y_bind {A B} (m : TM A) (k : A -> TM B) l a l' b l'' r r' :
    yields m l a l' r -> yields (k a) l' b l'' r' -> yields (t_bind m k) l b l'' (r ++ r').
  Proof.
    intros Hm Hk Ho. destruct (Hm Ho) as [Ho1 H1]. destruct (Hk Ho1) as [Ho2 H2]. split; [exact Ho2|]. intros ds. unfold t_bind.
    destruct (H1 ds) as [->|(new & -> & F)]; [left; reflexivity|]. destruct (H2 (ds ++ new)) as [->|(new' & -> & F')]; [left; reflexivity|].
    right. exists (new ++ new'). rewrite <- app_assoc. split; [reflexivity|]. apply Forall2_app; assumption.
  Qed.
  Lemma y_ret {A} (a : A) l : yields (t_ret a) l a l [].
  Proof. intros Ho. split; [exact Ho|]. intros ds. right. exists []. rewrite app_nil_r. auto. Qed.
  Lemma y_done {A} (a : A) l r : yields (t_ret a) l a l [] -> r = [] -> yields (t_ret a) l a l r.
  Proof. intros H ->. exact H. Qed.
  Lemma y_push d r l : heeds r d -> yields (t_push d) l tt l [r].
  Proof. intros H Ho. split; [exact Ho|]. intros ds. right. exists [d]. split; [reflexivity|]. constructor; [exact H|constructor]. Qed.
  Lemma y_runs {A} (m : TM A) l a l' : runs m l a l' -> (ok l -> ok l') -> yields m l a l' [].
  Proof.
    intros H Hl Ho. split; [auto|]. intros ds. destruct (H ds) as [->| ->]; [left; reflexivity|]. right. exists []. rewrite app_nil_r. auto.
  Qed.
  Lemma y_quiet {A B} (m : TM A) (k : A -> TM B) l a l' b l'' r : runs m l a l' -> (ok l -> ok l') ->
    yields (k a) l' b l'' r -> yields (t_bind m k) l b l'' r.
  Proof. intros Hm Hl Hk. change r with ([] ++ r). eapply y_bind; [apply y_runs; eassumption|exact Hk]. Qed.
  Lemma y_next {A} (k : token -> TM A) t l b l'' r : (good t -> yields (k t) l b l'' r) ->
    yields (let^ t := t_expect_next src in k t) (t :: l) b l'' r.
  Proof.
    intros Hk Ho. inversion Ho as [|? ? Ht Hl]; subst. revert Ho. apply y_quiet with (a := t) (l' := l); [apply runs_expect_next| |].
    - intros H. inversion H; assumption.
    - apply Hk. exact Ht.
  Qed.
  Lemma y_skip {A} (k : TM A) t l b l'' r : yields k l b l'' r -> yields (t_skip_tok ;^ k) (t :: l) b l'' r.
  Proof. intros Hk. eapply y_quiet; [apply runs_skip|intros H; inversion H; assumption|exact Hk]. Qed.
  Lemma y_peek_expect {A} (k : token -> TM A) t l b l'' r : yields (k t) (t :: l) b l'' r ->
    yields (let^ t := t_peek_expect src in k t) (t :: l) b l'' r.
  Proof. intros Hk. eapply y_quiet; [apply runs_peek_expect|auto|exact Hk]. Qed.
  Lemma y_peek {A} (k : option token -> TM A) l b l'' r : yields (k (hd_error l)) l b l'' r ->
    yields (let^ t := t_peek in k t) l b l'' r.
  Proof. intros Hk. eapply y_quiet; [apply runs_peek|auto|exact Hk]. Qed.
  Lemma y_fuel {A} l (a : A) l' r : (ok l -> ok l') -> yields t_no_fuel l a l' r.
  Proof. intros H Ho. split; [auto|]. intros ds. left. reflexivity. Qed.
  Definition one_report (R : list diag -> Prop) : Prop := forall a b, R a -> R b -> a = b.
  Lemma y_checks m R new l : checks m R -> one_report R -> R new -> yields m l tt l (map Exactly new).
  Proof.
    intros Hm Hu Hr Ho. split; [exact Ho|]. intros ds. right. destruct (Hm (mkTS l ds)) as (a & Ea & Ha & Fa).
    rewrite (Hu _ _ Hr Ha). exists a. split; [exact Ea|]. apply naming_heeds. exact Fa.
  Qed.

  (** there is one report about a name *)
  Lemma enc_small c v : encode_char c = v -> (exists x r, v = x :: r /\ x < 128) -> c < 128 /\ v = [c].
  Proof.
    unfold encode_char. destruct (N.ltb_spec c 128) as [H|H]; [intros <- _; auto|].
    intros <- (x & r & E & Hx). exfalso. apply (f_equal (hd 0)) in E. cbn [hd] in E. subst x.
    destruct (c <? 2048); [|destruct (c <? 65536)]; cbn [hd] in Hx;
      [generalize dependent (c / 64)|generalize dependent (c / 4096)|generalize dependent (c / 262144)]; intros q K; lia.
  Qed.
  Lemma enc_nonempty c : encode_char c <> [].
  Proof. unfold encode_char. destruct (c <? 128); [discriminate|]. destruct (c <? 2048); [discriminate|]. destruct (c <? 65536); discriminate. Qed.
  Lemma enc_inj c c' v v' : scalar c -> scalar c' -> encode_char c ++ v = encode_char c' ++ v' -> c = c'.
  Proof.
    intros H H' E. destruct (encode_decode c v H) as [_ H1]. destruct (encode_decode c' v' H') as [_ H2]. rewrite E, H2 in H1.
    injection H1 as H1 _. congruence.
  Qed.
  Lemma illegal_split (allowed : N -> Prop) u c v : (forall x, allowed x -> x < 128) -> ~ allowed c -> Forall allowed (u ++ encode_char c ++ v) -> False.
  Proof.
    intros Ha Hc H. apply Forall_app in H. destruct H as [_ H]. apply Forall_app in H. destruct H as [H _].
    destruct (encode_char c) as [|x r] eqn:E; [exact (enc_nonempty c E)|].
    pose proof (Forall_inv H) as Hx. destruct (enc_small c (x :: r) E) as [_ E2]; [exists x, r; split; [reflexivity|auto]|]. injection E2 as -> _. auto.
  Qed.
  Lemma first_illegal (allowed : N -> Prop) u : forall u' c c' v v', (forall x, allowed x -> x < 128) -> Forall allowed u -> Forall allowed u' ->
    ~ allowed c -> ~ allowed c' -> scalar c -> scalar c' -> u ++ encode_char c ++ v = u' ++ encode_char c' ++ v' -> u = u' /\ c = c'.
  Proof.
    assert (G : forall (u' : list N) c c' v v', (forall x, allowed x -> x < 128) -> Forall allowed u' -> u' <> [] -> ~ allowed c ->
      encode_char c ++ v = u' ++ encode_char c' ++ v' -> False).
    { intros u' c c' v v' Ha Hu Hne Hc E. destruct u' as [|x u']; [congruence|]. pose proof (Forall_inv Hu) as Hx.
      destruct (encode_char c) as [|y r] eqn:Ec; [exact (enc_nonempty c Ec)|]. cbn [app] in E. injection E as -> _.
      destruct (enc_small c (x :: r) Ec) as [_ E2]; [exists x, r; split; [reflexivity|auto]|]. injection E2 as -> _. auto. }
    induction u as [|x u IH]; intros u' c c' v v' Ha Hu Hu' Hc Hc' Hs Hs' E.
    - destruct u' as [|y u']; [split; [reflexivity|eapply enc_inj; eassumption]|]. exfalso. apply (G (y :: u') c c' v v' Ha Hu'); [discriminate|exact Hc|exact E].
    - destruct u' as [|y u']; [exfalso; symmetry in E; apply (G (x :: u) c' c v' v Ha Hu); [discriminate|exact Hc'|exact E]|].
      cbn [app] in E. injection E as -> E. inversion Hu; inversion Hu'; subst. destruct (IH u' c c' v v') as [-> ->]; auto.
  Qed.
  Lemma name_report_fun (allowed start : N -> Prop) what t s : (forall c, allowed c -> c < 128) -> one_report (name_report src allowed start what t s).
  Proof.
    intros Ha a b H1 H2.
    destruct H1 as [c r E Hf Hl Hst|u c v E Hsc Hu Hc|dg Hf Hl Hn Hz|E|c r E Hf Hl Hst];
      destruct H2 as [c' r' E' Hf' Hl' Hst'|u' c' v' E' Hsc' Hu' Hc'|dg' Hf' Hl' Hn' Hz'|E'|c' r' E' Hf' Hl' Hst'];
      try reflexivity; try (exfalso; lia);
      try (exfalso; rewrite E' in Hf; eapply illegal_split; eassumption);
      try (exfalso; rewrite E in Hf'; eapply illegal_split; eassumption);
      try (exfalso; rewrite E in E'; discriminate E');
      try (exfalso; rewrite E in E'; injection E' as -> ->; contradiction);
      try (exfalso; rewrite E in Hl'; cbn in Hl'; lia);
      try (exfalso; rewrite E' in Hl; cbn in Hl; lia).
    - rewrite E in E'. destruct (first_illegal allowed u u' c c' v v') as [-> ->]; auto.
    - exfalso. rewrite E' in E. destruct u; [destruct (encode_char c) eqn:K; [exact (enc_nonempty c K)|discriminate E]|discriminate E].
    - rewrite (decimal_unique _ _ _ Hn Hn' Hz Hz'). reflexivity.
    - exfalso. rewrite E in E'. destruct u'; [destruct (encode_char c') eqn:K; [exact (enc_nonempty c' K)|discriminate E']|discriminate E'].
    - rewrite E in E'. injection E' as -> ->. reflexivity.
  Qed.
  Lemma label_report_fun t s : one_report (label_report src t s).
  Proof. apply name_report_fun. exact label_char_ascii. Qed.
  Lemma property_report_fun t s : one_report (property_report src t s).
  Proof. apply name_report_fun. exact name_char_ascii. Qed.
  Lemma node_report_fun t n : one_report (node_report src t n).
  Proof.
    intros a b H1 H2. destruct H1 as [E|ds Hn En Hr|ad ds da Ea H1 H3]; destruct H2 as [E'|ds' Hn' En' Hr'|ad' ds' da' Ea' H1' H3'];
      try reflexivity; try contradiction; try congruence.
    - rewrite E in Ea'. discriminate.
    - eapply name_report_fun; [exact node_char_ascii|eassumption|eassumption].
    - rewrite E' in Ea. discriminate.
    - rewrite Ea in Ea'. injection Ea' as <-. f_equal; (eapply name_report_fun; [exact node_char_ascii|eassumption|eassumption]).
  Qed.
  Lemma path_report_fun t p : one_report (path_report src t p).
  Proof.
    intros a b H1. revert b. induction H1 as [|n p d ds Hn _ IH]; intros b H2; inversion H2; subst; [reflexivity|].
    f_equal; [eapply node_report_fun; eassumption|auto].
  Qed.

  Lemma y_skip_label l l' : k_skip l l' -> yields t_skip_optional_label l tt l' [].
  Proof.
    intros [l0 H|t s l0 H].
    - apply y_runs; [|auto]. intros ds. right. unfold t_skip_optional_label, t_bind, t_peek. cbn [t_toks]. destruct l0 as [|t l0]; [reflexivity|].
      cbn [hd_error]. specialize (H t l0). unfold is in H. destruct (tk_kind t); try reflexivity. exfalso. exact (H s eq_refl eq_refl).
    - apply y_runs; [|intros Ho; inversion Ho; assumption]. intros ds. right. unfold t_skip_optional_label, t_bind, t_peek. cbn [t_toks hd_error].
      unfold is in H. rewrite H. reflexivity.
  Qed.
  Lemma y_reference t r x ds l : tok_ok t -> is (Ref r) t -> k_reference src t x ds -> yields (t_p_reference src t r) l (mkWT x t) l (map Exactly ds).
  Proof.
    intros Ht E H. unfold t_p_reference. unfold is in *. destruct H as [s t ds H Hr|s p t ds H Hs Hp Hr|t H]; unfold is in H; rewrite H in E; injection E as <-.
    - rewrite <- (app_nil_r (map Exactly ds)). eapply y_bind; [|apply y_ret].
      eapply y_checks; [apply check_label; eapply valid_label; eassumption|apply label_report_fun|exact Hr].
    - assert (Hv : valid_utf8 s = true) by (unfold tok_ok in Ht; rewrite H in Ht; exact Ht).
      apply path_text_iff in Hp. subst p. destruct s as [|c s]; [congruence|].
      eapply y_quiet; [apply runs_ret|auto|]. rewrite <- (app_nil_r (map Exactly ds)). eapply y_bind; [|apply y_ret].
      eapply y_checks; [apply check_path; eapply path_valid; [|exact Hv]; apply path_text_iff; reflexivity|apply path_report_fun|exact Hr].
    - cbn [map].
      match goal with |- yields _ _ _ _ [?r] => change [r] with ([r] ++ []) end.
      eapply y_bind; [apply y_push; split; [reflexivity|]; split; [intros [K _]; discriminate K|discriminate]|].
      eapply y_quiet; [apply runs_ret|auto|]. apply y_ret.
  Qed.
  Lemma y_int b t s n r A (f : wtok N -> A) l : 0 < b -> tok_ok t -> is (UnparsedNumber s) t -> k_number b t n r ->
    yields (match parse_number b s with
            | IntOk n => t_ret (f (mkWT n t))
            | IntErr e => t_push (diag_int_error (tk_span t) (tk_source t) e) ;^ t_ret (f (mkWT 0 t))
            end) l (f (mkWT n t)) l r.
  Proof.
    intros Hb Ht E H. unfold tok_ok in Ht. pose proof E as E'. unfold is in E'. rewrite E' in Ht. destruct Ht as [H1 H2].
    destruct H as [s' n Hs Hl Hn|s' why Hs Hn]; unfold is in Hs; rewrite E' in Hs; injection Hs as <-.
    - assert (Ep : parse_number b s = IntOk n) by (apply parse_number_iff; auto). rewrite Ep. apply y_ret.
    - apply number_err_iff in Hn; auto. destruct Hn as (e & -> & <-).
      match goal with |- yields _ _ _ _ [?r] => change [r] with ([r] ++ []) end. eapply y_bind; [|apply y_ret]. apply y_push.
      split; [reflexivity|]. split; [intros [K _]; discriminate K|discriminate].
  Qed.
  Lemma y_cell f l c l' r : k_cell src l c l' r -> l' <> [] -> yields (t_number_u32 src f) l c l' r.
  Proof.
    intros H Hne. unfold t_number_u32. destruct H as [t n l r Hn|t x l ds Hr|t l u l' Ht Hu Hp]; apply y_next; intros [Hk Hx].
    - assert (E : exists s, is (UnparsedNumber s) t) by (destruct Hn; eauto). destruct E as [s E]. pose proof E as E'. unfold is in E'. rewrite E'.
      exact (y_int u32_lim t s n r cell (fun w => CNumber w) l eq_refl Hk E Hn).
    - assert (E : exists s, is (Ref s) t) by (destruct Hr; eauto). destruct E as [s E]. pose proof E as E'. unfold is in E'. rewrite E'.
      rewrite <- (app_nil_r (map Exactly ds)). eapply y_bind; [exact (y_reference t s x ds l Hk E Hr)|apply y_ret].
    - unfold is in Ht. rewrite Ht. eapply y_quiet; [eapply runs_expression; eassumption|intros Ho; apply parens_good in Hp; [|exact Ho]; inversion Hp; assumption|].
      apply y_peek. destruct l' as [|y l']; [congruence|]. cbn [hd_error]. eapply y_quiet; [apply runs_ret|auto|]. apply y_ret.
  Qed.
  Lemma cell_head l c l' r : k_cell src l c l' r -> exists t q, l = t :: q /\ ~ is ChevronRight t.
  Proof.
    intros [t n l0 r0 Hn|t x l0 ds Hr|t l0 u l1 Ht Hu Hp]; eexists _, _; (split; [reflexivity|]); unfold is in *; intros E.
    - destruct Hn as [s n H|s H]; unfold is in H; congruence.
    - destruct Hr as [s t ds H|s p t ds H|t H]; unfold is in H; congruence.
    - congruence.
  Qed.
  Lemma y_cells l cs e l' r : k_cells src l cs e l' r -> forall f acc, yields (t_cells_loop src f acc) l (acc ++ cs, e) l' r.
  Proof.
    induction 1 as [l t l' Hk Ht|l l1 c l2 r cs t l' r' Hk Hc Hcs IH|l b l2 cs t l' r' Hk Hb Hcs IH]; intros f acc.
    - assert (Hok : ok l -> ok l').
      { intros Ho. destruct (y_skip_label _ _ Hk Ho) as [Ho1 _]. inversion Ho1; assumption. }
      destruct f as [|f]; cbn [t_cells_loop]; [apply y_fuel; exact Hok|]. change (@nil remark) with (@nil remark ++ []).
      eapply y_bind; [apply y_skip_label; exact Hk|]. apply y_peek_expect. rewrite kind_eqb_true by exact Ht. apply y_next. intros _.
      rewrite app_nil_r. apply y_ret.
    - destruct f as [|f]; cbn [t_cells_loop].
      { apply y_fuel. intros Ho. destruct (y_skip_label _ _ Hk Ho) as [Ho1 _].
        destruct (y_cell 0 _ _ _ _ Hc (k_cells_nonempty _ _ _ _ _ Hcs) Ho1) as [Ho2 _]. exact (proj1 (IH 0%nat [] Ho2)). }
      change (r ++ r') with ([] ++ (r ++ r')). eapply y_bind; [apply y_skip_label; exact Hk|].
      pose proof (y_cell f _ _ _ _ Hc (k_cells_nonempty _ _ _ _ _ Hcs)) as Hy.
      destruct (cell_head _ _ _ _ Hc) as (u & q & -> & Nu). apply y_peek_expect. rewrite kind_eqb_false by exact Nu.
      intros Ho. destruct (Hy Ho) as [Ho2 Hy2]. destruct (IH f (acc ++ [c]) Ho2) as [Ho3 Hy3]. split; [exact Ho3|]. intros ds. unfold t_catch.
      destruct (Hy2 ds) as [->|(new & -> & F)]; [left; reflexivity|]. rewrite <- app_assoc in Hy3. cbn [app] in Hy3.
      destruct (Hy3 (ds ++ new)) as [->|(new' & -> & F')]; [left; reflexivity|]. right. exists (new ++ new'). rewrite <- app_assoc.
      split; [reflexivity|apply Forall2_app; assumption].
    - destruct f as [|f]; cbn [t_cells_loop].
      { apply y_fuel. intros Ho. destruct (y_skip_label _ _ Hk Ho) as [Ho1 _]. inversion Ho1 as [|? ? _ Ho2]; subst. exact (proj1 (IH 0%nat [] Ho2)). }
      match goal with |- yields _ _ _ _ (?x :: r') => change (x :: r') with ([] ++ (x :: r')) end. eapply y_bind; [apply y_skip_label; exact Hk|].
      destruct Hb as (B1 & B2 & B3 & B4). apply y_peek_expect. rewrite kind_eqb_false by exact B4.
      intros Ho. inversion Ho as [|? ? [Hk' _] Ho2]; subst. destruct (IH f acc Ho2) as [Ho3 Hy3]. split; [exact Ho3|]. intros ds.
      assert (En : t_number_u32 src f (mkTS (b :: l2) ds)
        = TErr (mkDiag Expected (tk_span b) (tk_source b) (bs "Expected one of number, reference, '('")) (mkTS l2 ds)).
      { unfold t_number_u32, t_bind at 1. unfold t_expect_next, t_bind at 1 2, t_cur_pos, t_next, t_source, t_ret at 1 2. cbn [t_toks t_diags hd_error tl].
        unfold t_bind at 1, t_ret at 1. unfold t_ret at 1. unfold is in *.
        destruct (tk_kind b) eqn:E; try reflexivity; exfalso; first [exact (B3 eq_refl)|eapply B1; reflexivity|eapply B2; reflexivity]. }
      unfold t_catch. rewrite En. unfold t_bind, t_push. cbn [t_toks t_diags].
      match goal with |- told (t_cells_loop _ _ _ (mkTS _ ?d)) _ _ _ _ => destruct (Hy3 d) as [->|(new' & -> & F')]; [left; reflexivity|] end.
      right. eexists (_ :: new'). rewrite <- app_assoc. split; [reflexivity|]. constructor; [|exact F'].
      split; [reflexivity|]. split; [intros [_ K]; discriminate K|discriminate].
  Qed.
  Lemma y_element t b r l : k_element t b r -> yields (t_byte_string src) (t :: l) (mkWT b t) l r.
  Proof.
    intros H. unfold t_byte_string. apply y_next. intros [Ht Hx].
    assert (G : forall s, element_text t s -> Forall (fun c => c < 128) s -> 
      yields (if negb (Nat.even (length s)) then
               t_push (diag_from_token t OddNumberOfBytestringElements (bs "Number of elements in byte string must be even")) ;^
               t_ret (mkWT [] t)
             else match decode_pairs s with
                  | Done (inl b) => t_ret (mkWT b t)
                  | Done (inr e) => t_push (diag_int_error (tk_span t) (tk_source t) e) ;^ t_ret (mkWT [] t)
                  | Panic => t_panic
                  | NoFuel => t_no_fuel
                  end) l (mkWT b t) l r).
    { intros s Hs Ha.
      assert (U : forall s', element_text t s' -> s' = s) by (unfold element_text, is in *; intros s' Hs'; destruct Hs as [Hs|Hs], Hs' as [Hs'|Hs']; congruence).
      destruct H as [s' b Hs' Hb|s' Hs' Hodd|s' Hs' Hev Hb|Hs' _]; [rewrite (U _ Hs') in *..|exfalso; exact (Hs' s Hs)].
      - apply (decode_pairs_iff s b Ha) in Hb. destruct Hb as [He Hb]. rewrite He, Hb. apply y_ret.
      - unfold Nat.odd in Hodd. rewrite Hodd.
        match goal with |- yields _ _ _ _ [?r] => change [r] with ([r] ++ []) end.
        eapply y_bind; [|apply y_ret]. apply y_push. split; [reflexivity|]. split; [intros [K _]; discriminate K|discriminate].
      - rewrite Hev. cbn [negb]. destruct (decode_pairs s) as [[b|e]| |] eqn:Ed.
        + exfalso. apply (Hb b). apply decode_pairs_iff; auto.
        + match goal with |- yields _ _ _ _ [?r] => change [r] with ([r] ++ []) end. eapply y_bind; [|apply y_ret]. apply y_push.
          rewrite (decode_err _ _ Ed). split; [reflexivity|]. split; [intros [K _]; discriminate K|discriminate].
        + intros Ho. split; [exact Ho|]. intros ds. left. reflexivity.
        + apply y_fuel. auto. }
    assert (U : forall s, element_text t s -> is (Ident s) t \/ is (UnparsedNumber s) t) by (intros s [K|K]; auto).
    unfold tok_ok in Ht. unfold is in U. destruct (tk_kind t) eqn:E;
      try (destruct H as [s' b Hs' Hb|s' Hs' Hodd|s' Hs' Hev Hb|Hs' _]; [exfalso; destruct (U _ Hs'); discriminate..|];
           match goal with |- yields _ _ _ _ [?r] => change [r] with ([r] ++ []) end;
           eapply y_bind; [|apply y_ret]; apply y_push; split; [reflexivity|]; split; [intros [_ K]; discriminate K|discriminate]).
    - apply G; [right; exact E|exact Ht].
    - apply G; [left; exact E|]. eapply Forall_impl; [|apply Ht]. exact alnum_ascii.
  Qed.
  Lemma element_head t b r : k_element t b r -> ~ is CloseBracket t.
  Proof.
    intros [s' b0 Hs' Hb|s' Hs' Hodd|s' Hs' Hev Hb|_ H]; try exact H; unfold element_text, is in *; intros E; destruct Hs' as [Hs'|Hs']; congruence.
  Qed.
  Lemma keep_skip l l' : k_skip l l' -> ok l -> ok l'.
  Proof. intros H Ho. exact (proj1 (y_skip_label _ _ H Ho)). Qed.
  Lemma keep_cell l c l' r : k_cell src l c l' r -> ok l -> ok l'.
  Proof.
    intros [t n l0 r0 Hn|t x l0 ds Hr|t l0 u l1 Ht Hu Hp] Ho; inversion Ho as [|? ? _ Ho1]; subst; try exact Ho1.
    apply parens_good in Hp; [|exact Ho1]. inversion Hp; assumption.
  Qed.
  Lemma keep_cells l cs e l' r : k_cells src l cs e l' r -> ok l -> ok l'.
  Proof. intros H Ho. exact (proj1 (y_cells _ _ _ _ _ H 0%nat [] Ho)). Qed.
  Lemma keep_bytes l ws e l' r : k_bytes l ws e l' r -> ok l -> ok l'.
  Proof.
    induction 1 as [l t l' Hk Ht|l e b l2 r ws t l' r' Hk He _ IH]; intros Ho; apply (keep_skip _ _ Hk) in Ho; inversion Ho; auto.
  Qed.
  Lemma y_bytes l ws e l' r : k_bytes l ws e l' r -> forall f acc, yields (t_bytes_loop src f acc) l (acc ++ ws, e) l' r.
  Proof.
    induction 1 as [l t l' Hk Ht|l e b l2 r ws t l' r' Hk He Hr IH]; intros f acc.
    - destruct f as [|f]; cbn [t_bytes_loop]; [apply y_fuel; eapply keep_bytes; apply kbs_nil; eassumption|].
      change (@nil remark) with (@nil remark ++ []).
      eapply y_bind; [apply y_skip_label; exact Hk|]. apply y_peek_expect. rewrite kind_eqb_true by exact Ht. apply y_skip.
      rewrite app_nil_r. apply y_ret.
    - destruct f as [|f]; cbn [t_bytes_loop]; [apply y_fuel; eapply keep_bytes; eapply kbs_cons; eassumption|].
      change (r ++ r') with ([] ++ (r ++ r')). eapply y_bind; [apply y_skip_label; exact Hk|].
      apply y_peek_expect. rewrite kind_eqb_false by (eapply element_head; eassumption).
      eapply y_bind; [apply y_element; exact He|]. specialize (IH f (acc ++ [mkWT b e])). rewrite <- app_assoc in IH. exact IH.
  Qed.
  Lemma y_bits l l' r : k_bits l l' r -> yields (t_bits_prefix src) l tt l' r.
  Proof.
    intros [l0 H|d t s l0 Hd Ht|d t l0 Hd Ht]; unfold t_bits_prefix; apply y_peek.
    - destruct l0 as [|t l0]; cbn [hd_error]; [apply y_ret|]. rewrite kind_eqb_false by (exact (H t l0 eq_refl)). apply y_ret.
    - cbn [hd_error]. rewrite kind_eqb_true by exact Hd. apply y_skip, y_next. intros _. unfold is in Ht. rewrite Ht. apply y_ret.
    - cbn [hd_error]. rewrite kind_eqb_true by exact Hd. apply y_skip, y_next. intros _. unfold is in Ht.
      destruct (tk_kind t) eqn:E; try (exfalso; eapply Ht; reflexivity);
        (apply y_push; split; [reflexivity|]; split; [intros [_ K]; discriminate K|discriminate]).
  Qed.
  Lemma y_value f l v l' r : k_value src l v l' r -> yields (t_property_value src f) l v l' r.
  Proof.
    unfold t_property_value.
    intros [l0 t s l1 r0 Hb Ht|l0 t x l1 r0 ds Hb Hr|l0 t l1 cs e l2 r0 r' Hb Ht Hc|l0 t l1 ws e l2 r0 r' Hb Ht Hw].
    - rewrite <- (app_nil_r r0). eapply y_bind; [apply y_bits; exact Hb|]. apply y_next. intros _. unfold is in Ht. rewrite Ht. apply y_ret.
    - eapply y_bind; [apply y_bits; exact Hb|]. apply y_next. intros [Hk Hx].
      assert (E : exists s, is (Ref s) t) by (destruct Hr; eauto). destruct E as [s E]. pose proof E as E'. unfold is in E'. rewrite E'.
      rewrite <- (app_nil_r (map Exactly ds)). eapply y_bind; [exact (y_reference t s x ds l1 Hk E Hr)|apply y_ret].
    - eapply y_bind; [apply y_bits; exact Hb|]. apply y_next. intros _. unfold is in Ht. rewrite Ht.
      rewrite <- (app_nil_r r'). eapply y_bind; [apply (y_cells _ _ _ _ _ Hc f [])|]. cbv beta iota. apply y_ret.
    - eapply y_bind; [apply y_bits; exact Hb|]. apply y_next. intros _. unfold is in Ht. rewrite Ht.
      rewrite <- (app_nil_r r'). eapply y_bind; [apply (y_bytes _ _ _ _ _ Hw f [])|]. cbv beta iota. apply y_ret.
  Qed.
  Lemma keep_values l vs l' r : k_values src l vs l' r -> ok l -> ok l'.
  Proof.
    induction 1 as [l l1 v l2 t l3 r Hk Hv Hk2 Ht|l l1 v l2 c l3 r vs l' r' Hk Hv Hk2 Hc _ IH]; intros Ho;
      apply (keep_skip _ _ Hk) in Ho; apply (fun H => proj1 (y_value 0 _ _ _ _ Hv H)) in Ho; apply (keep_skip _ _ Hk2) in Ho; [exact Ho|].
    inversion Ho; auto.
  Qed.
  Lemma y_values l vs l' r : k_values src l vs l' r -> forall f acc, yields (t_property_values src f acc) l (acc ++ vs) l' r.
  Proof.
    induction 1 as [l l1 v l2 t l3 r Hk Hv Hk2 Ht|l l1 v l2 c l3 r vs l' r' Hk Hv Hk2 Hc Hr IH]; intros f acc.
    - destruct f as [|f]; cbn [t_property_values]; [apply y_fuel; eapply keep_values; eapply kvs_one; eassumption|].
      change r with ([] ++ r). eapply y_bind; [apply y_skip_label; exact Hk|]. rewrite <- (app_nil_r r).
      eapply y_bind; [apply y_value; exact Hv|]. change (@nil remark) with (@nil remark ++ []).
      eapply y_bind; [apply y_skip_label; exact Hk2|]. apply y_peek_expect. rewrite kind_eqb_false by exact Ht. apply y_ret.
    - destruct f as [|f]; cbn [t_property_values]; [apply y_fuel; eapply keep_values; eapply kvs_cons; eassumption|].
      change (r ++ r') with ([] ++ (r ++ r')). eapply y_bind; [apply y_skip_label; exact Hk|].
      eapply y_bind; [apply y_value; exact Hv|]. change r' with ([] ++ r').
      eapply y_bind; [apply y_skip_label; exact Hk2|]. apply y_peek_expect. rewrite kind_eqb_true by exact Hc. apply y_skip.
      specialize (IH f (acc ++ [v])). rewrite <- app_assoc in IH. exact IH.
  Qed.
  Lemma y_end l e l' r : k_end resumes l e l' r -> yields (t_expect_semicolon src rl) l e l' r.
  Proof.
    intros [t l0 Ht|l0 H|u c l0 l1 Hu Hr]; unfold t_expect_semicolon; apply y_peek.
    - cbn [hd_error]. unfold is in Ht. rewrite Ht. apply y_runs; [intros ds; right; reflexivity|]. intros Ho. inversion Ho; assumption.
    - destruct l0 as [|t l0].
      + cbn [hd_error]. intros Ho. split; [exact Ho|]. intros ds. right. eexists [_]. split; [reflexivity|]. constructor; [eexists; reflexivity|constructor].
      + cbn [hd_error]. destruct (H t l0 eq_refl) as [H1 H2]. unfold is in H1, H2. intros Ho. split; [exact Ho|]. intros ds. right.
        inversion Ho as [|? ? [Ht Hx] Hl]; subst. unfold tok_ok in Ht.
        destruct (tk_kind t) eqn:E;
          try (exfalso; first [exact (H1 eq_refl)|eapply H2; reflexivity|exact Ht]);
          (eexists [_]; split; [reflexivity|]; constructor; [eexists; reflexivity|constructor]).
    - cbn [hd_error]. intros Ho. inversion Ho as [|? ? [Ht Hx] Hl]; subst. apply resumes_iff in Hr; [|exact Hx]. subst l1. split; [apply rl_ok|].
      intros ds. right. unfold is in Hu. rewrite Hu. cbn [semicolon_skips].
      eexists [_]. split; [reflexivity|]. constructor; [eexists; reflexivity|constructor].
  Qed.
  Lemma y_node_name t s nm ds l : is (Ident s) t -> node_text s nm -> node_report src t nm ds ->
    yields (t_p_node_name src) (t :: l) (mkWT nm t) l (map Exactly ds).
  Proof.
    intros E Hn Hr. unfold t_p_node_name. apply y_next. intros [Ht _]. unfold is in E. rewrite E. apply node_text_iff in Hn. subst nm.
    rewrite <- (app_nil_r (map Exactly ds)).
    eapply y_bind; [eapply y_checks; [apply check_node, nn_valid_of; eapply ok_ident; eassumption|apply node_report_fun|exact Hr]|apply y_ret].
  Qed.
  Lemma y_property_name t s ds l : is (Ident s) t -> property_report src t s ds ->
    yields (t_p_property_name src) (t :: l) (mkWT s t) l (map Exactly ds).
  Proof.
    intros E Hr. unfold t_p_property_name. apply y_next. intros [Ht _]. unfold is in E. rewrite E.
    rewrite <- (app_nil_r (map Exactly ds)).
    eapply y_bind; [eapply y_checks; [apply check_property; eapply ok_ident; eassumption|apply property_report_fun|exact Hr]|apply y_ret].
  Qed.
  Lemma y_omit o l : yields (t_check_omit src o) l tt l (misplaced_omit src o).
  Proof.
    destruct o as [t|]; [|apply y_ret]. cbn [t_check_omit misplaced_omit]. eapply y_quiet; [apply runs_source|auto|]. apply y_push.
    split; [reflexivity|]. split; [intros [K _]; discriminate K|discriminate].
  Qed.
  Lemma y_order seen lb t s vs e l : yields (t_check_order src seen (mkProp lb (mkWT s t) vs e)) l tt l (misplaced_property src seen lb t e).
  Proof.
    destruct seen; [|apply y_ret]. cbn [t_check_order misplaced_property]. eapply y_quiet; [apply runs_source|auto|]. apply y_push.
    split; [destruct lb; reflexivity|]. split; [intros [K _]; discriminate K|discriminate].
  Qed.
  Lemma y_expect {A} (k : TM A) kd t l b l'' r : is kd t -> yields k l b l'' r -> yields (t_expect src kd ;^ k) (t :: l) b l'' r.
  Proof. intros H Hk. eapply y_quiet; [apply runs_expect; exact H|intros Ho; inversion Ho; assumption|exact Hk]. Qed.
  Lemma y_prefix f acc nd l o l1 lb rb t l2 pl l' r :
    g_omit l o l1 -> k_label src l1 lb (t :: l2) rb -> (forall s, ~ is (Label s) t) -> ~ is (Directive OmitIfNoRef) t ->
    ~ is (Directive DeleteNode) t -> ~ is (Directive DeleteProperty) t ->
    (good t -> yields (rest_of_item src rl f acc nd t o lb) l2 pl l' r) ->
    yields (t_payload_loop src rl (S f) acc nd) l pl l' (rb ++ r).
  Proof.
    intros Ho Hlb N1 N2 N3 N4 Hend. cbn [t_payload_loop].
    assert (Hl : forall (A : Type) (x : str -> A) (y : A), match tk_kind t with Label s => x s | _ => y end = y).
    { intros A x y. unfold is in N1. destruct (tk_kind t); try reflexivity. exfalso. eapply N1; reflexivity. }
    inversion Ho as [l0|d l0 Hd]; subst; inversion Hlb as [l0'|u s' l0' ds Ht Hs]; subst; apply y_next; intros Hg.
    - rewrite !kind_eqb_false by assumption.
      eapply y_quiet; [apply runs_ret|auto|]. cbv beta iota. rewrite Hl. eapply y_quiet; [apply runs_ret|auto|]. cbv beta iota. exact (Hend Hg).
    - unfold is in Ht. rewrite Ht, !kind_eqb_false by discriminate. eapply y_quiet; [apply runs_ret|auto|]. cbv beta iota. rewrite Ht.
      destruct Hg as [Hg _]. intros Hok. inversion Hok as [|? ? Hgt _]; subst. revert Hok.
      apply y_bind with (a := (t, Some (mkWT s' u))) (l' := l2); [|cbv beta iota; exact (Hend Hgt)]. rewrite <- (app_nil_r (map Exactly ds)).
      eapply y_bind; [eapply y_checks; [apply check_label; eapply ok_label; eassumption|apply label_report_fun|exact Hs]|].
      apply y_next. intros _. apply y_ret.
    - unfold is in Hd. rewrite Hd, kind_eqb_false, kind_eqb_false, kind_eqb_true by congruence.
      intros Hok. inversion Hok as [|? ? Hgt _]; subst. revert Hok.
      eapply y_quiet; [eapply runs_bind; [apply runs_expect_next|]; apply runs_ret|intros Hq; inversion Hq; assumption|]. cbv beta iota.
      rewrite Hl. eapply y_quiet; [apply runs_ret|auto|]. cbv beta iota. exact (Hend Hgt).
    - unfold is in Hd, Ht. rewrite Hd, kind_eqb_false, kind_eqb_false, kind_eqb_true by congruence.
      intros Hok. inversion Hok as [|? ? Hgu Hok']; subst. inversion Hok' as [|? ? Hgt _]; subst. revert Hok.
      eapply y_quiet; [eapply runs_bind; [apply runs_expect_next|]; apply runs_ret|intros Hq; inversion Hq; assumption|]. cbv beta iota.
      rewrite Ht. apply y_bind with (a := (t, Some (mkWT s' u))) (l' := l2); [|cbv beta iota; exact (Hend Hgt)]. rewrite <- (app_nil_r (map Exactly ds)).
      eapply y_bind; [eapply y_checks; [apply check_label; eapply ok_label; [apply Hgu|exact Ht]|apply label_report_fun|exact Hs]|].
      apply y_next. intros _. apply y_ret.
  Qed.
  Ltac no_prefix Ht := unfold is in *; intros; rewrite Ht; discriminate.
  Lemma y_items :
    (forall l pl l' r, k_body src resumes l pl l' r -> forall f, yields (t_payload_loop src rl f [] false) l pl l' r)
    /\ (forall seen l its l1 r, k_items src resumes seen l its l1 r -> forall f acc pl l' r',
       (forall f' seen', yields (t_payload_loop src rl f' (acc ++ its) seen') l1 pl l' r') ->
       yields (t_payload_loop src rl f acc seen) l pl l' (r ++ r')).
  Proof.
    assert (Keep : (forall l pl l' r, k_body src resumes l pl l' r -> ok l -> ok l')
      /\ (forall seen l its l1 r, k_items src resumes seen l its l1 r -> ok l -> ok l1)).
    { assert (Kg : forall l o l1, g_omit l o l1 -> ok l -> ok l1) by (intros l o l1 [l0|d l0 Hd] Ho; [exact Ho|inversion Ho; assumption]).
      assert (Kl : forall l o l1 r, k_label src l o l1 r -> ok l -> ok l1) by (intros l o l1 r [l0|d s l0 ds Hd Hr] Ho; [exact Ho|inversion Ho; assumption]).
      apply k_body_items_ind.
      - intros l its r l1 o l2 lb rb c l3 e l4 re _ IH Ho Hlb Hc He H. apply (y_end _ _ _ _ He).
        pose proof (Kl _ _ _ _ Hlb (Kg _ _ _ Ho (IH H))) as K. inversion K; assumption.
      - auto.
      - intros seen d t s nm ds l e l1 re its l2 r Hd Ht Hn Hr He _ IH H. apply IH. apply (y_end _ _ _ _ He). inversion H as [|? ? _ H1]; inversion H1; assumption.
      - intros seen d t s ds l e l1 re its l2 r Hd Ht Hr He _ IH H. apply IH. apply (y_end _ _ _ _ He). inversion H as [|? ? _ H1]; inversion H1; assumption.
      - intros seen l o l0 lb rb t s ds q l1 vs l2 rv e l3 re its l4 r Ho Hlb Ht Hs Hq Hv He _ IH H. apply IH. apply (y_end _ _ _ _ He).
        apply (keep_values _ _ _ _ Hv). pose proof (Kl _ _ _ _ Hlb (Kg _ _ _ Ho H)) as K. inversion K as [|? ? _ K1]; inversion K1; assumption.
      - intros seen l o l0 lb rb t s ds e l1 its l2 r Ho Hlb Ht Hs He _ IH H. apply IH.
        pose proof (Kl _ _ _ _ Hlb (Kg _ _ _ Ho H)) as K. inversion K as [|? ? _ K1]; inversion K1; assumption.
      - intros seen l o l1 lb rb t s nm ds b l2 bp l3 r0 its l4 r Ho Hlb Ht Hn Hl Hb _ IHb _ IH H. apply IH, IHb.
        pose proof (Kl _ _ _ _ Hlb (Kg _ _ _ Ho H)) as K. inversion K as [|? ? _ K1]; inversion K1; assumption. }
    assert (Fz : forall seen l its l1 r acc pl l' r', k_items src resumes seen l its l1 r ->
      (forall f' seen', yields (t_payload_loop src rl f' (acc ++ its) seen') l1 pl l' r') -> yields t_no_fuel l pl l' (r ++ r')).
    { intros seen l its l1 r acc pl l' r' Hi HK. apply y_fuel. intros H. apply (HK 0%nat false). eapply (proj2 Keep); eassumption. }
    apply k_body_items_ind.
    - intros l its r l1 o l2 lb rb c l3 e l4 re _ IH Ho Hlb Hc He f.
      apply IH. intros f' seen'. cbn [app].
      destruct f' as [|f']; [apply y_fuel; intros H; eapply (proj1 Keep); [eapply kbo; [apply ki_nil|eassumption..]|exact H]|].
      eapply y_prefix; [exact Ho|exact Hlb|no_prefix Hc..|]. intros _. unfold rest_of_item. unfold is in Hc. rewrite Hc.
      rewrite <- (app_nil_r re). eapply y_bind; [apply y_end; exact He|]. change (last_token e c) with (or_token e c). apply y_ret.
    - intros seen l f acc pl l' r' H. specialize (H f seen). rewrite app_nil_r in H. exact H.
    - intros seen d t s nm ds l e l1 re its l2 r Hd Ht Hn Hr He Hi IH f acc pl l' r' HK.
      destruct f as [|f]; [eapply Fz; [eapply ki_delete_node; eassumption|exact HK]|]. cbn [t_payload_loop].
      apply y_next. intros _. unfold is in Hd. rewrite Hd, kind_eqb_true by reflexivity. rewrite <- !app_assoc.
      eapply y_bind; [eapply y_node_name; eassumption|]. 
      eapply y_bind; [apply y_end; exact He|]. apply IH. intros. rewrite <- app_assoc. apply HK.
    - intros seen d t s ds l e l1 re its l2 r Hd Ht Hr He Hi IH f acc pl l' r' HK.
      destruct f as [|f]; [eapply Fz; [eapply ki_delete_property; eassumption|exact HK]|]. cbn [t_payload_loop].
      apply y_next. intros _. unfold is in Hd. rewrite Hd, kind_eqb_false, kind_eqb_true by congruence. rewrite <- !app_assoc.
      eapply y_bind; [eapply y_property_name; eassumption|].
      eapply y_bind; [apply y_end; exact He|]. apply IH. intros. rewrite <- app_assoc. apply HK.
    - intros seen l o l0 lb rb t s ds q l1 vs l2 rv e l3 re its l4 r Ho Hlb Ht Hs Hq Hv He Hi IH f acc pl l' r' HK.
      destruct f as [|f]; [eapply Fz; [eapply ki_property; eassumption|exact HK]|]. rewrite <- !app_assoc.
      eapply y_prefix; [exact Ho|exact Hlb|no_prefix Ht..|]. intros [Hg _]. unfold rest_of_item. unfold is in Ht, Hq. rewrite Ht.
      apply y_peek_expect. rewrite Hq. apply y_skip.
      eapply y_bind; [eapply y_checks; [apply check_property; eapply ok_ident; eassumption|apply property_report_fun|exact Hs]|].
      eapply y_bind; [apply (y_values _ _ _ _ Hv f [])|]. 
      eapply y_bind; [apply y_end; exact He|]. cbn [app].
      eapply y_bind; [apply y_omit|]. eapply y_bind; [apply y_order|]. apply IH. intros. rewrite <- app_assoc. apply HK.
    - intros seen l o l0 lb rb t s ds e l1 its l2 r Ho Hlb Ht Hs He Hi IH f acc pl l' r' HK.
      destruct f as [|f]; [eapply Fz; [eapply ki_empty_property; eassumption|exact HK]|]. rewrite <- !app_assoc.
      eapply y_prefix; [exact Ho|exact Hlb|no_prefix Ht..|]. intros [Hg _]. unfold rest_of_item. unfold is in Ht, He. rewrite Ht.
      apply y_peek_expect. rewrite He. apply y_skip.
      eapply y_bind; [eapply y_checks; [apply check_property; eapply ok_ident; eassumption|apply property_report_fun|exact Hs]|].
      eapply y_bind; [apply y_order|]. eapply y_bind; [apply y_omit|]. apply IH. intros. rewrite <- app_assoc. apply HK.
    - intros seen l o l1 lb rb t s nm ds b l2 bp l3 r0 its l4 r Ho Hlb Ht Hn Hl Hb Hbo IHb Hi IH f acc pl l' r' HK.
      destruct f as [|f]; [eapply (Fz seen); [eapply ki_node; eassumption|exact HK]|]. rewrite <- !app_assoc.
      eapply y_prefix; [exact Ho|exact Hlb|no_prefix Ht..|]. intros [Hg _]. unfold rest_of_item. pose proof Hb as Hb'. unfold is in Ht, Hb. rewrite Ht.
      apply y_peek_expect. rewrite Hb. apply node_text_iff in Hn. subst nm.
      eapply y_bind; [eapply y_checks; [apply check_node, nn_valid_of; eapply ok_ident; eassumption|apply node_report_fun|exact Hl]|].
      apply y_expect; [exact Hb'|].
      eapply y_bind; [apply IHb|]. apply IH. intros. rewrite <- app_assoc. apply HK.
  Qed.
  Lemma y_body l pl l' r : k_body src resumes l pl l' r -> forall b f, is OpenBrace b -> yields (t_node_payload src rl f) (b :: l) pl l' r.
  Proof. intros H b f Hb. unfold t_node_payload. apply y_expect; [exact Hb|]. apply (proj1 y_items). exact H. Qed.
  Lemma y_parse_reference t x ds l : k_reference src t x ds -> yields (t_parse_reference src) (t :: l) (mkWT x t) l (map Exactly ds).
  Proof.
    intros Hr. unfold t_parse_reference. apply y_next. intros [Hk _].
    assert (E : exists s, is (Ref s) t) by (destruct Hr; eauto). destruct E as [s E]. pose proof E as E'. unfold is in E'. rewrite E'.
    exact (y_reference t s x ds l Hk E Hr).
  Qed.
  Lemma y_memreserve t n r l : k_number u64_lim t n r -> yields (t_memreserve_number src) (t :: l) (mkWT n t) l r.
  Proof.
    intros Hn. unfold t_memreserve_number. apply y_next. intros [Hk _].
    assert (E : exists s, is (UnparsedNumber s) t) by (destruct Hn; eauto). destruct E as [s E]. pose proof E as E'. unfold is in E'. rewrite E'.
    exact (y_int u64_lim t s n r _ (fun w => w) l eq_refl Hk E Hn).
  Qed.
  Lemma y_primary l p l' r : k_primary src incl resumes l p l' r -> forall f, yields (t_p_primary src incl rl f) l p l' r.
  Proof.
    intros H f. unfold t_p_primary.
    destruct H as [t l e l' r Ht He|t l e l' r Ht He|t a na ra b nb rb l e l' r Ht Ha Hb He|t u s l Ht Hu|t u s l Ht Hu Hl|t u s e l Ht Hu He
      |t b l pl l' r Ht Hb Hp|t x ds b l pl l' r Hr Hb Hp|d t x ds l e l' r Hd Hr He|d t x ds l e l' r Hd Hr He]; apply y_next; intros Hg; unfold is in *.
    - rewrite Ht. rewrite <- (app_nil_r r). eapply y_bind; [apply y_end; exact He|apply y_ret].
    - rewrite Ht. rewrite <- (app_nil_r r). eapply y_bind; [apply y_end; exact He|apply y_ret].
    - rewrite Ht. eapply y_bind; [apply y_memreserve; exact Ha|]. eapply y_bind; [apply y_memreserve; exact Hb|].
      rewrite <- (app_nil_r r). eapply y_bind; [apply y_end; exact He|apply y_ret].
    - rewrite Ht. change (str_eqb (bs "#include") (bs "#include")) with true. cbn iota. apply y_next. intros _. rewrite Hu. apply y_ret.
    - rewrite Ht. apply y_next. intros _. rewrite Hu. apply y_peek.
      apply y_quiet with (a := tt) (l' := l); [|auto|eapply y_quiet; [apply (runs_ret incl)|auto|apply y_ret]].
      destruct l as [|v l]; cbn [hd_error]; [apply runs_ret|]. rewrite kind_eqb_false by (exact (Hl v l eq_refl)). apply runs_ret.
    - rewrite Ht. apply y_next. intros _. rewrite Hu. apply y_peek. cbn [hd_error]. rewrite kind_eqb_true by exact He.
      match goal with |- yields _ _ _ _ [?r] => change [r] with ([r] ++ []) end.
      apply y_bind with (a := tt) (l' := l); [|eapply y_quiet; [apply (runs_ret incl)|auto|apply y_ret]].
      apply y_next. intros _. apply y_push. split; [reflexivity|]. split; [intros [K _]; discriminate K|discriminate].
    - rewrite Ht. rewrite <- (app_nil_r r). eapply y_bind; [eapply y_body; eassumption|apply y_ret].
    - assert (E : exists s, is (Ref s) t) by (destruct Hr; eauto). destruct E as [s E]. pose proof E as E'. unfold is in E'. rewrite E'.
      eapply y_bind; [exact (y_reference t s x ds (b :: l) (proj1 Hg) E Hr)|].
      rewrite <- (app_nil_r r). eapply y_bind; [eapply y_body; eassumption|apply y_ret].
    - rewrite Hd. eapply y_bind; [apply y_parse_reference; exact Hr|]. rewrite <- (app_nil_r r). eapply y_bind; [apply y_end; exact He|apply y_ret].
    - rewrite Hd. eapply y_bind; [apply y_parse_reference; exact Hr|]. rewrite <- (app_nil_r r). eapply y_bind; [apply y_end; exact He|apply y_ret].
  Qed.
  Lemma k_primary_nonempty l p l' r : k_primary src incl resumes l p l' r -> exists t q, l = t :: q.
  Proof. intros []; eauto. Qed.
  Lemma y_file_loop l ps r : k_file src incl resumes l ps r -> forall f acc, yields (t_file_loop src incl rl f acc) l (acc ++ ps) [] r.
  Proof.
    induction 1 as [|l p l' r ps r' Hp _ IH]; intros f acc.
    - destruct f as [|f]; cbn [t_file_loop]; [apply y_fuel; auto|]. apply y_peek. cbn [hd_error]. rewrite app_nil_r. apply y_ret.
    - destruct f as [|f]; cbn [t_file_loop]; [apply y_fuel; intros _; constructor|].
      pose proof Hp as Hp'. destruct (k_primary_nonempty _ _ _ _ Hp) as (t & q & ->). apply y_peek. cbn [hd_error].
      eapply y_bind; [apply y_primary; exact Hp'|]. specialize (IH f (acc ++ [p])). rewrite <- app_assoc in IH. exact IH.
  Qed.
  Lemma y_file l ps r f : k_file src incl resumes l ps r -> yields (t_p_file src incl rl f) l (mkFile ps src) [] r.
  Proof.
    intros H. unfold t_p_file. rewrite <- (app_nil_r r). eapply y_bind; [apply (y_file_loop _ _ _ H f [])|]. cbn [app].
    eapply y_quiet; [apply runs_source|auto|]. apply y_ret.
  Qed.
End Follow.
