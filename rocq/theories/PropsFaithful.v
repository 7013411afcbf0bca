(** C83: also in a damaged file, what the tree says stands in the text; C84: symbols have names *)
From Verif Require Import Parser TokParser LexSpec Grammar LexerProofs2 ReaderProofs NameProofs ParserBase ParserSafe TreeProofs ParserSim LexerProofs
  Server ServerProofs PropsSymbols PropsProject PropsServer PropsUtf16 Tests.

(** ** The text says what the tree says *)
Section Said.
  Context (text : list N).
  (** the bytes [u] stand in the text at [sp] *)
  Definition written (sp : span) (u : list N) : Prop := exists a rest,
    text = a ++ u ++ rest /\ sp = mkSpan (pos_after a) (pos_after (a ++ u)).
  Definition keyword (t : token) (u : list N) : Prop := written (tk_span t) u.
  (** a directive; its closing slash may be missing at the end of the text *)
  Definition directive_said (t : token) (name : str) : Prop :=
    keyword t ([cSlash] ++ name ++ [cSlash]) \/ keyword t ([cSlash] ++ name) /\ span_end (tk_span t) = pos_after text.
  Definition label_said (l : wtok str) : Prop := written (wt_span l) (wt_item l ++ [cColon]) /\ wt_item l <> [] /\ Forall name_char (wt_item l).
  Definition name_said (n : wtok str) : Prop := written (wt_span n) (wt_item n) /\ wt_item n <> [] /\ Forall (fun c => name_char c \/ c = cAt) (wt_item n).
  Definition node_name_said (n : wtok node_name) : Prop := nn_name (wt_item n) <> []
    /\ (forall c, In c (nn_name (wt_item n)) -> name_char c \/ c = cSlash) /\ exists u, node_text u (wt_item n) /\ written (wt_span n) u.
  Definition reference_said (r : wtok reference) : Prop :=
    (exists s, wt_item r = RefLabel s /\ written (wt_span r) (cAmp :: s))
    \/ (exists s p, wt_item r = RefPath p /\ path_text s p /\ written (wt_span r) ([cAmp; cLBrace] ++ s ++ [cRBrace])).
  Definition string_said (w : wtok str) : Prop := exists b,
    string_body b (wt_item w) /\ written (wt_span w) ([cQuote] ++ b ++ [cQuote]).
  (** a number below [lim]; 0 if the text is no such number *)
  Definition number_said (lim : N) (w : wtok N) : Prop := exists c s,
    digit c /\ Forall (fun x => letter x \/ digit x) s /\ written (wt_span w) (c :: s)
    /\ (literal (c :: s) (wt_item w) /\ wt_item w < lim \/ wt_item w = 0 /\ forall n, literal (c :: s) n -> lim <= n).
  (** bytes; none if the text is no sequence of bytes *)
  Definition bytes_said (w : wtok str) : Prop := exists u, u <> [] /\ written (wt_span w) u
    /\ (byte_text u (wt_item w) \/ wt_item w = [] /\ forall b, ~ byte_text u b).
  Definition cell_said (c : cell) : Prop :=
    match c with CNumber n => number_said (2 ^ 32) n | CReference r => reference_said r | CExpression => True end.
  Definition value_said (v : prop_value) : Prop :=
    match v with
    | PVString s => string_said s
    | PVCells a cs b => keyword a [cLt] /\ Forall cell_said cs /\ keyword b [cGt]
    | PVReference r => reference_said r
    | PVBytes a ss b => keyword a [cLBracket] /\ Forall bytes_said ss /\ keyword b [cRBracket]
    end.
  Definition opt_said {A} (P : A -> Prop) (o : option A) : Prop := match o with Some x => P x | None => True end.
  Definition property_said (p : property) : Prop :=
    opt_said label_said (pr_label p) /\ name_said (pr_name p) /\ Forall value_said (pr_values p)
    /\ (keyword (pr_end p) [cSemi] \/ keyword (pr_end p) [cEq]).
  Inductive item_said : item -> Prop :=
  | is_property p : property_said p -> item_said (IProperty p)
  | is_node l n its e o : opt_said label_said l -> node_name_said n -> Forall item_said its ->
      keyword e [cSemi] \/ keyword e [cRBrace] -> opt_said (fun t => directive_said t (bs "omit-if-no-ref")) o ->
      item_said (INode (mkNode l n (mkPayload its e) o))
  | is_deleted_node t n : directive_said t (bs "delete-node") -> node_name_said n -> item_said (IDeletedNode t n)
  | is_deleted_property t n : directive_said t (bs "delete-property") -> name_said n -> item_said (IDeletedProperty t n).
  Definition payload_said (pl : payload) : Prop :=
    Forall item_said (pl_items pl) /\ (keyword (pl_end pl) [cSemi] \/ keyword (pl_end pl) [cRBrace]).
  Definition primary_said (p : primary) : Prop :=
    match p with
    | PDirective (ADtsHeader t) => directive_said t (bs "dts-v1")
    | PDirective (APlugin t) => directive_said t (bs "plugin")
    | PDirective (AMemreserve a b) => number_said (2 ^ 64) a /\ number_said (2 ^ 64) b
    | PDirective (AInclude i) => directive_said (in_token i) (bs "include") /\ string_said (in_file_name i)
    | PDirective (ADeletedNode t r) => directive_said t (bs "delete-node") /\ reference_said r
    | PDirective (AOmitIfNoRef t r) => directive_said t (bs "omit-if-no-ref") /\ reference_said r
    | PRoot n => nd_label n = None /\ nd_omit n = None /\ node_name_said (nd_name n) /\ keyword (wt_tok (nd_name n)) [cSlash] /\ payload_said (nd_payload n)
    | PReferencedNode r => reference_said (rn_reference r) /\ payload_said (rn_payload r)
    | PCStyleInclude s => exists b a rest, string_body b s /\ text = a ++ [cQuote] ++ b ++ [cQuote] ++ rest
    end.
  Definition file_said (f : dts_file) : Prop := Forall primary_said (fl_elements f).
End Said.

(** ** Results of the token parser, if all tokens come from the text *)
Section Holds.
  Context (text : list N) (src : fpath) (incl : list fpath) (rl : position -> list token).
  Notation P := (tok_at text src).
  Hypothesis rl_ok : forall t, P t -> Forall P (rl (tk_end t)).

  Definition holds {A} (m : TM A) (Q : A -> Prop) : Prop := forall s, Forall P (t_toks s) ->
    match m s with
    | TOk a s' => Q a /\ Forall P (t_toks s')
    | TErr _ s' => Forall P (t_toks s')
    | TBad => True
    end.
  Lemma h_ret {A} (a : A) (Q : A -> Prop) : Q a -> holds (t_ret a) Q.
  Proof. intros H s Hs. split; assumption. Qed.
  Lemma h_throw {A} d (Q : A -> Prop) : holds (t_throw d) Q.
  Proof. intros s Hs. exact Hs. Qed.
  Lemma h_bad {A} (Q : A -> Prop) : holds t_no_fuel Q.
  Proof. intros s Hs. exact I. Qed.
  Lemma h_bind {A B} (m : TM A) (f : A -> TM B) R Q : holds m R -> (forall a, R a -> holds (f a) Q) -> holds (t_bind m f) Q.
  Proof.
    intros Hm Hf s Hs. unfold t_bind. specialize (Hm s Hs). destruct (m s) as [a s'|d s'|]; [|exact Hm|exact I].
    destruct Hm as [Ha Hs']. exact (Hf a Ha s' Hs').
  Qed.
  Lemma h_catch {A B} (m : TM A) (f : A -> TM B) g R Q : holds m R -> (forall a, R a -> holds (f a) Q) -> (forall d, holds (g d) Q) -> holds (t_catch m f g) Q.
  Proof.
    intros Hm Hf Hg s Hs. unfold t_catch. specialize (Hm s Hs). destruct (m s) as [a s'|d s'|]; [|exact (Hg d s' Hm)|exact I].
    destruct Hm as [Ha Hs']. exact (Hf a Ha s' Hs').
  Qed.
  Lemma h_weak {A} (m : TM A) (R Q : A -> Prop) : holds m R -> (forall a, R a -> Q a) -> holds m Q.
  Proof. intros H W s Hs. specialize (H s Hs). destruct (m s); try exact H. destruct H. auto. Qed.
  Definition any {A} (_ : A) : Prop := True.
  Lemma h_push d : holds (t_push d) any.
  Proof. intros s Hs. split; [exact I|exact Hs]. Qed.
  Lemma h_push_opt d : holds (t_push_opt d) any.
  Proof. destruct d; [apply h_push|apply h_ret; exact I]. Qed.
  Definition opt_tok (o : option token) : Prop := match o with Some t => P t | None => True end.
  Lemma h_peek : holds t_peek opt_tok.
  Proof. intros s Hs. unfold t_peek. split; [|exact Hs]. destruct Hs; [exact I|assumption]. Qed.
  Lemma h_next : holds t_next opt_tok.
  Proof. intros s Hs. unfold t_next. cbn [t_toks]. destruct Hs; split; cbn; auto. Qed.
  Lemma h_relex t : P t -> holds (t_relex rl t) any.
  Proof. intros H s Hs. split; [exact I|]. cbn [t_toks]. apply rl_ok, H. Qed.

  Ltac step := match goal with
    | |- holds (t_bind t_peek _) _ => apply (h_bind _ _ opt_tok _ h_peek)
    | |- holds (t_bind t_next _) _ => apply (h_bind _ _ opt_tok _ h_next)
    | |- holds (t_bind (t_push _) _) _ => apply (h_bind _ _ any _ (h_push _))
    | |- holds (t_bind (t_ret _) _) _ => apply (h_bind _ _ any); [apply h_ret; exact I|]
    | |- holds (t_push _) any => apply h_push
    | |- holds (t_throw _) _ => apply h_throw
    | |- holds t_no_fuel _ => apply h_bad
    | |- holds t_panic _ => apply h_bad
    | |- holds (t_ret _) any => apply h_ret; exact I
    end.
  Lemma h_peek_expect : holds (t_peek_expect src) P.
  Proof. unfold t_peek_expect, t_cur_pos, t_source. do 2 (step; intros ? _). step. intros [t|] Ht; [apply h_ret; exact Ht|step]. Qed.
  Lemma h_expect_next : holds (t_expect_next src) P.
  Proof. unfold t_expect_next, t_cur_pos, t_source. step; intros ? _. step. intros [t|] Ht; step; intros ? _; [apply h_ret; exact Ht|step]. Qed.
  Lemma h_expect k : holds (t_expect src k) (fun t => P t).
  Proof.
    unfold t_expect, t_cur_pos, t_source. step; intros ? _. step. intros [t|] Ht; step; intros ? _; [|step].
    destruct (kind_eqb _ _); [apply h_ret; exact Ht|step].
  Qed.
  Lemma h_skip : holds t_skip_tok any.
  Proof. unfold t_skip_tok. step. intros ? _. step. Qed.
  Lemma h_check sp s p q c : holds (t_check_ident src sp s p q c) any.
  Proof. unfold t_check_ident, t_source. step; intros ? _. apply h_push_opt. Qed.
  Lemma h_check_node sp n : holds (t_check_is_node_name src sp n) any.
  Proof.
    unfold t_check_is_node_name. destruct (match nn_addr n with None => _ | Some _ => false end); [step|].
    apply (h_bind _ _ any _ (h_check _ _ _ _ _)). intros _ _. destruct (nn_addr n); [apply h_check|step].
  Qed.
  Lemma h_check_path sp p : holds (t_check_path src sp p) any.
  Proof. induction p as [|n r IH]; cbn [t_check_path]; [step|]. apply (h_bind _ _ any _ (h_check_node _ _)). intros _ _. exact IH. Qed.

  (** *** What the spellings of tokens say *)
  Lemma tok_written t : P t -> exists m u rest, spells m (tk_kind t) u rest /\ written text (tk_span t) u
    /\ (rest = [] -> span_end (tk_span t) = pos_after text).
  Proof.
    intros (m & a & u & rest & -> & Hs & Et). exists m, u, rest. split; [exact Hs|]. rewrite Et. cbn [tok_of tk_span].
    split; [exists a, rest; split; reflexivity|]. intros ->. rewrite app_nil_r. reflexivity.
  Qed.
  Lemma tok_label t s : P t -> tk_kind t = Label s -> label_said text (mkWT s t).
  Proof.
    intros H E. destruct (tok_written _ H) as (m & u & rest & Hs & Hw & _). rewrite E in Hs. unfold label_said, wt_span. cbn [wt_item wt_tok].
    remember (Label s) as k eqn:Ek. destruct Hs as [| |c s0 rest0 H1 H2| | | | | | | | |c k0 rest0 H1 H2|]; try discriminate Ek; [injection Ek as <-; split; [exact Hw|split; [discriminate|exact H2]]|].
    subst k0. cbn in H2. repeat (destruct H2 as [H2|H2]; [discriminate H2|]). destruct H2.
  Qed.
  Lemma name_no_at s : Forall name_char s -> ~ In cAt s.
  Proof. intros Hz Hi. rewrite Forall_forall in Hz. specialize (Hz _ Hi). unfold name_char, letter, digit in Hz. cbn [In] in Hz. lia. Qed.
  Lemma tok_ident t s : P t -> tk_kind t = Ident s -> name_said text (mkWT s t) /\ nn_name (node_name_of s) <> [] /\ Forall name_char (nn_name (node_name_of s)).
  Proof.
    intros H E. destruct (tok_written _ H) as (m & u & rest & Hs & Hw & _). rewrite E in Hs. unfold name_said, wt_span. cbn [wt_item wt_tok].
    assert (W : forall z, Forall name_char z -> Forall (fun c => name_char c \/ c = cAt) z) by (intros z; apply Forall_impl; auto).
    remember (Ident s) as k eqn:Ek. destruct Hs as [c s0 rest0 H1 H2 H3|c s0 a rest0 H1 H2 H3 H4| | | | | | | | | |c k0 rest0 H1 H2|]; try discriminate Ek.
    - injection Ek as <-. split; [split; [exact Hw|split; [discriminate|exact (W _ H2)]]|].
      rewrite (proj1 (node_text_iff (c :: s0) _) (nt_plain _ (name_no_at _ H2))). split; [discriminate|exact H2].
    - injection Ek as <-. split; [split; [exact Hw|split; [discriminate|]]|].
      + change (c :: s0 ++ cAt :: a) with ((c :: s0) ++ [cAt] ++ a). apply Forall_app. split; [exact (W _ H2)|]. constructor; [right; reflexivity|exact (W _ H3)].
      + change (c :: s0 ++ cAt :: a) with ((c :: s0) ++ [cAt] ++ a). rewrite (proj1 (node_text_iff _ _) (nt_addr (c :: s0) a (name_no_at _ H2))). split; [discriminate|exact H2].
    - subst k0. cbn in H2. repeat (destruct H2 as [H2|H2]; [discriminate H2|]). destruct H2.
  Qed.
  Lemma tok_node t s : P t -> tk_kind t = Ident s -> node_name_said text (mkWT (node_name_of s) t).
  Proof.
    intros H E. destruct (tok_ident _ _ H E) as [[Hw _] [Hn Hc]]. split; [exact Hn|]. split; [intros c Hi; left; rewrite Forall_forall in Hc; exact (Hc c Hi)|].
    exists s. split; [apply node_text_iff; reflexivity|exact Hw].
  Qed.
  Lemma tok_simple t s : P t -> tk_kind t = Ref (TRefSimple s) -> written text (tk_span t) (cAmp :: s).
  Proof.
    intros H E. destruct (tok_written _ H) as (m & u & rest & Hs & Hw & _). rewrite E in Hs.
    remember (Ref (TRefSimple s)) as k eqn:Ek. destruct Hs as [| | | |c s0 rest0 H1 H2 H3|x r H1 H2| | | | | |c k0 rest0 H1 H2|]; try discriminate Ek; try (injection Ek as <-; exact Hw).
    subst k0. cbn in H2. repeat (destruct H2 as [H2|H2]; [discriminate H2|]). destruct H2.
  Qed.
  Lemma tok_path t s : P t -> tk_kind t = Ref (TRefPath s) -> written text (tk_span t) ([cAmp; cLBrace] ++ s ++ [cRBrace]).
  Proof.
    intros H E. destruct (tok_written _ H) as (m & u & rest & Hs & Hw & _). rewrite E in Hs.
    remember (Ref (TRefPath s)) as k eqn:Ek. destruct Hs as [| | | | | |p rest0 H1| | | | |c k0 rest0 H1 H2|]; try discriminate Ek; try (injection Ek as <-; exact Hw).
    subst k0. cbn in H2. repeat (destruct H2 as [H2|H2]; [discriminate H2|]). destruct H2.
  Qed.
  Lemma tok_string t s : P t -> tk_kind t = TString s -> string_said text (mkWT s t).
  Proof.
    intros H E. destruct (tok_written _ H) as (m & u & rest & Hs & Hw & _). rewrite E in Hs. unfold string_said, wt_span. cbn [wt_item wt_tok].
    remember (TString s) as k eqn:Ek. destruct Hs as [| | | | | | |b s0 rest0 H1| | | |c k0 rest0 H1 H2|]; try discriminate Ek; [injection Ek as <-; exists b; split; [exact H1|exact Hw]|].
    subst k0. cbn in H2. repeat (destruct H2 as [H2|H2]; [discriminate H2|]). destruct H2.
  Qed.
  Lemma tok_number t s lim : 0 < lim -> P t -> tk_kind t = UnparsedNumber s ->
    number_said text lim (mkWT (match parse_number lim s with IntOk n => n | IntErr _ => 0 end) t).
  Proof.
    intros Hl H E. destruct (tok_written _ H) as (m & u & rest & Hs & Hw & _). rewrite E in Hs. unfold number_said, wt_span. cbn [wt_item wt_tok].
    remember (UnparsedNumber s) as k eqn:Ek. destruct Hs as [| | |c s0 rest0 H1 H2 H3| | | | | | | |c k0 rest0 H1 H2|]; try discriminate Ek.
    - injection Ek as <-. exists c, s0. split; [exact H1|]. split; [exact (Forall_inv_tail H2)|]. split; [exact Hw|].
      assert (Hn : c :: s0 <> []) by discriminate. pose proof (fun n => parse_number_iff lim (c :: s0) n Hl Hn H2) as Hi.
      destruct (parse_number lim (c :: s0)) as [n|e]; [left; apply Hi; reflexivity|]. right. split; [reflexivity|].
      intros n L. destruct (N.lt_ge_cases n lim) as [K|K]; [|exact K]. pose proof (proj2 (Hi n) (conj L K)) as D. discriminate D.
    - subst k0. cbn in H2. repeat (destruct H2 as [H2|H2]; [discriminate H2|]). destruct H2.
  Qed.
  Lemma tok_punct t c k : P t -> tk_kind t = k -> In (c, k) punctuation -> keyword text t [c].
  Proof.
    intros H E Hi. destruct (tok_written _ H) as (m & u & rest & Hs & Hw & _). rewrite E in Hs. unfold keyword.
    destruct Hs as [| | | | | | | | | | |c' k' rest' H1 H2|]; try (cbn in Hi; repeat (destruct Hi as [Hi|Hi]; [discriminate Hi|]); destruct Hi; fail).
    replace c with c'; [exact Hw|]. clear - H2 Hi. cbn in H2, Hi.
    repeat (destruct H2 as [H2|H2]; [injection H2 as <- <-; repeat (destruct Hi as [Hi|Hi]; [first [discriminate Hi|injection Hi as <-; reflexivity]|]); destruct Hi|]). destruct H2.
  Qed.
  Lemma tok_slash t : P t -> tk_kind t = Slash -> keyword text t [cSlash].
  Proof.
    intros H E. destruct (tok_written _ H) as (m & u & rest & Hs & Hw & _). rewrite E in Hs. unfold keyword.
    remember Slash as k eqn:Ek. destruct Hs as [| | | | | | | | | | |c k0 rest0 H1 H2|]; try discriminate Ek; [exact Hw|].
    subst k0. cbn in H2. repeat (destruct H2 as [H2|H2]; [discriminate H2|]). destruct H2.
  Qed.
  Lemma tok_directive t d name : P t -> tk_kind t = Directive d -> In (name, d) known_directives -> directive_said text t name.
  Proof.
    intros H E Hi. destruct (tok_written _ H) as (m & u & rest & Hs & Hw & He). rewrite E in Hs. unfold directive_said, keyword.
    assert (Hu : forall n, directive_named n d -> n = name).
    { clear - Hi. intros n [K|[K _]]; [|subst d; cbn in Hi; repeat (destruct Hi as [Hi|Hi]; [discriminate Hi|]); destruct Hi].
      cbn in K, Hi. repeat (destruct K as [K|K]; [injection K as <- <-; repeat (destruct Hi as [Hi|Hi]; [first [discriminate Hi|injection Hi as <-; reflexivity]|]); destruct Hi|]). destruct K. }
    remember (Directive d) as k eqn:Ek. destruct Hs as [| | | | | | | | |c s d0 rest0 H1 H2 H3|c s d0 H1 H2 H3|c k0 rest0 H1 H2|]; try discriminate Ek.
    - injection Ek as ->. left. rewrite <- (Hu _ H3). exact Hw.
    - injection Ek as ->. right. rewrite <- (Hu _ H3). split; [exact Hw|exact (He eq_refl)].
    - subst k0. cbn in H2. repeat (destruct H2 as [H2|H2]; [discriminate H2|]). destruct H2.
  Qed.
  Lemma tok_something t : P t -> exists u, u <> [] /\ written text (tk_span t) u.
  Proof.
    intros H. destruct (tok_written _ H) as (m & u & rest & Hs & Hw & _). exists u. split; [|exact Hw].
    clear - Hs. destruct Hs; discriminate.
  Qed.

  Lemma byte_chars u b : byte_text u b -> Forall (fun c => letter c \/ digit c \/ c = cPlus) u.
  Proof.
    induction 1; [constructor| |]; (constructor; [|constructor; [|assumption]]); unfold letter, digit, digit_value in *; lia.
  Qed.
  Lemma not_bytes u c b : In c u -> ~ letter c -> ~ digit c -> c <> cPlus -> ~ byte_text u b.
  Proof. intros Hi H1 H2 H3 H. apply byte_chars in H. rewrite Forall_forall in H. destruct (H c Hi) as [K|[K|K]]; auto. Qed.
  (** what is not a name or a number is not a sequence of bytes *)
  Lemma tok_no_bytes t : P t -> match tk_kind t with Ident _ | UnparsedNumber _ => False | _ => True end ->
    bytes_said text (mkWT [] t).
  Proof.
    intros H K. destruct (tok_written _ H) as (m & u & rest & Hs & Hw & _). exists u. cbn [wt_item wt_span wt_tok].
    assert (D : forall c, c = cColon \/ c = cAmp \/ c = cQuote \/ c = cSlash -> ~ letter c /\ ~ digit c /\ c <> cPlus)
      by (intros c Hc; unfold letter, digit; lia).
    split; [clear - Hs; destruct Hs; discriminate|]. split; [exact Hw|]. right. split; [reflexivity|]. intros b.
    assert (W : forall c, In c u -> c = cColon \/ c = cAmp \/ c = cQuote \/ c = cSlash -> ~ byte_text u b)
      by (intros c Hi Hc; destruct (D c Hc) as (D1 & D2 & D3); exact (not_bytes u c b Hi D1 D2 D3)).
    assert (O : forall c, u = [c] -> ~ byte_text u b) by (intros c ->; intros B; inversion B).
    destruct Hs as [| |c s rest' H1 H2| |c s rest' H1 H2 H3|x r H1 H2|p rest' H1|b' s rest' H1|rest' H1|c s d rest' H1 H2 H3|c s d H1 H2 H3|c k rest' H1 H2|c rest' H1 H2 H3 H4 H5];
      try (destruct K; fail); try (eapply O; reflexivity).
    - apply (W cColon); [apply in_or_app; right; left; reflexivity|auto].
    - apply (W cAmp); [left; reflexivity|auto].
    - apply (W cAmp); [left; reflexivity|auto].
    - apply (W cQuote); [left; reflexivity|auto].
    - apply (W cSlash); [left; reflexivity|auto].
    - apply (W cSlash); [left; reflexivity|auto].
  Qed.
  Lemma tok_bytes t s : P t -> tk_kind t = UnparsedNumber s \/ tk_kind t = Ident s ->
    Forall (fun c => c < 128) s /\ s <> [] /\ written text (tk_span t) s.
  Proof.
    intros H K. destruct (tok_written _ H) as (m & u & rest & Hs & Hw & _).
    assert (A : forall z, Forall name_char z -> Forall (fun c => c < 128) z).
    { intros z. apply Forall_impl. intros c Hc. unfold name_char, letter, digit in Hc. cbn [In] in Hc. lia. }
    destruct Hs as [c s0 rest0 H1 H2 H3|c s0 a rest0 H1 H2 H3 H4| |c s0 rest0 H1 H2 H3| | | | | | | |c k0 rest0 H1 H2|];
      try (destruct K as [K|K]; discriminate K).
    - destruct K as [K|K]; [discriminate K|]. injection K as <-. split; [exact (A _ H2)|]. split; [discriminate|exact Hw].
    - destruct K as [K|K]; [discriminate K|]. injection K as <-. split; [|split; [discriminate|exact Hw]].
      change (c :: s0 ++ cAt :: a) with ((c :: s0) ++ [cAt] ++ a). apply Forall_app. split; [exact (A _ H2)|]. constructor; [lia|exact (A _ H3)].
    - destruct K as [K|K]; [|discriminate K]. injection K as <-. split; [|split; [discriminate|exact Hw]].
      eapply Forall_impl; [|exact H2]. cbv beta. intros x Hx. unfold letter, digit in Hx. lia.
    - exfalso. cbn in H2. repeat (destruct H2 as [H2|H2]; [injection H2 as <- <-; destruct K as [K|K]; discriminate K|]). destruct H2.
  Qed.

  (** *** The parser *)
  Ltac go := match goal with
    | |- holds (t_bind (t_expect_next src) _) _ => apply (h_bind _ _ P _ h_expect_next)
    | |- holds (t_bind (t_peek_expect src) _) _ => apply (h_bind _ _ P _ h_peek_expect)
    | |- holds (t_bind (t_expect src _) _) _ => apply (h_bind _ _ P _ (h_expect _))
    | |- holds (t_bind t_skip_tok _) _ => apply (h_bind _ _ any _ h_skip); intros _ _
    | |- holds (t_bind (t_check_is_property_name src _ _) _) _ => apply (h_bind _ _ any _ (h_check _ _ _ _ _)); intros _ _
    | |- holds (t_bind (t_check_is_label src _ _) _) _ => apply (h_bind _ _ any _ (h_check _ _ _ _ _)); intros _ _
    | |- holds (t_bind (t_check_is_node_name src _ _) _) _ => apply (h_bind _ _ any _ (h_check_node _ _)); intros _ _
    | |- holds (t_bind (t_check_path src _ _) _) _ => apply (h_bind _ _ any _ (h_check_path _ _)); intros _ _
    | |- holds (t_bind (t_push _) _) _ => apply (h_bind _ _ any _ (h_push _)); intros _ _
    | |- _ => step
    end.
  Lemma h_reference t r : P t -> tk_kind t = Ref r -> holds (t_p_reference src t r) (reference_said text).
  Proof.
    intros Ht E. destruct r as [s|s]; cbn [t_p_reference].
    - go. apply h_ret. left. exists s. split; [reflexivity|]. exact (tok_simple _ _ Ht E).
    - apply (h_bind _ _ any); [destruct s; step|]. intros _ _. go. apply h_ret. right. exists s, (npath_of s). split; [reflexivity|].
      split; [apply path_text_iff; reflexivity|]. exact (tok_path _ _ Ht E).
  Qed.
  Lemma h_skip_expression f : forall d, holds (t_skip_expression f d) any.
  Proof.
    induction f as [|f IH]; intros d; cbn [t_skip_expression]; [step|]. step. intros [t|] _; [|step].
    destruct (tk_kind t); try (go; apply IH). go. destruct (d =? 1); [step|apply IH].
  Qed.
  Lemma h_number f : holds (t_number_u32 src f) (cell_said text).
  Proof.
    unfold t_number_u32. go. intros t Ht. destruct (tk_kind t) eqn:E; try step.
    - apply (h_bind _ _ any _ (h_skip_expression _ _)). intros _ _. step. intros o _. apply (h_bind _ _ any); [destruct o; step|]. intros _ _. apply h_ret. exact I.
    - pose proof (tok_number t s u32_lim eq_refl Ht E) as N. destruct (parse_number u32_lim s); [|go]; apply h_ret; exact N.
    - apply (h_bind _ _ (reference_said text) _ (h_reference _ _ Ht E)). intros w Hw. apply h_ret. exact Hw.
  Qed.
  Lemma h_memreserve : holds (t_memreserve_number src) (number_said text (2 ^ 64)).
  Proof.
    unfold t_memreserve_number, t_last_pos, t_source. go. intros t Ht. destruct (tk_kind t) eqn:E; try (do 2 (step; intros ? _); step).
    pose proof (tok_number t s u64_lim eq_refl Ht E) as N. destruct (parse_number u64_lim s); [|go]; apply h_ret; exact N.
  Qed.
  Lemma h_bytes : holds (t_byte_string src) (bytes_said text).
  Proof.
    assert (B : forall t s, P t -> tk_kind t = UnparsedNumber s \/ tk_kind t = Ident s ->
      (negb (Nat.even (length s)) = true -> bytes_said text (mkWT [] t))
      /\ (negb (Nat.even (length s)) = false -> (forall b, decode_pairs s = Done (inl b) -> bytes_said text (mkWT b t))
          /\ (forall e, decode_pairs s = Done (inr e) -> bytes_said text (mkWT [] t)))).
    { intros t s Ht K. destruct (tok_bytes t s Ht K) as (Ha & Hn & Hw). pose proof (fun b => decode_pairs_iff s b Ha) as Hd. split.
      - intros Ho. exists s. split; [exact Hn|]. split; [exact Hw|]. right. split; [reflexivity|]. intros b Hb.
        apply Hd in Hb. destruct Hb as [Hb _]. rewrite Hb in Ho. discriminate Ho.
      - intros Ho. apply Bool.negb_false_iff in Ho. split.
        + intros b Hb. exists s. split; [exact Hn|]. split; [exact Hw|]. left. apply Hd. split; [exact Ho|exact Hb].
        + intros e He. exists s. split; [exact Hn|]. split; [exact Hw|]. right. split; [reflexivity|]. intros b Hb.
          apply Hd in Hb. destruct Hb as [_ Hb]. rewrite Hb in He. discriminate He. }
    unfold t_byte_string. go. intros t Ht. pose proof (tok_no_bytes t Ht) as H.
    destruct (tk_kind t) eqn:E; try (go; apply h_ret; exact (H I));
      (pose proof (B t s Ht ltac:(rewrite E; auto)) as [B1 B2]; destruct (negb _); [go; apply h_ret; exact (B1 eq_refl)|]; destruct (B2 eq_refl) as [B3 B4];
       destruct (decode_pairs s) as [[b|e]| |]; [apply h_ret; exact (B3 b eq_refl)|go; apply h_ret; exact (B4 e eq_refl)|apply h_bad|apply h_bad]).
  Qed.
  Lemma h_skip_label : holds t_skip_optional_label any.
  Proof. unfold t_skip_optional_label. step. intros [t|] _; [|step]. destruct (tk_kind t); try step. apply h_skip. Qed.
  Lemma kind_is t k : kind_eqb (tk_kind t) k = true -> tk_kind t = k.
  Proof. unfold kind_eqb. destruct (kind_eq_dec _ _); [auto|discriminate]. Qed.

  (** a token that was peeked at is the next one *)
  Lemma h_peek_expect_at {A} (f : token -> TM A) Q :
    (forall s t r, t_toks s = t :: r -> Forall P (t_toks s) -> P t ->
       match f t s with TOk a s' => Q a /\ Forall P (t_toks s') | TErr _ s' => Forall P (t_toks s') | TBad => True end) ->
    holds (t_bind (t_peek_expect src) f) Q.
  Proof.
    intros H s Hs. unfold t_bind, t_peek_expect, t_cur_pos, t_source, t_bind, t_ret, t_peek. destruct (t_toks s) as [|t r] eqn:E; cbn [hd_error].
    - cbn. rewrite E. constructor.
    - apply (H s t r E); [rewrite E; exact Hs|exact (Forall_inv Hs)].
  Qed.
  Lemma h_peek_at {A} (f : option token -> TM A) Q :
    (forall s, Forall P (t_toks s) ->
       match f (hd_error (t_toks s)) s with TOk a s' => Q a /\ Forall P (t_toks s') | TErr _ s' => Forall P (t_toks s') | TBad => True end) ->
    holds (t_bind t_peek f) Q.
  Proof. intros H s Hs. unfold t_bind, t_peek. apply H, Hs. Qed.

  Lemma h_cells f : forall acc, Forall (cell_said text) acc ->
    holds (t_cells_loop src f acc) (fun r => Forall (cell_said text) (fst r) /\ keyword text (snd r) [cGt]).
  Proof.
    induction f as [|f IH]; intros acc Ha; cbn [t_cells_loop]; [step|]. apply (h_bind _ _ any _ h_skip_label). intros _ _.
    apply h_peek_expect_at. intros s t r E Hs Ht. destruct (kind_eqb (tk_kind t) ChevronRight) eqn:K.
    - unfold t_expect_next, t_cur_pos, t_source, t_bind, t_ret, t_next. rewrite E. cbn [hd_error tl t_toks]. split.
      + cbn [fst snd]. split; [exact Ha|]. apply (tok_punct t cGt ChevronRight Ht (kind_is _ _ K)). cbn [In punctuation]. tauto.
      + rewrite E in Hs. exact (Forall_inv_tail Hs).
    - apply (h_catch _ _ _ (cell_said text)); [apply h_number| | |exact Hs].
      + intros c Hc. apply IH. apply Forall_app. split; [exact Ha|constructor; [exact Hc|constructor]].
      + intros d. go. apply IH. exact Ha.
  Qed.
  Lemma h_bytes_loop f : forall acc, Forall (bytes_said text) acc ->
    holds (t_bytes_loop src f acc) (fun r => Forall (bytes_said text) (fst r) /\ keyword text (snd r) [cRBracket]).
  Proof.
    induction f as [|f IH]; intros acc Ha; cbn [t_bytes_loop]; [step|]. apply (h_bind _ _ any _ h_skip_label). intros _ _.
    go. intros t Ht. destruct (kind_eqb (tk_kind t) CloseBracket) eqn:K.
    - go. apply h_ret. split; [exact Ha|]. apply (tok_punct t cRBracket CloseBracket Ht (kind_is _ _ K)). cbn [In punctuation]. tauto.
    - apply (h_bind _ _ _ _ h_bytes). intros b Hb. apply IH. apply Forall_app. split; [exact Ha|constructor; [exact Hb|constructor]].
  Qed.
  Lemma h_bits : holds (t_bits_prefix src) any.
  Proof.
    unfold t_bits_prefix. step. intros [t|] _; [|step]. destruct (kind_eqb _ _); [|step]. go. go. intros w _. destruct (tk_kind w); step.
  Qed.
  Lemma h_value f : holds (t_property_value src f) (value_said text).
  Proof.
    unfold t_property_value. apply (h_bind _ _ any _ h_bits). intros _ _. go. intros t Ht. destruct (tk_kind t) eqn:E; try step.
    - apply (h_bind _ _ _ _ (h_bytes_loop f [] (Forall_nil _))). intros [ss e] [H1 H2]. apply h_ret. split; [|split; [exact H1|exact H2]].
      apply (tok_punct t cLBracket OpenBracket Ht E). cbn [In punctuation]. tauto.
    - apply (h_bind _ _ _ _ (h_cells f [] (Forall_nil _))). intros [cs e] [H1 H2]. apply h_ret. split; [|split; [exact H1|exact H2]].
      apply (tok_punct t cLt ChevronLeft Ht E). cbn [In punctuation]. tauto.
    - apply h_ret. exact (tok_string _ _ Ht E).
    - apply (h_bind _ _ _ _ (h_reference _ _ Ht E)). intros w Hw. apply h_ret. exact Hw.
  Qed.
  Lemma h_values f : forall acc, Forall (value_said text) acc -> holds (t_property_values src f acc) (Forall (value_said text)).
  Proof.
    induction f as [|f IH]; intros acc Ha; cbn [t_property_values]; [step|]. apply (h_bind _ _ any _ h_skip_label). intros _ _.
    apply (h_bind _ _ _ _ (h_value f)). intros v Hv. apply (h_bind _ _ any _ h_skip_label). intros _ _. go. intros t Ht.
    assert (Ha' : Forall (value_said text) (acc ++ [v])) by (apply Forall_app; split; [exact Ha|constructor; [exact Hv|constructor]]).
    destruct (kind_eqb _ _); [go; apply IH; exact Ha'|apply h_ret; exact Ha'].
  Qed.
  Lemma h_property_name : holds (t_p_property_name src) (name_said text).
  Proof.
    unfold t_p_property_name. go. intros t Ht. destruct (tk_kind t) eqn:E; try step. go. apply h_ret. exact (proj1 (tok_ident _ _ Ht E)).
  Qed.
  Lemma h_node_name : holds (t_p_node_name src) (node_name_said text).
  Proof.
    unfold t_p_node_name. go. intros t Ht. destruct (tk_kind t) eqn:E; try step. go. apply h_ret. exact (tok_node _ _ Ht E).
  Qed.
  Lemma h_here : holds t_here any.
  Proof. intros s Hs. split; [exact I|exact Hs]. Qed.
  Lemma h_semicolon : holds (t_expect_semicolon src rl) (opt_said (fun t => keyword text t [cSemi])).
  Proof.
    unfold t_expect_semicolon. apply h_peek_at. intros s Hs. destruct (t_toks s) as [|t r] eqn:E; cbn [hd_error].
    - unfold t_source. revert s Hs E. intros s Hs E. apply (h_bind _ _ any _ h_here); [intros ? _|rewrite E; constructor].
      step; intros ? _. go. apply h_ret. exact I.
    - assert (Hrest : forall k, holds (let^ sp := (if semicolon_skips k then let^ t2 := t_expect_next src in t_relex rl t2 ;^ t_ret (tk_span t2) else let^ p := t_here in t_ret (as_char_span p)) in
          let^ src := t_source src in t_push (diag_expected sp src [Semicolon]) ;^ t_ret None) (opt_said (fun t => keyword text t [cSemi]))).
      { intros k. apply (h_bind _ _ any).
        - destruct (semicolon_skips k); [go; intros t2 Ht2; apply (h_bind _ _ any _ (h_relex _ Ht2)); intros _ _; step|apply (h_bind _ _ any _ h_here); intros ? _; step].
        - intros sp _. unfold t_source. step; intros ? _. go. apply h_ret. exact I. }
      rewrite <- E in Hs. destruct (tk_kind t) eqn:K; try (apply Hrest; exact Hs).
      unfold t_next. rewrite E in *. cbn [hd_error tl t_toks opt_said]. split; [|exact (Forall_inv_tail Hs)].
      apply (tok_punct t cSemi Semicolon (Forall_inv Hs) K). cbn [In punctuation]. tauto.
  Qed.
  Lemma h_omit o : holds (t_check_omit src o) any.
  Proof. unfold t_check_omit, t_source. destruct o; [step; intros ? _|]; step. Qed.
  Lemma h_order b p : holds (t_check_order src b p) any.
  Proof. unfold t_check_order, t_source. destruct b; [step; intros ? _|]; step. Qed.

  Lemma h_payload f : forall its seen, Forall (item_said text) its -> holds (t_payload_loop src rl f its seen) (payload_said text).
  Proof.
    induction f as [|f IH]; intros its seen Hi; cbn [t_payload_loop]; [step|].
    assert (Hadd : forall i, item_said text i -> Forall (item_said text) (its ++ [i])) by (intros i Hx; apply Forall_app; split; [exact Hi|constructor; [exact Hx|constructor]]).
    go. intros t Ht. destruct (kind_eqb (tk_kind t) (Directive DeleteNode)) eqn:K1.
    { apply (h_bind _ _ _ _ h_node_name). intros n Hn. apply (h_bind _ _ _ _ h_semicolon). intros e _. apply IH, Hadd. constructor; [|exact Hn].
      apply (tok_directive _ _ _ Ht (kind_is _ _ K1)). cbn [In known_directives]. tauto. }
    destruct (kind_eqb (tk_kind t) (Directive DeleteProperty)) eqn:K2.
    { apply (h_bind _ _ _ _ h_property_name). intros n Hn. apply (h_bind _ _ _ _ h_semicolon). intros e _. apply IH, Hadd. constructor; [|exact Hn].
      apply (tok_directive _ _ _ Ht (kind_is _ _ K2)). cbn [In known_directives]. tauto. }
    apply (h_bind _ _ (fun r => P (fst r) /\ opt_said (fun t => directive_said text t (bs "omit-if-no-ref")) (snd r))).
    { destruct (kind_eqb (tk_kind t) (Directive OmitIfNoRef)) eqn:K3; [|apply h_ret; split; [exact Ht|exact I]].
      go. intros t2 Ht2. apply h_ret. split; [exact Ht2|]. apply (tok_directive _ _ _ Ht (kind_is _ _ K3)). cbn [In known_directives]. tauto. }
    clear t Ht K1 K2. intros [t0 o] [Ht0 Ho]. cbn [fst snd] in Ht0, Ho.
    apply (h_bind _ _ (fun r => P (fst r) /\ opt_said (label_said text) (snd r))).
    { destruct (tk_kind t0) eqn:K; try (apply h_ret; split; [exact Ht0|exact I]). go. go. intros t2 Ht2. apply h_ret. split; [exact Ht2|]. exact (tok_label _ _ Ht0 K). }
    clear t0 Ht0. intros [t l] [Ht Hl]. cbn [fst snd] in Ht, Hl. destruct (tk_kind t) eqn:K; try step.
    - apply (h_bind _ _ _ _ h_semicolon). intros e He. apply h_ret. split; [exact Hi|]. cbn [pl_end]. destruct e as [e|]; cbn [or_token]; [left; exact He|right].
      apply (tok_punct t cRBrace CloseBrace Ht K). cbn [In punctuation]. tauto.
    - go. intros t2 Ht2. destruct (tk_kind t2) eqn:K2; try (unfold t_last_pos, t_source; do 2 (step; intros ? _); step).
      + go. go. apply (h_bind _ _ any _ (h_order _ _)). intros _ _. apply (h_bind _ _ any _ (h_omit _)). intros _ _. apply IH, Hadd. constructor.
        split; [exact Hl|]. split; [exact (proj1 (tok_ident _ _ Ht K))|]. split; [constructor|]. left. apply (tok_punct t2 cSemi Semicolon Ht2 K2). cbn [In punctuation]. tauto.
      + go. go. apply (h_bind _ _ _ _ (h_values f [] (Forall_nil _))). intros vs Hv. apply (h_bind _ _ _ _ h_semicolon). intros e He.
        apply (h_bind _ _ any _ (h_omit _)). intros _ _. apply (h_bind _ _ any _ (h_order _ _)). intros _ _. apply IH, Hadd. constructor.
        split; [exact Hl|]. split; [exact (proj1 (tok_ident _ _ Ht K))|]. split; [exact Hv|]. cbn [pr_end]. destruct e as [e|]; cbn [or_token]; [left; exact He|right].
        apply (tok_punct t2 cEq Equal Ht2 K2). cbn [In punctuation]. tauto.
      + go. go. intros ? _. apply (h_bind _ _ _ _ (IH [] false (Forall_nil _))). intros [its2 e2] [Hp He]. apply IH, Hadd. constructor; [exact Hl|exact (tok_node _ _ Ht K)|exact Hp|exact He|exact Ho].
  Qed.
  Lemma h_node_payload f : holds (t_node_payload src rl f) (payload_said text).
  Proof. unfold t_node_payload. go. intros ? _. apply h_payload. constructor. Qed.
  Lemma h_parse_reference : holds (t_parse_reference src) (reference_said text).
  Proof. unfold t_parse_reference. go. intros t Ht. destruct (tk_kind t) eqn:E; try step. exact (h_reference _ _ Ht E). Qed.
  Ltac dir := cbn [In known_directives]; tauto.
  Lemma h_primary f : holds (t_p_primary src incl rl f) (primary_said text).
  Proof.
    unfold t_p_primary. go. intros t Ht. destruct (tk_kind t) eqn:K; try step.
    all: try (destruct d; try step).
    all: try match goal with E : tk_kind _ = Ref _ |- _ =>
      apply (h_bind _ _ _ _ (h_reference _ _ Ht E)); intros w Hw; apply (h_bind _ _ _ _ (h_node_payload f)); intros pl Hp; apply h_ret; split; [exact Hw|exact Hp] end.
    all: try match goal with E : tk_kind _ = Slash |- _ =>
      apply (h_bind _ _ _ _ (h_node_payload f)); intros pl Hp; apply h_ret; cbn [primary_said nd_label nd_omit nd_name nd_payload wt_tok];
      split; [reflexivity|]; split; [reflexivity|]; split; [split; [discriminate|split; [intros c [<-|[]]; right; reflexivity|]; exists (bs "/"); split; [apply nt_plain; cbn; intros [C|[]]; discriminate C|exact (tok_slash _ Ht E)]]|]; split; [exact (tok_slash _ Ht E)|exact Hp] end.
    all: try match goal with E : tk_kind _ = Ident ?s |- _ =>
      destruct (str_eqb s (bs "#include")); [|step]; go; intros t2 Ht2; destruct (tk_kind t2) eqn:K2; try step; apply h_ret;
      destruct (tok_string _ _ Ht2 K2) as (b & Hb & a & rest & Ha & _); exists b, a, rest; split; [exact Hb|rewrite Ha, <- !app_assoc; reflexivity] end.
    all: try match goal with E : tk_kind _ = Directive DTSVersionHeader |- _ => apply (h_bind _ _ _ _ h_semicolon); intros e _; apply h_ret; apply (tok_directive _ _ _ Ht E); dir end.
    all: try match goal with E : tk_kind _ = Directive Plugin |- _ => apply (h_bind _ _ _ _ h_semicolon); intros e _; apply h_ret; apply (tok_directive _ _ _ Ht E); dir end.
    all: try match goal with E : tk_kind _ = Directive MemReserve |- _ => apply (h_bind _ _ _ _ h_memreserve); intros a Ha; apply (h_bind _ _ _ _ h_memreserve); intros b Hb;
      apply (h_bind _ _ _ _ h_semicolon); intros e _; apply h_ret; split; [exact Ha|exact Hb] end.
    all: try match goal with E : tk_kind _ = Directive DeleteNode |- _ => apply (h_bind _ _ _ _ h_parse_reference); intros w Hw; apply (h_bind _ _ _ _ h_semicolon); intros e _; apply h_ret;
      split; [apply (tok_directive _ _ _ Ht E); dir|exact Hw] end.
    all: try match goal with E : tk_kind _ = Directive OmitIfNoRef |- _ => apply (h_bind _ _ _ _ h_parse_reference); intros w Hw; apply (h_bind _ _ _ _ h_semicolon); intros e _; apply h_ret;
      split; [apply (tok_directive _ _ _ Ht E); dir|exact Hw] end.
    go. intros t2 Ht2. destruct (tk_kind t2) eqn:K2; try step. intros o _. apply (h_bind _ _ any).
    - destruct o as [t3|]; [|step]. destruct (kind_eqb _ _); [|step]. go. intros ? _. step.
    - intros _ _. unfold t_include_paths. step; intros ps _. apply h_ret. split; [apply (tok_directive _ _ _ Ht K); dir|exact (tok_string _ _ Ht2 K2)].
  Qed.
  Lemma h_file_loop f : forall acc, Forall (primary_said text) acc -> holds (t_file_loop src incl rl f acc) (Forall (primary_said text)).
  Proof.
    induction f as [|f IH]; intros acc Ha; cbn [t_file_loop]; [step|]. step. intros [t|] _; [|apply h_ret; exact Ha].
    apply (h_bind _ _ _ _ (h_primary f)). intros p Hp. apply IH. apply Forall_app. split; [exact Ha|constructor; [exact Hp|constructor]].
  Qed.
  Lemma h_file f : holds (t_p_file src incl rl f) (file_said text).
  Proof. unfold t_p_file. apply (h_bind _ _ _ _ (h_file_loop f [] (Forall_nil _))). intros els H. unfold t_source. step; intros x _. apply h_ret. exact H. Qed.
End Holds.

Lemma lexed_at text src m pre rest toks : lexed src m pre rest toks -> text = pre ++ rest -> Forall (tok_at text src) toks.
Proof.
  induction 1 as [|m pre g u Hg Hu|m pre g k u rest toks Hg Hs Hl IH]; intros E; [constructor|constructor|]. constructor.
  - exists m, (pre ++ g), u, rest. split; [rewrite E, <- app_assoc; reflexivity|]. split; [exact Hs|]. cbn [tk_kind]. unfold tok_of. rewrite <- app_assoc. reflexivity.
  - apply IH. rewrite E, <- !app_assoc. reflexivity.
Qed.

(** Whatever was wrong with the text, everything in the tree is written in the text at the place recorded in the tree *)
Theorem C83_tree_says : forall incl text src f s, valid_utf8 text = true -> parse_text incl text src = ROk f s -> file_said text f.
Proof.
  intros incl text src f s Hv E. destruct (tokenize_total text src Hv) as [toks Ht]. pose proof (parse_sim incl text src toks Hv Ht) as H. rewrite E in H.
  pose proof (proj1 (tokenize_iff text src toks Hv) Ht) as Hl.
  pose proof (h_file text src incl (relex text src)) as Hf. unfold t_parse in H.
  assert (Hr : forall t, tok_at text src t -> Forall (tok_at text src) (relex text src (tk_end t))).
  { intros t (m & a & u & rest & Et & _ & Ek). rewrite Ek. cbn [tok_of tk_end tk_span span_end]. rewrite app_assoc in Et.
    exact (lexed_at _ _ _ _ _ _ (relex_spec text src (a ++ u) rest Hv Et) Et). }
  specialize (Hf Hr (S (S (length text))) (mkTS toks []) (lexed_at _ _ _ _ _ _ Hl eq_refl)).
  destruct (t_p_file _ _ _ _ _) as [f' st|d st|]; [|destruct H|destruct H]. destruct H as [-> _]. exact (proj1 Hf).
Qed.
Print Assumptions C83_tree_says.

(** *** A damaged file: an unknown character, a missing semicolon, a bad name *)
Definition damaged83 : list N := bs "/ { l: a = <1 (2) &{/b@1}> * x;y? { c = [0 zz]; /omit-if-no-ref/ d = ""q"" } }; &l { }".
Example C83_case : valid_utf8 damaged83 = true /\ exists f s, parse_text [] damaged83 (bs "f") = ROk f s
  /\ map dg_kind (ps_diags s) = [Expected; IllegalChar; OddNumberOfBytestringElements; IntError; Expected; IncorrectDirective; Expected; Expected]
  /\ length (fl_elements f) = 2%nat.
Proof. split; [reflexivity|]. eexists _, _. split; [vm_compute; reflexivity|]. split; reflexivity. Qed.

(** ** C84: the symbols answered for a document have names *)
Definition visible (n : str) : Prop := exists c, In c n /\ ~ ws_char c.
Inductive named : symbol -> Prop :=
| named_intro n k d r sel c : visible n -> (forall cs, c = Some cs -> Forall named cs) -> named (mkSym n k d r sel c).

Lemma char_visible c n : name_char c \/ c = cAt \/ c = cSlash \/ c = cAmp -> visible (c :: n).
Proof. intros H. exists c. split; [left; reflexivity|]. unfold ws_char. cbn [In]. unfold name_char, letter, digit in H. cbn [In] in H. lia. Qed.
Lemma name_visible text (n : wtok str) : name_said text n -> visible (wt_item n).
Proof.
  intros (_ & H1 & H2). destruct (wt_item n) as [|c r]; [congruence|]. apply char_visible. pose proof (Forall_inv H2) as [H|H]; auto.
Qed.
Lemma node_name_visible text n : node_name_said text n -> visible (nn_name (wt_item n)).
Proof.
  intros (H1 & H2 & _). destruct (nn_name (wt_item n)) as [|c r]; [congruence|]. apply char_visible. destruct (H2 c (or_introl eq_refl)); auto.
Qed.
Lemma visible_app a b : visible a -> visible (a ++ b).
Proof. intros (c & Hc & H). exists c. split; [apply in_or_app; left; exact Hc|exact H]. Qed.
Lemma reference_visible r : visible (show_reference r).
Proof. destruct r; cbn [show_reference bs]; apply char_visible; auto. Qed.
Lemma deleted_named nm k d r sel : visible nm -> named (mkSym nm k d r sel None).
Proof. intros H. constructor; [exact H|discriminate]. Qed.
Lemma items_named its e : Forall (fun i => named (item_symbol i)) its -> forall cs, Some (payload_symbols (mkPayload its e)) = Some cs -> Forall named cs.
Proof. intros H cs E. rewrite payload_syms in E. injection E as <-. apply Forall_map. exact H. Qed.
Lemma item_named text i : item_said text i -> named (item_symbol i).
Proof.
  assert (G : forall n, item_said text (INode n) -> named (node_symbol n)).
  { intros n. apply (node_rect' (fun n => item_said text (INode n) -> named (node_symbol n)) (fun i => item_said text i -> named (item_symbol i))); clear n.
    - intros l nm its e o IH H. inversion H as [|? ? ? ? ? H1 H2 H3 H4 H5| |]; subst. cbn [node_symbol]. constructor; [exact (node_name_visible _ _ H2)|].
      apply (items_named its e). apply Forall_forall. intros j Hj. rewrite Forall_forall in IH, H3. exact (IH j Hj (H3 j Hj)).
    - intros p H. inversion H as [? Hp| | |]; subst. apply deleted_named. exact (name_visible _ _ (proj1 (proj2 Hp))).
    - intros n IH H. exact (IH H).
    - intros t n H. inversion H as [| |? ? H1 H2|]; subst. apply deleted_named. apply visible_app. exact (node_name_visible _ _ H2).
    - intros t n H. inversion H as [| | |? ? H1 H2]; subst. apply deleted_named. exact (name_visible _ _ H2). }
  destruct i as [p|n|t n|t n]; intros H.
  - inversion H as [? Hp| | |]; subst. apply deleted_named. exact (name_visible _ _ (proj1 (proj2 Hp))).
  - exact (G n H).
  - inversion H as [| |? ? H1 H2|]; subst. apply deleted_named. apply visible_app. exact (node_name_visible _ _ H2).
  - inversion H as [| | |? ? H1 H2]; subst. apply deleted_named. exact (name_visible _ _ H2).
Qed.
Lemma file_named text f : file_said text f -> Forall named (file_symbols f).
Proof.
  unfold file_said, file_symbols. induction 1 as [|p ps Hp _ IH]; [constructor|]. cbn [Server.filter_map].
  destruct (primary_symbol p) as [x|] eqn:E; [|exact IH]. constructor; [|exact IH].
  destruct p as [d|[l nm [its e] o]|[r [its e]]|c]; cbn [primary_symbol] in E; [|injection E as <-|injection E as <-|discriminate E].
  - destruct d; try discriminate E; injection E as <-; apply deleted_named; try apply reference_visible.
    exists 105. split; [left; reflexivity|unfold ws_char; cbn [In]; lia].
  - cbn [primary_said nd_label nd_omit nd_name nd_payload wt_tok] in Hp. destruct Hp as (_ & _ & Hn & _ & Hi & _). cbn [node_symbol]. constructor; [exact (node_name_visible _ _ Hn)|].
    apply (items_named its e). eapply Forall_impl; [|exact Hi]. apply item_named.
  - cbn [primary_said rn_payload] in Hp. destruct Hp as (_ & Hi & _). cbn [rn_reference rn_payload]. constructor; [apply reference_visible|].
    apply (items_named its e). eapply Forall_impl; [|exact Hi]. apply item_named.
Qed.
Theorem C84_symbols_named : forall sv fs u l, served sv -> document_symbol fs u sv = Some l -> Forall named l.
Proof.
  intros sv fs u l Hs E. unfold document_symbol in E. destruct (to_file_path u) as [p|]; [|discriminate]. unfold get_root in E.
  destruct (get_file fs (sv_project sv) p) as [v|] eqn:Eg; [|discriminate]. destruct (pf_file v) as [f|] eqn:Ef; [|discriminate].
  cbn [option_map] in E. injection E as <-. destruct (get_file_key _ _ _ _ Eg) as [k Hk].
  destruct (proj1 (si_tree _ (served_inv _ Hs) _ _ _ Hk Ef)) as (dirs & s & Hv & Hp). exact (file_named _ _ (C83_tree_says _ _ _ _ _ Hv Hp)).
Qed.
Print Assumptions C84_symbols_named.

(** ** C85: what a symbol shows is written at its selection range; the unit address of a node is not shown *)
Inductive shown (text : list N) : symbol -> Prop :=
| sh_as_written n k d r sel c : written text sel n -> (forall cs, c = Some cs -> Forall (shown text) cs) -> shown text (mkSym n k d r sel c)
| sh_address n a r sel cs : ~ In cAt n -> written text sel (n ++ [cAt] ++ a) -> Forall (shown text) cs -> shown text (mkSym n SkModule false r sel (Some cs))
| sh_path s p k d r sel c : path_text s p -> written text sel ([cAmp; cLBrace] ++ s ++ [cRBrace]) ->
    (forall cs, c = Some cs -> Forall (shown text) cs) -> shown text (mkSym (show_reference (RefPath p)) k d r sel c)
| sh_include s b r sel : string_body b s -> written text sel ([cQuote] ++ b ++ [cQuote]) -> shown text (mkSym (bs "include " ++ s) SkFile false r sel None).

Lemma none_shown text : forall cs : list symbol, None = Some cs -> Forall (shown text) cs.
Proof. discriminate. Qed.
Lemma reference_shown text r k d rg c : reference_said text r -> (forall cs, c = Some cs -> Forall (shown text) cs) ->
  shown text (mkSym (show_reference (wt_item r)) k d rg (wt_span r) c).
Proof.
  intros [(s & E & H)|(s & p & E & Hp & H)] Hc; rewrite E; [apply sh_as_written; [exact H|exact Hc]|exact (sh_path _ s p _ _ _ _ _ Hp H Hc)].
Qed.
Lemma node_name_shown text n r cs : node_name_said text n -> Forall (shown text) cs -> shown text (mkSym (nn_name (wt_item n)) SkModule false r (wt_span n) (Some cs)).
Proof.
  intros (_ & _ & u & Ht & Hw) Hc. destruct Ht as [s Hs|s a Hs]; cbn [nn_name]; [apply sh_as_written; [exact Hw|intros x E; injection E as <-; exact Hc]|].
  exact (sh_address _ s a _ _ _ Hs Hw Hc).
Qed.
Lemma items_shown text its e : Forall (fun i => shown text (item_symbol i)) its -> Forall (shown text) (payload_symbols (mkPayload its e)).
Proof. intros H. rewrite payload_syms. apply Forall_map. exact H. Qed.
Lemma leaf_shown text i : item_said text i -> (forall n, i <> INode n) -> shown text (item_symbol i).
Proof.
  intros H Hn. destruct H as [p Hp|l n its e o H1 H2 H3 H4 H5|t n Ht (_ & _ & u & Hu & Hw)|t n Ht Hw]; cbn [item_symbol].
  - apply sh_as_written; [exact (proj1 (proj1 (proj2 Hp)))|apply none_shown].
  - exfalso. exact (Hn _ eq_refl).
  - apply sh_as_written; [|apply none_shown]. destruct Hu as [s _|s a _]; unfold show_node_name; cbn [nn_name nn_addr]; [rewrite app_nil_r|]; exact Hw.
  - apply sh_as_written; [exact (proj1 Hw)|apply none_shown].
Qed.
Lemma node_shown text n : item_said text (INode n) -> shown text (node_symbol n).
Proof.
  apply (node_rect' (fun n => item_said text (INode n) -> shown text (node_symbol n)) (fun i => item_said text i -> shown text (item_symbol i))); clear n.
  - intros l nm its e o IH H. inversion H as [|? ? ? ? ? H1 H2 H3 H4 H5| |]; subst. apply node_name_shown; [exact H2|].
    apply (items_shown text its e). apply Forall_forall. intros j Hj. rewrite Forall_forall in IH, H3. exact (IH j Hj (H3 j Hj)).
  - intros p H. apply leaf_shown; [exact H|discriminate].
  - intros n IH H. exact (IH H).
  - intros t n H. apply leaf_shown; [exact H|discriminate].
  - intros t n H. apply leaf_shown; [exact H|discriminate].
Qed.
Lemma item_shown text i : item_said text i -> shown text (item_symbol i).
Proof. intros H. destruct i as [p|n|t n|t n]; [| exact (node_shown _ _ H) | |]; (apply leaf_shown; [exact H|discriminate]). Qed.
Lemma file_shown text f : file_said text f -> Forall (shown text) (file_symbols f).
Proof.
  unfold file_said, file_symbols. induction 1 as [|p ps Hp _ IH]; [constructor|]. cbn [Server.filter_map].
  destruct (primary_symbol p) as [x|] eqn:E; [|exact IH]. constructor; [|exact IH].
  destruct p as [d|[l nm [its e] o]|[r [its e]]|c]; cbn [primary_symbol] in E; [|injection E as <-|injection E as <-|discriminate E].
  - destruct d; try discriminate E; injection E as <-; destruct Hp as [Hp1 Hp2].
    + destruct Hp2 as (b & Hb & Hw). exact (sh_include _ _ _ _ _ Hb Hw).
    + apply reference_shown; [exact Hp2|apply none_shown].
    + apply reference_shown; [exact Hp2|apply none_shown].
  - cbn [primary_said nd_label nd_omit nd_name nd_payload wt_tok] in Hp. destruct Hp as (_ & _ & Hn & _ & Hi & _). cbn [node_symbol]. apply node_name_shown; [exact Hn|].
    apply (items_shown text its e). eapply Forall_impl; [|exact Hi]. apply item_shown.
  - cbn [primary_said rn_payload] in Hp. destruct Hp as (Hr & Hi & _). cbn [rn_reference rn_payload]. apply reference_shown; [exact Hr|]. intros cs Ec. injection Ec as <-.
    apply (items_shown text its e). eapply Forall_impl; [|exact Hi]. apply item_shown.
Qed.
Theorem C85_shown : forall sv fs u l, served sv -> document_symbol fs u sv = Some l ->
  exists p v, to_file_path u = Some p /\ get_file fs (sv_project sv) p = Some v /\ Forall (shown (pf_text v)) l.
Proof.
  intros sv fs u l Hs E. unfold document_symbol in E. destruct (to_file_path u) as [p|] eqn:Eu; [|discriminate]. unfold get_root in E.
  destruct (get_file fs (sv_project sv) p) as [v|] eqn:Eg; [|discriminate]. destruct (pf_file v) as [f|] eqn:Ef; [|discriminate].
  cbn [option_map] in E. injection E as <-. exists p, v. split; [reflexivity|]. split; [exact Eg|]. destruct (get_file_key _ _ _ _ Eg) as [k Hk].
  destruct (proj1 (si_tree _ (served_inv _ Hs) _ _ _ Hk Ef)) as (dirs & s & Hv & Hp). exact (file_shown _ _ (C83_tree_says _ _ _ _ _ Hv Hp)).
Qed.
Print Assumptions C85_shown.

(** two nodes of one parent that differ in their unit address look the same *)
Definition text85 : list N := bs "/ { uart@0 { }; uart@1 { }; };".
Definition sv85 : server := match did_open 5 id_oracle (fun l => l) (mem_fs [(bs "/a.dts", [])]) (FileUri (bs "/a.dts")) text85 server_new with Done s => s | _ => server_new end.
Lemma sv85_done : did_open 5 id_oracle (fun l => l) (mem_fs [(bs "/a.dts", [])]) (FileUri (bs "/a.dts")) text85 server_new = Done sv85.
Proof. vm_compute. reflexivity. Qed.
Lemma sv85_served : served sv85.
Proof.
  apply (se_open 5 id_oracle (fun l => l) (mem_fs [(bs "/a.dts", [])]) (FileUri (bs "/a.dts")) text85 server_new);
    [apply se_new|apply mem_disk; [reflexivity|cbn; lia]|apply id_order_ok|apply id_shuffle|reflexivity|exact sv85_done].
Qed.
Theorem C85_refuted : exists sv fs u root a b, served sv /\ document_symbol fs u sv = Some [root] /\ sy_children root = Some [a; b]
  /\ sy_name a = sy_name b /\ written text85 (sy_selection a) (bs "uart@0") /\ written text85 (sy_selection b) (bs "uart@1").
Proof.
  exists sv85, (mem_fs [(bs "/a.dts", [])]), (FileUri (bs "/a.dts")). do 3 eexists. split; [exact sv85_served|].
  split; [vm_compute; reflexivity|]. split; [vm_compute; reflexivity|]. split; [vm_compute; reflexivity|].
  split; [exists (bs "/ { "), (bs " { }; uart@1 { }; };")|exists (bs "/ { uart@0 { }; "), (bs " { }; };")]; split; vm_compute; reflexivity.
Qed.
Print Assumptions C85_refuted.
(** the hypotheses of C84 and C85 are met by a damaged document *)
Definition sv84 : server := match did_open 5 id_oracle (fun l => l) (mem_fs [(bs "/a.dts", [])]) (FileUri (bs "/a.dts")) damaged83 server_new with Done s => s | _ => server_new end.
Example C84_case : served sv84 /\ option_map (map (fun s => (sy_name s, option_map (map sy_name) (sy_children s)))) (document_symbol (mem_fs [(bs "/a.dts", [])]) (FileUri (bs "/a.dts")) sv84)
  = Some [(bs "/", Some [bs "a"; bs "x"; bs "y?"]); (bs "&l", Some [])].
Proof.
  split; [|vm_compute; reflexivity].
  apply (se_open 5 id_oracle (fun l => l) (mem_fs [(bs "/a.dts", [])]) (FileUri (bs "/a.dts")) damaged83 server_new);
    [apply se_new|apply mem_disk; [reflexivity|cbn; lia]|apply id_order_ok|apply id_shuffle|reflexivity|vm_compute; reflexivity].
Qed.
