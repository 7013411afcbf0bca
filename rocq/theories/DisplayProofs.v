(** Displayed trees read back: texts made of spelled tokens, and the displayed pieces *)
From Verif Require Import Grammar Display NameProofs NumProofs LexerProofs LexerProofs3 GrammarComplete.

(** ** Trees up to tokens *)
Definition no_token : token := mkToken Slash (mkSpan pos_zero pos_zero) [].
Definition bare {A} (w : wtok A) : wtok A := mkWT (wt_item w) no_token.
Definition bare_cell (c : cell) : cell :=
  match c with CNumber n => CNumber (bare n) | CReference r => CReference (bare r) | CExpression => CExpression end.
Definition bare_value (v : prop_value) : prop_value :=
  match v with
  | PVString s => PVString (bare s)
  | PVCells _ cs _ => PVCells no_token (map bare_cell cs) no_token
  | PVReference r => PVReference (bare r)
  | PVBytes _ ss _ => PVBytes no_token (map bare ss) no_token
  end.
Definition bare_property (p : property) : property :=
  mkProp (option_map bare (pr_label p)) (bare (pr_name p)) (map bare_value (pr_values p)) no_token.
Fixpoint bare_item (i : item) : item :=
  match i with
  | IProperty p => IProperty (bare_property p)
  | INode n => INode (bare_node n)
  | IDeletedNode _ n => IDeletedNode no_token (bare n)
  | IDeletedProperty _ n => IDeletedProperty no_token (bare n)
  end
with bare_node (n : node) : node :=
  match n with
  | mkNode lb nm pl o => mkNode (option_map bare lb) (bare nm) (bare_payload pl) (option_map (fun _ => no_token) o)
  end
with bare_payload (p : payload) : payload :=
  match p with
  | mkPayload its _ =>
    mkPayload ((fix go (l : list item) : list item := match l with [] => [] | i :: r => bare_item i :: go r end) its) no_token
  end.
Definition bare_primary (p : primary) : primary :=
  match p with
  | PDirective (ADtsHeader _) => PDirective (ADtsHeader no_token)
  | PDirective (APlugin _) => PDirective (APlugin no_token)
  | PDirective (AMemreserve a l) => PDirective (AMemreserve (bare a) (bare l))
  | PDirective (AInclude i) => PDirective (AInclude (mkInclude no_token (bare (in_file_name i)) (in_paths i)))
  | PDirective (ADeletedNode _ r) => PDirective (ADeletedNode no_token (bare r))
  | PDirective (AOmitIfNoRef _ r) => PDirective (AOmitIfNoRef no_token (bare r))
  | PRoot n => PRoot (bare_node n)
  | PReferencedNode r => PReferencedNode (mkRefNode (bare (rn_reference r)) (bare_payload (rn_payload r)))
  | PCStyleInclude s => PCStyleInclude s
  end.
Lemma bare_payload_items its e : bare_payload (mkPayload its e) = mkPayload (map bare_item its) no_token.
Proof. reflexivity. Qed.

(** ** Texts made of ASCII tokens with white space between *)
Inductive spelled : mode -> list token_kind -> list N -> Prop :=
| sd_nil m : spelled m [] []
| sd_ws m c ks t : ws_char c -> spelled m ks t -> spelled m ks (c :: t)
| sd_tok m k u ks t : spells m k u t -> Forall (fun c => c < 128) u ->
    spelled (mode_after k m) ks t -> spelled m (k :: ks) (u ++ t).

Lemma spelled_lexed src m ks t : spelled m ks t -> forall pre g, Forall ws_char g ->
  exists toks, lexed src m pre (g ++ t) toks /\ map tk_kind toks = ks.
Proof.
  assert (W : forall g, Forall ws_char g -> gap g) by (induction 1; constructor; assumption).
  induction 1 as [m|m c ks t Hc Ht IH|m k u ks t Hs Ha Ht IH]; intros pre g Hg.
  - exists []. split; [|reflexivity]. apply lx_end. left. rewrite app_nil_r. apply W. exact Hg.
  - destruct (IH pre (g ++ [c])) as (toks & Hl & Hk).
    { apply Forall_app. split; [exact Hg|]. constructor; [exact Hc|constructor]. }
    exists toks. rewrite <- app_assoc in Hl. split; assumption.
  - destruct (IH (pre ++ g ++ u) []) as (toks & Hl & Hk); [constructor|].
    eexists. split; [apply lx_token; [apply W; exact Hg|exact Hs|exact Hl]|]. cbn [map tk_kind]. rewrite Hk. reflexivity.
Qed.
Lemma spelled_ascii m ks t : spelled m ks t -> Forall (fun c => c < 128) t.
Proof.
  induction 1 as [m|m c ks t Hc Ht IH|m k u ks t Hs Ha Ht IH]; [constructor| |].
  - constructor; [|exact IH]. unfold ws_char in Hc. cbn [In] in Hc. lia.
  - apply Forall_app. split; assumption.
Qed.
Lemma spelled_valid m ks t : spelled m ks t -> valid_utf8 t = true.
Proof. intros H. apply (valid_class (fun c => c < 128)); [auto|]. eapply spelled_ascii. exact H. Qed.
Lemma sd_space m ks t : spelled m ks t -> spelled m ks (cSpace :: t).
Proof. apply sd_ws. unfold ws_char. cbn [In]. auto. Qed.
Lemma sd_nl m ks t : spelled m ks t -> spelled m ks (cNL :: t).
Proof. apply sd_ws. unfold ws_char. cbn [In]. auto. Qed.
Lemma sd_punct m c k ks t : ~ name_start m c -> In (c, k) punctuation -> c < 128 ->
  spelled (mode_after k m) ks t -> spelled m (k :: ks) (c :: t).
Proof.
  intros Hn Hp Hc Ht. apply (sd_tok m k [c]); [apply sp_punct; assumption| |exact Ht]. constructor; [exact Hc|constructor].
Qed.
Lemma not_start m c : In c [cSemi; cEq; cLBracket; cRBracket; cLPar; cRPar; cLBrace; cRBrace; cLt; cGt] -> ~ name_start m c.
Proof. intros H. unfold name_start, letter. cbn [In] in *. intros [[K|K]|[K|[_ K]]]; lia. Qed.
Ltac member := cbn [In punctuation]; repeat (first [left; reflexivity | right]).
Ltac punct := apply sd_punct; [apply not_start; member|member|reflexivity|].

(** what may follow a name, a reference or a number *)
Definition stop (t : list N) : Prop := exists c r, t = c :: r /\ In c [cSpace; cGt; cSemi; cRBracket; cComma; cRPar].
Definition name_stop (t : list N) : Prop := exists c r, t = c :: r /\ In c [cSpace; cSemi; cRBracket; cRPar].
Lemma name_stop_stop t : name_stop t -> stop t.
Proof. intros (c & r & -> & H). exists c, r. split; [reflexivity|]. cbn [In] in *. tauto. Qed.
Lemma stop_cons c r : In c [cSpace; cGt; cSemi; cRBracket; cComma; cRPar] -> stop (c :: r).
Proof. intros H. exists c, r. auto. Qed.
Lemma name_stop_cons c r : In c [cSpace; cSemi; cRBracket; cRPar] -> name_stop (c :: r).
Proof. intros H. exists c, r. auto. Qed.
Lemma stop_not t x r : stop t -> t = x :: r -> ~ label_char x /\ ~ (letter x \/ digit x).
Proof.
  intros (c & r' & -> & H) E. injection E as -> _. unfold label_char, letter, digit. cbn [In] in H. lia.
Qed.
Lemma name_stop_not t x r : name_stop t -> t = x :: r -> ~ name_char x /\ x <> cColon /\ x <> cAt.
Proof.
  intros (c & r' & -> & H) E. injection E as -> _. unfold name_char, letter, digit. cbn [In] in *. lia.
Qed.

Lemma sd_name m s ks t : (exists c r, s = c :: r /\ name_start m c) -> Forall name_char s -> name_stop t ->
  spelled m ks t -> spelled m (Ident s :: ks) (s ++ t).
Proof.
  intros (c & r & -> & Hs) Hc Hd Ht. apply sd_tok; [|eapply Forall_impl; [|exact Hc]; exact name_char_ascii|exact Ht].
  apply sp_name; [exact Hs|exact Hc|]. intros x r' E. eapply name_stop_not; eassumption.
Qed.

(** ** Names *)
Lemma show_node_name_text n : ~ In cAt (nn_name n) -> node_text (show_node_name n) n.
Proof.
  destruct n as [s [a|]]; unfold show_node_name; cbn [nn_name nn_addr]; intros H.
  - apply (nt_addr s a). exact H.
  - rewrite app_nil_r. apply nt_plain. exact H.
Qed.
Lemma node_char_name c : node_char c -> name_char c.
Proof. unfold node_char, name_char. cbn [In]. tauto. Qed.
Lemma node_char_not c : node_char c -> c <> cAt /\ c <> cSlash /\ c <> cRBrace.
Proof. unfold node_char, letter, digit. cbn [In]. lia. Qed.
Definition bare_name (n : node_name) : Prop :=
  show_node_name n <> [] /\ ~ In cAt (nn_name n) /\ ~ In cSlash (show_node_name n).
Lemma show_path_text p : Forall bare_name p -> path_text (show_npath p) p.
Proof.
  intros H. assert (G : path_text (show_components p) p).
  { induction H as [|n r (H1 & H2 & H3) _ IH]; [constructor|].
    cbn [show_components]. apply (pt_slash (show_node_name n ++ show_components r)).
    apply pt_comp; [exact H1|exact H3| |apply show_node_name_text; exact H2|exact IH].
    destruct r; [left; reflexivity|right; eexists; reflexivity]. }
  destruct p; [apply (pt_slash []); constructor|exact G].
Qed.
Lemma legal_node_chars n : legal_node_name n ->
  Forall node_char (nn_name n) /\ (exists c r, nn_name n = c :: r /\ (letter c \/ c = cUnder))
  /\ forall a, nn_addr n = Some a -> a <> [] /\ Forall node_char a.
Proof.
  intros [->|((H0 & _) & H1 & (c & r & E & Hc) & H2)].
  - cbn [nn_name nn_addr]. split; [|split; [eexists; eexists; split; [reflexivity|right; reflexivity]|discriminate]].
    rewrite <- (Forall_iff _ _ _ node_pred_spec). repeat constructor.
  - split; [exact H1|]. split; [exists c, r; auto|]. intros a Ha. destruct (H2 a Ha) as [[K _] K2]. auto.
Qed.
Lemma forall_not_in (P : N -> Prop) d s : Forall P s -> ~ P d -> ~ In d s.
Proof. intros H Hd Hi. apply Hd. rewrite Forall_forall in H. apply H. exact Hi. Qed.
Lemma legal_node_show n : legal_node_name n -> ~ In cSlash (show_node_name n) /\ ~ In cRBrace (show_node_name n)
  /\ Forall (fun c => c < 128) (show_node_name n).
Proof.
  intros H. destruct (legal_node_chars n H) as (H1 & _ & H3). unfold show_node_name.
  assert (G : Forall (fun c => node_char c \/ c = cAt) (nn_name n ++ match nn_addr n with Some a => bs "@" ++ a | None => [] end)).
  { apply Forall_app. split; [eapply Forall_impl; [|exact H1]; auto|].
    destruct (nn_addr n) as [a|]; [|constructor]. constructor; [right; reflexivity|].
    eapply Forall_impl; [|apply (H3 a); reflexivity]. auto. }
  split; [|split]; try (eapply forall_not_in; [exact G|]; unfold node_char, letter, digit; cbn [In]; lia).
  eapply Forall_impl; [|exact G]. cbn beta. intros c [K| ->]; [apply node_char_ascii; exact K|reflexivity].
Qed.
Lemma legal_bare n : legal_node_name n -> bare_name n.
Proof.
  intros H. destruct (legal_node_chars n H) as (H1 & (c & r & E & _) & _). split; [|split].
  - unfold show_node_name. rewrite E. discriminate.
  - eapply forall_not_in; [exact H1|]. intros K. apply node_char_not in K. tauto.
  - apply legal_node_show. exact H.
Qed.
Lemma show_npath_chars p : Forall legal_node_name p ->
  ~ In cRBrace (show_npath p) /\ Forall (fun c => c < 128) (show_npath p) /\ show_npath p <> [].
Proof.
  intros H. assert (G : Forall (fun c => c <> cRBrace /\ c < 128) (show_components p)).
  { induction H as [|n r Hn _ IH]; [constructor|]. cbn [show_components]. constructor; [split; [discriminate|reflexivity]|].
    apply Forall_app. split; [|exact IH]. destruct (legal_node_show n Hn) as (_ & K1 & K2).
    rewrite Forall_forall in *. intros x Hx. split; [intros ->; contradiction|apply K2; exact Hx]. }
  assert (G2 : Forall (fun c => c <> cRBrace /\ c < 128) (show_npath p)).
  { destruct p; [|exact G]. constructor; [split; [discriminate|reflexivity]|constructor]. }
  split; [|split].
  - eapply forall_not_in; [exact G2|]. tauto.
  - eapply Forall_impl; [|exact G2]. cbn beta. tauto.
  - destruct p; discriminate.
Qed.

(** ** References, cells and values *)
Definition ref_ok (r : reference) : Prop :=
  match r with
  | RefLabel s => legal_label s /\ exists c q, s = c :: q /\ letter c
  | RefPath p => Forall legal_node_name p
  end.
Definition cell_ok (c : cell) : Prop :=
  match c with CNumber n => wt_item n < 2 ^ 32 | CReference r => ref_ok (wt_item r) | CExpression => True end.
(** a byte of a string literal that stands for itself *)
Definition plain_char (c : N) : Prop := c < 128 /\ c <> cQuote /\ c <> cBackslash.
(** bytes whose display has two digits *)
Definition wide_byte (b : N) : Prop := 16 <= b < 256.
Definition value_ok (v : prop_value) : Prop :=
  match v with
  | PVString s => Forall plain_char (wt_item s)
  | PVReference r => ref_ok (wt_item r)
  | PVCells _ cs _ => Forall cell_ok cs
  | PVBytes _ ss _ => Forall (fun w => wt_item w <> [] /\ Forall wide_byte (wt_item w)) ss
  end.

(** [reads w ks P]: before a stop, the text [w] is spelled by tokens of kinds [ks] in any mode, and all
    such tokens derive something with [P] *)
Lemma ref_reads r : ref_ok r -> exists k x,
  (forall m ks t, stop t -> spelled m ks t -> spelled m (Ref k :: ks) (show_reference r ++ t)) /\ ref_text k x /\ x = r.
Proof.
  destruct r as [s|p]; cbn [ref_ok show_reference].
  - intros [Hl (c & q & -> & Hc)]. exists (TRefSimple (c :: q)), (RefLabel (c :: q)). split; [|split; [constructor; exact Hl|reflexivity]].
    intros m ks t Hd Ht. destruct Hl as (_ & Hl & _). apply (sd_tok m (Ref (TRefSimple (c :: q))) (cAmp :: c :: q)); [| |exact Ht].
    + apply sp_ref; [exact Hc|exact Hl|]. intros x r E. eapply stop_not; eassumption.
    + constructor; [reflexivity|]. eapply Forall_impl; [|exact Hl]. exact label_char_ascii.
  - intros Hp. destruct (show_npath_chars p Hp) as (C1 & C2 & C3).
    exists (TRefPath (show_npath p)), (RefPath p). split; [|split; [|reflexivity]].
    + intros m ks t _ Ht. apply (sd_tok m (Ref (TRefPath (show_npath p)))); [apply sp_ref_path; exact C1| |exact Ht].
      constructor; [reflexivity|]. constructor; [reflexivity|]. apply Forall_app. split; [exact C2|].
      constructor; [reflexivity|constructor].
    + constructor; [exact C3| |exact Hp]. apply show_path_text. eapply Forall_impl; [|exact Hp]. exact legal_bare.
Qed.

Lemma hex_digit_alnum c v : digit_value c v -> v < 16 -> letter c \/ digit c.
Proof. unfold digit_value, letter, digit. lia. Qed.
Lemma numeral_alnums b s n : numeral b s n -> b <= 16 -> Forall (fun c => letter c \/ digit c) s.
Proof.
  intros H Hb. induction H as [c v Hc Hv|s n c v _ IH Hc Hv].
  - constructor; [|constructor]. eapply hex_digit_alnum; [exact Hc|lia].
  - apply Forall_app. split; [exact IH|]. constructor; [|constructor]. eapply hex_digit_alnum; [exact Hc|lia].
Qed.

(** tokens of given kinds *)
Lemma kinds_cons toks k ks : map tk_kind toks = k :: ks ->
  exists t r, toks = t :: r /\ is k t /\ map tk_kind r = ks.
Proof. destruct toks as [|t r]; [discriminate|]. cbn [map]. intros H. injection H as H1 H2. exists t, r. auto. Qed.
Lemma kinds_nil toks : map tk_kind toks = [] -> toks = [].
Proof. destruct toks; [reflexivity|discriminate]. Qed.
Lemma kinds_app toks ks1 ks2 : map tk_kind toks = ks1 ++ ks2 ->
  exists a b, toks = a ++ b /\ map tk_kind a = ks1 /\ map tk_kind b = ks2.
Proof. intros H. destruct (map_eq_app _ _ _ _ H) as (a & b & -> & H1 & H2). exists a, b. auto. Qed.

(** [reads m w ks C R]: in mode [m], followed by a text with [C], [w] is spelled by tokens of kinds [ks],
    and all tokens of these kinds satisfy [R] *)
Definition reads (m : mode) (w : str) (C : list N -> Prop) (R : list token -> Prop) : Prop :=
  exists ks, (forall ks' t, C t -> spelled m ks' t -> spelled m (ks ++ ks') (w ++ t))
    /\ forall toks, map tk_kind toks = ks -> R toks.

Lemma lower_word m s : forallb is_lower s = true -> s <> [] ->
  (exists c r, s = c :: r /\ name_start m c) /\ Forall name_char s.
Proof.
  intros H Hn. assert (G : Forall letter s).
  { rewrite Forall_forall. rewrite forallb_forall in H. intros c Hc. specialize (H c Hc). unfold is_lower in H. unfold letter. lia. }
  split.
  - destruct s as [|c r]; [congruence|]. exists c, r. split; [reflexivity|]. left. exact (Forall_inv G).
  - eapply Forall_impl; [|exact G]. unfold name_char. auto.
Qed.

Lemma cell_reads m c : cell_ok c ->
  reads m (show_cell c) stop (fun toks => exists c', bare_cell c' = bare_cell c /\ forall l, g_cell (toks ++ l) c' l).
Proof.
  destruct c as [[n tk]|[r tk]|]; cbn [cell_ok wt_item show_cell]; intros H.
  - exists [UnparsedNumber (bs "0x" ++ show_hex n)]. split.
    + intros ks t Hd Ht. pose proof (show_hex_numeral n) as Hn. apply numeral_alnums in Hn; [|lia].
      assert (Ha : Forall (fun c => letter c \/ digit c) (bs "0x" ++ show_hex n)).
      { apply Forall_app. split; [|exact Hn]. change (bs "0x") with [48; 120].
        repeat (constructor; [unfold letter, digit; lia|]). constructor. }
      cbn [app]. apply (sd_tok m (UnparsedNumber (bs "0x" ++ show_hex n)) (bs "0x" ++ show_hex n)); [|eapply Forall_impl; [|exact Ha]; exact alnum_ascii|exact Ht].
      apply sp_number; [unfold digit; split; discriminate|exact Ha|]. intros x r E. eapply stop_not; eassumption.
    + intros toks Hk. apply kinds_cons in Hk. destruct Hk as (t & r & -> & Ht & Hk). apply kinds_nil in Hk. subst r.
      exists (CNumber (mkWT n t)). split; [reflexivity|]. intros l. apply (gc_number t (bs "0x" ++ show_hex n)); [exact Ht| |exact H].
      apply lit_hex, show_hex_numeral.
  - destruct (ref_reads r H) as (k & x & H1 & H2 & ->). exists [Ref k]. split; [intros ks t Hd Ht; apply H1; assumption|].
    intros toks Hk. apply kinds_cons in Hk. destruct Hk as (t & q & -> & Ht & Hk). apply kinds_nil in Hk. subst q.
    exists (CReference (mkWT r t)). split; [reflexivity|]. intros l. apply (gc_reference t k); assumption.
  - exists [OpenParen; Ident (bs "not"); Ident (bs "implemented"); CloseParen]. split.
    + intros ks t Hd Ht. cbn [app]. change (bs "(not implemented)" ++ t)
        with (cLPar :: bs "not" ++ (cSpace :: bs "implemented" ++ (cRPar :: t))).
      punct. cbn [mode_after].
      apply sd_name; [apply lower_word; [reflexivity|discriminate]|apply (lower_word m); [reflexivity|discriminate]| |].
      { apply name_stop_cons. cbn [In]. auto. }
      apply sd_space.
      apply sd_name; [apply lower_word; [reflexivity|discriminate]|apply (lower_word m); [reflexivity|discriminate]| |].
      { apply name_stop_cons. cbn [In]. auto. }
      punct. exact Ht.
    + intros toks Hk. apply kinds_cons in Hk. destruct Hk as (t1 & r & -> & Ht1 & Hk).
      apply kinds_cons in Hk. destruct Hk as (t2 & r2 & -> & Ht2 & Hk).
      apply kinds_cons in Hk. destruct Hk as (t3 & r3 & -> & Ht3 & Hk).
      apply kinds_cons in Hk. destruct Hk as (t4 & r4 & -> & Ht4 & Hk). apply kinds_nil in Hk. subst r4.
      exists CExpression. split; [reflexivity|]. intros l. cbn [app]. apply (gc_expression t1 (t2 :: t3 :: t4 :: l) t4 l); [exact Ht1|exact Ht4|].
      apply pa_token; [unfold is in *; congruence|unfold is in *; congruence|].
      apply pa_token; [unfold is in *; congruence|unfold is in *; congruence|]. constructor.
Qed.

(** the inside of a cell list, up to the closing bracket *)
Lemma cells_reads m cs : Forall cell_ok cs ->
  reads m (join (bs " ") (map show_cell cs) ++ bs ">") (fun _ => True)
    (fun toks => exists cs' e, map bare_cell cs' = map bare_cell cs /\ forall l, g_cells (toks ++ l) cs' e l).
Proof.
  induction 1 as [|c cs Hc Hcs IH].
  - exists [ChevronRight]. split; [intros ks t _ Ht; cbn [map join app]; punct; exact Ht|].
    intros toks Hk. apply kinds_cons in Hk. destruct Hk as (t & r & -> & Ht & Hk). apply kinds_nil in Hk. subst r.
    exists [], t. split; [reflexivity|]. intros l. apply gcs_nil; [constructor|exact Ht].
  - destruct (cell_reads m c Hc) as (k1 & S1 & R1). destruct IH as (k2 & S2 & R2). exists (k1 ++ k2). split.
    + intros ks t _ Ht. rewrite <- app_assoc. destruct cs as [|c2 cs].
      * cbn [map join]. rewrite <- app_assoc. apply S1; [apply stop_cons; cbn [In]; auto|]. apply (S2 ks t I Ht).
      * change (join (bs " ") (map show_cell (c :: c2 :: cs)))
          with (show_cell c ++ bs " " ++ join (bs " ") (map show_cell (c2 :: cs))).
        rewrite <- !app_assoc. apply S1; [apply stop_cons; cbn [In]; auto|]. apply sd_space.
        specialize (S2 ks t I Ht). rewrite <- app_assoc in S2. exact S2.
    + intros toks Hk. apply kinds_app in Hk. destruct Hk as (a & b & -> & Ha & Hb).
      destruct (R1 a Ha) as (c' & E1 & G1). destruct (R2 b Hb) as (cs' & e & E2 & G2).
      exists (c' :: cs'), e. split; [cbn [map]; congruence|]. intros l. rewrite <- app_assoc.
      eapply gcs_cons; [constructor|apply G1|apply G2].
Qed.

Lemma show_hex_wide b : wide_byte b -> exists c d, show_hex2 b = [c; d] /\ digit_value c (b / 16) /\ digit_value d (b mod 16).
Proof.
  intros H. assert (G : show_hex2 b = [digit_char (b / 16); digit_char (b mod 16)]).
  { assert (A : Forall (fun n => 16 <= N.of_nat n -> show_hex2 (N.of_nat n) = [digit_char (N.of_nat n / 16); digit_char (N.of_nat n mod 16)]) (List.seq 0 256)).
    { rewrite Forall_forall. intros n Hn. apply in_seq in Hn.
      assert (B : forallb (fun n => (N.of_nat n <? 16) || str_eqb (show_hex2 (N.of_nat n)) [digit_char (N.of_nat n / 16); digit_char (N.of_nat n mod 16)]) (List.seq 0 256) = true)
        by (vm_compute; reflexivity).
      rewrite forallb_forall in B. specialize (B n). rewrite in_seq in B. specialize (B Hn). intros Hw.
      apply orb_prop in B. destruct B as [B|B]; [apply N.ltb_lt in B; lia|]. apply str_eqb_spec in B. exact B. }
    rewrite Forall_forall in A. destruct H as [H1 H2]. specialize (A (N.to_nat b)). rewrite N2Nat.id in A.
    apply A; [apply in_seq; lia|exact H1]. }
  exists (digit_char (b / 16)), (digit_char (b mod 16)). split; [exact G|]. destruct H as [H1 H2].
  split; apply (digit_char_value 16); try lia; [apply N.div_lt_upper_bound; lia|apply N.mod_lt; lia].
Qed.
Definition show_bytes (b : str) : str := concat (map show_hex2 b).
Lemma show_bytes_text b : Forall wide_byte b ->
  byte_text (show_bytes b) b /\ Forall (fun c => letter c \/ digit c) (show_bytes b) /\ (b <> [] -> show_bytes b <> []).
Proof.
  induction 1 as [|x b Hx _ (IH1 & IH2 & _)]; [split; [constructor|]; split; [constructor|congruence]|].
  destruct (show_hex_wide x Hx) as (c & d & E & Hc & Hd). unfold show_bytes in *. cbn [map concat]. rewrite E. cbn [app].
  assert (x / 16 < 16) by (destruct Hx; apply N.div_lt_upper_bound; lia).
  assert (x mod 16 < 16) by (apply N.mod_lt; lia).
  split; [|split; [|discriminate]].
  - replace x with (16 * (x / 16) + x mod 16) by (symmetry; apply N.div_mod; lia). apply bt_pair; assumption.
  - constructor; [eapply hex_digit_alnum; eassumption|]. constructor; [eapply hex_digit_alnum; eassumption|]. exact IH2.
Qed.
Lemma alnum_name c : letter c \/ digit c -> name_char c.
Proof. unfold name_char. tauto. Qed.

Lemma element_reads m (w : wtok str) : wt_item w <> [] -> Forall wide_byte (wt_item w) ->
  reads m (show_bytes (wt_item w)) name_stop
    (fun toks => exists e s, toks = [e] /\ element_text e s /\ byte_text s (wt_item w)).
Proof.
  intros Hne Hw. destruct (show_bytes_text _ Hw) as (H1 & H2 & H3). specialize (H3 Hne).
  destruct (show_bytes (wt_item w)) as [|c s] eqn:E; [congruence|]. pose proof (Forall_inv H2) as [Hc|Hc].
  - exists [Ident (c :: s)]. split.
    + intros ks t Hd Ht. apply (sd_name m (c :: s)); [exists c, s; split; [reflexivity|left; exact Hc]| |exact Hd|exact Ht].
      eapply Forall_impl; [|exact H2]. exact alnum_name.
    + intros toks Hk. apply kinds_cons in Hk. destruct Hk as (t & r & -> & Ht & Hk). apply kinds_nil in Hk. subst r.
      exists t, (c :: s). split; [reflexivity|]. split; [right; exact Ht|exact H1].
  - exists [UnparsedNumber (c :: s)]. split.
    + intros ks t Hd Ht. apply (sd_tok m (UnparsedNumber (c :: s)) (c :: s)); [|eapply Forall_impl; [|exact H2]; exact alnum_ascii|exact Ht].
      apply sp_number; [exact Hc|exact H2|]. intros x r E2. eapply stop_not; [apply name_stop_stop; exact Hd|exact E2].
    + intros toks Hk. apply kinds_cons in Hk. destruct Hk as (t & r & -> & Ht & Hk). apply kinds_nil in Hk. subst r.
      exists t, (c :: s). split; [reflexivity|]. split; [left; exact Ht|exact H1].
Qed.

Lemma bytes_reads m ss : Forall (fun w : wtok str => wt_item w <> [] /\ Forall wide_byte (wt_item w)) ss ->
  reads m (join (bs " ") (map (fun w => show_bytes (wt_item w)) ss) ++ bs "]") (fun _ => True)
    (fun toks => exists ss' e, map bare ss' = map bare ss /\ forall l, g_bytes (toks ++ l) ss' e l).
Proof.
  induction 1 as [|w ss [Hn Hw] Hss IH].
  - exists [CloseBracket]. split; [intros ks t _ Ht; cbn [map join app]; punct; exact Ht|].
    intros toks Hk. apply kinds_cons in Hk. destruct Hk as (t & r & -> & Ht & Hk). apply kinds_nil in Hk. subst r.
    exists [], t. split; [reflexivity|]. intros l. apply gbs_nil; [constructor|exact Ht].
  - destruct (element_reads m w Hn Hw) as (k1 & S1 & R1). destruct IH as (k2 & S2 & R2). exists (k1 ++ k2). split.
    + intros ks t _ Ht. rewrite <- app_assoc. destruct ss as [|w2 ss].
      * cbn [map join]. rewrite <- app_assoc. apply S1; [apply name_stop_cons; cbn [In]; auto|]. apply (S2 ks t I Ht).
      * change (join (bs " ") (map (fun w => show_bytes (wt_item w)) (w :: w2 :: ss)))
          with (show_bytes (wt_item w) ++ bs " " ++ join (bs " ") (map (fun w => show_bytes (wt_item w)) (w2 :: ss))).
        rewrite <- !app_assoc. apply S1; [apply name_stop_cons; cbn [In]; auto|]. apply sd_space.
        specialize (S2 ks t I Ht). rewrite <- app_assoc in S2. exact S2.
    + intros toks Hk. apply kinds_app in Hk. destruct Hk as (a & b & -> & Ha & Hb).
      destruct (R1 a Ha) as (e1 & s & -> & E1 & G1). destruct (R2 b Hb) as (ss' & e & E2 & G2).
      exists (mkWT (wt_item w) e1 :: ss'), e. split; [cbn [map]; unfold bare at 1 3; cbn [wt_item]; congruence|].
      intros l. cbn [app]. apply (gbs_cons (e1 :: b ++ l) e1 s (wt_item w) (b ++ l)); [constructor|exact E1|exact G1|apply G2].
Qed.

Lemma plain_body s : Forall plain_char s -> string_body s s /\ Forall (fun c => c < 128) s.
Proof.
  induction 1 as [|c s (H1 & H2 & H3) _ [IH1 IH2]]; [split; constructor|]. split; [|constructor; assumption].
  assert (E : encode_char c = [c]).
  { pose proof (proj2 (flat_map_encode_id [c])) as K. cbn [flat_map] in K. rewrite app_nil_r in K. apply K.
    constructor; [exact H1|constructor]. }
  pose proof (sb_plain c s s H2 H3 IH1) as K. rewrite E in K. exact K.
Qed.

Lemma value_reads m v : value_ok v ->
  reads m (show_value v) stop (fun toks => exists v', bare_value v' = bare_value v /\ forall l, g_value (toks ++ l) v' l).
Proof.
  destruct v as [[s tk]|a cs b|[r tk]|a ss b]; cbn [value_ok wt_item show_value]; intros H.
  - destruct (plain_body s H) as [H1 H2]. exists [TString s]. split.
    + intros ks t _ Ht. apply (sd_tok m (TString s) ([cQuote] ++ s ++ [cQuote])); [apply sp_string; exact H1| |exact Ht].
      constructor; [reflexivity|]. apply Forall_app. split; [exact H2|]. constructor; [reflexivity|constructor].
    + intros toks Hk. apply kinds_cons in Hk. destruct Hk as (t & q & -> & Ht & Hk). apply kinds_nil in Hk. subst q.
      exists (PVString (mkWT s t)). split; [reflexivity|]. intros l. apply gv_string; [constructor|exact Ht].
  - destruct (cells_reads m cs H) as (k & S1 & R1). exists (ChevronLeft :: k). split.
    + intros ks t _ Ht. change (bs "<" ++ join (bs " ") (map show_cell cs) ++ bs ">") with (cLt :: (join (bs " ") (map show_cell cs) ++ bs ">")).
      cbn [app]. punct. apply S1; [exact I|exact Ht].
    + intros toks Hk. apply kinds_cons in Hk. destruct Hk as (t & q & -> & Ht & Hk). destruct (R1 q Hk) as (cs' & e & E & G).
      exists (PVCells t cs' e). split; [cbn [bare_value]; rewrite E; reflexivity|]. intros l. cbn [app].
      eapply gv_cells; [constructor|exact Ht|apply G].
  - destruct (ref_reads r H) as (k & x & H1 & H2 & ->). exists [Ref k]. split; [intros ks t Hd Ht; apply H1; assumption|].
    intros toks Hk. apply kinds_cons in Hk. destruct Hk as (t & q & -> & Ht & Hk). apply kinds_nil in Hk. subst q.
    exists (PVReference (mkWT r t)). split; [reflexivity|]. intros l. apply (gv_reference (t :: l) t k r l); [constructor|exact Ht|exact H2].
  - destruct (bytes_reads m ss H) as (k & S1 & R1). exists (OpenBracket :: k). split.
    + intros ks t _ Ht. fold show_bytes. change (bs "[" ++ join (bs " ") (map (fun w => concat (map show_hex2 (wt_item w))) ss) ++ bs "]") with (cLBracket :: (join (bs " ") (map (fun w => show_bytes (wt_item w)) ss) ++ bs "]")).
      cbn [app]. punct. apply S1; [exact I|exact Ht].
    + intros toks Hk. apply kinds_cons in Hk. destruct Hk as (t & q & -> & Ht & Hk). destruct (R1 q Hk) as (ss' & e & E & G).
      exists (PVBytes t ss' e). split; [cbn [bare_value]; rewrite E; reflexivity|]. intros l. cbn [app].
      eapply gv_bytes; [constructor|exact Ht|apply G].
Qed.

(** comma separated values, up to a semicolon; the comma would be a name where one is expected *)
Lemma values_reads vs : Forall value_ok vs -> vs <> [] ->
  reads Elsewhere (join (bs ", ") (map show_value vs)) stop
    (fun toks => exists vs', map bare_value vs' = map bare_value vs
       /\ forall e l, is Semicolon e -> g_values (toks ++ e :: l) vs' (e :: l)).
Proof.
  induction 1 as [|v vs Hv Hvs IH]; intros Hne; [congruence|]. destruct (value_reads Elsewhere v Hv) as (k1 & S1 & R1).
  destruct vs as [|v2 vs].
  - exists k1. split; [exact S1|]. intros toks Hk. destruct (R1 toks Hk) as (v' & E & G).
    exists [v']. split; [cbn [map]; congruence|]. intros e l He. eapply gvs_one; [constructor|apply G|constructor|].
    exists e, l. split; [reflexivity|]. unfold is in *. rewrite He. split; [discriminate|]. intros _ s. discriminate.
  - destruct IH as (k2 & S2 & R2); [discriminate|]. exists (k1 ++ Comma :: k2). split.
    + intros ks t Hd Ht. rewrite <- app_assoc. change (join (bs ", ") (map show_value (v :: v2 :: vs)))
        with (show_value v ++ (cComma :: cSpace :: join (bs ", ") (map show_value (v2 :: vs)))).
      rewrite <- app_assoc. apply S1; [apply stop_cons; cbn [In]; tauto|]. cbn [app].
      apply sd_punct; [|cbn [In punctuation]; tauto|reflexivity|].
      * unfold name_start, letter. intros [[K|K]|[K|[K _]]]; [lia|lia|lia|discriminate].
      * apply sd_space. apply S2; assumption.
    + intros toks Hk. apply kinds_app in Hk. destruct Hk as (a & b & -> & Ha & Hb).
      apply kinds_cons in Hb. destruct Hb as (c & r & -> & Hc & Hb). destruct (R1 a Ha) as (v' & E & G).
      destruct (R2 r Hb) as (vs' & E2 & G2). exists (v' :: vs'). split; [change (bare_value v' :: map bare_value vs' = bare_value v :: map bare_value (v2 :: vs)); rewrite E, E2; reflexivity|].
      intros e l He. rewrite <- app_assoc. cbn [app]. eapply gvs_cons; [constructor|apply G|constructor|exact Hc|apply G2; exact He].
Qed.
