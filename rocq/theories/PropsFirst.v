(** C95: an error is reported at the first token with which the text goes wrong *)
From Verif Require Import Parser LexSpec Utf8 ReaderProofs LexerProofs LexerProofs2 LexerProofs3 ParserBase ParserSafe ParserSafe2 Grammar NameProofs TokParser ParserSim
  Fuel GrammarComplete GrammarSound PropsGrammar PropsConcat GrammarDet Complete DisplayProofs LexGrow PropsStable PropsComplete PropsUtf16 FirstError Boundary.

(** ** Cutting a text in front of a token *)
Lemma spells_swap m k u x r z : spells m k u (x :: r) -> spells m k u (cNL :: z).
Proof.
  assert (N : forall y w, cNL :: z = y :: w -> y = cNL) by (intros y w K; injection K as <- _; reflexivity).
  intros H. inversion H; subst; try (once (econstructor; eassumption));
    [apply sp_name|apply sp_name_at|apply sp_number|apply LexSpec.sp_ref|apply sp_ref_empty|apply sp_slash]; try assumption;
    try (intros y w K; rewrite (N y w K)); not_class.
Qed.
Lemma spells_head m k u x r z : spells m k u (x :: r) -> spells m k u (x :: z).
Proof.
  intros H. inversion H; subst; try (once (econstructor; eassumption));
    [apply sp_name|apply sp_name_at|apply sp_number|apply LexSpec.sp_ref|apply sp_slash]; try assumption;
    intros y w E; injection E as <- _; match goal with K : forall y r, _ -> _ |- _ => exact (K x r eq_refl) end.
Qed.
Lemma ascii_end_app x y : ascii_end y -> ascii_end (x ++ y).
Proof. intros (v & c & -> & H). exists (x ++ v), c. split; [apply app_assoc|exact H]. Qed.
Lemma gap_ascii : forall g, gap g -> g = [] \/ ascii_end g.
Proof.
  assert (W : forall c, ws_char c -> c < 128) by (intros c; unfold ws_char; cbn [In]; lia).
  assert (A : forall x g, ascii_end x -> g = [] \/ ascii_end g -> ascii_end (x ++ g)).
  { intros x g Hx [->|Hg]; [rewrite app_nil_r; exact Hx|apply ascii_end_app, Hg]. }
  assert (O : forall x c, c < 128 -> ascii_end (x ++ [c])) by (intros x c Hc; exists x, c; auto).
  induction 1 as [|c g Hc _ IH|b g _ _ IH|b g _ _ IH]; [left; reflexivity|right..].
  - apply (A [c]); [apply (O []), W, Hc|exact IH].
  - replace ([cSlash; cSlash] ++ b ++ [cNL] ++ g) with ((([cSlash; cSlash] ++ b) ++ [cNL]) ++ g) by (rewrite <- !app_assoc; reflexivity). apply A; [apply O; lia|exact IH].
  - replace ([cSlash; cStar] ++ b ++ [cStar; cSlash] ++ g) with ((([cSlash; cStar] ++ b ++ [cStar]) ++ [cSlash]) ++ g) by (rewrite <- !app_assoc; reflexivity). apply A; [apply O; lia|exact IH].
Qed.
Lemma lexed_cut src pre t post : forall m p text, lexed src m p text (pre ++ t :: post) -> exists a u b,
  text = a ++ u ++ b /\ tk_span t = mkSpan (pos_after (p ++ a)) (pos_after (p ++ a ++ u)) /\ spells (mode_of m pre) (tk_kind t) u b
  /\ (good pre -> a = [] \/ ascii_end a)
  /\ (forall z toksz, lexed src (mode_of m pre) (p ++ a ++ [cNL]) z toksz -> lexed src m p (a ++ [cNL] ++ z) (pre ++ toksz))
  /\ (forall c, spells (mode_of m pre) (tk_kind t) u c -> exists q, lexed src m p (a ++ u ++ c) (pre ++ t :: q)).
Proof.
  assert (W : gap [cNL]) by (apply gap_ws; [unfold ws_char; cbn [In]; tauto|apply gap_nil]).
  induction pre as [|x pre IH]; intros m p text H; inversion H as [| |m' p' g k u rest toks Hg Hs Hl]; subst.
  - exists g, u, rest. split; [reflexivity|]. cbn [tk_span tk_kind mode_of fold_left app]. split; [reflexivity|]. split; [exact Hs|]. split; [intros _; apply gap_ascii, Hg|]. split.
    + intros z toksz Hz. change (g ++ cNL :: z) with (g ++ [cNL] ++ z); rewrite app_assoc. apply lexed_gap; [apply gap_app; assumption|exact Hz].
    + intros c Hc. destruct (lexed_total src (mode_after k m) (p ++ g ++ u) c) as [q Hq]. exists q. apply lx_token; assumption.
  - destruct (IH _ _ _ Hl) as (a & u2 & b & -> & E & S2 & As & Hz & Hc). exists (g ++ u ++ a), u2, b. split; [rewrite <- !app_assoc; reflexivity|].
    cbn [mode_of fold_left tk_kind]. fold (mode_of (mode_after k m) pre). rewrite <- !app_assoc in *. split; [exact E|]. split; [exact S2|].
    pose proof (spells_nonempty _ _ _ _ S2) as N2. split; [|split].
    + intros G. right. destruct pre as [|y pre].
      * destruct (As good_nil) as [->|Ha]; [|apply ascii_end_app, ascii_end_app, Ha]. rewrite app_nil_r. apply ascii_end_app.
        destruct (spells_edges _ _ _ _ Hs (G [] _ eq_refl)) as [_ [K|K]]; [|exact K]. exfalso. destruct u2; [cbn in N2; lia|discriminate K].
      * assert (G' : good (y :: pre)).
        { intros c w K. apply (G (mkToken k (mkSpan (pos_after (p ++ g)) (pos_after (p ++ g ++ u))) src :: c) w). rewrite K. reflexivity. }
        destruct (As G') as [->|Ha]; [|apply ascii_end_app, ascii_end_app, Ha]. exfalso. 
        inversion Hl as [| |m2 p2 g2 k2 u3 r3 toks2 Hg2 Hs2 Hl2]; subst.
        destruct (lexed_ordered _ _ _ _ _ Hl) as [O _]. inversion O as [|? ? ? _ O1 _ O2]; subst.
        assert (I : In t (pre ++ t :: post)) by (apply in_or_app; right; left; reflexivity).
        assert (F : forall hi q l, ordered_from src hi q l -> In t l -> pos_le q (tk_start t)).
        { clear. intros hi q l O. induction O as [|q w l H1 H2 _ O IH]; intros I; [destruct I|]. destruct I as [->|I]; [exact H1|].
          eapply pos_le_trans; [exact H1|]. eapply pos_le_trans; [apply pos_lt_le, H2|exact (IH I)]. }
        pose proof (F _ _ _ O2 I) as F1. unfold tk_start at 1 in F1. rewrite E in F1. cbn [span_start] in F1. rewrite app_nil_r in F1.
        pose proof (pos_lt_le_trans _ _ _ O1 F1) as F2. cbn [tk_start tk_span span_start] in F2.
        apply (pos_lt_irrefl (pos_after (p ++ g ++ u))). eapply pos_le_lt_trans; [|exact F2].
        replace (p ++ g ++ u ++ g2) with ((p ++ g ++ u) ++ g2) by (rewrite <- !app_assoc; reflexivity). apply pos_after_le.
    + intros z toksz Hq. specialize (Hz z toksz). rewrite <- !app_assoc in *. apply lx_token; [exact Hg| |apply Hz; exact Hq].
      destruct a as [|y a]; [|exact (spells_head _ _ _ _ _ _ Hs)]. destruct u2 as [|y u2]; [cbn in N2; lia|]. exact (spells_swap _ _ _ _ _ _ Hs).
    + intros c Sc. destruct (Hc c Sc) as [q Hq]. exists q. cbn [app]. rewrite <- !app_assoc. apply lx_token; [exact Hg| |exact Hq].
      destruct a as [|y a]; [|exact (spells_head _ _ _ _ _ _ Hs)]. destruct u2 as [|y u2]; [cbn in N2; lia|]. exact (spells_head _ _ _ _ _ _ Hs).
Qed.

(** the token with the given span is the only one *)
Lemma from_below src hi q l : ordered_from src hi q l -> Forall (fun w => pos_le q (tk_start w)) l.
Proof.
  induction 1 as [|q w l H1 H2 _ O IH]; constructor; [exact H1|]. eapply Forall_impl; [|exact IH]. intros v Hv. cbv beta in *.
  eapply pos_le_trans; [exact H1|]. eapply pos_le_trans; [apply pos_lt_le, H2|exact Hv].
Qed.
Lemma one_place src hi l : forall q pre t post pre' t' post', ordered_from src hi q l -> l = pre ++ t :: post -> l = pre' ++ t' :: post' ->
  tk_span t = tk_span t' -> pre = pre' /\ t = t' /\ post = post'.
Proof.
  assert (X : forall q w c t post, ordered_from src hi q (w :: c ++ t :: post) -> tk_span w = tk_span t -> False).
  { intros q w c t post O E. inversion O as [|? ? ? H1 H2 _ O2]; subst. apply from_below in O2. rewrite Forall_forall in O2.
    assert (It : In t (c ++ t :: post)) by (apply in_or_app; right; left; reflexivity). specialize (O2 t It). unfold tk_start, tk_end in *. rewrite <- E in O2.
    exact (pos_lt_irrefl _ (pos_lt_le_trans _ _ _ H2 O2)). }
  induction l as [|w l IH]; intros q pre t post pre' t' post' O E1 E2 Es; [destruct pre; discriminate E1|].
  destruct pre as [|x pre], pre' as [|x' pre']; cbn [app] in *.
  - injection E1 as -> ->. injection E2 as -> ->. auto.
  - exfalso. injection E1 as -> ->. injection E2 as -> ->. exact (X _ _ _ _ _ O Es).
  - exfalso. injection E1 as -> ->. injection E2 as -> E3. symmetry in Es. exact (X _ _ _ _ _ O Es).
  - injection E1 as -> E1. injection E2 as -> E2. inversion O as [|? ? ? _ _ _ O2]; subst. destruct (IH _ _ _ _ _ _ _ O2 eq_refl E2 Es) as (-> & -> & ->). auto.
Qed.

(** ** C95 *)
(** the place of [d] is the piece [u] behind [a], up to the gap in front of it *)
Definition about (a u : str) (d : diag) : Prop := exists x g, a = x ++ g /\ gap g
  /\ pos_le (pos_after x) (span_start (dg_span d)) /\ pos_le (span_start (dg_span d)) (pos_after (a ++ u)).
Lemma near_about text d d' a u b : text = a ++ u ++ b -> near text d d' -> dg_span d' = mkSpan (pos_after a) (pos_after (a ++ u)) -> about a u d.
Proof.
  intros Et [E|(x & g & r & E & Hg & E1 & L1 & L2)] Es.
  - exists a, []. split; [symmetry; apply app_nil_r|]. split; [apply gap_nil|]. rewrite E, Es. cbn [span_start]. split; [apply pos_le_refl|apply pos_after_le].
  - rewrite Es in E1, L2. cbn [span_start span_end] in *.
    destruct (pos_after_prefix_inj a (x ++ g) (u ++ b) r) as [-> _]; [rewrite <- Et, E, <- app_assoc; reflexivity|exact E1|].
    exists x, g. auto.
Qed.

(** The only complaint is an error [d] that is not "unexpected end of file".  Then it is about a token, written [u], behind a part [a] of
    the text; [a] is not at fault: alone it is read without complaint or only ends too early, and something behind it makes it a text
    without complaint (or it breaks off in an item that is misplaced); with [u] it is: whatever stands behind, the same error is reported. *)
Theorem C95_first_fault : forall incl text src d s, valid_utf8 text = true -> parse_text incl text src = RErr d s ->
  dg_kind d <> UnexpectedEOF -> ps_diags s = [] ->
  exists a u b toks t post, text = a ++ u ++ b /\ lexed src NameExpected [] text (toks ++ t :: post)
    /\ tk_span t = mkSpan (pos_after a) (pos_after (a ++ u)) /\ about a u d
    /\ valid_utf8 a = true /\ lexed src NameExpected [] (a ++ [cNL]) toks
    /\ (reads_clean incl (a ++ [cNL]) src \/ breaks_off incl (a ++ [cNL]) src)
    /\ ((exists c, valid_utf8 c = true /\ reads_clean incl (a ++ [cNL] ++ c) src) \/ misplaced_file incl toks)
    /\ forall c, valid_utf8 (a ++ u ++ c) = true -> spells (mode_of NameExpected toks) (tk_kind t) u c ->
         exists d' s', parse_text incl (a ++ u ++ c) src = RErr d' s' /\ dg_kind d' = dg_kind d /\ dg_msg d' = dg_msg d
           /\ about a u d' /\ ps_diags s' = [].
Proof.
  intros incl text src d s V E He Hs. destruct (tokenize_total text src V) as [l Ht]. pose proof (proj1 (tokenize_iff text src l V) Ht) as Hl.
  pose proof (parse_near incl text src l V Ht) as H. rewrite E in H.
  destruct (t_parse incl text src l) as [f' st|d' [l' ds]|] eqn:Et; try contradiction. destruct H as [[(Hk & _ & Hm & _) Hn] Hds].
  rewrite Hs in Hds. cbn [t_diags] in Hds. assert (ds = []) as -> by (inversion Hds; reflexivity). unfold t_parse in Et.
  assert (Hno : no (t_p_file src incl (relex text src) (S (S (length text)))) l d') by (exists l'; exact Et).
  assert (He' : ~ eof d') by (unfold eof; congruence).
  destruct Hn as [Hn|Hn]; [contradiction|].
  destruct (proj2 (tidy_file src incl (relex text src) (S (S (length text)))) l d' I Hno) as [K|(pre0 & t0 & post0 & E0 & G & S0)]; [contradiction|]. cbn [app] in E0.
  destruct (file_fall src incl (relex text src) (relex text src) _ _ _ Hno He') as (pre & t & post & E1 & _ & S1 & _).
  destruct (one_place _ _ _ _ _ _ _ _ _ _ (proj1 (lexed_ordered _ _ _ _ _ Hl)) E0 E1) as (-> & -> & ->); [congruence|]. clear E0 S0.
  subst l. destruct (lexed_cut _ _ _ _ _ _ _ Hl) as (a & u & b & -> & St & Sp & As & Hz & Hc). cbn [app] in *.
  assert (Va : valid_utf8 a = true).
  { destruct (As G) as [->|(v & c & -> & A)]; [reflexivity|]. rewrite <- app_assoc in V. cbn [app] in V. destruct (valid_split _ _ _ A V) as [K _].
    rewrite (valid_app _ _ K). apply valid_one, A. }
  assert (Vn : valid_utf8 (a ++ [cNL]) = true) by (rewrite (valid_app _ _ Va); reflexivity).
  assert (La : lexed src NameExpected [] (a ++ [cNL]) pre).
  { specialize (Hz [] [] (lx_end _ _ _ _ (or_introl gap_nil))). rewrite app_nil_r in Hz. exact Hz. }
  assert (B : reads_clean incl (a ++ [cNL]) src
    \/ breaks_off incl (a ++ [cNL]) src /\ late (t_p_file src incl (relex (a ++ [cNL]) src) (S (S (length (a ++ [cNL]))))) pre).
  { destruct (file_fall src incl (relex (a ++ u ++ b) src) (relex (a ++ [cNL]) src) _ _ _ Hno He') as (pre2 & t2 & post2 & E2 & F & S2 & _).
    destruct (one_place _ _ _ _ _ _ _ _ _ _ (proj1 (lexed_ordered _ _ _ _ _ Hl)) eq_refl E2) as (<- & <- & <-); [congruence|].
    pose proof (parse_sim incl _ src pre Vn (proj2 (tokenize_iff _ src pre Vn) La)) as P.
    destruct F as [(x & F)|(e & (l2 & F) & Ee)].
    - left. rewrite (run_any _ _ _ _ _ _ Vn La F) in P by discriminate. destruct (parse_text incl (a ++ [cNL]) src) as [y w|y w| |] eqn:Ep; try contradiction.
      exists y, w. destruct P as [_ P]. cbn [t_diags] in P. split; [exact Ep|]. inversion P. reflexivity.
    - right. pose proof (run_any _ _ _ _ _ _ Vn La F ltac:(discriminate)) as R. rewrite R in P.
      destruct (parse_text incl (a ++ [cNL]) src) as [y w|y w| |] eqn:Ep; try contradiction. destruct P as [(P1 & _) P]. cbn [t_diags] in P. split.
      + exists y, w. split; [exact Ep|]. split; [unfold eof in Ee; congruence|]. inversion P. reflexivity.
      + exists [], e, l2. split; [exact R|exact Ee]. }
  exists a, u, b, pre, t, post. split; [reflexivity|]. split; [exact Hl|]. split; [exact St|].
  split; [exact (near_about _ _ _ _ _ _ eq_refl Hn (eq_trans S1 St))|]. split; [exact Va|]. split; [exact La|].
  split; [destruct B as [B|[B _]]; [left; exact B|right; exact B]|]. split.
  - destruct B as [B|[_ Hlate]]; [left; exists []; split; [reflexivity|exact B]|].
    destruct (late_file src incl _ _ _ Hlate (lexed_ok _ _ _ _ _ La Vn)) as [(ks & Hw & Hd)|Hmis]; [left|right; exact Hmis].
    pose proof (sentence_spelled ks Hw (mode_of NameExpected pre)) as Hsp. pose proof (spelled_valid _ _ _ Hsp) as Vb.
    destruct (spelled_lexed src _ _ _ Hsp (a ++ [cNL]) [] (Forall_nil _)) as (z & Hq & Ez).
    pose proof (Hz _ _ Hq) as Hlz. destruct (Hd z (conj Ez Hw)) as [ps Hps].
    exists (sentence ks). split; [exact Vb|]. eexists.
    exact (proj1 (C11_grammatical_parses_clean incl _ src _ _ (valid_lines a _ Va Vb) Hlz Hps)).
  - intros c Vc Sc. destruct (Hc c Sc) as [q Hq].
    destruct (file_fall src incl (relex (a ++ u ++ b) src) (relex (a ++ u ++ c) src) _ _ _ Hno He') as (pre2 & t2 & post2 & E2 & _ & S2 & F).
    destruct (one_place _ _ _ _ _ _ _ _ _ _ (proj1 (lexed_ordered _ _ _ _ _ Hl)) eq_refl E2) as (<- & <- & <-); [congruence|].
    destruct (F q) as [l2 F2]. pose proof (parse_near incl _ src _ Vc (proj2 (tokenize_iff _ src _ Vc) Hq)) as P.
    rewrite (run_any _ _ _ _ _ _ Vc Hq F2) in P by discriminate. destruct (parse_text incl (a ++ u ++ c) src) as [y w|y w| |] eqn:Ep; try contradiction.
    destruct P as [[(P1 & _ & P2 & _) P3] P]. cbn [t_diags] in P. exists y, w. split; [reflexivity|]. split; [congruence|]. split; [congruence|].
    split; [|inversion P; reflexivity]. destruct P3 as [P3|P3]; [exfalso; congruence|]. exact (near_about _ _ _ _ _ _ eq_refl P3 (eq_trans S1 St)).
Qed.
Print Assumptions C95_first_fault.

(** ** Cases *)
(** a semicolon in the place of a value; the part before it is completed by a value *)
Definition ex95 : str := bs "/dts-v1/;
/ { a = <1>, /* c */ ; b; };".
Example C95_case : exists d s, valid_utf8 ex95 = true /\ parse_text [] ex95 (bs "f") = RErr d s /\ dg_kind d <> UnexpectedEOF /\ ps_diags s = []
  /\ breaks_off [] (bs "/dts-v1/;
/ { a = <1>, /* c */ " ++ [cNL]) (bs "f") /\ reads_clean [] (bs "/dts-v1/;
/ { a = <1>, /* c */ " ++ [cNL] ++ bs """x""; };") (bs "f").
Proof.
  do 2 eexists. split; [reflexivity|]. split; [vm_compute; reflexivity|]. split; [discriminate|]. split; [reflexivity|].
  split; [do 2 eexists; split; [vm_compute; reflexivity|split; reflexivity]|].
  eexists _, _. split; [vm_compute; reflexivity|reflexivity].
Qed.
(** a name where none may stand, behind a part that is read without complaint *)
Example C95_case2 : exists d s, parse_text [] (bs "/dts-v1/; x") (bs "f") = RErr d s /\ dg_kind d <> UnexpectedEOF /\ ps_diags s = []
  /\ reads_clean [] (bs "/dts-v1/; " ++ [cNL]) (bs "f").
Proof.
  do 2 eexists. split; [vm_compute; reflexivity|]. split; [discriminate|]. split; [reflexivity|].
  eexists _, _. split; [vm_compute; reflexivity|reflexivity].
Qed.
