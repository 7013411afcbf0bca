(** Property theorems on putting in a missing semicolon: C99 *)
From Verif Require Import Parser LexSpec ReaderProofs Utf8 LexerProofs LexerProofs2 LexerProofs3 ParserBase ParserSafe TokParser ParserSim Fuel DisplayProofs
  Reformat Insert PropsReformat LexGrow PropsConcat PropsStable PropsComplete PropsFirst PropsGrammar PropsUtf16 NameProofs.
From Coq Require Import ZifyBool.

(** ** Tokens of a text with a semicolon put in *)
Lemma semi_char : ~ name_char cSemi /\ cSemi <> cColon /\ cSemi <> cAt /\ ~ (letter cSemi \/ digit cSemi) /\ ~ label_char cSemi /\ cSemi <> cSlash /\ cSemi <> cStar /\ cSemi <> cLBrace.
Proof. unfold name_char, label_char, letter, digit. cbn [In]. lia. Qed.
Lemma spells_semi m k u b : spells m k u b -> (b = [] -> forall d, k = Directive d -> exists u', u = u' ++ [cSlash] /\ u' <> []) -> spells m k u (cSemi :: b).
Proof.
  destruct semi_char as (S1 & S2 & S3 & S4 & S5 & S6 & S7 & S8).
  assert (N : forall y w, cSemi :: b = y :: w -> y = cSemi) by (intros y w K; injection K as <- _; reflexivity).
  intros H C. inversion H; subst; try (once (econstructor; eassumption));
    [apply sp_name|apply sp_name_at|apply sp_number|apply LexSpec.sp_ref|apply sp_ref_empty|apply sp_slash|]; try assumption;
    try (intros y w K; rewrite (N y w K)); try tauto.
  destruct (C eq_refl d eq_refl) as (u' & E & Nu). exfalso. destruct u' as [|x u']; [contradiction|]. injection E as _ E.
  match goal with K : ~ In cSlash _ |- _ => apply K; rewrite E; apply in_or_app; right; left; reflexivity end.
Qed.
Lemma lexed_put src c : forall m p text l, lexed src m p text (c ++ l) -> c <> [] -> exists a b m' k u a' d,
  text = a ++ b /\ end_of c = pos_after (p ++ a) /\ a = a' ++ u /\ c = d ++ [mkToken k (mkSpan (pos_after (p ++ a')) (pos_after (p ++ a))) src] /\ spells m' k u b
  /\ lexed src (PropsConcat.mode_of m c) (p ++ a) b l
  /\ forall z toksz, spells m' k u z -> lexed src (PropsConcat.mode_of m c) (p ++ a) z toksz -> lexed src m p (a ++ z) (c ++ toksz).
Proof.
  induction c as [|x c IH]; intros m p text l H Hc; [contradiction|]. inversion H as [| |m1 p1 g k u rest toks Hg Hs Hl]; subst. destruct c as [|y c].
  - exists (g ++ u), rest, m, k, u, g, []. split; [rewrite <- app_assoc; reflexivity|]. split; [reflexivity|]. split; [reflexivity|]. split; [reflexivity|]. split; [exact Hs|].
    split; [exact Hl|]. intros z toksz Hz Hlz. rewrite <- app_assoc. apply lx_token; assumption.
  - destruct (IH _ _ _ _ Hl ltac:(discriminate)) as (a & b & m' & k' & u' & a' & d & E1 & E2 & E3 & E4 & E5 & E6 & E7).
    exists (g ++ u ++ a), b, m', k', u', (g ++ u ++ a'), (mkToken k (mkSpan (pos_after (p ++ g)) (pos_after (p ++ g ++ u))) src :: d).
    rewrite <- !app_assoc in *. split; [rewrite E1; reflexivity|]. split; [rewrite <- E2; reflexivity|]. split; [rewrite E3, ?app_assoc; reflexivity|].
    split; [cbn [app]; rewrite E4; reflexivity|]. split; [exact E5|]. split; [exact E6|]. intros z toksz Hz Hlz. cbn [app]. rewrite <- ?app_assoc. apply lx_token; [exact Hg| |exact (E7 z toksz Hz Hlz)].
    rewrite E1 in Hs. destruct a as [|q a]; [|exact (spells_head _ _ _ _ _ _ Hs)]. exfalso. apply spells_nonempty in E5. symmetry in E3. apply app_eq_nil in E3. destruct E3 as [_ ->]. cbn in E5. lia.
Qed.
Lemma Forall2_weak {X Y} (R R' : X -> Y -> Prop) : (forall x y, R x y -> R' x y) -> forall l l', Forall2 R l l' -> Forall2 R' l l'.
Proof. intros H l l' F. induction F; constructor; auto. Qed.
Lemma lexed_nothing src m p toks : lexed src m p [] toks -> toks = [].
Proof.
  intros H. remember [] as t eqn:E in H. destruct H as [| |m p g k u rest toks Hg Hs Hl]; [reflexivity|reflexivity|]. exfalso. apply spells_nonempty in Hs.
  apply app_eq_nil in E. destruct E as [_ E]. apply app_eq_nil in E. destruct E as [-> _]. cbn in Hs. lia.
Qed.
Definition moved (p q text : list N) (t t' : token) : Prop :=
  tok_eqv t t' /\ exists a z b, text = (a ++ [z]) ++ b /\ tk_end t = pos_after (p ++ a ++ [z]) /\ tk_end t' = pos_after (q ++ a ++ [z]).
Lemma lexed_move src m p text toks : lexed src m p text toks -> forall q, exists toks', lexed src m q text toks' /\ Forall2 (moved p q text) toks toks'.
Proof.
  induction 1 as [m p t Ht|m p g u Hg Hu|m p g k u rest toks Hg Hs _ IH]; intros q.
  - exists []. split; [apply lx_end, Ht|constructor].
  - exists []. split; [apply lx_unterminated; assumption|constructor].
  - destruct (IH (q ++ g ++ u)) as (l & Hl & Hf). eexists. split; [apply lx_token; [exact Hg|exact Hs|exact Hl]|]. constructor.
    + split; [reflexivity|]. apply spells_nonempty in Hs. destruct (exists_last (l := u)) as (u' & z & ->); [intros ->; cbn in Hs; lia|].
      exists (g ++ u'), z, rest. rewrite <- !app_assoc. auto.
    + eapply Forall2_weak; [|exact Hf]. intros t t' [E (a & z & b & -> & E1 & E2)]. split; [exact E|]. exists (g ++ u ++ a), z, b. rewrite <- !app_assoc in *. auto.
Qed.
(** a token that is not a comma nor unknown is the same where a name is expected *)
Lemma spells_calm k u rest : spells Elsewhere k u rest -> semicolon_skips k = false -> k <> Comma -> spells NameExpected k u rest.
Proof.
  assert (W : forall c, name_start Elsewhere c -> name_start NameExpected c) by (intros c [H|[H|[H _]]]; [left; exact H|right; left; exact H|discriminate H]).
  assert (P : forall c k0, In (c, k0) punctuation -> In c [cComma; cDot; cPlus; cMinus; cHash; cQuest] -> k0 = Comma).
  { intros c k0 P N. cbn [punctuation In] in P, N. repeat (destruct P as [P|P]; [injection P as <- <-; first [reflexivity|exfalso; lia]|]). contradiction. }
  intros H Hk Hc. inversion H; subst; try (once (econstructor; eauto; fail)); try discriminate Hk.
  apply sp_punct; [|assumption]. intros N. match goal with K : ~ name_start Elsewhere _ |- _ => destruct N as [N|[N|[_ N]]]; [apply K; left; exact N|apply K; right; left; exact N|] end.
  apply Hc. eapply P; eassumption.
Qed.
Lemma lexed_calm src m p text toks : lexed src m p text toks -> Forall known toks -> calm toks -> lexed src NameExpected p text toks.
Proof.
  induction 1 as [m p t Ht|m p g u Hg Hu|m p g k u rest toks Hg Hs Hl IH]; intros K C.
  - apply lx_end, Ht.
  - apply lx_unterminated; assumption.
  - cbn [calm tk_kind] in C. destruct C as [C1 C2]. pose proof (Forall_inv K) as K1. unfold known in K1. cbn [tk_kind] in K1.
    assert (Hs' : spells NameExpected k u rest) by (destruct m; [exact Hs|apply spells_calm; assumption]).
    apply lx_token; [exact Hg|exact Hs'|]. destruct C2 as [C2|C2].
    + assert (E : mode_after k NameExpected = mode_after k m) by (destruct C2 as [C2|[C2|C2]]; cbn [tk_kind] in C2; subst k; reflexivity). rewrite E. exact Hl.
    + specialize (IH (Forall_inv_tail K) C2). destruct k; try exact IH. exact Hl.
Qed.
(** ** C99: the quick fix for a missing semicolon *)
Lemma missing_inj src l l' : t_missing src l = t_missing src l' -> length l = length l'.
Proof.
  intros E. apply (f_equal dg_span) in E. unfold t_missing, diag_expected, diag_new in E. cbn [dg_span] in E.
  destruct l as [|t l], l' as [|t' l']; [reflexivity|discriminate E|discriminate E|]. apply (f_equal span_start) in E. cbn [as_char_span span_start] in E.
  apply (f_equal pos_line) in E. cbn [pos_line] in E. cbn [length] in *. lia.
Qed.
Lemma Forall2_in_r {X Y} (R : X -> Y -> Prop) l l' y : Forall2 R l l' -> In y l' -> exists x, In x l /\ R x y.
Proof. induction 1 as [|a b l l' H _ IH]; intros Hin; [contradiction|]. destruct Hin as [<-|Hin]; [exists a; split; [left; reflexivity|exact H]|]. destruct (IH Hin) as (x & Hx & Hr). exists x. split; [right; exact Hx|exact Hr]. Qed.
Lemma same_split {X} (a b c d : list X) : a ++ b = c ++ d -> length b = length d -> a = c /\ b = d.
Proof.
  revert c. induction a as [|x a IH]; intros [|y c] E L; cbn [app] in E.
  - split; [reflexivity|exact E].
  - apply (f_equal (@length X)) in E. cbn [length] in E. rewrite app_length in E. lia.
  - apply (f_equal (@length X)) in E. cbn [length] in E. rewrite app_length in E. lia.
  - injection E as -> E. destruct (IH c E L) as [-> ->]. auto.
Qed.

(** [v] and what follows it up to the next token, or up to the end, is white space and comments *)
Definition no_token (v y : list N) : Prop := (exists w r, y = w ++ r /\ gap (v ++ w)) \/ no_more (v ++ y).
(** directives have their second slash *)
Definition closed_directives (text : list N) (toks : list token) : Prop := forall t d, In t toks -> tk_kind t = Directive d ->
  exists a r, text = a ++ [cSlash] ++ r /\ tk_end t = pos_after (a ++ [cSlash]).

Lemma known_all src m p text toks : lexed src m p text toks -> Forall (fun t => ~ unknown (tk_kind t)) toks -> Forall known toks.
Proof.
  intros Hl Hu. pose proof (lexed_no_comment _ _ _ _ _ Hl) as Hc. rewrite Forall_forall in *. intros t Hin. specialize (Hc t Hin). specialize (Hu t Hin).
  unfold known. destruct (tk_kind t) eqn:E; try reflexivity; exfalso; [exact (Hc _ eq_refl)|]. apply Hu. eexists. reflexivity.
Qed.

Lemma quick_fix : forall incl text src toks f ds1 d ds2,
  valid_utf8 text = true -> tokenize text src = Done toks -> Forall (fun t => ~ unknown (tk_kind t)) toks -> closed_directives text toks ->
  parses incl text src f (ds1 ++ d :: ds2) -> says_semicolon d ->
  exists x v y f' ds', text = x ++ v ++ y
    /\ ends_token text x /\ no_token v y /\ (v = [] \/ ends_comment v \/ y = []) /\ span_start (dg_span d) = pos_after (x ++ v)
    /\ parses incl (x ++ [cSemi] ++ v ++ y) src f' ds'
    /\ map bare_primary (fl_elements f') = map bare_primary (fl_elements f) /\ map says ds' = map says (ds1 ++ ds2)
    /\ valid_utf8 (x ++ [cSemi] ++ v ++ y) = true /\ exists toks', tokenize (x ++ [cSemi] ++ v ++ y) src = Done toks' /\ Forall (fun t => ~ unknown (tk_kind t)) toks'
      /\ closed_directives (x ++ [cSemi] ++ v ++ y) toks'.
Proof.
  intros incl text src toks f ds1 d ds2 V T U C (s & P & D) Hd. pose proof (proj1 (tokenize_iff text src toks V) T) as Hl. pose proof (known_all _ _ _ _ _ Hl U) as K.
  pose proof (parse_behind incl text src toks V T) as S. rewrite P, D in S. destruct (t_parse incl text src toks) as [f0 st| |] eqn:E0; [|contradiction|contradiction].
  destruct S as [<- S]. apply Forall2_app_inv_l in S. destruct S as (n1 & n2' & S1 & S2 & ED). inversion S2 as [|d0 d' ds0 n2 Sd S3]; subst. clear S2.
  assert (Hd' : says_semicolon d') by (destruct Sd as (((X1 & _ & X2 & _) & _) & _); destruct Hd as [Y1 Y2]; split; congruence).
  destruct (insert_file src incl _ _ _ _ _ _ _ _ K E0 ED Hd') as (pre & post & Et & Np & Cp & Em & I).
  destruct (proj2 Sd K Hd') as (c & l & x & v & y & Et' & Em' & Ex & Hx & Px & Hv).
  destruct (same_split _ _ _ _ (eq_trans (eq_sym Et') Et)) as [-> ->]; [apply (missing_inj src); congruence|]. clear Et' Em'.
  rewrite Et in Hl, K. destruct (lexed_put _ _ _ _ _ _ Hl Np) as (a & b & m' & k & u & a' & dd & E1 & E2 & E3 & E4 & E5 & E6 & E7). cbn [app] in *.
  destruct (pos_after_prefix_inj x a (v ++ y) b) as [-> <-]; [congruence|congruence|]. clear E2.
  set (sm := mkToken Semicolon (mkSpan (pos_after (a ++ [])) (pos_after (a ++ [] ++ [cSemi]))) src).
  destruct (lexed_move _ _ _ _ _ (lexed_calm _ _ _ _ _ E6 (proj2 (proj1 (Forall_app _ _ _) K)) Cp) (a ++ [] ++ [cSemi])) as (l' & Hl' & Hmv).
  assert (Hf : Forall2 tok_eqv post l') by (eapply Forall2_weak; [|exact Hmv]; intros t t' [Et' _]; exact Et').
  assert (Hn : lexed src NameExpected [] (a ++ [cSemi] ++ v ++ y) (pre ++ sm :: l')).
  { apply E7.
    - apply spells_semi; [exact E5|]. intros Eb d0 Ek. subst k. destruct (C (mkToken (Directive d0) (mkSpan (pos_after a') (pos_after a)) src) d0) as (q & r & Q1 & Q2); [|reflexivity|].
      { rewrite Et, E4. apply in_or_app. left. apply in_or_app. right. left. reflexivity. }
      cbn [tk_end tk_span span_end] in Q2. destruct (pos_after_prefix_inj a (q ++ [cSlash]) (v ++ y) r) as [Q3 _]; [rewrite <- app_assoc; congruence|exact Q2|].
      assert (Lu : (2 <= length u)%nat) by (inversion E5; subst; cbn [length app]; try lia; cbn [punctuation In] in *; repeat match goal with W : _ \/ _ |- _ => destruct W as [W|W] end; try discriminate; contradiction).
      rewrite E3 in Q3. destruct (exists_last (l := u)) as (u' & z & Eu); [intros ->; cbn in Lu; lia|]. subst u. rewrite app_assoc in Q3. apply app_inj_tail in Q3. destruct Q3 as [_ ->].
      exists u'. split; [reflexivity|]. intros ->. cbn in Lu. lia.
    - apply (lx_token src _ _ [] Semicolon [cSemi]); [constructor| |exact Hl']. apply sp_punct; [|cbn [punctuation In]; tauto].
      unfold name_start, letter. cbn [In]. lia. }
  assert (V' : valid_utf8 (a ++ [cSemi] ++ v ++ y) = true).
  { destruct (v ++ y) as [|q r] eqn:Ev.
    - rewrite app_nil_r in E1. subst a. rewrite app_nil_r. rewrite valid_app; [reflexivity|exact V].
    - destruct (spells_edges _ _ _ _ E5) as [_ [X|(u' & z & Eu & Hz)]]; [|discriminate X|].
      { intros c0 ->. rewrite Et, E4 in U. apply Forall_app in U. destruct U as [U _]. apply Forall_app in U. destruct U as [_ U].
        apply (Forall_inv U). exists c0. reflexivity. }
      assert (Ea : a = (a' ++ u') ++ [z]) by (rewrite E3, Eu, app_assoc; reflexivity).
      rewrite E1, Ea, <- (app_assoc _ [z]) in V. destruct (valid_split _ _ _ Hz V) as [V1 V2].
      rewrite Ea, <- (app_assoc _ [z]), valid_app by exact V1. cbn [app]. rewrite (valid_one z), (valid_one cSemi); [exact V2|lia|exact Hz]. }
  destruct (I sm eq_refl) as (f1 & s1 & F1 & F2 & F3).
  assert (Q : eqv (mkTS (pre ++ sm :: post) []) (mkTS (pre ++ sm :: l') [])).
  { split; [cbn [t_toks]; apply Forall2_app; [apply toks_refl|constructor; [reflexivity|exact Hf]]|]. split; [|constructor]. cbn [t_toks]. apply Forall_app in K. apply Forall_app. split; [apply K|].
    constructor; [reflexivity|apply K]. }
  pose proof (rf_file src src incl (relex text src) (relex (a ++ [cSemi] ++ v ++ y) src) _ _ (le_n (S (S (length text)))) _ _ Q) as X. rewrite F1 in X. unfold eqv_res in X.
  destruct (t_p_file src incl (relex (a ++ [cSemi] ++ v ++ y) src) (S (S (length text))) (mkTS (pre ++ sm :: l') [])) as [f2 s2| |] eqn:F4; [|contradiction|contradiction].
  destruct X as (X1 & _ & _ & X2). pose proof (run_any incl _ src _ _ _ V' Hn F4 ltac:(discriminate)) as F5.
  pose proof (parse_sim incl _ src _ V' (proj2 (tokenize_iff _ src _ V') Hn)) as Y. rewrite F5 in Y.
  destruct (parse_text incl (a ++ [cSemi] ++ v ++ y) src) as [f3 s3| | |] eqn:F6; try contradiction. destruct Y as [-> Y].
  exists a, v, y, f2, (ps_diags s3). split; [exact E1|]. split; [|split; [|split; [|split; [|split; [|split; [|split; [|split; [exact V'|]]]]]]]].
  - exists m', k, a', u, (v ++ y). split; [exact E3|]. split; [exact E1|exact E5].
  - destruct post as [|t post]; [right; apply Hv|left]. destruct Hv as (_ & _ & w & u1 & m1 & r & Y1 & Y2 & _). exists w, (u1 ++ r). split; [exact Y1|exact Y2].
  - destruct post as [|t post]; [apply Hv|]. destruct Hv as (_ & [Y1|Y1] & _); auto.
  - destruct post as [|t post]; destruct Hv as (Y1 & _); rewrite Y1; reflexivity.
  - exists s3. split; [exact F6|reflexivity].
  - unfold via in X1. rewrite F2. symmetry. exact X1.
  - rewrite (says_sim _ _ Y), <- (says_eqv _ _ X2), <- (says_eqv _ _ F3), !map_app. f_equal; symmetry; apply says_sim; eapply push_diags; eassumption.
  - exists (pre ++ sm :: l'). split; [exact (proj2 (tokenize_iff _ src _ V') Hn)|]. rewrite Et in U. apply Forall_app in U. destruct U as [U1 U2].
    split; [apply Forall_app; split; [exact U1|]; constructor; [intros [c Hc]; discriminate Hc|]; clear - Hf U2|].
    { induction Hf as [|t t' l l' E _ IH]; constructor; [|exact (IH (Forall_inv_tail U2))].
      unfold tok_eqv in E. rewrite <- E. exact (Forall_inv U2). }
    intros t d0 Hin Hk. apply in_app_or in Hin. destruct Hin as [Hin|[<-|Hin]]; [| discriminate Hk|].
    + apply in_split in Hin. destruct Hin as (c1 & c2 & ->). replace ((c1 ++ t :: c2) ++ sm :: l') with ((c1 ++ [t]) ++ c2 ++ sm :: l') in Hn by (rewrite <- !app_assoc; reflexivity).
      destruct (lexed_put _ _ _ _ _ _ Hn ltac:(destruct c1; discriminate)) as (a2 & b2 & m2 & k2 & u2 & a2' & d2 & G1 & _ & G3 & G4 & G5 & G6 & _).
      apply app_inj_tail in G4. destruct G4 as [_ ->]. cbn [tk_kind] in Hk. subst k2. cbn [app] in G1. rewrite G1. inversion G5; subst.
      * exists (a2' ++ [cSlash] ++ (c :: s0)), b2. cbn [tk_end tk_span span_end app]. rewrite <- !app_assoc. cbn [app]. rewrite <- ?app_assoc. auto.
      * exfalso. apply lexed_nothing in G6. destruct c2; discriminate G6.
      * cbn [punctuation In] in *. repeat match goal with W : _ \/ _ |- _ => destruct W as [W|W] end; try discriminate; contradiction.
    + destruct (Forall2_in_r _ _ _ _ Hmv Hin) as (t0 & Hin0 & M1 & a1 & z & b1 & M2 & M3 & M4). unfold tok_eqv in M1. rewrite <- M1 in Hk.
      destruct (C t0 d0) as (q & r & C1 & C2); [rewrite Et; apply in_or_app; right; exact Hin0|exact Hk|].
      destruct (pos_after_prefix_inj (a ++ a1 ++ [z]) (q ++ [cSlash]) b1 r) as [C3 _]; [rewrite <- !app_assoc in *; congruence|congruence|].
      rewrite app_assoc in C3. apply app_inj_tail in C3. destruct C3 as [_ ->]. exists (a ++ [cSemi] ++ a1), b1. rewrite M2, M4, <- !app_assoc. cbn [app]. rewrite <- ?app_assoc. auto.
Qed.
Theorem C99_quick_fix : forall incl text src toks f ds1 d ds2,
  valid_utf8 text = true -> tokenize text src = Done toks -> Forall (fun t => ~ unknown (tk_kind t)) toks -> closed_directives text toks ->
  parses incl text src f (ds1 ++ d :: ds2) -> says_semicolon d ->
  exists x v y f' ds', text = x ++ v ++ y
    /\ ends_token text x /\ no_token v y /\ (v = [] \/ ends_comment v \/ y = []) /\ span_start (dg_span d) = pos_after (x ++ v)
    /\ parses incl (x ++ [cSemi] ++ v ++ y) src f' ds'
    /\ map bare_primary (fl_elements f') = map bare_primary (fl_elements f) /\ map says ds' = map says (ds1 ++ ds2).
Proof.
  intros incl text src toks f ds1 d ds2 V T U C P Hd. destruct (quick_fix incl text src toks f ds1 d ds2 V T U C P Hd) as (x & v & y & f' & ds' & H1 & H2 & H3 & H4 & H5 & H6 & H7 & H8 & _).
  exists x, v, y, f', ds'. auto 10.
Qed.
Print Assumptions C99_quick_fix.

(** ** C100: all of the missing semicolons *)
(** [n] semicolons are put in, each behind a token *)
Inductive semicolons_in : nat -> list N -> list N -> Prop :=
| si_none text : semicolons_in 0 text text
| si_more n x y text' : ends_token (x ++ y) x -> semicolons_in n (x ++ [cSemi] ++ y) text' -> semicolons_in (S n) (x ++ y) text'.
Definition is_missing (s : error_code * str) : bool := match s with (Expected, m) => str_eqb m (bs "Expected ';'") | _ => false end.
Definition missing (ds : list diag) : nat := length (filter is_missing (map says ds)).
Lemma missing_iff d : is_missing (says d) = true <-> says_semicolon d.
Proof.
  unfold is_missing, says, says_semicolon. destruct (dg_kind d); try (split; [discriminate|intros [H _]; discriminate H]). rewrite str_eqb_spec. tauto.
Qed.
Lemma missing_split ds : missing ds = O \/ exists ds1 d ds2, ds = ds1 ++ d :: ds2 /\ says_semicolon d.
Proof.
  unfold missing. induction ds as [|d ds IH]; [left; reflexivity|]. cbn [map filter]. destruct (is_missing (says d)) eqn:E.
  - right. exists [], d, ds. split; [reflexivity|apply missing_iff, E].
  - destruct IH as [IH|(ds1 & d' & ds2 & -> & H)]; [left; exact IH|right]. exists (d :: ds1), d', ds2. auto.
Qed.
Lemma filter_none {X} (p : X -> bool) l : length (filter p l) = O -> filter (fun x => negb (p x)) l = l.
Proof. induction l as [|x l IH]; [reflexivity|]. cbn [filter]. destruct (p x); cbn [negb length]; [lia|]. intros H. rewrite IH; auto. Qed.

(** Every text that is parsed can be given semicolons behind as many tokens as there are complaints about missing ones: its tree
    is then the same, and of the diagnostics just the complaints about semicolons are gone *)
Theorem C100_all_semicolons : forall incl text src toks f ds,
  valid_utf8 text = true -> tokenize text src = Done toks -> Forall (fun t => ~ unknown (tk_kind t)) toks -> closed_directives text toks ->
  parses incl text src f ds ->
  exists text' f' ds', semicolons_in (missing ds) text text' /\ parses incl text' src f' ds'
    /\ map bare_primary (fl_elements f') = map bare_primary (fl_elements f)
    /\ map says ds' = filter (fun s => negb (is_missing s)) (map says ds).
Proof.
  intros incl text src toks f ds. remember (missing ds) as n eqn:En. revert text toks f ds En. induction n as [|n IH]; intros text toks f ds En V T U C P.
  - exists text, f, ds. split; [constructor|]. split; [exact P|]. split; [reflexivity|]. symmetry. apply filter_none. symmetry. exact En.
  - destruct (missing_split ds) as [K|(ds1 & d & ds2 & -> & Hd)]; [congruence|].
    destruct (quick_fix incl text src toks f ds1 d ds2 V T U C P Hd) as (x & v & y & f1 & d1 & H1 & H2 & _ & _ & _ & H6 & H7 & H8 & V1 & toks1 & T1 & U1 & C1).
    assert (E1 : map says (ds1 ++ d :: ds2) = map says ds1 ++ says d :: map says ds2) by (rewrite map_app; reflexivity).
    assert (E2 : is_missing (says d) = true) by (apply missing_iff; exact Hd).
    destruct (IH (x ++ [cSemi] ++ v ++ y) toks1 f1 d1) as (text' & f' & ds' & I1 & I2 & I3 & I4); try assumption.
    { unfold missing in *. rewrite H8, map_app. rewrite E1 in En. rewrite filter_app, app_length in *. cbn [filter] in En. rewrite E2 in En. cbn [length] in En. lia. }
    exists text', f', ds'. split; [rewrite H1 in H2 |- *; apply si_more; assumption|]. split; [exact I2|]. split; [congruence|].
    rewrite I4, H8, E1, map_app, !filter_app. cbn [filter]. rewrite E2. reflexivity.
Qed.
Print Assumptions C100_all_semicolons.
(** In particular, where only semicolons are missing, the text with the semicolons put in is parsed without a diagnostic *)
Theorem C100_only_semicolons : forall incl text src toks f ds,
  valid_utf8 text = true -> tokenize text src = Done toks -> Forall (fun t => ~ unknown (tk_kind t)) toks -> closed_directives text toks ->
  parses incl text src f ds -> Forall says_semicolon ds ->
  exists text' f', semicolons_in (length ds) text text' /\ parses incl text' src f' []
    /\ map bare_primary (fl_elements f') = map bare_primary (fl_elements f).
Proof.
  intros incl text src toks f ds V T U C P A. destruct (C100_all_semicolons incl text src toks f ds V T U C P) as (text' & f' & ds' & H1 & H2 & H3 & H4).
  assert (E : missing ds = length ds /\ filter (fun s => negb (is_missing s)) (map says ds) = []).
  { unfold missing. clear - A. induction A as [|d ds H _ [IH1 IH2]]; [auto|]. cbn [map filter]. apply missing_iff in H. rewrite H. cbn [negb length]. split; [congruence|exact IH2]. }
  destruct E as [E1 E2]. rewrite E1 in H1. rewrite E2 in H4. apply map_eq_nil in H4. subst ds'. exists text', f'. auto.
Qed.
Print Assumptions C100_only_semicolons.

(** The place to put the semicolon is behind the last token. Put where the complaint is, it may end up in a comment: *)
Definition ex99_line : str := bs "/dts-v1/ // c" ++ [cNL] ++ bs "/ { };".
Theorem C99_at_the_complaint_refuted : exists incl text src x y f f' d d',
  valid_utf8 text = true /\ text = x ++ y /\ parses incl text src f [d] /\ says_semicolon d /\ span_start (dg_span d) = pos_after x
  /\ parses incl (x ++ [cSemi] ++ y) src f' [d'] /\ says_semicolon d'.
Proof.
  exists [], ex99_line, (bs "f"), (bs "/dts-v1/ // c"), ([cNL] ++ bs "/ { };"). do 4 eexists. split; [reflexivity|]. split; [reflexivity|].
  split; [eexists; split; [vm_compute; reflexivity|reflexivity]|]. split; [split; reflexivity|]. split; [reflexivity|].
  split; [eexists; split; [vm_compute; reflexivity|reflexivity]|split; reflexivity].
Qed.
Print Assumptions C99_at_the_complaint_refuted.
(** A directive at the end of the text may lack its second slash; a semicolon would then be taken into its name. *)
Theorem C99_open_directive_refuted : exists incl text src toks f d, valid_utf8 text = true /\ tokenize text src = Done toks
  /\ Forall (fun t => ~ unknown (tk_kind t)) toks /\ parses incl text src f [d] /\ says_semicolon d
  /\ forall x y f' ds', text = x ++ y -> ~ parses incl (x ++ [cSemi] ++ y) src f' ds'.
Proof.
  exists [], (bs "/dts-v1"), (bs "f"). do 3 eexists. split; [reflexivity|]. split; [vm_compute; reflexivity|].
  split; [repeat constructor; intros [c H]; discriminate H|]. split; [eexists; split; [vm_compute; reflexivity|reflexivity]|]. split; [split; reflexivity|].
  intros x y f' ds' E (s & P & _).
  assert (A : forallb (fun n => match parse_text [] (firstn n (bs "/dts-v1") ++ [cSemi] ++ skipn n (bs "/dts-v1")) (bs "f") with ROk _ _ => false | _ => true end) (List.seq 0%nat 8%nat) = true) by (vm_compute; reflexivity).
  rewrite forallb_forall in A. specialize (A (length x)). rewrite E in A. rewrite firstn_app, skipn_app, Nat.sub_diag, firstn_all, skipn_all, firstn_O, app_nil_r in A.
  change (skipn 0 y) with y in A. cbn [app] in A, P. rewrite P in A. discriminate A.
  apply in_seq. apply (f_equal (@length N)) in E. rewrite app_length in E. change (length (bs "/dts-v1")) with 7%nat in E. lia.
Qed.
Print Assumptions C99_open_directive_refuted.
(** Behind a value a number sign starts no name. It is left out without a word, so the tree is not that of the text with the semicolon. *)
Definition prop_names (f : list primary) : list str :=
  flat_map (fun p => match p with PRoot n => flat_map (fun i => match i with IProperty q => [wt_item (pr_name q)] | _ => [] end) (pl_items (nd_payload n)) | _ => [] end) f.
Theorem C99_number_sign_refuted : exists incl src x g y f f' d, gap g /\ ends_token (x ++ g ++ [cHash] ++ y) x
  /\ parses incl (x ++ g ++ [cHash] ++ y) src f [d] /\ says_semicolon d /\ parses incl (x ++ [cSemi] ++ g ++ [cHash] ++ y) src f' []
  /\ prop_names (fl_elements f) = [bs "a"; bs "b"] /\ prop_names (fl_elements f') = [bs "a"; bs "#b"].
Proof.
  exists [], (bs "f"), (bs "/ { a = <1>"), [cNL], (bs "b = <2>; };"). do 3 eexists. split; [apply gap_ws; [vm_compute; tauto|constructor]|].
  split; [|split; [eexists; split; [vm_compute; reflexivity|reflexivity]|]].
  { exists Elsewhere, ChevronRight, (bs "/ { a = <1"), [cGt], ([cNL] ++ [cHash] ++ bs "b = <2>; };"). split; [reflexivity|]. split; [reflexivity|]. apply sp_punct; [|vm_compute; tauto].
    unfold name_start, letter. intros [K|[K|[K _]]]; [lia|lia|discriminate K]. }
  split; [split; reflexivity|]. split; [eexists; split; [vm_compute; reflexivity|reflexivity]|]. split; reflexivity.
Qed.
Print Assumptions C99_number_sign_refuted.

(** ** A text with three semicolons missing, comments between *)
Definition ex99 : str := bs "/dts-v1/" ++ [cNL] ++ bs "/ { l: a = <1> /* ; */ b = [01] // c" ++ [cNL] ++ bs "};".
Example C99_case : exists toks f d1 d2 d3, valid_utf8 ex99 = true /\ tokenize ex99 (bs "f") = Done toks
  /\ Forall (fun t => ~ unknown (tk_kind t)) toks /\ closed_directives ex99 toks /\ parses [] ex99 (bs "f") f [d1; d2; d3]
  /\ says_semicolon d1 /\ says_semicolon d2 /\ says_semicolon d3.
Proof.
  do 5 eexists. split; [reflexivity|]. split; [vm_compute; reflexivity|]. split; [repeat constructor; intros [c H]; discriminate H|]. split.
  { intros t d Hin Hk. repeat destruct Hin as [<-|Hin]; try discriminate Hk; [|contradiction]. exists (bs "/dts-v1"). eexists. split; reflexivity. }
  split; [eexists; split; [vm_compute; reflexivity|reflexivity]|]. split; [split; reflexivity|]. split; split; reflexivity.
Qed.
Definition ex100 : str := bs "/dts-v1/;" ++ [cNL] ++ bs "/ { l: a = <1>; /* ; */ b = [01]; // c" ++ [cNL] ++ bs "};".
Example C100_case : exists f, parses [] ex100 (bs "f") f [].
Proof. eexists. eexists. split; [vm_compute; reflexivity|reflexivity]. Qed.
