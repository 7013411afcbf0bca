(** C110: a text is refused at the first token with which it can no longer be continued to one that gives a tree *)
From Verif Require Import Parser LexSpec Utf8 ReaderProofs LexerProofs LexerProofs2 LexerProofs3 ParserBase ParserSafe ParserSafe2 Grammar NameProofs NumProofs TokParser ParserSim
  GrammarComplete GrammarSound PropsParser PropsGrammar PropsConcat GrammarDet Complete DisplayProofs LexGrow PropsStable PropsComplete PropsUtf16
  Utf8Adequacy PropsReport PropsPlaces NameReport PropsNames PropsSemicolon FirstError Boundary PropsFirst Forgiving PropsForgiving Rejected PropsRejected Viable PropsViable FirstFault.

(** ** A piece of text that is a token leaves no place unsettled *)
Lemma spells_run_iff m k u rest : spells m k u rest -> rest <> [] -> ends_settled (u ++ rest) = ends_settled rest.
Proof.
  intros H Hne. destruct H.
  - rewrite (plain_class name_char); [reflexivity|exact name_plain|assumption].
  - rewrite <- !app_assoc. rewrite (plain_class name_char); [|exact name_plain|assumption].
    change (ends_settled (a ++ rest) = ends_settled rest). rewrite (plain_class name_char); [reflexivity|exact name_plain|assumption].
  - rewrite <- app_assoc. rewrite (plain_class name_char); [reflexivity|exact name_plain|assumption].
  - rewrite (plain_class name_char); [reflexivity|exact name_plain|]. eapply Forall_impl; [|eassumption]. unfold name_char. tauto.
  - change (settled (place_of ((c :: s) ++ rest) AfterAmp) = ends_settled rest). cbn [app]. rewrite amp_plain.
    + change (ends_settled ((c :: s) ++ rest) = ends_settled rest). rewrite (plain_class name_char); [reflexivity|exact name_plain|].
      eapply Forall_impl; [|eassumption]. unfold label_char, name_char. cbn [In]. intros x. intuition.
    + destruct (N.eqb_spec c cLBrace) as [->|]; [revert H; unfold letter; lia|reflexivity].
  - change (settled (place_of (x :: r) AfterAmp) = ends_settled (x :: r)). rewrite amp_plain; [reflexivity|]. destruct (N.eqb_spec x cLBrace); [contradiction|reflexivity].
  - rewrite <- !app_assoc. change (settled (place_of (p ++ cRBrace :: rest) InPath) = ends_settled rest). rewrite brace_run; [reflexivity|].
    apply Forall_forall. intros c Hc. destruct (N.eqb_spec c cRBrace); [subst; contradiction|reflexivity].
  - rewrite <- !app_assoc. change (settled (place_of (b ++ cQuote :: rest) InString) = ends_settled rest). erewrite body_run; [reflexivity|eassumption].
  - change (settled (place_of rest AfterSlash) = ends_settled rest). destruct rest as [|x r]; [reflexivity|]. destruct (H x r eq_refl) as (K1 & K2 & K3).
    rewrite place_cons. cbn [step]. destruct (N.eqb_spec x cSlash); [contradiction|]. destruct (N.eqb_spec x cStar); [contradiction|].
    destruct (is_alpha x) eqn:Ea; [apply letter_alpha in Ea; contradiction|]. reflexivity.
  - rewrite <- !app_assoc. cbn [app]. unfold ends_settled. rewrite !place_cons. cbn [step step_plain N.eqb Pos.eqb].
    assert (c <> cSlash /\ c <> cStar) as [K1 K2] by (split; intros ->; revert H; unfold letter; lia).
    destruct (N.eqb_spec c cSlash); [contradiction|]. destruct (N.eqb_spec c cStar); [contradiction|]. rewrite (proj2 (letter_alpha c) H).
    rewrite slash_run; [reflexivity|]. apply Forall_forall. intros y Hy. destruct (N.eqb_spec y cSlash); [subst; exfalso; apply H0; right; assumption|reflexivity].
  - contradiction.
  - change (settled (place_of rest (step Plain c)) = ends_settled rest). assert (K : step Plain c = Plain).
    { cbn [punctuation In] in H0. repeat destruct H0 as [H0|H0]; try (injection H0 as <- <-; reflexivity). destruct H0. }
    rewrite K. reflexivity.
  - change (settled (place_of rest (step Plain c)) = ends_settled rest). assert (K : step Plain c = Plain).
    { cbn [step]. unfold step_plain. cbn [In] in H2. destruct (N.eqb_spec c cSlash); [subst; tauto|]. destruct (N.eqb_spec c cQuote); [subst; tauto|]. destruct (N.eqb_spec c cAmp); [subst; tauto|reflexivity]. }
    rewrite K. reflexivity.
Qed.

(** ** The way from the beginning to a token *)
Section Way.
  Context (resumes : token -> list token -> Prop) (t : token).
  Inductive way : list token -> Prop :=
  | way_here r : way (t :: r)
  | way_tok x l : way l -> way (x :: l)
  | way_res c u l q : is (Unknown c) u -> resumes u q -> way q -> way (u :: l).
  (** what stops the tool is on the way *)
  Lemma stops_on_way src incl what l : x_file src incl resumes l (AtToken t what) -> way l.
  Proof.
    intros H. refine (proj1 (w_file src incl resumes resumes t False way (fun _ _ => False) way_tok way_res way_here _ _ _ _ what l _ H eq_refl)); intros; contradiction.
  Qed.
End Way.
(** a token on the way stands in the text *)
Lemma way_place text src t l : way (resumes_in text src) t l -> forall m p r, lexed src m p r l -> text = p ++ r ->
  exists m' a u b, text = a ++ u ++ b /\ t = mkToken (tk_kind t) (mkSpan (pos_after a) (pos_after (a ++ u))) src /\ spells m' (tk_kind t) u b.
Proof.
  induction 1 as [r|x l _ IH|c u l q Hu Hq _ IH]; intros m p r0 L E.
  - inversion L as [| |m' p' g k u rest toks Hg Hs Hl]; subst. exists m, (p ++ g), u, rest. rewrite <- !app_assoc. auto.
  - inversion L as [| |m' p' g k u rest toks Hg Hs Hl]; subst. eapply IH; [exact Hl|]. rewrite <- !app_assoc. reflexivity.
  - destruct Hq as (a & b & Ea & Ep & La). eapply IH; [exact La|exact Ea].
Qed.

(** ** The other text *)
Section Other.
  Context (src : fpath) (a u b z : list N) (k : token_kind).
  Notation text := (a ++ u ++ b).
  Notation other := (a ++ z).
  Notation t := (mkToken k (mkSpan (pos_after a) (pos_after (a ++ u))) src).
  Hypothesis Hu : u <> [].
  (** the other text ends with a line break there, or goes on with the same token *)
  Hypothesis goes_on : z = [cNL] \/ exists c, z = u ++ c /\ forall m, spells m k u b -> spells m k u c.
  Notation resumes := (resumes_in text src).
  Notation W := (way resumes t).

  Lemma next_here m x v : forall y, spells m x v (y ++ u ++ b) -> spells m x v (y ++ z).
  Proof.
    intros [|c y] H; [|exact (spells_head _ _ _ _ _ _ H)]. cbn [app] in *. destruct u as [|c u']; [contradiction|]. cbn [app] in *.
    destruct goes_on as [->|(c' & -> & _)]; [exact (spells_swap _ _ _ _ _ _ H)|cbn [app]; exact (spells_head _ _ _ _ _ _ H)].
  Qed.
  Lemma before l : W l -> forall m p r, lexed src m p r l -> text = p ++ r -> exists y, a = p ++ y /\ ends_settled (y ++ [cNL]) = true.
  Proof.
    assert (St : forall m p g x v rest y, text = p ++ g ++ v ++ rest -> gap g -> spells m x v rest -> a = (p ++ g ++ v) ++ y -> ends_settled (y ++ [cNL]) = true ->
      exists y', a = p ++ y' /\ ends_settled (y' ++ [cNL]) = true).
    { intros m p g x v rest y E Hg Hs Ea Hy. exists (g ++ v ++ y). split; [rewrite Ea, <- !app_assoc; reflexivity|].
      assert (rest = y ++ u ++ b) as -> by (rewrite Ea, <- !app_assoc in E; do 3 apply app_inv_head in E; symmetry; exact E).
      rewrite <- !app_assoc, (gap_run g Hg), (spells_run_iff m x v (y ++ [cNL])); [exact Hy| |destruct y; discriminate].
      destruct y as [|c y]; [|exact (spells_head _ _ _ _ _ _ Hs)]. cbn [app] in *. destruct u as [|c u']; [contradiction|]. exact (spells_swap _ _ _ _ _ _ Hs). }
    induction 1 as [r|x l _ IH|c x l q Hx Hq _ IH]; intros m p r0 L E; inversion L as [| |m' p' g k' v rest toks Hg Hs Hl]; subst.
    - destruct (pos_after_prefix_inj a (p ++ g) (u ++ b) (v ++ rest)) as [Ea _]; [rewrite E, <- app_assoc; reflexivity|unfold pos_after; congruence|].
      exists g. split; [exact Ea|]. rewrite (gap_run g Hg). reflexivity.
    - destruct (IH _ _ _ Hl) as (y & Ea & Hy); [rewrite E, <- !app_assoc; reflexivity|]. eapply St; eassumption.
    - destruct Hq as (a1 & b1 & E1 & Ep & L1). destruct (IH _ _ _ L1 E1) as (y & Ea & Hy). cbn [tk_end tk_span span_end] in Ep.
      destruct (pos_after_prefix_inj a1 (p ++ g ++ v) b1 rest) as [-> ->]; [rewrite <- E1, E, <- !app_assoc; reflexivity|symmetry; exact Ep|].
      eapply St; eassumption.
  Qed.

  (** the tokens of both texts from the same place on *)
  Definition beside (l l0 : list token) : Prop := exists m p y, a = p ++ y /\ lexed src m p (y ++ u ++ b) l /\ lexed src m p (y ++ z) l0.
  Hypothesis valid0 : valid_utf8 other = true.
  Notation resumes0 := (resumes_in other src).

  Lemma step_on x l l0 m p y y' : a = p ++ y -> lexed src m p (y ++ u ++ b) (x :: l) -> lexed src m p (y ++ z) l0 ->
    tk_end x = pos_after (p ++ y') -> (exists y2, y = y' ++ y2) -> exists l1, l0 = x :: l1 /\ beside l l1 /\ tk_end x = pos_after (p ++ y').
  Proof.
    intros Ea L L0 Ex [y2 ->]. remember (x :: l) as xl eqn:El. remember ((y' ++ y2) ++ u ++ b) as r eqn:Er.
    destruct L as [| |m p g k' v rest toks Hg Hs Hl]; [discriminate El..|]. injection El as <- <-.
    cbn [tk_end tk_span span_end] in Ex.
    destruct (pos_after_prefix_inj (p ++ y') (p ++ g ++ v) (y2 ++ u ++ b) rest) as [E1 <-];
      [rewrite <- !app_assoc in *; rewrite Er; reflexivity|symmetry; exact Ex|].
    apply app_inv_head in E1. subst y'. destruct (lexed_total src (mode_after k' m) (p ++ g ++ v) (y2 ++ z)) as [l1 L1].
    assert (K : lexed src m p (g ++ v ++ y2 ++ z) (mkToken k' (mkSpan (pos_after (p ++ g)) (pos_after (p ++ g ++ v))) src :: l1))
      by (apply lx_token; [exact Hg|exact (next_here _ _ _ y2 Hs)|exact L1]).
    exists l1. split; [|split; [|exact Ex]].
    - rewrite <- !app_assoc in L0. eapply (lexed_fun other src valid0 m p); [|exact L0|exact K]. rewrite Ea, <- !app_assoc. reflexivity.
    - exists (mode_after k' m), (p ++ g ++ v), y2. split; [rewrite Ea, <- !app_assoc; reflexivity|]. split; [exact Hl|exact L1].
  Qed.
  Lemma beside_tok x l l0 : beside (x :: l) l0 -> W l -> exists l1, l0 = x :: l1 /\ beside l l1.
  Proof.
    intros (m & p & y & Ea & L & L0) Hw. inversion L as [| |m' p' g k' v rest toks Hg Hs Hl Em Ep Er Ex]; subst.
    destruct (before _ Hw _ _ _ Hl) as (y2 & E2 & _); [rewrite Ea, <- !app_assoc; rewrite <- Er; reflexivity|].
    rewrite Ea, <- !app_assoc in E2. apply app_inv_head in E2.
    destruct (step_on _ _ _ _ _ _ (g ++ v) Ea L L0) as (l1 & H1 & H2 & _); [reflexivity|exists y2; rewrite <- app_assoc; exact E2|]. exists l1. auto.
  Qed.
  Lemma beside_res c x l q l0 : is (Unknown c) x -> beside (x :: l) l0 -> resumes x q -> W q -> exists l1 q0, l0 = x :: l1 /\ resumes0 x q0 /\ beside q q0.
  Proof.
    intros _ (m & p & y & Ea & L & L0) (a1 & b1 & E1 & Ep & L1) Hw. destruct (before _ Hw _ _ _ L1 E1) as (y2 & E2 & _).
    inversion L as [| |m' p' g k' v rest toks Hg Hs Hl Em Ep' Er Ex]; subst x. cbn [tk_end tk_span span_end] in Ep.
    destruct (pos_after_prefix_inj a1 (p ++ g ++ v) b1 rest) as [Ea1 Eb1];
      [rewrite <- E1, Ea, <- !app_assoc; rewrite <- Er; reflexivity|symmetry; exact Ep|].
    assert (Ey : y = (g ++ v) ++ y2). { rewrite Ea1, Ea, <- !app_assoc in E2. apply app_inv_head in E2. rewrite <- app_assoc. exact E2. }
    rewrite <- Er in L. pose proof L as L'. rewrite Er in L'.
    destruct (step_on _ _ _ _ _ _ (g ++ v) Ea L' L0) as (l1 & H1 & _); [reflexivity|exists y2; exact Ey|].
    destruct (lexed_total src NameExpected a1 (y2 ++ z)) as [q0 Hq0]. exists l1, q0. split; [exact H1|]. split.
    - exists a1, (y2 ++ z). split; [rewrite E2 at 1; rewrite <- app_assoc; reflexivity|]. split; [exact (eq_trans Ep eq_refl)|exact Hq0].
    - exists NameExpected, a1, y2. split; [exact E2|]. split; [|exact Hq0].
      assert (b1 = y2 ++ u ++ b) as <-; [|exact L1]. rewrite E2, <- app_assoc in E1. apply app_inv_head in E1. symmetry. exact E1.
  Qed.
  Lemma beside_here r l0 : beside (t :: r) l0 -> z = [cNL] /\ l0 = [] \/ exists r0, l0 = t :: r0.
  Proof.
    intros (m & p & y & Ea & L & L0). remember (t :: r) as tl eqn:El. remember (y ++ u ++ b) as rr eqn:Er.
    destruct L as [| |m p g k' v rest toks Hg Hs Hl]; [discriminate El..|]. injection El as Ek Et1 Et2 Et3 Et4 Et5. subst k' toks.
    destruct (pos_after_prefix_inj (p ++ y) (p ++ g) (u ++ b) (v ++ rest)) as [Ey Ev].
    { rewrite <- !app_assoc, Er. reflexivity. } { rewrite <- Ea. unfold pos_after. congruence. }
    apply app_inv_head in Ey. subst y.
    destruct (pos_after_prefix_inj (p ++ g ++ v) (a ++ u) rest b) as [Ev2 ->].
    { rewrite Ea, <- !app_assoc, <- Ev. reflexivity. } { unfold pos_after. congruence. }
    rewrite Ea, <- app_assoc in Ev2. do 2 apply app_inv_head in Ev2. subst v.
    destruct goes_on as [Ez|(c & Ez & Hc)]; [left|right].
    - split; [exact Ez|]. eapply (lexed_fun other src valid0 m p); [|exact L0|apply lx_end; left; apply gap_app; [exact Hg|rewrite Ez]].
      + rewrite Ea, <- app_assoc. reflexivity.
      + apply gap_ws; [unfold ws_char; cbn [In]; tauto|apply gap_nil].
    - destruct (lexed_total src (mode_after k m) (p ++ g ++ u) c) as [r0 L1]. exists r0.
      eapply (lexed_fun other src valid0 m p); [|exact L0|]; [rewrite Ea, <- app_assoc; reflexivity|].
      rewrite Ez, Ea, <- app_assoc. apply lx_token; [exact Hg|apply Hc, Hs|exact L1].
  Qed.
  Lemma beside_head l l0 : beside l l0 -> W l -> z = [cNL] /\ l0 = [] /\ (exists r, l = t :: r) \/ exists x l1 l01, l = x :: l1 /\ l0 = x :: l01.
  Proof.
    intros HP Hw. destruct Hw as [r|x l1 H|c x l1 q Hx Hq H].
    - destruct (beside_here _ _ HP) as [[G ->]|[r0 ->]]; [left; split; [exact G|split; [reflexivity|exists r; reflexivity]]|right; exists t, r, r0; auto].
    - destruct (beside_tok _ _ _ HP H) as (l2 & -> & _). right. exists x, l1, l2. auto.
    - destruct (beside_res _ _ _ _ _ Hx HP Hq H) as (l2 & q0 & -> & _). right. exists x, l1, l2. auto.
  Qed.
  Lemma other_file incl what : refused incl text src (AtToken t what) ->
    refused incl other src (AtToken t what)
    \/ z = [cNL] /\ ((exists els rs, reads_as incl other src els rs) \/ refused incl other src AtEnd).
  Proof.
    intros (toks & L & X). destruct (lexed_total src NameExpected [] other) as [toks0 L0].
    assert (B : beside toks toks0) by (exists NameExpected, [], a; auto).
    destruct (proj2 (w_file src incl resumes resumes0 t (z = [cNL]) W beside (way_tok _ _) (way_res _ _) (way_here _ _)
      beside_tok beside_res beside_here beside_head what _ _ X eq_refl) _ B) as [K|[G [(ps & r & K)|K]]].
    - left. exists toks0. auto.
    - right. split; [exact G|]. left. exists ps, r, toks0. auto.
    - right. split; [exact G|]. right. exists toks0. auto.
  Qed.
End Other.

(** no token begins with a line break *)
Lemma no_break m k u b : spells m k u b -> forall c, u ++ c = [cNL] -> False.
Proof.
  intros H c E. destruct u as [|x u]; [apply spells_nonempty in H; cbn in H; lia|]. injection E as -> _.
  assert (N : ~ name_char cNL) by (unfold name_char, letter, digit; cbn [In]; lia).
  inversion H; subst.
  - match goal with F : Forall name_char _ |- _ => inversion F; contradiction end.
  - match goal with F : Forall name_char (cNL :: _) |- _ => inversion F; contradiction end.
  - match goal with F : Forall name_char (cNL :: _) |- _ => inversion F; contradiction end.
  - match goal with F : digit cNL |- _ => unfold digit in F; lia end.
  - match goal with F : In _ punctuation |- _ => cbn [punctuation In] in F; repeat (destruct F as [F|F]; [discriminate F|]); contradiction end.
  - match goal with F : ~ ws_char cNL |- _ => apply F; unfold ws_char; cbn [In]; tauto end.
Qed.

(** ** C110 *)
(** An error that is not "unexpected end of file" is about a token, written [u], behind a part [a] of the text. Whatever mistakes [a] contains, it
    is not what stops the tool: alone it gives a tree or only ends too early, and some continuation of it gives a tree. With [u] there is none:
    whatever stands behind [u], as long as [u] is the same token, the tool stops there with the same message. (An unknown character of which [u] is a
    byte may begin in [a].) *)
Theorem C110_first_fault : forall incl text src d s, valid_utf8 text = true -> parse_text incl text src = RErr d s -> dg_kind d <> UnexpectedEOF ->
  exists a u b k, text = a ++ u ++ b /\ u <> [] /\ (exists m, spells m k u b)
    /\ (let t := mkToken k (mkSpan (pos_after a) (pos_after (a ++ u))) src in
        complains text src (AtToken t (dg_msg d)) d
        /\ (valid_utf8 a = true \/ exists c, k = Unknown c /\ 128 <= c)
        /\ (valid_utf8 a = true ->
             (accepted incl (a ++ [cNL]) src \/ ends_early incl (a ++ [cNL]) src)
             /\ exists c, valid_utf8 c = true /\ accepted incl (a ++ [cNL] ++ c) src)
        /\ forall c, valid_utf8 (a ++ u ++ c) = true -> (forall m, spells m k u b -> spells m k u c) ->
             exists d' s', parse_text incl (a ++ u ++ c) src = RErr d' s' /\ complains (a ++ u ++ c) src (AtToken t (dg_msg d)) d').
Proof.
  intros incl text src d s V E Hd. destruct (C106_error_derived _ _ _ _ _ V E) as ([|t w] & R & Hc); [destruct Hc as (_ & K & _); contradiction|].
  assert (w = dg_msg d) as -> by (destruct Hc as (_ & _ & K & _); symmetry; exact K).
  destruct R as (toks & L & X). pose proof (stops_on_way _ _ _ _ _ _ X) as Hw.
  destruct (way_place _ _ _ _ Hw _ _ _ L eq_refl) as (m & a & u & b & -> & Et & Hs). set (k := tk_kind t) in *. clearbody k. subst t.
  pose proof (spells_nonempty _ _ _ _ Hs) as Hn. assert (Hu : u <> []) by (intros ->; cbn in Hn; lia).
  exists a, u, b, k. split; [reflexivity|]. split; [exact Hu|]. split; [exists m; exact Hs|]. cbv zeta. split; [exact Hc|]. split; [|split].
  - assert (D : (exists c, k = Unknown c) \/ forall c, k <> Unknown c) by (destruct k; try (right; discriminate); left; eexists; reflexivity).
    destruct D as [[c ->]|D].
    + destruct (N.lt_ge_cases c 128) as [Hlt|Hge]; [left|right; exists c; auto]. assert (exists v, u = c :: v) as [v ->] by (inversion Hs; subst; [|eexists; reflexivity];
        match goal with H : In _ punctuation |- _ => cbn [punctuation In] in H; repeat (destruct H as [H|H]; [discriminate H|]); contradiction end).
      exact (proj1 (valid_split a c (v ++ b) Hlt V)).
    + left. destruct (spells_edges _ _ _ _ Hs D) as [(c & v & -> & Hlt) _]. exact (proj1 (valid_split a c (v ++ b) Hlt V)).
  - intros Va. assert (Vn : valid_utf8 (a ++ [cNL]) = true) by (rewrite (valid_app _ _ Va); reflexivity).
    assert (Hst : ends_settled (a ++ [cNL]) = true).
    { destruct (before src a u b [cNL] k Hu (or_introl eq_refl) _ Hw NameExpected [] _ L eq_refl) as (y & -> & H). exact H. }
    assert (K : accepted incl (a ++ [cNL]) src \/ ends_early incl (a ++ [cNL]) src).
    { destruct (other_file src a u b [cNL] k Hu (or_introl eq_refl) Vn incl (dg_msg d)) as [R|[_ [(els & rs & R)|R]]].
      - exists toks. auto.
      - exfalso. destruct R as (toks0 & L0 & X0). pose proof (stops_on_way _ _ _ _ _ _ X0) as Hw0.
        destruct (way_place _ _ _ _ Hw0 _ _ _ L0 eq_refl) as (m0 & a0 & u0 & b0 & E0 & Et0 & Hs0). cbn [tk_kind] in *.
        injection Et0 as E1 E2 E3 E4.
        destruct (pos_after_prefix_inj a0 a (u0 ++ b0) [cNL]) as [-> Eb]; [symmetry; exact E0|unfold pos_after; congruence|].
        exact (no_break _ _ _ _ Hs0 _ Eb).
      - left. destruct (C105_derived_tree incl _ src els rs Vn R) as (ds & (s' & E' & _) & _). eexists _, _. exact E'.
      - right. destruct (C106_derived_error _ _ _ _ Vn R) as (d' & s' & E' & K). exists d', s'. split; [exact E'|apply K]. }
    split; [exact K|]. destruct (proj2 (C107_on_the_way incl src _ Vn Hst) K) as (c & Vc & Ha). exists ([cNL] ++ c).
    split; [cbn [app]; rewrite valid_one; [exact Vc|lia]|]. rewrite <- app_assoc in Ha. exact Ha.
  - intros c Vc Hk. destruct (other_file src a u b (u ++ c) k Hu) with (incl := incl) (what := dg_msg d) as [R|[Ez [R|R]]];
      [right; exists c; auto|exact Vc|exists toks; auto|exact (C106_derived_error _ _ _ _ Vc R)|exfalso..];
      exact (no_break _ _ _ _ Hs c (eq_sym (eq_sym Ez))).
Qed.
Print Assumptions C110_first_fault.

(** three mistakes are passed over, the fourth stops it at the number; before the number all is still to be saved, with it nothing is *)
Example C110_case : exists d s, valid_utf8 refused_text = true /\ parse_text [] refused_text [] = RErr d s /\ dg_kind d = Expected
  /\ length (ps_diags s) = 3%nat
  /\ refused_text = bs "/ { p = <99 ""s"" > $ a-l: q = ""x""; n { r = " ++ bs "7" ++ bs "; }; };"
  /\ accepted [] (bs "/ { p = <99 ""s"" > $ a-l: q = ""x""; n { r = " ++ [cNL] ++ bs "<7>; }; };") []
  /\ (forall m, spells m (UnparsedNumber (bs "7")) (bs "7") (bs "; }; };") -> spells m (UnparsedNumber (bs "7")) (bs "7") (bs " , <8>; }; };")).
Proof.
  assert (V : valid_utf8 refused_text = true) by (vm_compute; reflexivity).
  remember (parse_text [] refused_text []) as p eqn:Ep.
  assert (K : match p with RErr d s => dg_kind d = Expected /\ length (ps_diags s) = 3%nat | _ => False end)
    by (rewrite Ep; vm_compute; split; reflexivity).
  destruct p as [|d s| |]; try contradiction. destruct K as [K1 K2]. exists d, s. split; [exact V|]. split; [reflexivity|]. split; [exact K1|]. split; [exact K2|].
  split; [vm_compute; reflexivity|]. split.
  - remember (parse_text [] (bs "/ { p = <99 ""s"" > $ a-l: q = ""x""; n { r = " ++ [cNL] ++ bs "<7>; }; };") []) as q eqn:Eq.
    assert (K : match q with ROk _ _ => True | _ => False end) by (rewrite Eq; vm_compute; exact I).
    destruct q as [f s'| | |]; try contradiction. exists f, s'. symmetry. exact Eq.
  - intros m _. change (bs "7") with [55]. change (bs " , <8>; }; };") with (cSpace :: bs ", <8>; }; };"). apply sp_number; [unfold digit; lia|apply Forall_cons; [right; unfold digit; lia|apply Forall_nil]|].
    intros x r E. injection E as <- _. unfold letter, digit. lia.
Qed.
