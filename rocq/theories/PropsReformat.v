(** C68: reformatting a text changes neither its tree nor its diagnostics, apart from positions *)
From Verif Require Import Parser TokParser DisplayProofs LexSpec LexerProofs2 LexerProofs3 ParserSim Fuel Reformat.

(** what a diagnostic says: everything but its place *)
Definition says (d : diag) : error_code * str := (dg_kind d, dg_msg d).
(** the tree without its positions *)
Definition bare_file (f : dts_file) : list primary := map bare_primary (fl_elements f).
Definition same_reading (r r' : res dts_file) : Prop :=
  match r, r' with
  | ROk f s, ROk f' s' => bare_file f = bare_file f' /\ map says (ps_diags s) = map says (ps_diags s')
  | RErr d s, RErr d' s' => says d = says d' /\ map says (ps_diags s) = map says (ps_diags s')
  | _, _ => False
  end.
Definition unknown (k : token_kind) : Prop := exists c, k = Unknown c.

Lemma says_sim l l' : Forall2 diag_sim l l' -> map says l = map says l'.
Proof.
  induction 1 as [|d d' l l' H _ IH]; [reflexivity|]. cbn [map]. rewrite IH.
  unfold says. destruct H as (-> & _ & -> & _). reflexivity.
Qed.
Lemma says_eqv l l' : Forall2 diag_eqv l l' -> map says l = map says l'.
Proof.
  induction 1 as [|d d' l l' H _ IH]; [reflexivity|]. cbn [map]. rewrite IH.
  unfold says. destruct H as (-> & ->). reflexivity.
Qed.
Lemma lexed_no_comment src m pre t toks : lexed src m pre t toks ->
  Forall (fun t => forall s, tk_kind t <> Comment s) toks.
Proof.
  induction 1 as [| |m pre g k u rest toks Hg Hs _ IH]; constructor; [|exact IH].
  intros s E. cbn [tk_kind] in E. subst k. inversion Hs; subst.
  match goal with H : In _ punctuation |- _ => cbn [punctuation In] in H; repeat destruct H as [H|H]; try discriminate H; contradiction end.
Qed.
Lemma kinds_forall2 l l' : map tk_kind l = map tk_kind l' -> Forall2 tok_eqv l l'.
Proof.
  revert l'; induction l as [|t l IH]; intros [|t' l'] H; try discriminate H; constructor.
  - exact (f_equal (hd Slash) H).
  - apply IH. exact (f_equal (@tl _) H).
Qed.

(** Two texts with the same tokens, none of them an unknown character, are read alike. The paths of the
    files do not matter either. *)
Theorem C68_same_tokens : forall incl text text' src src' toks toks',
  valid_utf8 text = true -> valid_utf8 text' = true ->
  tokenize text src = Done toks -> tokenize text' src' = Done toks' ->
  map tk_kind toks = map tk_kind toks' -> Forall (fun k => ~ unknown k) (map tk_kind toks) ->
  same_reading (parse_text incl text src) (parse_text incl text' src').
Proof.
  intros incl text text' src src' toks toks' Hv Hv' Ht Ht' Hk Hu.
  pose proof (parse_sim incl text src toks Hv Ht) as H.
  pose proof (parse_sim incl text' src' toks' Hv' Ht') as H'.
  assert (He : eqv (mkTS toks []) (mkTS toks' [])).
  { split; [exact (kinds_forall2 _ _ Hk)|]. split; [|constructor]. cbn [t_toks].
    pose proof (lexed_no_comment _ _ _ _ _ (proj1 (tokenize_iff text src toks Hv) Ht)) as Hc.
    rewrite Forall_map in Hu. rewrite Forall_forall in *. intros t Hin. specialize (Hc t Hin). specialize (Hu t Hin).
    unfold known. destruct (tk_kind t) eqn:E; try reflexivity; exfalso.
    - exact (Hc _ eq_refl).
    - apply Hu. eexists. reflexivity. }
  pose proof (rf_file src src' incl (relex text src) (relex text' src') (S (S (length text))) (S (S (length text))) (le_n _) _ _ He) as X.
  fold (t_parse incl text src toks) in X. pose proof (run_any incl text' src' toks' (S (S (length text))) _ Hv' (proj1 (tokenize_iff _ _ _ Hv') Ht') eq_refl) as Y.
  unfold eqv_res in X.
  destruct (parse_text incl text src), (t_parse incl text src toks); try contradiction;
    destruct (t_p_file src' incl _ _ _); try contradiction; (rewrite Y in H' by discriminate);
    destruct (parse_text incl text' src'); try contradiction;
    destruct H as [H1 H2], H' as [H1' H2'], X as (X1 & _ & _ & X2); cbn [same_reading].
  - subst. split; [exact X1|]. rewrite (says_sim _ _ H2), (says_sim _ _ H2'). exact (says_eqv _ _ X2).
  - split; [|rewrite (says_sim _ _ H2), (says_sim _ _ H2'); exact (says_eqv _ _ X2)].
    unfold says. destruct H1 as (-> & _ & -> & _), H1' as (-> & _ & -> & _), X1 as [-> ->]. reflexivity.
Qed.
Print Assumptions C68_same_tokens.

(** Texts that spell the same tokens with whatever white space and comments between them are read alike *)
Theorem C68_reformat : forall incl ks g t g' t' src src',
  gap g -> written NameExpected ks t -> valid_utf8 (g ++ t) = true ->
  gap g' -> written NameExpected ks t' -> valid_utf8 (g' ++ t') = true ->
  Forall (fun k => ~ unknown k) ks ->
  same_reading (parse_text incl (g ++ t) src) (parse_text incl (g' ++ t') src').
Proof.
  intros incl ks g t g' t' src src' Hg Hw Hv Hg' Hw' Hv' Hu.
  destruct (layout_irrelevant src ks t g Hg Hw Hv) as (toks & Ht & Hk).
  destruct (layout_irrelevant src' ks t' g' Hg' Hw' Hv') as (toks' & Ht' & Hk').
  eapply C68_same_tokens; eauto; [congruence|]. rewrite Hk. exact Hu.
Qed.
Print Assumptions C68_reformat.

(** After an unknown character where a semicolon is missing the lexer reads on as after a semicolon, so
    there the layout matters: without the restriction the claim is false *)
Definition odd_a : str := bs "/ { a = <1> ? ,c; };".
Definition odd_b : str := bs "/ { a = <1> ? , c; };".
Theorem C68_refuted : exists text text' src toks toks',
  valid_utf8 text = true /\ valid_utf8 text' = true
  /\ tokenize text src = Done toks /\ tokenize text' src = Done toks'
  /\ map tk_kind toks = map tk_kind toks'
  /\ ~ same_reading (parse_text [] text src) (parse_text [] text' src).
Proof.
  exists odd_a, odd_b, (bs "f"). eexists. eexists.
  split; [reflexivity|]. split; [reflexivity|]. split; [vm_compute; reflexivity|]. split; [vm_compute; reflexivity|].
  split; [reflexivity|]. vm_compute. intuition discriminate.
Qed.
Print Assumptions C68_refuted.

(** A text with a missing semicolon and a property behind a node, in two layouts *)
Example C68_example : exists toks toks',
  tokenize (bs "/{l:n@1{a=<1>;};b-=[00] c;};") (bs "f") = Done toks
  /\ tokenize (bs "/ { l: n@1 { a /* x */ = < 1 >; }; b- = [ 00 ]
// y
c ; } ;") (bs "g") = Done toks'
  /\ map tk_kind toks = map tk_kind toks' /\ Forall (fun k => ~ unknown k) (map tk_kind toks)
  /\ length toks = 22%nat.
Proof.
  eexists. eexists. split; [vm_compute; reflexivity|]. split; [vm_compute; reflexivity|].
  split; [reflexivity|]. split; [|reflexivity]. cbn [map tk_kind].
  repeat constructor; intros [c E]; discriminate E.
Qed.
Example C68_written : exists g t, gap g /\ written NameExpected [Ident (bs "a"); Semicolon] t /\ g ++ t = bs " a ;
".
Proof.
  assert (Hsp : forall c, In c [32; 10] -> ws_char c) by (intros c H; unfold ws_char; cbn [In] in *; intuition).
  exists (bs " "), (bs "a" ++ bs " " ++ bs ";" ++ [cNL]). split; [apply (gap_ws 32 []); [apply Hsp; cbn; auto|constructor]|].
  split; [|reflexivity].
  apply (wr_cons _ _ _ (bs "a") (bs " ")).
  - apply (sp_name _ 97 []).
    + left. unfold letter. lia.
    + repeat constructor; lia.
    + intros x r E. injection E as <- _. unfold name_char, letter, digit. cbn [In]. lia.
  - apply (gap_ws 32 []); [apply Hsp; cbn; auto|constructor].
  - discriminate.
  - discriminate.
  - apply (wr_cons _ _ _ [cSemi] [cNL] []).
    + apply sp_punct; [intros [H|[H|[_ H]]]; revert H; unfold letter; cbn [In]; lia|cbn [punctuation In]; auto].
    + apply (gap_ws 10 []); [apply Hsp; cbn; auto|constructor].
    + discriminate.
    + discriminate.
    + constructor.
Qed.
