(** C123 Root blocks can be taken apart *)
From Verif Require Import Lexer LexerProofs2 LexerProofs3 LexSpec Parser Grammar Utf8 Project Visitor Server Session AnalysisProofs PropsParser CrLfProject PropsCrLf PropsGrammar PropsConcat SplitRoot Tests ProjectProofs2.
From Coq Require Import Lia List.
Import ListNotations.

(** ** Texts *)
Definition is_node (i : item) : bool := match i with INode _ => true | _ => false end.
Lemma items_weaken : forall seen l its l' n, g_items seen l its l' n -> forall s, (s = true -> seen = true) -> g_items s l its l' n.
Proof.
  induction 1; intros z Z; try (destruct z; [discriminate (Z eq_refl)|]); econstructor; eauto.
Qed.
Lemma items_app : forall seen l its l1 n, g_items seen l its l1 n -> forall its' l2 m, g_items (seen || existsb is_node its) l1 its' l2 m ->
  g_items seen l (its ++ its') l2 (n + m).
Proof.
  induction 1; intros its' l9 k K; cbn [existsb is_node app] in *; rewrite ?Bool.orb_false_r, ?Bool.orb_true_r, ?Bool.orb_false_l in *; [exact K|..];
    rewrite <- ?PeanoNat.Nat.add_assoc; econstructor; eauto.
Qed.

(** The tokens of [t] are elements [A], a root block with the items [X] and then the items [Y], and elements [Z];
    [t'] has the tokens [} ; / {] in addition between [X] and [Y]. *)
Definition cut (t t' : str) : Prop := forall incl src, exists A sl op X Y c sc sl' op' cl se Z a xs ys z,
  tokenize t src = Done (A ++ sl :: op :: X ++ Y ++ cl :: se :: Z)
  /\ tokenize t' src = Done (A ++ sl :: op :: X ++ c :: sc :: sl' :: op' :: Y ++ cl :: se :: Z)
  /\ derives incl A a /\ g_items false X xs [] 0 /\ g_items (existsb is_node xs) Y ys [] 0 /\ derives incl Z z
  /\ is Slash sl /\ is OpenBrace op /\ is CloseBrace c /\ is Semicolon sc /\ is Slash sl' /\ is OpenBrace op' /\ is CloseBrace cl /\ is Semicolon se.

Lemma root_block incl sl op X xs cl se Z z : is Slash sl -> is OpenBrace op -> g_items false X xs [] 0 -> is CloseBrace cl -> is Semicolon se ->
  derives incl Z z -> derives incl (sl :: op :: X ++ cl :: se :: Z) (PRoot (mkNode None (root_name sl) (mkPayload xs se) None) :: z).
Proof.
  intros Hs Ho HX Hc He HZ. apply (gf_cons incl _ _ Z 0 z 0); [|exact HZ]. apply gp_root; [exact Hs|exact Ho|].
  pose proof (proj2 (body_items_more (cl :: se :: Z)) _ _ _ _ _ HX eq_refl) as K. cbn [app] in K.
  apply (gbo _ xs 0 (cl :: se :: Z) None (cl :: se :: Z) None cl (se :: Z) (Some se) Z 0); [exact K|constructor|constructor|exact Hc|apply ge_semicolon, He].
Qed.
Lemma splits_front a b c : splits b c -> splits (a ++ b) (a ++ c).
Proof. intros H. induction a as [|p a IH]; [exact H|]. cbn [app]. constructor. exact IH. Qed.
Lemma splits_refl a : splits a a.
Proof. induction a; constructor; assumption. Qed.
(** Cutting a root block in two does not matter for the syntax: both texts are read without complaint, and every item is read as the same at the same place. *)
Theorem C123_text : forall t t', valid_utf8 t = true -> valid_utf8 t' = true -> cut t t' ->
  apart t t' /\ forall incl src, exists f f', parses incl t src f [] /\ parses incl t' src f' [] /\ file_splits f f'.
Proof.
  intros t t' V V' C.
  assert (G : forall incl src, exists f f', parses incl t src f [] /\ parses incl t' src f' [] /\ file_splits f f').
  { intros incl src. destruct (C incl src) as (A & sl & op & X & Y & c & sc & sl' & op' & cl & se & Z & a & xs & ys & z & T & T' & HA & HX & HY & HZ & K1 & K2 & K3 & K4 & K5 & K6 & K7 & K8).
    apply (tokenize_iff _ _ _ V) in T. apply (tokenize_iff _ _ _ V') in T'.
    assert (D : derives incl (A ++ sl :: op :: X ++ Y ++ cl :: se :: Z) (a ++ PRoot (mkNode None (root_name sl) (mkPayload (xs ++ ys) se) None) :: z)).
    { apply (file_more incl _ _ A a 0); [|exact HA|reflexivity]. rewrite (app_assoc X Y). apply root_block; try assumption.
      change 0%nat with (0 + 0)%nat. eapply items_app; [exact (proj2 (body_items_more Y) _ _ _ _ _ HX eq_refl)|exact HY]. }
    assert (D' : derives incl (A ++ sl :: op :: X ++ c :: sc :: sl' :: op' :: Y ++ cl :: se :: Z)
      (a ++ PRoot (mkNode None (root_name sl) (mkPayload xs sc) None) :: PRoot (mkNode None (root_name sl') (mkPayload ys se) None) :: z)).
    { apply (file_more incl _ _ A a 0); [|exact HA|reflexivity]. apply root_block; try assumption. apply root_block; try assumption.
      apply (items_weaken _ _ _ _ _ HY). discriminate. }
    eexists _, _. split; [exact (proj1 (C11_grammatical_parses_clean _ _ _ _ _ V T D))|].
    split; [exact (proj1 (C11_grammatical_parses_clean _ _ _ _ _ V' T' D'))|].
    split; [|reflexivity]. cbn [fl_elements]. apply splits_front. apply sp_cut, splits_refl. }
  split; [|exact G]. split; [exact V|]. intros incl src. destruct (G incl src) as (f & f' & (s & E & D) & (s' & E' & D') & H).
  rewrite E, E'. split; [exact H|congruence].
Qed.
Print Assumptions C123_text.
(** The project has the same files with the same diagnostics, *)
Theorem C123_project : forall fs fs' fuel o name, disk_apart fs fs' -> by_name (o_files o) -> oracle_ok (o_an o) -> by_rest (o_an o) ->
  match add_file fuel o fs name project_new, add_file fuel o fs' name project_new with
  | Done (inr pj), Done (inr pj') =>
    m_keys (pj_files pj') = m_keys (pj_files pj) /\ forall p, get_diagnostics fs' pj' p = get_diagnostics fs pj p
  | Done (inl e), Done (inl e') => e' = e
  | Panic, Panic | NoFuel, NoFuel => True
  | _, _ => False
  end.
Proof.
  intros fs fs' fuel o name SD B Bo Br.
  assert (S0 : like_project project_new project_new) by (repeat split; constructor).
  pose proof (like_add fs fs' SD fuel o name _ _ B Bo Br S0) as G.
  destruct (add_file fuel o fs name project_new) as [[e|pj]| |], (add_file fuel o fs' name project_new) as [[e'|pj']| |];
    cbn [orel] in G; auto.
  split; [exact (alike_keys _ _ _ (proj1 G))|]. intros p. exact (like_diagnostics fs fs' SD _ _ p G).
Qed.
Print Assumptions C123_project.
(** and in every session the server publishes the same and gives the same answers, but for where [&{/}] leads; in the outline the same items are in other root blocks. *)
Definition turn_apart (m m' : turn) : Prop :=
  disk_apart (tn_fs m) (tn_fs m') /\ note_apart (tn_note m) (tn_note m')
  /\ tn_orders m' = tn_orders m /\ tn_keys m' = tn_keys m
  /\ by_name (o_files (tn_orders m)) /\ oracle_ok (o_an (tn_orders m)) /\ by_rest (o_an (tn_orders m)).
Theorem C123_session : forall fuel ms ms', Forall2 turn_apart ms ms' ->
  match serve fuel ms server_new, serve fuel ms' server_new with
  | Done sv, Done sv' =>
    sv_sent sv' = sv_sent sv
    /\ forall fs fs' u c, disk_apart fs fs' ->
         (not_on_root fs u c sv -> goto_definition fs' u c sv' = goto_definition fs u c sv)
         /\ hover fs' u c sv' = hover fs u c sv
         /\ option_map (flat_map opened) (document_symbol fs' u sv') = option_map (flat_map opened) (document_symbol fs u sv)
  | Panic, Panic | NoFuel, NoFuel => True
  | _, _ => False
  end.
Proof.
  intros fuel ms ms' H.
  assert (G : forall sv sv', like_server sv sv' -> orel like_server (serve fuel ms sv) (serve fuel ms' sv')).
  { induction H as [|m m' ms ms' (D & N & Eo & Ek & B & Bo & Br) _ IH]; intros sv sv' S; [exact S|].
    cbn [serve]. rewrite Eo, Ek. eapply orel_bind; [|exact IH]. apply like_handle; assumption. }
  assert (S0 : like_server server_new server_new) by (split; [repeat split; constructor|reflexivity]).
  specialize (G _ _ S0). destruct (serve fuel ms server_new), (serve fuel ms' server_new); cbn [orel] in G; auto.
  split; [apply G|]. intros fs fs' u c D. exact (like_answers fs fs' D _ _ u c G).
Qed.
Print Assumptions C123_session.

(** ** The conditions can be met *)
Definition text123 : str := bs "/dts-v1/;" ++ [cNL] ++ bs "/ { l: n { };      m { }; };" ++ [cNL] ++ bs "&k { };".
Definition text123' : str := bs "/dts-v1/;" ++ [cNL] ++ bs "/ { l: n { }; };/{ m { }; };" ++ [cNL] ++ bs "&k { };".
Definition toks123 (t src : str) : list token := match tokenize t src with Done l => l | _ => [] end.
Definition sub {A} (i n : nat) (l : list A) : list A := firstn n (skipn i l).
Lemma cut123 : cut text123 text123'.
Proof.
  intros incl src.
  assert (S1 : forall c : N, short [c]) by (intros c; split; [discriminate|cbn; lia]).
  assert (N1 : forall c, letter c -> legal_node_name (mkNN [c] None)).
  { intros c L. right. cbn [nn_name nn_addr]. split; [apply S1|]. split; [constructor; [left; exact L|constructor]|]. split; [exists c, []; auto|discriminate]. }
  assert (L1 : forall c, letter c -> legal_label [c]).
  { intros c L. split; [apply S1|]. split; [constructor; [left; exact L|constructor]|exists c, []; auto]. }
  assert (B1 : forall c s l, is CloseBrace c -> is Semicolon s -> g_body (c :: s :: l) (mkPayload [] s) l 0).
  { intros c s l Hc Hs. apply (gbo _ [] 0 (c :: s :: l) None (c :: s :: l) None c (s :: l) (Some s) l 0); [constructor..|exact Hc|apply ge_semicolon, Hs]. }
  assert (I1 : forall lb l x b c s l0 ch, g_label l lb (x :: b :: c :: s :: l0) -> is (Ident [ch]) x -> letter ch -> ch <> cAt -> is OpenBrace b -> is CloseBrace c -> is Semicolon s ->
    forall seen, g_items seen l [INode (mkNode lb (mkWT (mkNN [ch] None) x) (mkPayload [] s) None)] l0 0).
  { intros lb l x b c s l0 ch Hl Hx Lc Na Hb Hc Hs seen. apply (gi_node seen l None l lb x [ch] (mkNN [ch] None) b (c :: s :: l0) (mkPayload [] s) l0 0 [] l0 0);
      [constructor|exact Hl|exact Hx| |apply N1, Lc|exact Hb|apply B1; assumption|constructor]. constructor. intros [E|[]]. exact (Na E). }
  eassert (E : toks123 text123 src = _) by (vm_compute; reflexivity).
  set (T := toks123 text123 src) in *. set (d := mkToken Semicolon (pos_to pos_zero pos_zero) src). set (T' := toks123 text123' src).
  exists (sub 0 2 T), (nth 2 T d), (nth 3 T d), (sub 4 5 T), (sub 9 4 T), (nth 9 T' d), (nth 10 T' d), (nth 11 T' d), (nth 12 T' d), (nth 13 T d), (nth 14 T d), (sub 15 4 T).
  eexists _, _, _, _.
  split; [vm_compute; reflexivity|]. split; [vm_compute; reflexivity|].
  split; [|split; [|split; [|split; [|repeat split]]]]; rewrite ?E; cbn [sub firstn skipn nth].
  - eapply (gf_cons incl _ _ [] 0 [] 0); [|constructor]. eapply gp_header; [reflexivity|]. apply ge_semicolon. reflexivity.
  - eapply I1; [eapply gl_some; [reflexivity|apply L1; left; lia]|reflexivity|left; lia|discriminate|reflexivity..].
  - cbn [existsb is_node orb]. eapply I1; [apply gl_none|reflexivity|left; lia|discriminate|reflexivity..].
  - eapply (gf_cons incl _ _ [] 0 [] 0); [|constructor]. eapply gp_ref_node; [reflexivity|apply rt_label, L1; left; lia|reflexivity|]. apply B1; reflexivity.
Qed.
Lemma apart123 : apart text123 text123'.
Proof. exact (proj1 (C123_text text123 text123' eq_refl eq_refl cut123)). Qed.
Lemma disk123_apart : disk_apart (mem_fs [(bs "/a.dts", text123)]) (mem_fs [(bs "/a.dts", text123')]).
Proof.
  split; intros p.
  - cbn [mem_fs fs_canon]. unfold m_mem. cbn [m_get]. destruct (str_eq_dec p (bs "/a.dts")); reflexivity.
  - unfold read_to_string. cbn [mem_fs fs_read m_get]. destruct (str_eq_dec p (bs "/a.dts")); [|reflexivity].
    change (valid_utf8 text123) with true. change (valid_utf8 text123') with true. exact apart123.
Qed.
Example C123_case :
  let m t := mkTurn (mem_fs [(bs "/a.dts", t)]) (NOpen (FileUri (bs "/a.dts")) t) id_oracle (fun l => l) in
  text123 <> text123' /\ Forall2 turn_apart [m text123] [m text123']
  /\ exists sv, serve 9 [m text123] server_new = Done sv /\ map (fun p => length (snd p)) (sv_sent sv) = [1]%nat.
Proof.
  cbv zeta. split; [discriminate|]. split.
  - constructor; [|constructor]. split; [exact disk123_apart|]. split; [split; [reflexivity|exact apart123]|].
    repeat split; try (intros; reflexivity). + intros R l l' H. exact H. + intros k a b H. exact H.
  - eexists. split; [vm_compute; reflexivity|]. reflexivity.
Qed.

(** ** The full claim is false for the root itself: a jump from [&{/}] goes to the last block. *)
Definition body123 (mid : str) : str := bs "/dts-v1/;" ++ [cNL] ++ bs "/ { n { p = <&{/}>; }; " ++ mid ++ bs " m { }; };".
Definition goto123 (t : str) : outcome (option (uri * span)) :=
  let fs := mem_fs [(bs "/a.dts", t)] in
  obind (serve 9 [mkTurn fs (NOpen (FileUri (bs "/a.dts")) t) id_oracle (fun l => l)] server_new) (fun sv => goto_definition fs (FileUri (bs "/a.dts")) (mkPos 1 14) sv).
Theorem C123_root_refuted : exists u,
  goto123 (body123 (bs "    ")) = Done (Some (u, mkSpan (mkPos 1 0) (mkPos 1 1)))
  /\ goto123 (body123 (bs "};/{")) = Done (Some (u, mkSpan (mkPos 1 25) (mkPos 1 26))).
Proof. eexists. split; vm_compute; reflexivity. Qed.
Print Assumptions C123_root_refuted.
(** Putting blocks together is not allowed in the same way: a property after a node of the same block is an error, in a block of its own it is not. *)
Theorem C123_join_refuted : exists t t' f s f' s',
  t = bs "/ { n { };      p; };" /\ t' = bs "/ { n { }; }; /{ p; };"
  /\ parse_text [] t (bs "/a.dts") = ROk f s /\ map dg_kind (ps_diags s) = [PropertyAfterNode]
  /\ parse_text [] t' (bs "/a.dts") = ROk f' s' /\ ps_diags s' = [].
Proof.
  eexists _, _, _, _, _, _. split; [reflexivity|]. split; [reflexivity|]. split; [vm_compute; reflexivity|]. split; [vm_compute; reflexivity|].
  split; vm_compute; reflexivity.
Qed.
Print Assumptions C123_join_refuted.
