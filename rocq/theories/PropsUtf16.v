(** Positions in the language server protocol: C63 *)
From Verif Require Import Utf8 Utf8Adequacy LexerProofs LexerProofs2 PropsServer ServerProofs Server LexSpec ReaderProofs ParserBase PropsParser PropsProject Tests.

(** ** Positions of the protocol: lines end with LF, CR or CR LF; columns count UTF-16 code units *)
Definition units (c : N) : N := if (128 <=? c) && (c <? 192) then 0 else if 240 <=? c then 2 else 1.
Fixpoint lsp_go (line col : N) (cr : bool) (l : list N) : position :=
  match l with
  | [] => mkPos line col
  | c :: r =>
    if c =? 10 then if cr then lsp_go line 0 false r else lsp_go (line + 1) 0 false r
    else if c =? 13 then lsp_go (line + 1) 0 true r
    else lsp_go line (col + units c) false r
  end.
Definition lsp_after (l : list N) : position := lsp_go 0 0 false l.

Definition simple (c : N) : Prop := c < 128 /\ c <> 13.
Lemma lsp_go_adv l : Forall simple l -> forall p, lsp_go (pos_line p) (pos_char p) false l = adv p l.
Proof.
  induction 1 as [|c l [H1 H2] _ IH]; intros p; [destruct p; reflexivity|]. cbn [lsp_go adv]. unfold adv. cbn [fold_left]. fold (adv (advance p c) l). rewrite <- IH.
  unfold advance. change cNL with 10. destruct (N.eqb_spec c 10) as [->|H3]; [reflexivity|].
  destruct (N.eqb_spec c 13) as [->|H4]; [contradiction|]. cbn [pos_line pos_char]. unfold units.
  assert (E1 : (128 <=? c) = false) by (apply N.leb_gt; lia). assert (E2 : (240 <=? c) = false) by (apply N.leb_gt; lia). rewrite E1, E2. reflexivity.
Qed.
Lemma lsp_after_simple a : Forall simple a -> lsp_after a = pos_after a.
Proof. intros H. unfold lsp_after. rewrite (lsp_go_adv a H pos_zero : lsp_go 0 0 false a = _). rewrite <- pos_after_nil, adv_pos_after. reflexivity. Qed.

(** Missing for the full claim: characters outside ASCII and carriage returns without line feed, where it is false. *)
Theorem C63_ascii_partial : forall incl text src f s t, valid_utf8 text = true -> Forall simple text -> parse_text incl text src = ROk f s ->
  In t (ParserSafe.file_toks f) -> exists m a u rest, text = a ++ u ++ rest /\ spells m (tk_kind t) u rest
    /\ tk_span t = mkSpan (lsp_after a) (lsp_after (a ++ u)).
Proof.
  intros incl text src f s t Hv Ha E Ht. destruct (tree_tokens _ _ _ _ _ Hv E) as (p & _ & _ & H). rewrite Forall_forall in H.
  destruct (H t Ht) as (m & a & u & rest & E1 & E2 & E3). exists m, a, u, rest. split; [exact E1|]. split; [exact E2|].
  rewrite E1, app_assoc in Ha. apply Forall_app in Ha. destruct Ha as [Ha _]. rewrite (lsp_after_simple _ Ha). apply Forall_app in Ha. destruct Ha as [Ha _].
  rewrite (lsp_after_simple _ Ha). rewrite E3. reflexivity.
Qed.
Print Assumptions C63_ascii_partial.
Example C63_case : Forall simple (bs "/dts-v1/; / { };") /\ exists f s, parse_text [] (bs "/dts-v1/; / { };") (bs "f") = ROk f s /\ length (ParserSafe.file_toks f) = 3%nat.
Proof. split; [apply Forall_forall; intros c H; unfold simple; cbn in H; intuition (subst; lia)|]. do 2 eexists. split; vm_compute; reflexivity. Qed.

(** The claim is false: behind "é" the published column of the unresolved reference is one too large. *)
Definition pre63 : str := bs "/dts-v1/; / { /* " ++ [195; 169] ++ bs " */ p = <".
Definition text63 : str := pre63 ++ bs "&l>; };".
Definition sv63 : server := unwrap_sv (did_open 5 id_oracle (fun l => l) (mem_fs ex47) (FileUri (bs "/a.dts")) text63 server_new).
Theorem C63_refuted : exists sv fs u text a rest d, served sv /\ disk fs 5 /\ text = a ++ bs "&l" ++ rest /\ valid_utf8 text = true
  /\ did_open 5 id_oracle (fun l => l) fs u text server_new = Done sv
  /\ client_view (sv_sent sv) u = [d] /\ ld_code d = bs "unresolved_reference" /\ span_start (ld_range d) <> lsp_after a.
Proof.
  destruct (client_view (sv_sent sv63) (FileUri (bs "/a.dts"))) as [|d l] eqn:E; [vm_compute in E; discriminate|].
  assert (K : map (fun x => (ld_code x, span_start (ld_range x))) (client_view (sv_sent sv63) (FileUri (bs "/a.dts"))) = [(bs "unresolved_reference", mkPos 0 28)])
    by (vm_compute; reflexivity).
  rewrite E in K. destruct l as [|d' l]; [|discriminate].
  assert (K1 : ld_code d = bs "unresolved_reference") by (injection K as K _; exact K). assert (K2 : span_start (ld_range d) = mkPos 0 28) by (injection K as _ K; exact K).
  exists sv63, (mem_fs ex47), (FileUri (bs "/a.dts")), text63, pre63, (bs ">; };"), d.
  assert (Hd : disk (mem_fs ex47) 5) by (apply mem_disk; [reflexivity|cbn; lia]).
  assert (Eo : did_open 5 id_oracle (fun l => l) (mem_fs ex47) (FileUri (bs "/a.dts")) text63 server_new = Done sv63) by (vm_compute; reflexivity).
  assert (V : valid_utf8 text63 = true) by (vm_compute; reflexivity).
  split; [apply (se_open 5 id_oracle (fun l => l) (mem_fs ex47) (FileUri (bs "/a.dts")) text63 server_new);
    [constructor|exact Hd|apply id_order_ok|apply id_shuffle|exact V|exact Eo]|].
  split; [exact Hd|]. split; [reflexivity|]. split; [exact V|]. split; [exact Eo|]. split; [exact E|]. split; [exact K1|]. rewrite K2. vm_compute. discriminate.
Qed.
Print Assumptions C63_refuted.
(** and a lone carriage return ends a line in the protocol only *)
Theorem C63_lines_refuted : exists a, Forall (fun c => c < 128) a /\ pos_line (lsp_after a) <> pos_line (pos_after a).
Proof. exists [13]. split; [repeat constructor|vm_compute; discriminate]. Qed.
Print Assumptions C63_lines_refuted.

(** ** Exactly where the positions are right *)
Definition starts_nl (l : list N) : bool := match l with c :: _ => c =? 10 | [] => false end.
(** carriage returns that no line feed follows *)
Fixpoint lones (l : list N) : N :=
  match l with
  | [] => 0
  | c :: r => (if (c =? 13) && negb (starts_nl r) then 1 else 0) + lones r
  end.
Lemma lones_cons c r : lones (c :: r) = (if (c =? 13) && negb (starts_nl r) then 1 else 0) + lones r.
Proof. reflexivity. Qed.
Lemma lsp_lines l : forall line col cr, pos_line (lsp_go line col cr l) + (if cr && starts_nl l then 1 else 0) = line + count_nl l + lones l.
Proof.
  induction l as [|c l IH]; intros line col cr; [cbn [lsp_go pos_line starts_nl lones]; rewrite andb_false_r; cbn; lia|].
  rewrite lones_cons. cbn [lsp_go starts_nl]. change (c :: l) with ([c] ++ l). rewrite count_nl_app.
  destruct (N.eqb_spec c 10) as [->|H1].
  - change (count_nl [10]) with 1. cbn [N.eqb Pos.eqb andb]. destruct cr; [specialize (IH line 0 false)|specialize (IH (line + 1) 0 false)]; cbn [andb] in IH |- *; lia.
  - assert (Hc : count_nl [c] = 0) by (unfold count_nl; cbn [count_occ]; destruct (N.eq_dec c cNL); [contradiction|reflexivity]). rewrite Hc, andb_false_r.
    destruct (N.eqb_spec c 13) as [->|H2].
    + specialize (IH (line + 1) 0 true). cbn [andb] in *. destruct (starts_nl l); cbn [negb] in *; lia.
    + specialize (IH line (col + units c) false). cbn [andb] in *. lia.
Qed.
Definition usum (l : list N) : N := fold_right (fun c n => units c + n) 0 l.
Lemma no_nl_lones l : ~ In 10 l -> lones l = 0 -> ~ In 13 l.
Proof.
  induction l as [|c l IH]; intros Hn H; [intros []|]. rewrite lones_cons in H. intros [->|K].
  - cbn [N.eqb Pos.eqb andb] in H. destruct (starts_nl l) eqn:E; cbn [negb] in H; [|lia]. destruct l as [|x l]; [discriminate|]. cbn [starts_nl] in E. apply N.eqb_eq in E. subst x.
    apply Hn. right. left. reflexivity.
  - apply IH; [intros X; apply Hn; right; exact X|lia|exact K].
Qed.
Lemma lsp_col l : lones l = 0 -> forall line col cr,
  pos_char (lsp_go line col cr l) = if in_dec N.eq_dec 10 l then usum (since_nl l) else col + usum l.
Proof.
  induction l as [|c l IH]; intros H line col cr; [cbn; lia|]. rewrite lones_cons in H. cbn [lsp_go].
  assert (Hl : lones l = 0) by lia. specialize (IH Hl).
  assert (S : since_nl (c :: l) = if in_dec N.eq_dec 10 l then since_nl l else if N.eq_dec c 10 then l else c :: l).
  { destruct (in_dec N.eq_dec 10 l) as [K|K].
    - cbn [since_nl]. replace (existsb (N.eqb cNL) (c :: l)) with true; [reflexivity|]. symmetry. apply existsb_exists. exists 10. split; [right; exact K|reflexivity].
    - destruct (N.eq_dec c 10) as [->|N]; [exact (eq_trans (since_nl_app_nl [] l) (since_nl_none l K))|]. apply since_nl_none. intros [X|X]; [congruence|contradiction]. }
  destruct (N.eqb_spec c 10) as [->|H1].
  - destruct (in_dec N.eq_dec 10 (10 :: l)) as [_|F]; [|exfalso; apply F; left; reflexivity]. rewrite S.
    destruct cr; rewrite IH; (destruct (in_dec N.eq_dec 10 l); [reflexivity|]); destruct (N.eq_dec 10 10); try contradiction; reflexivity.
  - assert (D : forall A (x y : A), (if in_dec N.eq_dec 10 (c :: l) then x else y) = if in_dec N.eq_dec 10 l then x else y).
    { intros A x y. destruct (in_dec N.eq_dec 10 (c :: l)) as [K|K], (in_dec N.eq_dec 10 l) as [J|J]; try reflexivity; [destruct K; [congruence|contradiction]|destruct K; right; exact J]. }
    rewrite D, S. clear D S.
    destruct (N.eqb_spec c 13) as [->|H2].
    + rewrite IH. cbn [N.eqb Pos.eqb andb] in H. destruct (starts_nl l) eqn:E; cbn [negb] in H; [|lia]. destruct l as [|x l]; [discriminate|]. cbn [starts_nl] in E. apply N.eqb_eq in E. subst x.
      destruct (in_dec N.eq_dec 10 (10 :: l)) as [_|F]; [reflexivity|]. exfalso. apply F. left. reflexivity.
    + rewrite IH. destruct (in_dec N.eq_dec 10 l); [reflexivity|]. cbn [usum fold_right]. fold (usum l). lia.
Qed.
Lemma usum_app a b : usum (a ++ b) = usum a + usum b.
Proof. induction a as [|c a IH]; [reflexivity|]. cbn [app usum fold_right]. fold (usum (a ++ b)) (usum a). lia. Qed.
Lemma units_le c : c < 1114112 -> usum (encode_char c) <= N.of_nat (length (encode_char c)) /\ (usum (encode_char c) = N.of_nat (length (encode_char c)) <-> c < 128).
Proof.
  intros H. destruct (encode_forms c H) as [(H1 & ->)|[(x & y & Hx & Hy & E & B & ->)|[(x & y & z & Hx & Hy & Hz & E & B & ->)|(x & y & z & w & Hx & Hy & Hz & Hw & E & B & ->)]]];
    cbn [usum fold_right length]; unfold units;
    repeat match goal with |- context [if ?b then _ else _] => destruct b eqn:?; rewrite ?andb_true_iff, ?andb_false_iff, ?N.leb_le, ?N.ltb_lt, ?N.leb_gt, ?N.ltb_ge in * end; split; try split; lia.
Qed.
Lemma ascii_exact s : valid_utf8 s = true -> (usum s = N.of_nat (length s) <-> Forall (fun c => c < 128) s).
Proof.
  intros Hv. apply utf8_adequate in Hv. destruct Hv as (cs & Hc & ->). 
  assert (G : usum (encoded cs) <= N.of_nat (length (encoded cs)) /\ (usum (encoded cs) = N.of_nat (length (encoded cs)) <-> Forall (fun c => c < 128) (encoded cs))).
  { induction Hc as [|c cs H _ [IH1 IH2]]; [split; [reflexivity|split; [constructor|reflexivity]]|].
    unfold encoded in *. cbn [map concat]. rewrite usum_app, app_length, Nat2N.inj_add.
    assert (H' : c < 1114112) by (unfold scalar in H; lia). destruct (units_le c H') as [U1 U2].
    split; [lia|]. rewrite Forall_app. split.
    - intros E. split; [|apply IH2; lia]. assert (L : c < 128) by (apply U2; lia). unfold encode_char. destruct (N.ltb_spec c 128); [constructor; [exact L|constructor]|lia].
    - intros [F1 F2]. apply IH2 in F2. assert (L : c < 128).
      { destruct (encode_forms c H') as [(H1 & _)|[(x & y & Hx & Hy & E & B & K)|[(x & y & z & Hx & Hy & Hz & E & B & K)|(x & y & z & w & Hx & Hy & Hz & Hw & E & B & K)]]]; [exact H1|..];
          rewrite K in F1; apply Forall_inv in F1; cbv beta in F1; lia. }
      apply U2 in L. lia. }
  apply G.
Qed.
Lemma since_split a : exists x, a = x ++ since_nl a /\ (x = [] \/ exists y, x = y ++ [10]).
Proof.
  induction a as [|c a (x & E & Hx)]; [exists []; auto|]. cbn [since_nl]. destruct (existsb (N.eqb cNL) (c :: a)) eqn:Ex; [|exists []; auto].
  exists (c :: x). split; [cbn [app]; f_equal; exact E|]. right. destruct Hx as [->|(y & ->)]; [|exists (c :: y); reflexivity].
  exists []. cbn [app] in *. apply existsb_exists in Ex. destruct Ex as (z & [->|Hz] & Ez); apply N.eqb_eq in Ez; subst; [reflexivity|].
  exfalso. rewrite E in Hz. clear - Hz. induction a as [|d a IH]; [destruct Hz|]. cbn [since_nl] in Hz. destruct (existsb (N.eqb cNL) (d :: a)) eqn:K; [exact (IH Hz)|].
  assert (X : existsb (N.eqb cNL) (d :: a) = true) by (apply existsb_exists; exists cNL; split; [exact Hz|reflexivity]). congruence.
Qed.
Lemma since_valid a : valid_utf8 a = true -> valid_utf8 (since_nl a) = true.
Proof.
  intros H. destruct (since_split a) as (x & E & [->|(y & ->)]); [cbn [app] in E; rewrite <- E; exact H|]. rewrite E, <- app_assoc in H. cbn [app] in H.
  apply valid_split in H; [apply H|lia].
Qed.
(** every carriage return before the position belongs to a line end, and its line is ASCII up to it *)
Definition countable (a : list N) : Prop :=
  (forall x y, a = x ++ 13 :: y -> exists z, y = 10 :: z) /\ Forall (fun c => c < 128) (since_nl a).
Lemma lones_none a : lones a = 0 <-> forall x y, a = x ++ 13 :: y -> exists z, y = 10 :: z.
Proof.
  split.
  - intros H x. revert a H. induction x as [|c x IH]; intros a H y ->; cbn [app] in *; rewrite lones_cons in H.
    + cbn [N.eqb Pos.eqb andb] in H. destruct y as [|z y]; cbn [starts_nl negb] in H; [lia|]. destruct (N.eqb_spec z 10) as [->|]; [eauto|cbn [negb] in H; lia].
    + apply (IH (x ++ 13 :: y)); [lia|reflexivity].
  - induction a as [|c a IH]; intros H; [reflexivity|]. rewrite lones_cons, IH; [|intros x y E; apply (H (c :: x)); cbn [app]; rewrite E; reflexivity].
    destruct (N.eqb_spec c 13) as [->|]; [|reflexivity]. destruct (H [] a eq_refl) as (z & ->). reflexivity.
Qed.
Theorem positions_exact : forall a, valid_utf8 a = true -> (pos_after a = lsp_after a <-> countable a).
Proof.
  intros a Hv. unfold countable. rewrite <- lones_none, <- (ascii_exact _ (since_valid a Hv)). unfold lsp_after.
  pose proof (lsp_lines a 0 0 false) as L. cbn [andb] in L. rewrite N.add_0_r in L. split.
  - intros E. rewrite <- E in L. cbn [pos_after pos_line] in L. assert (H : lones a = 0) by lia. split; [exact H|].
    pose proof (lsp_col a H 0 0 false) as C. rewrite <- E in C. cbn [pos_after pos_char] in C. rewrite C.
    destruct (in_dec N.eq_dec 10 a) as [|N]; [reflexivity|]. rewrite since_nl_none by exact N. lia.
  - intros [H U]. pose proof (lsp_col a H 0 0 false) as C. destruct (lsp_go 0 0 false a) as [x y]. cbn [pos_line pos_char] in *. unfold pos_after. f_equal; [lia|].
    rewrite <- U, C. destruct (in_dec N.eq_dec 10 a) as [|N]; [reflexivity|]. rewrite since_nl_none by exact N. lia.
Qed.
Print Assumptions positions_exact.

Definition ascii_end (u : list N) : Prop := exists v c, u = v ++ [c] /\ c < 128.
Lemma ascii_last (P : N -> Prop) u : (forall c, P c -> c < 128) -> u <> [] -> Forall P u -> ascii_end u.
Proof.
  intros H N F. destruct u as [|c u _] using rev_ind; [contradiction|]. exists u, c. split; [reflexivity|]. apply Forall_app in F. destruct F as [_ F]. inversion F. auto.
Qed.
Lemma spells_edges m k u rest : spells m k u rest -> (forall c, k <> Unknown c) -> (exists c v, u = c :: v /\ c < 128) /\ (rest = [] \/ ascii_end u).
Proof.
  intros H U. assert (N1 : forall c s, Forall name_char (c :: s) -> c < 128) by (intros c s F; inversion F; apply name_char_ascii; assumption).
  destruct H as [c s rest H1 H2 H3|c s a rest H1 H2 H3 H4|c s rest H1 H2|c s rest H1 H2 H3|c s rest H1 H2 H3|x r H1 H2|p rest H|b s rest H|rest H|c s d rest H1 H2 H3|c s d H1 H2 H3|c k rest H1 H2|c rest H1 H2 H3 H4 H5].
  - split; [exists c, s; eauto|right; apply (ascii_last name_char); [exact name_char_ascii|discriminate|exact H2]].
  - split; [exists c, (s ++ [cAt] ++ a); split; [reflexivity|eauto]|right]. destruct a as [|y a _] using rev_ind; [exists (c :: s), cAt; split; [reflexivity|vm_compute; reflexivity]|].
    exists ((c :: s) ++ [cAt] ++ a), y. split; [rewrite <- !app_assoc; reflexivity|]. apply Forall_app in H3. destruct H3 as [_ H3]. inversion H3. apply name_char_ascii. assumption.
  - split; [exists c, (s ++ [cColon]); split; [reflexivity|eauto]|right]. exists (c :: s), cColon. split; [reflexivity|vm_compute; reflexivity].
  - split; [exists c, s; split; [reflexivity|unfold digit in H1; lia]|right; eapply ascii_last; [|discriminate|exact H2]; intros y; cbv beta; unfold letter, digit; lia].
  - split; [exists cAmp, (c :: s); split; [reflexivity|vm_compute; reflexivity]|right]. apply (ascii_last (fun c => c < 128)); [auto|discriminate|]. constructor; [vm_compute; reflexivity|].
    eapply Forall_impl; [|exact H2]. exact label_char_ascii.
  - split; [exists cAmp, []; split; [reflexivity|vm_compute; reflexivity]|right; exists [], cAmp; split; [reflexivity|vm_compute; reflexivity]].
  - split; [eexists cAmp, _; split; [reflexivity|vm_compute; reflexivity]|right]. exists ([cAmp; cLBrace] ++ p), cRBrace. split; [rewrite <- app_assoc; reflexivity|vm_compute; reflexivity].
  - split; [eexists cQuote, _; split; [reflexivity|vm_compute; reflexivity]|right]. exists ([cQuote] ++ b), cQuote. split; [rewrite <- app_assoc; reflexivity|vm_compute; reflexivity].
  - split; [exists cSlash, []; split; [reflexivity|vm_compute; reflexivity]|right; exists [], cSlash; split; [reflexivity|vm_compute; reflexivity]].
  - split; [eexists cSlash, _; split; [reflexivity|vm_compute; reflexivity]|right]. exists ([cSlash] ++ c :: s), cSlash. split; [rewrite <- app_assoc; reflexivity|vm_compute; reflexivity].
  - split; [eexists cSlash, _; split; [reflexivity|vm_compute; reflexivity]|left; reflexivity].
  - assert (Hc : c < 128) by (clear - H2; cbn [punctuation In] in H2; repeat destruct H2 as [H2|H2]; try contradiction; injection H2 as <- _; vm_compute; reflexivity).
    split; [exists c, []; auto|right; exists [], c; auto].
  - exfalso. exact (U c eq_refl).
Qed.
(** Every token of a text: its start and its end are where a client of the protocol looks exactly if the text before them is [countable]. *)
Theorem C63_exact : forall text src toks t, valid_utf8 text = true -> tokenize text src = Done toks -> In t toks -> (forall c, tk_kind t <> Unknown c) ->
  exists m a u rest, text = a ++ u ++ rest /\ spells m (tk_kind t) u rest /\ tk_span t = mkSpan (pos_after a) (pos_after (a ++ u))
    /\ (span_start (tk_span t) = lsp_after a <-> countable a) /\ (span_end (tk_span t) = lsp_after (a ++ u) <-> countable (a ++ u)).
Proof.
  intros text src toks t Hv Ht Hin Hu. apply (tokenize_iff text src toks Hv) in Ht.
  assert (K : forall m pre s toks, lexed src m pre s toks -> In t toks -> exists m a u rest, pre ++ s = a ++ u ++ rest /\ spells m (tk_kind t) u rest /\ tk_span t = mkSpan (pos_after a) (pos_after (a ++ u))).
  { clear. intros m pre s toks H. induction H as [| |m pre g k u rest toks Hg Hs _ IH]; intros Hin; try destruct Hin.
    - subst t. cbn [tk_kind tk_span]. exists m, (pre ++ g), u, rest. split; [rewrite <- !app_assoc; reflexivity|]. split; [exact Hs|]. rewrite <- app_assoc. reflexivity.
    - destruct (IH H) as (m' & a & v & r & E & X). exists m', a, v, r. split; [|exact X]. rewrite <- E, <- !app_assoc. reflexivity. }
  destruct (K _ _ _ _ Ht Hin) as (m & a & u & rest & E & Hs & Es). cbn [app] in E. exists m, a, u, rest. split; [exact E|]. split; [exact Hs|]. split; [exact Es|].
  destruct (spells_edges _ _ _ _ Hs Hu) as [(c & v & -> & Hc) He]. rewrite E in Hv. assert (Va : valid_utf8 a = true) by (apply (valid_split a c (v ++ rest) Hc Hv)).
  assert (Vu : valid_utf8 (a ++ c :: v) = true).
  { destruct He as [->|(w & x & Ew & Hx)]; [rewrite app_nil_r in Hv; exact Hv|]. rewrite Ew in *. assert (X : valid_utf8 ((a ++ w) ++ x :: rest) = true) by (rewrite <- !app_assoc in *; exact Hv).
    apply (valid_split _ _ _ Hx) in X. destruct X as [X _]. rewrite app_assoc, (valid_app _ _ X), valid_one by exact Hx. reflexivity. }
  rewrite Es. cbn [span_start span_end]. split; apply positions_exact; assumption.
Qed.
Print Assumptions C63_exact.
(** Windows line ends and characters outside ASCII on earlier lines do no harm *)
Example C63_exact_case : countable (bs "// " ++ [195; 169; 13; 10] ++ bs "/ {") /\ ~ countable (bs "/* " ++ [195; 169] ++ bs "*/") /\ ~ countable (bs "a" ++ [13] ++ bs "b").
Proof.
  split; [|split].
  - apply positions_exact; vm_compute; reflexivity.
  - intros H. apply positions_exact in H; [vm_compute in H; discriminate H|vm_compute; reflexivity].
  - intros H. apply positions_exact in H; [vm_compute in H; discriminate H|vm_compute; reflexivity].
Qed.
