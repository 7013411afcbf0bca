(** C76 for texts: an include directive and the text of the included file in its place *)
From Verif Require Import Parser LexSpec Utf8 LexerProofs LexerProofs3 Grammar DisplayProofs TreeProofs Analysis Project AnalysisSpec GuardProofs
  AnalysisProofs ProjectProofs2 ProjectHistory PropsAnalysis PropsProject3 PropsGrammar PropsDisplay PropsReformat PropsConcat PropsPaste PropsLayout LexGrow PropsStable.

(** ** Moved trees differ in their tokens only *)
Section Bare.
  Context (f : token -> token).
  Lemma bare_move {A} (w : wtok A) : bare (move f w) = bare w.
  Proof. reflexivity. Qed.
  Lemma bare_move_label {A} (o : option (wtok A)) : option_map bare (option_map (move f) o) = option_map bare o.
  Proof. destruct o; reflexivity. Qed.
  Lemma bare_move_value v : bare_value (move_value f v) = bare_value v.
  Proof.
    destruct v; cbn [move_value bare_value]; try reflexivity.
    - f_equal. rewrite map_map. apply map_ext. intros []; reflexivity.
    - f_equal. rewrite map_map. apply map_ext. intros []; reflexivity.
  Qed.
  Lemma bare_move_property p : bare_property (move_property f p) = bare_property p.
  Proof.
    destruct p as [l nm vs e]. unfold bare_property, move_property. cbn [pr_label pr_name pr_values pr_end]. rewrite bare_move_label, map_map.
    f_equal. apply map_ext. apply bare_move_value.
  Qed.
  Lemma bare_move_item i : bare_item (move_item f i) = bare_item i.
  Proof.
    apply (item_rect' (fun n => bare_node (move_node f n) = bare_node n) (fun i => bare_item (move_item f i) = bare_item i)).
    - intros l nm its e o H.
      change (mkNode (option_map bare (option_map (move f) l)) (bare (move f nm)) (bare_payload (move_payload f (mkPayload its e)))
        (option_map (fun _ => no_token) (option_map f o)) = bare_node (mkNode l nm (mkPayload its e) o)).
      cbn [bare_node]. rewrite move_payload_items, bare_move_label, !bare_payload_items, bare_move.
      assert (E : map bare_item (map (move_item f) its) = map bare_item its).
      { induction H as [|j its Hj _ IH]; [reflexivity|]. cbn [map]. rewrite Hj, IH. reflexivity. }
      rewrite E. destruct o; reflexivity.
    - intros p. cbn [move_item bare_item]. rewrite bare_move_property. reflexivity.
    - intros n H. change (INode (bare_node (move_node f n)) = INode (bare_node n)). rewrite H. reflexivity.
    - reflexivity.
    - reflexivity.
  Qed.
  Lemma bare_move_payload p : bare_payload (move_payload f p) = bare_payload p.
  Proof.
    destruct p as [its e]. rewrite move_payload_items, !bare_payload_items. f_equal. rewrite map_map. apply map_ext, bare_move_item.
  Qed.
  Lemma bare_move_primary p : bare_primary (move_primary f p) = bare_primary p.
  Proof.
    destruct p as [[]|[l nm pl o]|[r pl]|]; try reflexivity; cbn [move_primary bare_primary rn_reference rn_payload move_node bare_node].
    - rewrite bare_move_label, bare_move_payload. destruct o; reflexivity.
    - rewrite bare_move_payload. reflexivity.
  Qed.
  Lemma bare_moves ps : map bare_primary (map (move_primary f) ps) = map bare_primary ps.
  Proof. rewrite map_map. apply map_ext, bare_move_primary. Qed.
End Bare.

(** ** The same text under another path *)
Definition from (src : fpath) (t : token) : token := mkToken (tk_kind t) (tk_span t) src.
Lemma lexed_from q src m pre t toks : lexed q m pre t toks -> lexed src m pre t (map (from src) toks).
Proof. induction 1; try (constructor; assumption); cbn [map]; unfold from at 1; cbn [tk_kind tk_span]; constructor; assumption. Qed.
Lemma covered_from q src m pre t toks tail : covered q m pre t toks tail -> covered src m pre t (map (from src) toks) tail.
Proof. induction 1; try (constructor; assumption); cbn [map]; unfold from at 1; cbn [tk_kind tk_span]; constructor; assumption. Qed.
Lemma parses_from incl b q src f : valid_utf8 b = true -> parses incl b q f [] ->
  parses incl b src (mkFile (map (move_primary (from src)) (fl_elements f)) src) [].
Proof.
  intros V H. destruct (C10_clean_parse_derives _ _ _ _ V H) as (_ & toks & L & D).
  apply (C11_grammatical_parses_clean incl b src (map (from src) toks) _ V (lexed_from _ src _ _ _ _ L)).
  apply file_move; [reflexivity|exact D].
Qed.

(** ** The line of the directive *)
Definition include_line (name : str) : str := bs "/include/ """ ++ name ++ bs """".
Lemma spelled_covered src m ks t : spelled m ks t -> forall pre g, Forall ws_char g ->
  exists toks, covered src m pre (g ++ t) toks [] /\ map tk_kind toks = ks.
Proof.
  assert (W : forall g, Forall ws_char g -> gap g) by (induction 1; constructor; assumption).
  induction 1 as [m|m c ks t Hc Ht IH|m k u ks t Hs Ha Ht IH]; intros pre g Hg.
  - exists []. split; [|reflexivity]. apply cv_end. left. rewrite app_nil_r. apply W. exact Hg.
  - destruct (IH pre (g ++ [c])) as (toks & Hl & Hk).
    { apply Forall_app. split; [exact Hg|]. constructor; [exact Hc|constructor]. }
    exists toks. rewrite <- app_assoc in Hl. split; assumption.
  - destruct (IH (pre ++ g ++ u) []) as (toks & Hl & Hk); [constructor|].
    eexists. split; [apply cv_token; [apply W; exact Hg|exact Hs|exact Hl]|]. cbn [map tk_kind]. rewrite Hk. reflexivity.
Qed.
Lemma line_spelled name : Forall plain_char name -> spelled NameExpected [Directive Include; TString name] (include_line name).
Proof.
  intros H. destruct (plain_body name H) as [H1 H2].
  replace (include_line name) with (([cSlash] ++ bs "include" ++ [cSlash]) ++ cSpace :: ([cQuote] ++ name ++ [cQuote]) ++ [])
    by (unfold include_line; cbn [app]; rewrite ?app_nil_r; reflexivity).
  apply sd_directive; [cbn [known_directives In]; auto 12|]. apply sd_space.
  apply (sd_tok NameExpected (TString name)); [apply sp_string; exact H1| |constructor].
  constructor; [reflexivity|]. apply Forall_app. split; [exact H2|]. constructor; [reflexivity|constructor].
Qed.
Lemma line_parses incl src name : Forall plain_char name -> exists toks t t2,
  covered src NameExpected [] (include_line name) toks []
  /\ parses incl (include_line name) src (mkFile [PDirective (AInclude (mkInclude t (mkWT name t2) incl))] src) [].
Proof.
  intros H. pose proof (line_spelled name H) as S. destruct (spelled_covered src _ _ _ S [] []) as (toks & C & K); [constructor|].
  cbn [app] in C. take K t Ht. take K t2 Ht2. apply kinds_nil in K. subst. exists [t; t2], t, t2. split; [exact C|].
  refine (proj1 (C11_grammatical_parses_clean incl _ src [t; t2] _ (spelled_valid _ _ _ S) (covered_lexed _ _ _ _ _ _ C) _)).
  unfold derives. change 0%nat with (0 + 0)%nat. eapply gf_cons; [|constructor]. apply gp_include; [exact Ht|exact Ht2|discriminate].
Qed.

(** ** Diagnostics of one kind *)
Lemma of_kind_alike k a b : Forall2 says_alike a b -> Forall2 says_alike (of_kind k a) (of_kind k b).
Proof.
  induction 1 as [|x y a b H _ IH]; [constructor|]. unfold of_kind in *. cbn [filter]. pose proof (proj1 H) as E. rewrite E.
  destruct (error_code_eq_dec (dg_kind y) k); [constructor; assumption|exact IH].
Qed.
Lemma no_cycles_alike a b : Forall2 says_alike a b -> no_cycles b -> no_cycles a.
Proof. intros H N. apply (of_kind_alike CyclicDependencyError) in H. unfold no_cycles in *. rewrite N in H. inversion H. reflexivity. Qed.
Lemma says_alike_sym a b : says_alike a b -> says_alike b a.
Proof. intros [H1 H2]. split; [auto|]. intros K. symmetry. apply H2. congruence. Qed.

(** ** C76 for texts *)
(** The text [x], a line with the directive, and the text [y]; or the text [b] of the included file in the place of this line. Names mean
    the same, apart from positions, and the complaints about references are the same, apart from positions and those about references in [b].
    The restrictions are those of C76_paste_partial. *)
Theorem C76_text_partial : forall fs pj incl src q x b y name fx fb fy tx tb v ftb hb c eb, project_ok pj ->
  valid_utf8 x = true -> valid_utf8 b = true -> valid_utf8 y = true -> Forall plain_char name ->
  parses incl x src fx [] -> parses incl y src fy [] -> parses incl b q fb [] ->
  covered src NameExpected [] x tx [] -> covered q NameExpected [] b tb [] -> Forall inert (fl_elements fb) ->
  (forall i, wt_item (in_file_name i) = name -> in_paths i = incl -> include_path fs i = inl q) ->
  get_file fs pj q = Some v -> pf_ctx v = Some c -> analysed fs pj fb ftb hb c eb -> no_cycles eb ->
  exists f1 f2, parses incl (x ++ [cNL] ++ include_line name ++ [cNL] ++ y) src f1 []
  /\ parses incl (x ++ [cNL] ++ b ++ [cNL] ++ y) src f2 []
  /\ forall ft h1 h2 ac1 es1 ac2 es2,
     analysed fs pj f1 ft h1 ac1 es1 -> analysed fs pj f2 ft h2 ac2 es2 -> no_cycles es1 -> no_cycles es2 ->
     (ft = DtSource -> unambiguous fs pj f1 h1 /\ unambiguous fs pj f2 h2) ->
     (forall l, option_map bare_labeled (m_get str_eq_dec l (ac_labels ac1)) = option_map bare_labeled (m_get str_eq_dec l (ac_labels ac2)))
     /\ (forall r, option_map bare_node (get_referenced ac1 r) = option_map bare_node (get_referenced ac2 r))
     /\ exists u1 u2 r1 r2 v1 vb v2 s1 sb s2,
          of_kind UnresolvedReference es1 = u1 ++ u2 ++ r1 ++ r2
          /\ of_kind UnresolvedReference es2 = v1 ++ vb ++ v2 ++ s1 ++ sb ++ s2
          /\ Forall2 says_alike u1 v1 /\ Forall2 says_alike u2 v2 /\ Forall2 says_alike r1 s1 /\ Forall2 says_alike r2 s2
          /\ Forall (fun d => exists d', refers_in (fl_elements fb) d' /\ says_alike d' d) (vb ++ sb).
Proof.
  intros fs pj incl src q x b y name fx fb fy tx tb v ftb hb c eb Hp Vx Vb Vy Hn Px Py Pb Cx Cb Hin Hi Eq Ec Hb Nb.
  destruct (line_parses incl src name Hn) as (ti & t & t2 & Ci & Pi).
  pose proof (parses_from incl b q src fb Vb Pb) as Pb'. pose proof (covered_from q src _ _ _ _ _ Cb) as Cb'.
  assert (Vi : valid_utf8 (include_line name) = true) by exact (spelled_valid _ _ _ (line_spelled name Hn)).
  assert (Vnl : forall a z, valid_utf8 a = true -> valid_utf8 z = true -> valid_utf8 (a ++ [cNL] ++ z) = true).
  { intros a z Va Vz. rewrite (valid_app _ _ Va). cbn [app]. rewrite valid_one; [exact Vz|reflexivity]. }
  pose proof (C78_concatenation_partial incl src _ y _ fy _ Vi Vy Pi Py Ci) as P1.
  pose proof (C78_concatenation_partial incl src x _ fx _ _ Vx (Vnl _ _ Vi Vy) Px P1 Cx) as Q1.
  pose proof (C78_concatenation_partial incl src b y _ fy _ Vb Vy Pb' Py Cb') as P2.
  pose proof (C78_concatenation_partial incl src x _ fx _ _ Vx (Vnl _ _ Vb Vy) Px P2 Cx) as Q2.
  cbn [fl_elements app] in Q1, Q2. rewrite map_app in Q2. cbn [map] in Q1.
  set (d := move_primary (down (count_nl x + 1))) in *.
  set (l2 := map d (map (move_primary (down (count_nl (include_line name) + 1))) (fl_elements fy))) in Q1.
  set (l2' := map d (map (move_primary (down (count_nl b + 1))) (fl_elements fy))) in Q2.
  match type of Q1 with parses _ _ _ ?f _ => set (f1 := f) in Q1 end. match type of Q2 with parses _ _ _ ?f _ => set (f2 := f) in Q2 end.
  exists f1, f2. split; [exact Q1|]. split; [exact Q2|].
  intros ft h1 h2 ac1 es1 ac2 es2 A1 A2 N1 N2 Hu.
  set (fh := mkFile (fl_elements fx ++ fl_elements fb ++ l2) src).
  assert (A3 : exists ac3 es3, analysed fs pj fh ft h2 ac3 es3).
  { destruct A2 as (o & a & a' & Ho & G & _). destruct (file_spec_deps o fs pj fh ft h2 a Ho Hp G) as (ac3 & es3 & a3 & E & _).
    exists ac3, es3, o, a, a3. auto. }
  destruct A3 as (ac3 & es3 & A3).
  assert (Eb : bare_file f2 = bare_file fh).
  { unfold bare_file, f2, fh. cbn [fl_elements]. rewrite !map_app. f_equal. unfold l2', l2, d. rewrite !bare_moves. reflexivity. }
  destruct (C79_same_tree_partial fs pj f2 fh ft h2 ac2 es2 ac3 es3 Hp Eb eq_refl (fun e => proj2 (Hu e)) A2 A3) as (S1 & S2 & S3).
  assert (N3 : no_cycles es3).
  { eapply no_cycles_alike; [|exact N2]. clear -S1. induction S1; constructor; [apply says_alike_sym; assumption|assumption]. }
  set (i := mkInclude (down (count_nl x + 1) t) (mkWT name (down (count_nl x + 1) t2)) incl).
  destruct (C76_paste_partial fs pj f1 fh ft h1 h2 ac1 es1 ac3 es3 (fl_elements fx) i l2 q v fb ftb hb c eb
    Hp (Hi i eq_refl eq_refl) Eq Ec Hb Hin eq_refl eq_refl A1 A3 Nb N1 N3 (fun e => proj1 (Hu e))) as (R1 & R2 & u1 & u2 & r1 & r2 & ub & rb & E1 & E2 & F).
  split; [intros l; rewrite R1, S3; reflexivity|]. split; [intros r; rewrite R2, S2; reflexivity|].
  apply (of_kind_alike UnresolvedReference) in S1. rewrite E2 in S1.
  assert (Inv : forall (l m : list diag) n, Forall2 says_alike n (l ++ m) -> exists l' m', n = l' ++ m' /\ Forall2 says_alike l l' /\ Forall2 says_alike m m').
  { intros l m n H. apply Forall2_app_inv_r in H. destruct H as (l' & m' & H1 & H2 & ->). exists l', m'. split; [reflexivity|].
    split; [clear -H1; induction H1; constructor; [apply says_alike_sym|]; assumption|clear -H2; induction H2; constructor; [apply says_alike_sym|]; assumption]. }
  destruct (Inv _ _ _ S1) as (v1 & z1 & Z1 & B1 & T1). clear S1.
  assert (Inv' : forall (l m : list diag) n, Forall2 says_alike (l ++ m) n -> exists l' m', n = l' ++ m' /\ Forall2 says_alike l l' /\ Forall2 says_alike m m').
  { intros l m n H. apply Forall2_app_inv_l in H. destruct H as (l' & m' & H1 & H2 & ->). exists l', m'. auto. }
  destruct (Inv' _ _ _ T1) as (vb & z2 & -> & B2 & T2). destruct (Inv' _ _ _ T2) as (v2 & z3 & -> & B3 & T3).
  destruct (Inv' _ _ _ T3) as (s1 & z4 & -> & B4 & T4). destruct (Inv' _ _ _ T4) as (sb & s2 & -> & B5 & B6).
  exists u1, u2, r1, r2, v1, vb, v2, s1, sb, s2. split; [exact E1|]. split; [exact Z1|]. split; [exact B1|]. split; [exact B3|]. split; [exact B4|]. split; [exact B6|].
  assert (G : Forall2 says_alike (ub ++ rb) (vb ++ sb)) by (apply Forall2_app; assumption).
  clear -F G. revert F. induction G as [|d e l m H _ IH]; intros F; [constructor|]. inversion F; subst. constructor; [|auto]. exists d. auto.
Qed.
Print Assumptions C76_text_partial.

(** a file with nodes, a label, a deletion and a reference that does not resolve, and an includer that refers to all of it *)
Definition ex76x : str := bs "/dts-v1/; / { a { }; };".
Definition ex76i : str := bs "/ { l: a { x = <&u>; }; };
/delete-node/ &w; // w".
Definition ex76y : str := bs "&{/a} { y = <&l &k>; };".
Definition leaf76i : dts_file := match parse_text [] ex76i (bs "b.dtsi") with ROk f _ => f | _ => mkFile [] [] end.
Definition whole76 (m : str) : dts_file := tree_of (ex76x ++ [cNL] ++ m ++ [cNL] ++ ex76y).
Lemma clean_covered text src f : valid_utf8 text = true -> parses [] text src f [] -> ends_settled text = true ->
  exists toks, covered src NameExpected [] text toks [].
Proof. intros V P E. destruct (C07_settled [] text src f V P E) as (t & C & _). exists t. exact C. Qed.
Lemma run_done o pj ft f : oracle_ok o -> project_ok pj ->
  analysed no_fs pj f ft [] (fst (run_with o pj ft f)) (snd (run_with o pj ft f)).
Proof.
  intros Ho Hp. destruct (file_spec_deps o no_fs pj f ft [] analysis_new Ho Hp) as (ac & es & a & E & _).
  - repeat constructor.
  - unfold run_with. rewrite E. exact (run_analysed o pj ft f (ac, es) a Ho E).
Qed.
Example C76_text_case : let pj := with_leaf (ctx76 leaf76i) in exists fx fy tx tb v eb, project_ok pj
  /\ valid_utf8 ex76x = true /\ valid_utf8 ex76i = true /\ valid_utf8 ex76y = true /\ Forall plain_char (bs "b.dtsi")
  /\ parses [] ex76x (bs "a.dts") fx [] /\ parses [] ex76y (bs "a.dts") fy [] /\ parses [] ex76i (bs "b.dtsi") leaf76i []
  /\ covered (bs "a.dts") NameExpected [] ex76x tx [] /\ covered (bs "b.dtsi") NameExpected [] ex76i tb [] /\ Forall inert (fl_elements leaf76i)
  /\ (forall i, wt_item (in_file_name i) = bs "b.dtsi" -> in_paths i = [] -> include_path no_fs i = inl (bs "b.dtsi"))
  /\ get_file no_fs pj (bs "b.dtsi") = Some v /\ pf_ctx v = Some (ctx76 leaf76i)
  /\ analysed no_fs pj leaf76i DtSourceInclude [] (ctx76 leaf76i) eb /\ no_cycles eb
  /\ let f1 := whole76 (include_line (bs "b.dtsi")) in let f2 := whole76 ex76i in
     let r1 := run_with o_id pj DtSource f1 in let r2 := run_with o_id pj DtSource f2 in
     analysed no_fs pj f1 DtSource [] (fst r1) (snd r1) /\ analysed no_fs pj f2 DtSource [] (fst r2) (snd r2)
     /\ no_cycles (snd r1) /\ no_cycles (snd r2) /\ unambiguous no_fs pj f1 [] /\ unambiguous no_fs pj f2 []
     /\ length (snd r1) = 1%nat /\ length (snd r2) = 3%nat.
Proof.
  intros pj.
  assert (Ok : ctx_ok (ctx76 leaf76i)).
  { pose proof (run_done o_id empty_project DtSourceInclude leaf76i o_id_ok empty_ok) as H.
    destruct (analysed_spec no_fs empty_project leaf76i DtSourceInclude [] _ _ empty_ok H) as (? & ? & _ & K & _). exact K. }
  assert (Px : exists fx, parses [] ex76x (bs "a.dts") fx []) by (do 2 eexists; split; vm_compute; reflexivity).
  assert (Py : exists fy, parses [] ex76y (bs "a.dts") fy []) by (do 2 eexists; split; vm_compute; reflexivity).
  assert (Pb : parses [] ex76i (bs "b.dtsi") leaf76i []) by (eexists; split; vm_compute; reflexivity).
  destruct Px as [fx Px]. destruct Py as [fy Py].
  destruct (clean_covered ex76x _ _ ltac:(vm_compute; reflexivity) Px ltac:(vm_compute; reflexivity)) as [tx Cx].
  destruct (clean_covered ex76i _ _ ltac:(vm_compute; reflexivity) Pb ltac:(vm_compute; reflexivity)) as [tb Cb].
  assert (Hp : project_ok pj) by exact (with_leaf_ok _ Ok).
  exists fx, fy, tx, tb, (mkPF [] [] None (Some (ctx76 leaf76i)) DtSourceInclude []), (snd (run_with o_id pj DtSourceInclude leaf76i)).
  split; [exact Hp|]. split; [vm_compute; reflexivity|]. split; [vm_compute; reflexivity|]. split; [vm_compute; reflexivity|].
  split. { repeat (constructor; [unfold plain_char; cbn; repeat split; (lia || discriminate)|]). constructor. }
  split; [exact Px|]. split; [exact Py|]. split; [exact Pb|]. split; [exact Cx|]. split; [exact Cb|].
  split. { assert (E : forallb (fun p => match p with PReferencedNode _ => false | PDirective (APlugin _) => false | _ => true end) (fl_elements leaf76i) = true) by (vm_compute; reflexivity).
    rewrite forallb_forall in E. apply Forall_forall. intros p Hq. specialize (E p Hq). destruct p as [[]| | |]; try exact I; discriminate E. }
  split. { intros i E1 E2. unfold include_path. rewrite E1, E2. reflexivity. }
  split; [apply with_leaf_get|]. split; [reflexivity|].
  assert (E : ctx76 leaf76i = fst (run_with o_id pj DtSourceInclude leaf76i)) by (vm_compute; reflexivity).
  split. { rewrite E at 1. exact (run_done o_id pj DtSourceInclude leaf76i o_id_ok Hp). }
  split; [vm_compute; reflexivity|]. intros f1 f2 r1 r2.
  split; [exact (run_done o_id pj DtSource f1 o_id_ok Hp)|]. split; [exact (run_done o_id pj DtSource f2 o_id_ok Hp)|].
  split; [vm_compute; reflexivity|]. split; [vm_compute; reflexivity|].
  split; [apply path_only; vm_compute; reflexivity|]. split; [apply path_only; vm_compute; reflexivity|].
  split; vm_compute; reflexivity.
Qed.
