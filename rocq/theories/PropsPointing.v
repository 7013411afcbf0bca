(** C111: every diagnostic that is held for a file names this file and marks a part of its text *)
From Verif Require Import Base LexSpec LexerProofs LexerProofs2 Parser ParserBase ReaderProofs ParserSafe ParserSafe2 PropsParser TreeProofs Analysis AnalysisSpec AnalysisProofs Project ProjectSpec
  ProjectProofs2 ProjectHistory PropsAnalysis PropsProject Tests.

(** [marked text src d]: the span of [d] is that of a part of [text], and [d] names [src] *)
Definition marked (text : str) (src : fpath) (d : diag) : Prop :=
  dg_source d = src /\ exists a u rest, text = a ++ u ++ rest
    /\ span_start (dg_span d) = pos_after a /\ span_end (dg_span d) = pos_after (a ++ u).

(** ** Where the tokens of a tree stand *)
Definition part {A} (x y : list A) : Prop := exists a b, y = a ++ x ++ b.
Lemma part_refl {A} (x : list A) : part x x.
Proof. exists [], []. rewrite app_nil_r. reflexivity. Qed.
Lemma part_trans {A} (x y z : list A) : part x y -> part y z -> part x z.
Proof. intros (a & b & ->) (c & d & ->). exists (c ++ a), (b ++ d). rewrite <- !app_assoc. reflexivity. Qed.
Lemma part_left {A} (x y z : list A) : part x y -> part x (y ++ z).
Proof. intros (a & b & ->). exists a, (b ++ z). rewrite <- !app_assoc. reflexivity. Qed.
Lemma part_right {A} (x y z : list A) : part x y -> part x (z ++ y).
Proof. intros (a & b & ->). exists (z ++ a), b. rewrite <- !app_assoc. reflexivity. Qed.
Lemma part_flat {A B} (f : A -> list B) x l : In x l -> part (f x) (flat_map f l).
Proof.
  induction l as [|y l IH]; [contradiction|]. intros [->|H]; cbn [flat_map]; [apply part_left, part_refl|apply part_right, IH, H].
Qed.
Lemma value_part p v : In v (pr_values p) -> part (value_toks v) (prop_toks p).
Proof.
  intros H. unfold prop_toks. do 2 apply part_right.
  destruct (tk_kind (pr_end p)); try (apply part_left, part_flat, H). apply part_right, part_flat, H.
Qed.
Lemma ref_part p r : In r (property_refs p) -> part [wt_tok r] (prop_toks p).
Proof.
  intros H. unfold property_refs in H. apply in_flat_map in H. destruct H as (v & Hv & H).
  eapply part_trans; [|apply value_part, Hv]. destruct v as [s|a cs b|x|a ss b]; cbn [value_refs] in H; try contradiction; cbn [value_toks].
  - apply in_flat_map in H. destruct H as (c & Hc & H). apply part_right, part_left. eapply part_trans; [|apply (part_flat cell_toks), Hc].
    destruct c; cbn [cell_refs] in H; try contradiction. destruct H as [<-|[]]. apply part_refl.
  - destruct H as [<-|[]]. apply part_refl.
Qed.
Lemma node_property_part n : forall path q, In q (flat_map def_properties (node_defs path n)) -> part (prop_toks q) (node_toks n).
Proof.
  apply (node_rect' (fun n => forall path q, In q (flat_map def_properties (node_defs path n)) -> part (prop_toks q) (node_toks n))
    (fun i => forall path q, In q (flat_map def_properties (items_defs path [i])) -> part (prop_toks q) (item_toks i))).
  - intros l nm its e o IH path q H. cbn [node_defs flat_map def_properties app] in H. cbn [node_toks payload_toks]. do 3 apply part_right. apply part_left.
    fold items_defs in H. induction IH as [|i its Hi _ IHl]; [contradiction|]. cbn [flat_map].
    destruct i as [p|m|t w|t w]; unfold items_defs in *; cbn [items_defs_of flat_map def_properties app] in H; try (apply part_right, IHl, H).
    + destruct H as [<-|H]; [apply part_left, part_refl|apply part_right, IHl, H].
    + rewrite flat_map_app in H. apply in_app_or in H. destruct H as [H|H]; [apply part_left, (Hi path)|apply part_right, IHl, H].
      cbn [items_defs_of]. rewrite app_nil_r. exact H.
  - intros p path q [<-|[]]. apply part_refl.
  - intros m IH path q H. unfold items_defs in H. cbn [items_defs_of] in H. rewrite app_nil_r in H. eapply IH, H.
  - intros t w path q [].
  - intros t w path q [].
Qed.
Lemma items_property_part its : forall path q, In q (flat_map def_properties (items_defs path its)) -> part (prop_toks q) (flat_map item_toks its).
Proof.
  induction its as [|i its IH]; intros path q H; [contradiction|]. unfold items_defs in *. cbn [flat_map].
  destruct i as [p|m|t w|t w]; cbn [items_defs_of flat_map def_properties app] in H; try (apply part_right, (IH path), H).
  - destruct H as [<-|H]; [apply part_left, part_refl|apply part_right, (IH path), H].
  - rewrite flat_map_app in H. apply in_app_or in H. destruct H as [H|H]; [apply part_left; eapply node_property_part, H|apply part_right, (IH path), H].
Qed.
Lemma property_part e q : In q (element_properties e) -> part (prop_toks q) (primary_toks e).
Proof.
  destruct e as [[t|t|a l|i|t r|t r]|n|r|s]; cbn [element_properties]; intros H; try contradiction; cbn [primary_toks].
  - eapply node_property_part, H.
  - apply part_right. destruct (rn_payload r) as [its e]. cbn [pl_items payload_toks] in *. apply part_left. eapply items_property_part, H.
Qed.

(** ** The diagnostics of an analysis *)
Section Marks.
  Context (text : str) (src : fpath) (els : list primary) (hi : position).
  Hypothesis Hseq : ParserSafe.seq pos_zero (flat_map primary_toks els) hi.
  Hypothesis Hat : Forall (tok_at text src) (flat_map primary_toks els).

  Lemma cut x y r q : text = x ++ r -> text = y ++ q -> pos_lt (pos_after x) (pos_after y) -> exists u, y = x ++ u.
  Proof.
    intros E1 E2 Hl. rewrite E1 in E2. clear E1. revert y Hl E2. assert (G : forall y, x ++ r = y ++ q -> (exists u, y = x ++ u) \/ exists u, x = y ++ u).
    { clear. induction x as [|c x IH]; intros [|d y] E; [left; exists []; reflexivity|left; exists (d :: y); reflexivity|right; exists (c :: x); reflexivity|].
      injection E as <- E. destruct (IH y E) as [[u ->]|[u ->]]; [left|right]; exists u; reflexivity. }
    intros y Hl E. destruct (G y E) as [H|[u ->]]; [exact H|]. exfalso. pose proof (pos_after_le y u) as K.
    exact (pos_lt_irrefl _ (pos_lt_le_trans _ _ _ Hl K)).
  Qed.
  Lemma between t1 t2 k msg : tok_at text src t1 -> tok_at text src t2 -> pos_lt (tk_start t1) (tk_end t2) ->
    marked text src (mkDiag k (mkSpan (tk_start t1) (tk_end t2)) (tk_source t1) msg).
  Proof.
    intros (m & a & u & rest & E & _ & T) (m' & a' & u' & rest' & E' & _ & T') Hl. rewrite T, T' in *.
    cbn [tok_of tk_start tk_end tk_span tk_source span_start span_end] in *. split; [reflexivity|].
    destruct (cut a (a' ++ u') (u ++ rest) rest') as [v Ev]; [exact E|rewrite E', <- app_assoc; reflexivity|exact Hl|].
    exists a, v, rest'. cbn [dg_span span_start span_end]. rewrite <- Ev. split; [|split; reflexivity]. rewrite app_assoc, <- Ev, E', <- app_assoc. reflexivity.
  Qed.
  Lemma seq_mid a b : forall lo h, ParserSafe.seq lo (a ++ b) h -> exists m, ParserSafe.seq m b h.
  Proof. induction a as [|t a IH]; intros lo h H; [exists lo; exact H|]. destruct H as (_ & _ & H). eapply IH, H. Qed.
  Lemma ordered ts t1 l t2 : part ts (flat_map primary_toks els) -> ts = t1 :: l -> In t2 ts ->
    tok_at text src t1 /\ tok_at text src t2 /\ pos_lt (tk_start t1) (tk_end t2).
  Proof.
    intros (a & b & E) -> Hin. rewrite E in Hseq, Hat. apply seq_mid in Hseq. destruct Hseq as [m (_ & L & K)].
    apply Forall_app in Hat. destruct Hat as [_ Ha]. cbn [app] in Ha. inversion Ha as [|? ? H1 H2]; subst. split; [exact H1|].
    apply Forall_app in H2. destruct H2 as [H2 _]. destruct Hin as [<-|Hin]; [split; assumption|]. rewrite Forall_forall in H2. split; [exact (H2 _ Hin)|].
    clear - L K Hin. fold (app l b) in K. eapply pos_lt_le_trans; [exact L|]. clear L. revert K. generalize (tk_end t1). induction l as [|t l IH]; intros p K; [contradiction|].
    destruct K as (K1 & K2 & K3). destruct Hin as [<-|Hin]; [eapply pos_le_trans; [exact K1|apply pos_lt_le, K2]|].
    eapply pos_le_trans; [|apply (IH Hin _ K3)]. eapply pos_le_trans; [exact K1|apply pos_lt_le, K2].
  Qed.
  Lemma token_marked t k msg : part [t] (flat_map primary_toks els) -> marked text src (mkDiag k (tk_span t) (tk_source t) msg).
  Proof.
    intros H. destruct (ordered [t] t [] t H eq_refl (or_introl eq_refl)) as (A & B & C). pose proof (between t t k msg A B C) as M.
    unfold tk_start, tk_end in M. destruct (tk_span t). exact M.
  Qed.
  Lemma element_part e : In e els -> part (primary_toks e) (flat_map primary_toks els).
  Proof. apply part_flat. Qed.

  Lemma value_marked v k msg : part (value_toks v) (flat_map primary_toks els) -> marked text src (mkDiag k (pv_span v) (pv_source v) msg).
  Proof.
    intros H. destruct v as [s|a cs b|r|a ss b]; cbn [pv_span pv_source value_toks] in *; try exact (token_marked _ _ _ H).
    - destruct (ordered _ a _ b H eq_refl) as (A & B & C); [cbn [app]; right; apply in_or_app; right; left; reflexivity|]. exact (between a b k msg A B C).
    - destruct (ordered _ a _ b H eq_refl) as (A & B & C); [cbn [app]; right; apply in_or_app; right; left; reflexivity|]. exact (between a b k msg A B C).
  Qed.
  Lemma compatible_marked ps : (forall p, In p ps -> part (prop_toks p) (flat_map primary_toks els)) -> Forall (marked text src) (flat_map compatible_diags ps).
  Proof.
    intros H. apply Forall_forall. intros d Hd. apply in_flat_map in Hd. destruct Hd as (p & Hp & Hd). unfold compatible_diags in Hd.
    destruct (str_eq_dec _ _); [|contradiction]. apply in_map_iff in Hd. destruct Hd as (v & <- & Hv). apply filter_In in Hv.
    apply value_marked. eapply part_trans; [apply value_part, Hv|apply H, Hp].
  Qed.
  Lemma blame_marked ft ps r b es : part [wt_tok r] (flat_map primary_toks els) -> blame ft ps r b es -> Forall (marked text src) es.
  Proof. intros H B. destruct B; constructor; [|constructor]. exact (token_marked _ _ _ H). Qed.
  Lemma include_marked i k msg : part [in_token i; wt_tok (in_file_name i)] (flat_map primary_toks els) ->
    marked text src (mkDiag k (include_span i) (include_source i) msg).
  Proof.
    intros H. destruct (ordered _ _ _ (wt_tok (in_file_name i)) H eq_refl) as (A & B & C); [right; left; reflexivity|]. exact (between _ _ k msg A B C).
  Qed.
  Lemma element_marked fs pj s ft ps ds h p dp h1 es : In p els -> element fs pj s ft ps ds h p dp h1 es -> Forall (marked text src) es.
  Proof.
    intros Hin H. pose proof (element_part p Hin) as Hp.
    assert (Hq : forall q, In q (element_properties p) -> part (prop_toks q) (flat_map primary_toks els)) by (intros q Hq; eapply part_trans; [apply property_part, Hq|exact Hp]).
    inversion H as [t e1 X|t|x y|t r|c|i ds1 h2 e1 X|t r q found e1 X Y|n|r q found e1 T X Y|r T]; subst; try (constructor; fail); try (apply compatible_marked, Hq).
    - inversion X; subst; constructor; try (constructor; fail); exact (token_marked t _ _ Hp).
    - inversion X as [e0 X1|q cycle X1 X2|q X1 X2 X3|q f0 d0 e0 X1 X2 X3 X4 X5]; subst; try (constructor; fail).
      + constructor; [|constructor]. apply include_marked, Hp.
      + constructor; [|constructor]. apply include_marked, Hp.
      + destruct X5 as [[_ ->]|[_ ->]]; [|constructor]. constructor; [|constructor]. apply include_marked, Hp.
    - eapply blame_marked; [|exact Y]. eapply part_trans; [|exact Hp]. exists [t], []. reflexivity.
    - apply Forall_app. split; [|apply compatible_marked, Hq]. eapply blame_marked; [|exact Y]. eapply part_trans; [|exact Hp]. apply part_left, part_refl.
  Qed.
  Lemma elements_marked fs pj s ft l : forall ps ds h ds' h' es, (forall p, In p l -> In p els) -> elements fs pj s ft ps ds h l ds' h' es -> Forall (marked text src) es.
  Proof.
    induction l as [|p l IH]; intros ps ds h ds' h' es Hl H.
    - apply elements_nil_inv in H. destruct H as (_ & _ & ->). constructor.
    - apply elements_cons_inv in H. destruct H as (dp & k & ep & f & A & B & ->). apply Forall_app. split.
      + eapply element_marked; [apply Hl; left; reflexivity|exact A].
      + eapply IH; [|exact B]. intros q Hq. apply Hl. right. exact Hq.
  Qed.
  Lemma references_marked ft ps ds l : forall es, (forall r, In r l -> part [wt_tok r] (flat_map primary_toks els)) -> reference_diags ft ps ds l es -> Forall (marked text src) es.
  Proof.
    induction l as [|r l IH]; intros es Hl H; inversion H; subst; [constructor|]. apply Forall_app. split.
    - eapply blame_marked; [apply Hl; left; reflexivity|eassumption].
    - eapply IH; [|eassumption]. intros q Hq. apply Hl. right. exact Hq.
  Qed.
  Lemma analysis_marked fs pj ft h ds h' es : analysis_of fs pj src ft h els ds h' es -> Forall (marked text src) es.
  Proof.
    intros H. inversion H as [? ? e vs rs H1 H2 H3]; subst. apply Forall_app. split; [eapply elements_marked; [|exact H1]; auto|]. apply Forall_app. split.
    - inversion H2; subst; constructor; [|constructor]. split; [reflexivity|]. exists [], [], text. repeat split.
    - eapply references_marked; [|exact H3]. intros r Hr. unfold all_references in Hr. apply in_flat_map in Hr. destruct Hr as (q & Hq & Hr).
      unfold all_properties in Hq. apply in_flat_map in Hq. destruct Hq as (e0 & He & Hq).
      eapply part_trans; [apply ref_part, Hr|]. eapply part_trans; [apply property_part, Hq|]. apply element_part, He.
  Qed.
End Marks.

(** *** C111: whatever the analysis of the tree of a text says, in whatever project and at whatever moment, it says of a part of this text, in the
    name of the file. *)
Theorem C111_analysis_points : forall fs pj incl text src f s ft h ac es d, project_ok pj -> valid_utf8 text = true ->
  parse_text incl text src = ROk f s -> analysed fs pj f ft h ac es -> In d es -> marked text src d.
Proof.
  intros fs pj incl text src f s ft h ac es d Hp Hv E H Hin. destruct (analysed_spec _ _ _ _ _ _ _ Hp H) as (ds & h' & A & _).
  destruct (tree_tokens incl text src f s Hv E) as (p & _ & S & F). rewrite (parse_source _ _ _ _ _ Hv E) in A.
  pose proof (analysis_marked text src (fl_elements f) p S F fs pj ft h ds h' es A) as M. rewrite Forall_forall in M. exact (M d Hin).
Qed.
Print Assumptions C111_analysis_points.

(** *** All that is held of a file *)
(** C16 for one diagnostic *)
Definition points_into (text : str) (src : fpath) (d : diag) : Prop :=
  dg_source d = src /\ pos_le (span_start (dg_span d)) (span_end (dg_span d)) /\ pos_le (span_end (dg_span d)) (pos_after text).
Lemma marked_into text src d : marked text src d -> points_into text src d.
Proof.
  intros (E & a & u & rest & T & A & B). split; [exact E|]. rewrite A, B. split; [apply pos_after_le|]. rewrite T, app_assoc. apply pos_after_le.
Qed.
Record pointing (k : fpath) (v : pfile) : Prop := {
  po_valid : valid_utf8 (pf_text v) = true;
  po_parser : Forall (points_into (pf_text v) k) (pf_pdiags v);
  po_analysis : Forall (marked (pf_text v) k) (pf_adiags v);
  po_tree : forall f, pf_file v = Some f -> exists incl s, parse_text incl (pf_text v) k = ROk f s }.
Lemma stored_pointing fs incl root K k t ft v : valid_utf8 t = true -> stored fs incl root K k t ft v -> pointing k v.
Proof.
  intros Hv (E1 & _ & _ & E4 & S). rewrite <- E1 in *. clear E1 t.
  assert (A : forall d, In d (all_diags (parse_text (include_dirs incl k) (pf_text v) k)) -> points_into (pf_text v) k d)
    by (intros d Hd; exact (C16_diagnostics_inside _ _ _ _ Hv Hd)).
  destruct S as [(f & s & P & Ef & Ed)|(d & s & P & Ef & Ed)]; rewrite P in A; cbn [all_diags] in A; constructor; try assumption; try (rewrite E4; constructor).
  - rewrite Ed. apply Forall_app. split; [apply Forall_forall; exact A|]. destruct (tree_tokens _ _ _ _ _ Hv P) as (p & _ & S & F).
    apply Forall_forall. intros d Hd. apply in_flat_map in Hd. destruct Hd as (e & He & Hd). apply marked_into.
    destruct e as [[t|t|x l|i|t r|t r]|n|r|c]; cbn [element_diags] in Hd; try contradiction. unfold include_diags in Hd.
    assert (M : forall msg, marked (pf_text v) k (mkDiag IOError (include_span i) (include_source i) msg))
      by (intros msg; apply (include_marked (pf_text v) k (fl_elements f) p S F); exact (part_flat primary_toks _ _ He)).
    destruct (include_path fs i) as [q|err]; [|destruct Hd as [<-|[]]; apply M]. destruct (in_dec str_eq_dec q _); [contradiction|].
    destruct (read_to_string fs q); [contradiction|]. destruct Hd as [<-|[]]; apply M.
  - intros g Hg. exists (include_dirs incl k), s. assert (g = f) as -> by congruence. exact P.
  - rewrite Ed. constructor; [|constructor]. apply A. apply in_or_app. right. left. reflexivity.
  - intros g Hg. congruence.
Qed.
Lemma analysed_pointing k v fs pj f h a a' o ac es : pointing k v -> pf_file v = Some f -> project_ok pj -> oracle_ok o -> an_guard a = guard_after str_eq_dec h ->
  analyze_file o fs pj f (pf_type v) a = Done ((ac, es), a') -> pointing k (store_result (ac, es) v).
Proof.
  intros [P1 P2 P3 P4] Ef Hp Ho G E. constructor; cbn [store_result pf_text pf_pdiags pf_adiags pf_file fst snd]; try assumption.
  destruct (P4 f Ef) as (incl & s & P). apply Forall_forall. intros d Hd. apply (C111_analysis_points fs pj incl (pf_text v) k f s (pf_type v) h ac es d Hp P1 P); [|exact Hd].
  exists o, a, a'. auto.
Qed.

(** *** C111: in every project that was reached by additions and removals of files, whatever the disk was meanwhile, each diagnostic of a file names this
    file and lies in its text. *)
Theorem C111_project_points : forall pj k v d, reached pj -> fget k (pj_files pj) = Some v -> In d (pf_diags v) -> points_into (pf_text v) k d.
Proof.
  intros pj k v d R Hk Hd. assert (P : forall pj, reached pj -> forall k v, fget k (pj_files pj) = Some v -> pointing k v).
  { clear. induction 1 as [|fs ps pj H IH|fs u fuel o name text ft pj pj' H IH Hf Hl Ho Hv E|fs p pj H IH]; intros k v Hk.
    - discriminate Hk.
    - exact (IH k v Hk).
    - destruct (fs_canon fs name) as [root|e] eqn:Ec; [|unfold add_file_with_text in E; rewrite Ec in E; discriminate].
      pose proof (reached_inv _ H) as I.
      destruct (add_spec fs u fuel o name root text ft pj Hf Hl Ho Ec Hv I) as (files' & L & [[_ X]|(_ & order & pj2 & X & _ & P & _ & _ & _ & An)]); [congruence|].
      assert (pj2 = pj') as -> by congruence. clear X.
      assert (Hin : forall k, In k order <-> In k (keys files')) by (intros q; split; apply Permutation.Permutation_in; [|apply Permutation.Permutation_sym]; exact P).
      assert (W : forall q w, fget q files' = Some w -> pointing q w).
      { intros q w Hq. destruct (load_cases _ _ _ _ _ _ _ Hv L q w Hq) as [[_ K]|(_ & t & ft' & Ht & _ & S)]; [exact (IH q w K)|exact (stored_pointing _ _ _ _ _ _ _ _ Ht S)]. }
      destruct An as (A1 & A2 & A3 & A4). destruct (fget k files') as [w|] eqn:Ew.
      + destruct (pf_file w) as [f|] eqn:Ef.
        * assert (Ik : In k order) by (apply Hin; eapply m_get_key, Ew). apply in_split in Ik. destruct Ik as (k1 & k2 & Ik).
          destruct (A4 k1 k k2 w f Ik Ew Ef) as (pjk & a & a' & ac & es & B & G & An & _ & Hok & _). rewrite B in Hk. injection Hk as <-.
          eapply analysed_pointing; [exact (W k w Ew)|exact Ef|exact Hok|apply Ho|exact G|exact An].
        * rewrite (A3 k w Ew Ef) in Hk. injection Hk as <-. exact (W k w Ew).
      + rewrite A2 in Hk; [rewrite Ew in Hk; discriminate Hk|]. intros K. apply Hin in K. destruct (m_get_some_key str_eq_dec _ _ K). congruence.
    - destruct (fs_canon fs p) as [q|e] eqn:E; [|unfold remove_file in Hk; rewrite E in Hk; exact (IH k v Hk)].
      rewrite (remove_get fs p q pj E) in Hk. destruct (str_eq_dec k q); [discriminate Hk|exact (IH k v Hk)]. }
  destruct (P pj R k v Hk) as [_ P2 P3 _]. unfold pf_diags in Hd. apply in_app_or in Hd. destruct Hd as [Hd|Hd].
  - rewrite Forall_forall in P2. exact (P2 d Hd).
  - rewrite Forall_forall in P3. exact (marked_into _ _ _ (P3 d Hd)).
Qed.
Print Assumptions C111_project_points.

(** a file with a diagnostic of the parser, of the loader, and three of the analysis, one of them over several lines *)
Definition ex111 : str := bs "/dts-v1/; /include/ ""/no.dtsi""
/ { l: a { compatible = <1
 2>; reg = <&m>; }
}; &q { };".
Example C111_case : exists pj v, reached pj /\ fget (bs "/a.dts") (pj_files pj) = Some v
  /\ map (fun d => (dg_kind d, dg_span d)) (pf_diags v) =
     [(Expected, mkSpan (mkPos 2 18) (mkPos 2 19)); (IOError, mkSpan (mkPos 0 10) (mkPos 0 30)); (IOError, mkSpan (mkPos 0 10) (mkPos 0 30));
      (NonStringInCompatible, mkSpan (mkPos 1 24) (mkPos 2 3)); (UnresolvedReference, mkSpan (mkPos 3 3) (mkPos 3 5));
      (UnresolvedReference, mkSpan (mkPos 2 12) (mkPos 2 14))].
Proof.
  remember (add_file_with_text 3 id_oracle (mem_fs [(bs "/a.dts", ex111)]) (bs "/a.dts") ex111 DtSource project_new) as r eqn:Er.
  assert (X : match r with Done pj => match fget (bs "/a.dts") (pj_files pj) with
    | Some v => map (fun d => (dg_kind d, dg_span d)) (pf_diags v) = 
     [(Expected, mkSpan (mkPos 2 18) (mkPos 2 19)); (IOError, mkSpan (mkPos 0 10) (mkPos 0 30)); (IOError, mkSpan (mkPos 0 10) (mkPos 0 30));
      (NonStringInCompatible, mkSpan (mkPos 1 24) (mkPos 2 3)); (UnresolvedReference, mkSpan (mkPos 3 3) (mkPos 3 5));
      (UnresolvedReference, mkSpan (mkPos 2 12) (mkPos 2 14))]
    | None => False end | _ => False end) by (rewrite Er; vm_compute; reflexivity).
  destruct r as [pj| |]; try contradiction. destruct (fget (bs "/a.dts") (pj_files pj)) as [v|] eqn:Ev; [|contradiction].
  exists pj, v. split; [|split; [exact Ev|exact X]].
  eapply (re_add (mem_fs [(bs "/a.dts", ex111)]) (m_keys [(bs "/a.dts", ex111)]) 3 id_oracle (bs "/a.dts") ex111 DtSource project_new);
    [constructor|apply mem_fs_finite|repeat constructor|apply id_order_ok|reflexivity|symmetry; exact Er].
Qed.
