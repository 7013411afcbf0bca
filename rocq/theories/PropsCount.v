(** C115: the number of diagnostics of a file is bounded by the number of its bytes *)
From Verif Require Import Base LexSpec LexerProofs LexerProofs2 Parser ParserBase ReaderProofs ParserSafe ParserSafe2 PropsParser TreeProofs Analysis AnalysisSpec AnalysisProofs Project ProjectSpec
  ProjectProofs2 ProjectHistory PropsAnalysis PropsProject PropsPointing Count Tests.

(** *** C115: parsing makes at most one diagnostic for every byte of the text, and one for the error that ends it. *)
Theorem C115_parser_count : forall incl text src, valid_utf8 text = true ->
  (length (all_diags (parse_text incl text src)) <= S (length text))%nat.
Proof.
  intros incl text src Hv. pose proof (parse_count incl text src Hv) as H.
  destruct (parse_text incl text src) as [f s|d s| |]; cbn [all_diags]; rewrite ?app_length; cbn [length]; lia.
Qed.
Print Assumptions C115_parser_count.
(** the factor is one *)
Definition ex115 (n : nat) : str := bs "/{a=<" ++ repeat cQuest n.
Example C115_parser_case : valid_utf8 (ex115 200) = true /\ length (ex115 200) = 205%nat
  /\ length (all_diags (parse_text [] (ex115 200) (bs "/a.dts"))) = 201%nat.
Proof. vm_compute. auto. Qed.

(** *** The tokens of a tree stand at different places *)
Lemma seq_starts lo ts hi : ParserSafe.seq lo ts hi -> NoDup (map tk_start ts) /\ forall t, In t ts -> pos_le lo (tk_start t).
Proof.
  revert lo. induction ts as [|t ts IH]; intros lo H; [split; [constructor|intros x []]|]. destruct H as (H1 & H2 & H3).
  destruct (IH _ H3) as [H4 H5]. split.
  - cbn [map]. constructor; [|exact H4]. intros K. apply in_map_iff in K. destruct K as (x & E & Hx). specialize (H5 x Hx). rewrite E in H5.
    exact (pos_lt_irrefl _ (pos_lt_le_trans _ _ _ H2 H5)).
  - intros x [<-|Hx]; [exact H1|]. eapply pos_le_trans; [exact H1|]. eapply pos_le_trans; [apply pos_lt_le, H2|apply H5, Hx].
Qed.
Lemma tokens_count text src ts lo hi : ParserSafe.seq lo ts hi -> Forall (tok_at text src) ts -> (length ts <= length text)%nat.
Proof.
  intros S F. apply seq_starts in S. destruct S as [S _].
  assert (E : exists ns, map tk_start ts = map (fun n => pos_after (firstn n text)) ns /\ Forall (fun n => (n < length text)%nat) ns).
  { clear S. induction F as [|t ts Ht _ (ns & E & Hn)]; [exists []; split; constructor|].
    destruct Ht as (m & a & u & rest & T & Sp & Et). exists (length a :: ns). split.
    - cbn [map]. rewrite E. f_equal. rewrite T, firstn_app, Nat.sub_diag, firstn_all, firstn_O, app_nil_r. rewrite Et. reflexivity.
    - constructor; [|exact Hn]. apply spells_nonempty in Sp. rewrite T, !app_length. lia. }
  destruct E as (ns & E & Hn). assert (N : NoDup ns) by (rewrite E in S; eapply NoDup_map_inv, S).
  assert (L : (length ns <= length (List.seq 0 (length text)))%nat).
  { apply NoDup_incl_length; [exact N|]. intros n H. rewrite Forall_forall in Hn. apply in_seq. specialize (Hn n H). lia. }
  rewrite seq_length in L. apply (f_equal (@length _)) in E. rewrite !map_length in E. lia.
Qed.

(** *** What the analysis says of the tokens *)
Lemma value_count v : ((if is_string v then 0 else 1) + length (value_refs v) <= 2 * length (value_toks v))%nat.
Proof.
  destruct v as [s|a cs b|r|a ss b]; cbn [is_string value_refs value_toks length app]; try lia. rewrite app_length. cbn [length].
  assert (H : (length (flat_map cell_refs cs) <= length (flat_map cell_toks cs))%nat).
  { induction cs as [|c cs IH]; [apply Nat.le_refl|]. cbn [flat_map]. rewrite !app_length. destruct c; cbn [cell_refs cell_toks length]; lia. }
  lia.
Qed.
Lemma values_count vs : (length (filter (fun v => negb (is_string v)) vs) + length (flat_map value_refs vs) <= 2 * length (flat_map value_toks vs))%nat.
Proof.
  induction vs as [|v vs IH]; [apply Nat.le_refl|]. cbn [filter flat_map]. pose proof (value_count v) as H. rewrite !app_length.
  destruct (is_string v); cbn [negb length]; lia.
Qed.
Lemma property_count p : (length (compatible_diags p) + length (property_refs p) <= 2 * length (prop_toks p))%nat.
Proof.
  pose proof (values_count (pr_values p)) as H. unfold compatible_diags, property_refs, prop_toks.
  assert (K : (length (flat_map value_toks (pr_values p)) <= length (opt_tok (pr_label p) ++ [wt_tok (pr_name p)]
    ++ match tk_kind (pr_end p) with Equal => [pr_end p] ++ flat_map value_toks (pr_values p) | _ => flat_map value_toks (pr_values p) ++ [pr_end p] end))%nat)
    by (rewrite !app_length; destruct (tk_kind (pr_end p)); rewrite app_length; lia).
  destruct (str_eq_dec _ _); [rewrite map_length|cbn [length]]; lia.
Qed.
Lemma properties_count ps : (length (flat_map compatible_diags ps) + length (flat_map property_refs ps) <= 2 * length (flat_map prop_toks ps))%nat.
Proof. induction ps as [|p ps IH]; [apply Nat.le_refl|]. cbn [flat_map]. rewrite !app_length. pose proof (property_count p). lia. Qed.

Lemma node_properties n : forall path, (length (flat_map prop_toks (flat_map def_properties (node_defs path n))) <= length (node_toks n))%nat.
Proof.
  apply (node_rect' (fun n => forall path, (length (flat_map prop_toks (flat_map def_properties (node_defs path n))) <= length (node_toks n))%nat)
    (fun i => forall path, (length (flat_map prop_toks (flat_map def_properties (items_defs path [i]))) <= length (item_toks i))%nat)).
  - intros l nm its e o IH path. cbn [node_defs flat_map def_properties app node_toks payload_toks]. rewrite !app_length. fold items_defs.
    assert (H : (length (flat_map prop_toks (flat_map def_properties (items_defs path its))) <= length (flat_map item_toks its))%nat); [|cbn [length]; rewrite app_length; lia].
    induction IH as [|i its Hi _ IHl]; [apply Nat.le_refl|]. cbn [flat_map]. rewrite app_length. specialize (Hi path).
    destruct i as [p|m|t w|t w]; unfold items_defs in *; cbn [items_defs_of flat_map def_properties app] in *; try lia.
    + rewrite !app_length in *. cbn [length] in *. lia.
    + rewrite app_nil_r in Hi. rewrite !flat_map_app, app_length. lia.
  - intros p path. unfold items_defs. cbn [items_defs_of flat_map def_properties app item_toks]. rewrite app_nil_r. apply Nat.le_refl.
  - intros m IH path. unfold items_defs. cbn [items_defs_of item_toks]. rewrite app_nil_r. apply IH.
  - intros t w path. cbn. lia.
  - intros t w path. cbn. lia.
Qed.
Lemma items_properties its : forall path, (length (flat_map prop_toks (flat_map def_properties (items_defs path its))) <= length (flat_map item_toks its))%nat.
Proof.
  induction its as [|i its IH]; intros path; [apply Nat.le_refl|]. unfold items_defs in *. specialize (IH path). cbn [flat_map]. rewrite app_length.
  destruct i as [p|m|t w|t w]; cbn [items_defs_of flat_map def_properties app item_toks]; try lia.
  - rewrite app_length. lia.
  - rewrite !flat_map_app, app_length. pose proof (node_properties m (path ++ [wt_item (nd_name m)])). lia.
Qed.
Definition includes_in (p : primary) : nat := match p with PDirective (AInclude _) => 1 | _ => 0 end.
Fixpoint include_count (ps : list primary) : nat := match ps with [] => 0 | p :: r => includes_in p + include_count r end.
Lemma blame_count ft ps r b es : blame ft ps r b es -> (length es <= 1)%nat.
Proof. destruct 1; cbn; lia. Qed.
Lemma element_count fs pj s ft ps ds h p dp h1 es : element fs pj s ft ps ds h p dp h1 es ->
  (length es + includes_in p + length (flat_map property_refs (element_properties p)) <= 2 * length (primary_toks p))%nat.
Proof.
  intros H. pose proof (properties_count (element_properties p)) as K.
  inversion H as [t e1 X|t|x y|t r|c|i ds1 h2 e1 X|t r q found e1 X Y|n|r q found e1 T X Y|r T]; subst;
    try (cbn [element_properties includes_in flat_map length primary_toks]; lia).
  - inversion X; subst; cbn [element_properties includes_in flat_map length primary_toks]; lia.
  - assert (L : (length es <= 1)%nat).
    { inversion X as [e0 X1|q cycle X1 X2|q X1 X2 X3|q f0 d0 e0 X1 X2 X3 X4 X5]; subst; cbn [length]; try lia.
      destruct X5 as [[_ ->]|[_ ->]]; cbn [length]; lia. }
    cbn [element_properties includes_in flat_map length primary_toks]. lia.
  - apply blame_count in Y. cbn [element_properties includes_in flat_map length primary_toks]. lia.
  - pose proof (node_properties n []) as L. cbn [includes_in primary_toks]. unfold element_properties in *. lia.
  - apply blame_count in Y. pose proof (items_properties (pl_items (rn_payload r)) []) as L. cbn [includes_in primary_toks].
    destruct (rn_payload r) as [its e0] eqn:Er. cbn [pl_items payload_toks] in *. unfold element_properties in *. rewrite Er in *. cbn [pl_items] in *.
    rewrite !app_length. cbn [length]. lia.
  - pose proof (items_properties (pl_items (rn_payload r)) []) as L. cbn [includes_in primary_toks].
    destruct (rn_payload r) as [its e0] eqn:Er. cbn [pl_items payload_toks] in *. unfold element_properties in *. rewrite Er in *. cbn [pl_items] in *.
    rewrite !app_length. cbn [length]. lia.
Qed.
Lemma elements_count fs pj s ft l : forall ps ds h ds' h' es, elements fs pj s ft ps ds h l ds' h' es ->
  (length es + include_count l + length (all_references l) <= 2 * length (flat_map primary_toks l))%nat.
Proof.
  induction l as [|p l IH]; intros ps ds h ds' h' es H.
  - apply elements_nil_inv in H. destruct H as (_ & _ & ->). apply Nat.le_refl.
  - apply elements_cons_inv in H. destruct H as (dp & k & ep & f & A & B & ->). apply IH in B. apply element_count in A.
    unfold all_references, all_properties in *. cbn [flat_map include_count]. rewrite flat_map_app, !app_length. lia.
Qed.
Lemma references_count ft ps ds l es : reference_diags ft ps ds l es -> (length es <= length l)%nat.
Proof. induction 1 as [|r l found es es' _ B _ IH]; [apply Nat.le_refl|]. apply blame_count in B. rewrite app_length. cbn [length]. lia. Qed.
Lemma analysis_count fs pj s ft h els ds h' es : analysis_of fs pj s ft h els ds h' es ->
  (length es + include_count els <= S (2 * length (flat_map primary_toks els)))%nat.
Proof.
  intros H. inversion H as [? ? e vs rs H1 H2 H3]; subst. apply elements_count in H1. apply references_count in H3. rewrite !app_length.
  assert (length vs <= 1)%nat by (inversion H2; subst; cbn; lia). lia.
Qed.

(** *** C115: an analysis of the tree of a text makes at most two diagnostics for every byte, and one for a missing version header. *)
Theorem C115_analysis_count : forall fs pj incl text src f s ft h ac es, project_ok pj -> valid_utf8 text = true ->
  parse_text incl text src = ROk f s -> analysed fs pj f ft h ac es -> (length es <= S (2 * length text))%nat.
Proof.
  intros fs pj incl text src f s ft h ac es Hp Hv E H. destruct (analysed_spec _ _ _ _ _ _ _ Hp H) as (ds & h' & A & _).
  destruct (tree_tokens incl text src f s Hv E) as (p & _ & S & F). apply analysis_count in A. pose proof (tokens_count _ _ _ _ _ S F) as L.
  unfold file_toks in *. lia.
Qed.
Print Assumptions C115_analysis_count.

(** *** All that is held of a file *)
Record counting (k : fpath) (v : pfile) : Prop := {
  co_valid : valid_utf8 (pf_text v) = true;
  co_tree : forall f, pf_file v = Some f -> exists incl s, parse_text incl (pf_text v) k = ROk f s;
  co_none : pf_file v = None -> (length (pf_pdiags v) <= 1)%nat /\ pf_adiags v = [];
  co_parser : forall f, pf_file v = Some f -> (length (pf_pdiags v) <= length (pf_text v) + include_count (fl_elements f))%nat;
  co_analysis : forall f, pf_file v = Some f -> (length (pf_adiags v) + include_count (fl_elements f) <= S (2 * length (pf_text v)))%nat }.
Lemma include_tokens l : (include_count l <= length (flat_map primary_toks l))%nat.
Proof.
  induction l as [|p l IH]; [apply Nat.le_refl|]. cbn [include_count flat_map]. rewrite app_length.
  destruct p as [[t|t|x y|i|t r|t r]|n|r|c]; cbn [includes_in primary_toks length]; lia.
Qed.
Lemma loader_count fs root K l : (length (flat_map (element_diags fs root K) l) <= include_count l)%nat.
Proof.
  induction l as [|e l IH]; [apply Nat.le_refl|]. cbn [flat_map include_count]. rewrite app_length.
  assert (L : (length (element_diags fs root K e) <= includes_in e)%nat); [|lia].
  destruct e as [[t|t|x y|i|t r|t r]|n|r|c]; cbn [element_diags includes_in length]; try lia. unfold include_diags.
  destruct (include_path fs i); [|cbn; lia]. destruct (in_dec str_eq_dec _ _); [cbn; lia|]. destruct (read_to_string fs _); cbn; lia.
Qed.
Lemma stored_counting fs incl root K k t ft v : valid_utf8 t = true -> stored fs incl root K k t ft v -> counting k v.
Proof.
  intros Hv (E1 & _ & _ & E4 & S). rewrite <- E1 in *. clear E1 t.
  destruct S as [(f & s & P & Ef & Ed)|(d & s & P & Ef & Ed)]; constructor; try assumption; try (intros g Hg; assert (g = f) as -> by congruence); try congruence.
  - exists (include_dirs incl k), s. exact P.
  - pose proof (parse_count (include_dirs incl k) (pf_text v) k Hv) as C. rewrite P in C. rewrite Ed, app_length.
    pose proof (loader_count fs root K (fl_elements f)). lia.
  - rewrite E4. cbn [length]. destruct (tree_tokens _ _ _ _ _ Hv P) as (p & _ & S & F). pose proof (tokens_count _ _ _ _ _ S F) as L.
    pose proof (include_tokens (fl_elements f)) as I. unfold file_toks in *. lia.
  - intros _. rewrite Ed. split; [cbn; lia|exact E4].
Qed.
Lemma analysed_counting k v fs pj f h a a' o ac es : counting k v -> pf_file v = Some f -> project_ok pj -> oracle_ok o -> an_guard a = guard_after str_eq_dec h ->
  analyze_file o fs pj f (pf_type v) a = Done ((ac, es), a') -> counting k (store_result (ac, es) v).
Proof.
  intros [P1 P2 P3 P4 P5] Ef Hp Ho G E. constructor; cbn [store_result pf_text pf_pdiags pf_adiags pf_file fst snd]; try assumption; [congruence|].
  intros g Hg. assert (g = f) as -> by congruence. destruct (P2 f Ef) as (incl & s & P).
  assert (An : analysed fs pj f (pf_type v) h ac es) by (exists o, a, a'; auto).
  destruct (analysed_spec _ _ _ _ _ _ _ Hp An) as (ds & h' & A & _). apply analysis_count in A.
  destruct (tree_tokens incl _ _ f s P1 P) as (p & _ & S & F). pose proof (tokens_count _ _ _ _ _ S F) as L. unfold file_toks in *. lia.
Qed.

(** *** C115: in every project that was reached by additions and removals of files, whatever the disk was meanwhile, a file has at most three diagnostics
    for every byte of its text, and one. *)
Theorem C115_project_count : forall pj k v, reached pj -> fget k (pj_files pj) = Some v -> (length (pf_diags v) <= S (3 * length (pf_text v)))%nat.
Proof.
  intros pj k v R Hk. assert (P : forall pj, reached pj -> forall k v, fget k (pj_files pj) = Some v -> counting k v).
  { clear. induction 1 as [|fs ps pj H IH|fs u fuel o name text ft pj pj' H IH Hf Hl Ho Hv E|fs p pj H IH]; intros k v Hk.
    - discriminate Hk.
    - exact (IH k v Hk).
    - destruct (fs_canon fs name) as [root|e] eqn:Ec; [|unfold add_file_with_text in E; rewrite Ec in E; discriminate].
      pose proof (reached_inv _ H) as I.
      destruct (add_spec fs u fuel o name root text ft pj Hf Hl Ho Ec Hv I) as (files' & L & [[_ X]|(_ & order & pj2 & X & _ & P & _ & _ & _ & An)]); [congruence|].
      assert (pj2 = pj') as -> by congruence. clear X.
      assert (Hin : forall k, In k order <-> In k (keys files')) by (intros q; split; apply Permutation.Permutation_in; [|apply Permutation.Permutation_sym]; exact P).
      assert (W : forall q w, fget q files' = Some w -> counting q w).
      { intros q w Hq. destruct (load_cases _ _ _ _ _ _ _ Hv L q w Hq) as [[_ K]|(_ & t & ft' & Ht & _ & S)]; [exact (IH q w K)|exact (stored_counting _ _ _ _ _ _ _ _ Ht S)]. }
      destruct An as (A1 & A2 & A3 & A4). destruct (fget k files') as [w|] eqn:Ew.
      + destruct (pf_file w) as [f|] eqn:Ef.
        * assert (Ik : In k order) by (apply Hin; eapply m_get_key, Ew). apply in_split in Ik. destruct Ik as (k1 & k2 & Ik).
          destruct (A4 k1 k k2 w f Ik Ew Ef) as (pjk & a & a' & ac & es & B & G & An & _ & Hok & _). rewrite B in Hk. injection Hk as <-.
          eapply analysed_counting; [exact (W k w Ew)|exact Ef|exact Hok|apply Ho|exact G|exact An].
        * rewrite (A3 k w Ew Ef) in Hk. injection Hk as <-. exact (W k w Ew).
      + rewrite A2 in Hk; [rewrite Ew in Hk; discriminate Hk|]. intros K. apply Hin in K. destruct (m_get_some_key str_eq_dec _ _ K). congruence.
    - destruct (fs_canon fs p) as [q|e] eqn:E; [|unfold remove_file in Hk; rewrite E in Hk; exact (IH k v Hk)].
      rewrite (remove_get fs p q pj E) in Hk. destruct (str_eq_dec k q); [discriminate Hk|exact (IH k v Hk)]. }
  destruct (P pj R k v Hk) as [_ _ P3 P4 P5]. unfold pf_diags. rewrite app_length. destruct (pf_file v) as [f|].
  - specialize (P4 f eq_refl). specialize (P5 f eq_refl). lia.
  - destruct (P3 eq_refl) as [H ->]. cbn [length]. lia.
Qed.
Print Assumptions C115_project_count.
(** the file of C111, with its six diagnostics *)
Example C115_project_case : exists pj v, reached pj /\ fget (bs "/a.dts") (pj_files pj) = Some v /\ length (pf_diags v) = 6%nat.
Proof.
  destruct C111_case as (pj & v & R & E & H). exists pj, v. split; [exact R|]. split; [exact E|].
  apply (f_equal (@length _)) in H. rewrite map_length in H. exact H.
Qed.
