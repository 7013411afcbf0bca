(** Property theorems on the analysis of a file: C26-C34, C51, C57 *)
From Verif Require Import AnalysisProofs Parser.

(** [file] is analysed with the result [ac], [es], after the dependencies [h] were recorded, with some
    iteration orders of the hash maps *)
Definition analysed (fs : fsys) (pj : project) (file : dts_file) (ft : file_type)
  (h : list (fpath * list fpath)) (ac : actx) (es : list diag) : Prop :=
  exists o a a', oracle_ok o /\ an_guard a = guard_after str_eq_dec h
    /\ analyze_file o fs pj file ft a = Done ((ac, es), a').

Lemma analysed_spec fs pj file ft h ac es : project_ok pj -> analysed fs pj file ft h ac es ->
  exists ds h', analysis_of fs pj (fl_source file) ft h (fl_elements file) ds h' es
    /\ ctx_ok ac
    /\ (forall l x, m_get str_eq_dec l (ac_labels ac) = Some x <-> label_means ds l x)
    /\ (forall p n, m_get npath_eq_dec p (ac_flat ac) = Some n <-> path_means ds p n).
Proof.
  intros Hp (o & a & a' & Ho & G & E).
  destruct (file_spec o fs pj file ft Ho Hp h a G) as (ac2 & es2 & a2 & ds & h' & E2 & H).
  rewrite E in E2. injection E2 as <- <- <-. exists ds, h'. tauto.
Qed.

(** an analysis always ends with a result *)
Theorem analysis_total : forall fs pj file ft h o a, project_ok pj -> oracle_ok o ->
  an_guard a = guard_after str_eq_dec h ->
  exists ac es, analysed fs pj file ft h ac es.
Proof.
  intros fs pj file ft h o a Hp Ho G.
  destruct (file_spec o fs pj file ft Ho Hp h a G) as (ac & es & a' & ds & h' & E & _).
  exists ac, es, o, a, a'. auto.
Qed.
Print Assumptions analysis_total.

(** ** Concrete files for the examples *)
Definition no_fs : fsys := mkFs inl (fun _ => inr (bs "no file")).
Definition o_id : an_oracle := mkOracle (fun _ _ s => s) (fun _ m => m).
Definition o_rev : an_oracle := mkOracle (fun _ _ s => rev s) (fun _ m => rev m).
Lemma o_id_ok : oracle_ok o_id.
Proof. split; intros; apply Permutation_refl. Qed.
Lemma o_rev_ok : oracle_ok o_rev.
Proof. split; intros; cbn; apply Permutation_sym, Permutation_rev. Qed.
Definition tree_of (text : str) : dts_file :=
  match parse_text [] text (bs "a.dts") with ROk f _ => f | _ => mkFile [] (bs "a.dts") end.
Definition empty_project : project := mkProject [] [] default_severities.
Lemma empty_ok : project_ok empty_project.
Proof. intros p f c []. Qed.
Definition run_with (o : an_oracle) (pj : project) (ft : file_type) (f : dts_file) : actx * list diag :=
  match analyze_file o no_fs pj f ft analysis_new with Done (r, _) => r | _ => (mkActx [] [], []) end.
Definition kinds (es : list diag) : list error_code := map dg_kind es.
Lemma run_analysed o pj ft f r a' : oracle_ok o -> analyze_file o no_fs pj f ft analysis_new = Done (r, a') ->
  analysed no_fs pj f ft [] (fst r) (snd r).
Proof. intros H E. exists o, analysis_new, a'. destruct r. auto. Qed.

Definition plugin_free (ps : list primary) : bool :=
  forallb (fun p => match p with PDirective (APlugin _) => false | _ => true end) ps.
Lemma plugin_free_none ps : plugin_free ps = true -> ~ has_plugin ps.
Proof. intros H (t & Ht). apply (proj1 (forallb_forall _ _) H) in Ht. discriminate. Qed.

(** ** Runs over elements *)
Section Runs.
  Context (fs : fsys) (pj : project) (src : fpath) (ft : file_type).
  Notation elements := (elements fs pj src ft).
  Notation element := (element fs pj src ft).

  Lemma elements_nil_inv ps ds h ds' h' es : elements ps ds h [] ds' h' es -> ds' = ds /\ h' = h /\ es = [].
  Proof. intros H. inversion H; auto. Qed.
  Lemma elements_cons_inv ps ds h p l ds' h' es : elements ps ds h (p :: l) ds' h' es ->
    exists dp h1 ep e2, element ps ds h p dp h1 ep /\ elements (ps ++ [p]) (ds ++ dp) h1 l ds' h' e2 /\ es = ep ++ e2.
  Proof. intros H. inversion H; subst. do 4 eexists. eauto. Qed.

  Lemma elements_app l1 l2 : forall ps ds h ds' h' es, elements ps ds h (l1 ++ l2) ds' h' es ->
    exists ds1 h1 e1 e2, elements ps ds h l1 ds1 h1 e1 /\ elements (ps ++ l1) ds1 h1 l2 ds' h' e2 /\ es = e1 ++ e2.
  Proof.
    induction l1 as [|p l1 IH]; intros ps ds h ds' h' es H; cbn [app] in H.
    - exists ds, h, [], es. rewrite app_nil_r. repeat split; [constructor|exact H].
    - apply elements_cons_inv in H. destruct H as (dp & h1 & ep & e0 & H7 & H8 & ->).
      apply IH in H8. destruct H8 as (ds1 & h2 & e1 & e2 & A & B & ->).
      exists ds1, h2, (ep ++ e1), e2. rewrite <- app_assoc in B. cbn [app] in B.
      split; [econstructor; eassumption|]. split; [exact B|apply app_assoc].
  Qed.
  Lemma elements_grow l : forall ps ds h ds' h' es, elements ps ds h l ds' h' es -> exists new, ds' = ds ++ new.
  Proof.
    induction l as [|p l IH]; intros ps ds h ds' h' es H.
    - apply elements_nil_inv in H. destruct H as (-> & _). exists []. rewrite app_nil_r. reflexivity.
    - apply elements_cons_inv in H. destruct H as (dp & h1 & ep & e2 & H7 & H8 & ->). apply IH in H8. destruct H8 as [new ->]. exists (dp ++ new). rewrite app_assoc. reflexivity.
  Qed.
  (** an element in the middle *)
  Lemma elements_at l1 p l2 h ds' h' es : elements [] [] h (l1 ++ p :: l2) ds' h' es ->
    exists ds1 h1 e1 dp h2 ep new e2, elements [] [] h l1 ds1 h1 e1 /\ element l1 ds1 h1 p dp h2 ep
      /\ elements (l1 ++ [p]) (ds1 ++ dp) h2 l2 ds' h' e2 /\ ds' = (ds1 ++ dp) ++ new /\ es = e1 ++ ep ++ e2.
  Proof.
    intros H. apply elements_app in H. destruct H as (ds1 & h1 & e1 & e2 & A & B & ->).
    cbn [app] in B. apply elements_cons_inv in B. destruct B as (dp & h2 & ep & e3 & H7 & H8 & ->). destruct (elements_grow _ _ _ _ _ _ _ H8) as [new ->].
    do 8 eexists. repeat split; eauto.
  Qed.

  (** diagnostics of one kind *)
  Definition of_kind (k : error_code) (es : list diag) : list diag :=
    filter (fun d => if error_code_eq_dec (dg_kind d) k then true else false) es.
  Lemma of_kind_app k a b : of_kind k (a ++ b) = of_kind k a ++ of_kind k b.
  Proof. apply filter_app. Qed.
  Lemma of_kind_all k es : (forall d, In d es -> dg_kind d = k) -> of_kind k es = es.
  Proof.
    intros H. unfold of_kind. induction es as [|d es IH]; [reflexivity|]. cbn [filter].
    rewrite H by (left; reflexivity). destruct (error_code_eq_dec k k); [|congruence].
    f_equal. apply IH. intros d' Hd. apply H. right. exact Hd.
  Qed.
  Lemma of_kind_none k es : (forall d, In d es -> dg_kind d <> k) -> of_kind k es = [].
  Proof.
    intros H. unfold of_kind. induction es as [|d es IH]; [reflexivity|]. cbn [filter].
    destruct (error_code_eq_dec (dg_kind d) k) as [E|E]; [exfalso; exact (H d (or_introl eq_refl) E)|].
    apply IH. intros d' Hd. apply H. right. exact Hd.
  Qed.

  Lemma compatible_kind ps d : In d (flat_map compatible_diags ps) -> dg_kind d = NonStringInCompatible.
  Proof.
    intros H. apply in_flat_map in H. destruct H as (p & _ & H). unfold compatible_diags in H.
    destruct (str_eq_dec _ _); [|contradiction]. apply in_map_iff in H. destruct H as (v & <- & _). reflexivity.
  Qed.
  Lemma blame_kind ps r b es d : blame ft ps r b es -> In d es -> dg_kind d = UnresolvedReference.
  Proof. intros H Hd. inversion H; subst; cbn [In] in Hd; intuition (subst; reflexivity). Qed.
  Lemma references_kind ps ds l es d : reference_diags ft ps ds l es -> In d es -> dg_kind d = UnresolvedReference.
  Proof.
    intros H. induction H as [|r l found es es' H1 H2 H3 IH]; [intros []|].
    intros Hd. apply in_app_or in Hd. destruct Hd as [Hd|Hd]; [eapply blame_kind; eassumption|exact (IH Hd)].
  Qed.
  Lemma version_kind ps es d : version_diags src ft ps es -> In d es -> dg_kind d = NonDtsV1.
  Proof. intros H Hd. inversion H; subst; cbn [In] in Hd; intuition (subst; reflexivity). Qed.
End Runs.

(** ** C26: labels *)
Theorem C26_label_lookup : forall fs pj file ft h ac es, project_ok pj ->
  analysed fs pj file ft h ac es ->
  exists ds h' es', elements fs pj (fl_source file) ft [] [] h (fl_elements file) ds h' es'
    /\ (forall l n, get_node_by_label ac l = Some n <-> label_means ds l (LNode n)).
Proof.
  intros fs pj file ft h ac es Hp Ha. apply (analysed_spec _ _ _ _ _ _ _ Hp) in Ha.
  destruct Ha as (ds & h' & A & _ & HL & _). inversion A; subst. do 3 eexists. split; [eassumption|].
  intros l n. unfold get_node_by_label. rewrite <- HL. destruct (m_get str_eq_dec l (ac_labels ac)) as [[m|p]|];
    split; congruence.
Qed.
Print Assumptions C26_label_lookup.

(** ** C27: paths. In a file without includes and references the definitions are those of the root nodes. *)
Definition root_defs (ps : list primary) : list def :=
  flat_map (fun p => match p with PRoot n => node_defs [] n | _ => [] end) ps.
Definition plain (p : primary) : Prop :=
  match p with PReferencedNode _ | PDirective (AInclude _) => False | _ => True end.

Lemma plain_defs fs pj src ft l : Forall plain l -> forall ps ds h ds' h' es,
  elements fs pj src ft ps ds h l ds' h' es -> ds' = ds ++ root_defs l.
Proof.
  induction 1 as [|p l Hp _ IH]; intros ps ds h ds' h' es H.
  - apply elements_nil_inv in H. destruct H as (-> & _). rewrite app_nil_r. reflexivity.
  - apply elements_cons_inv in H. destruct H as (dp & h1 & ep & e2 & H7 & H8 & ->). apply IH in H8. subst ds'. rewrite <- app_assoc. unfold root_defs. cbn [flat_map]. f_equal. f_equal.
    inversion H7; subst; auto; contradiction.
Qed.

Theorem C27_path_lookup : forall fs pj file ft h ac es, project_ok pj ->
  analysed fs pj file ft h ac es ->
  exists ds h' es', elements fs pj (fl_source file) ft [] [] h (fl_elements file) ds h' es'
    /\ (forall p n, get_node_by_path ac p = Some n <-> path_means ds p n).
Proof.
  intros fs pj file ft h ac es Hp Ha. apply (analysed_spec _ _ _ _ _ _ _ Hp) in Ha.
  destruct Ha as (ds & h' & A & _ & _ & HP). inversion A; subst. do 3 eexists. split; [eassumption|]. exact HP.
Qed.
Theorem C27_root_lookup : forall fs pj file ft h ac es, project_ok pj ->
  analysed fs pj file ft h ac es -> Forall plain (fl_elements file) ->
  (forall p n, get_node_by_path ac p = Some n <-> path_means (root_defs (fl_elements file)) p n)
  /\ (forall l n, get_node_by_label ac l = Some n <-> label_means (root_defs (fl_elements file)) l (LNode n)).
Proof.
  intros fs pj file ft h ac es Hp Ha Hpl.
  destruct (C27_path_lookup _ _ _ _ _ _ _ Hp Ha) as (ds & h' & es' & A & H).
  destruct (C26_label_lookup _ _ _ _ _ _ _ Hp Ha) as (ds2 & h2 & es2 & A2 & H2).
  apply (plain_defs _ _ _ _ _ Hpl) in A, A2. cbn [app] in A, A2. subst ds ds2. auto.
Qed.
Print Assumptions C27_path_lookup.
Print Assumptions C27_root_lookup.

(** two roots, a node defined twice, a label moved from a node to another *)
Definition ex27 : dts_file := tree_of (bs "/dts-v1/; / { l: a { x; }; b { }; }; / { a { y; }; l: b { }; };").
Example C27_case :
  Forall plain (fl_elements ex27)
  /\ exists ac, analysed no_fs empty_project ex27 DtSource [] ac []
     /\ (exists n m, get_node_by_label ac (bs "l") = Some n /\ get_node_by_path ac [mkNN (bs "b") None] = Some n
         /\ nn_name (wt_item (nd_name n)) = bs "b" /\ get_node_by_path ac [mkNN (bs "a") None] = Some m
         /\ map (fun i => match i with IProperty p => wt_item (pr_name p) | _ => [] end) (pl_items (nd_payload m)) = [bs "y"]).
Proof.
  split; [vm_compute; repeat constructor|].
  assert (E : exists ac a', analyze_file o_id no_fs empty_project ex27 DtSource analysis_new = Done ((ac, []), a')
    /\ (exists n m, get_node_by_label ac (bs "l") = Some n /\ get_node_by_path ac [mkNN (bs "b") None] = Some n
         /\ nn_name (wt_item (nd_name n)) = bs "b" /\ get_node_by_path ac [mkNN (bs "a") None] = Some m
         /\ map (fun i => match i with IProperty p => wt_item (pr_name p) | _ => [] end) (pl_items (nd_payload m)) = [bs "y"])).
  { do 2 eexists. split; [vm_compute; reflexivity|]. do 2 eexists. repeat split; vm_compute; reflexivity. }
  destruct E as (ac & a' & E & H). exists ac. split; [exact (run_analysed _ _ _ _ _ _ o_id_ok E)|exact H].
Qed.

(** ** C28: references in property values *)
(** the references the file opens or deletes *)
Definition opened_reference (p : primary) : option (wtok reference) :=
  match p with
  | PReferencedNode r => Some (rn_reference r)
  | PDirective (ADeletedNode _ r) => Some r
  | _ => None
  end.

Lemma no_plugin_prefix a b : ~ has_plugin (a ++ b) -> ~ has_plugin a.
Proof. intros H (t & Ht). apply H. exists t. apply in_or_app. left. exact Ht. Qed.

Lemma element_unresolved fs pj src ft ps ds h p dp h' es : element fs pj src ft ps ds h p dp h' es ->
  (of_kind UnresolvedReference es = [] \/ exists r, opened_reference p = Some r /\ of_kind UnresolvedReference es = [unresolved_diag r]).
Proof.
  intros H. assert (B : forall r found es, blame ft ps r found es -> of_kind UnresolvedReference es = [] \/ of_kind UnresolvedReference es = [unresolved_diag r]).
  { intros r found e Hb. inversion Hb; subst; [left|left|right]; reflexivity. }
  assert (C : forall l, of_kind UnresolvedReference (flat_map compatible_diags l) = []).
  { intros l. apply of_kind_none. intros d Hd. apply compatible_kind in Hd. congruence. }
  inversion H; subst; cbn [opened_reference]; rewrite ?of_kind_app, ?C, ?app_nil_r; auto.
  - left. inversion H0; subst; reflexivity.
  - left. inversion H0; subst; try reflexivity.
    match goal with K : _ /\ es = _ \/ _ |- _ => destruct K as [[_ ->]|[_ ->]]; reflexivity end.
  - destruct (B _ _ _ H1) as [-> | ->]; eauto.
  - destruct (B _ _ _ H2) as [-> | ->]; eauto.
Qed.

Lemma references_dec ft ps ds l es : blames ft ps -> reference_diags ft ps ds l es ->
  exists rs, es = map unresolved_diag rs /\ (forall r, In r rs <-> In r l /\ ~ resolves ds (wt_item r))
    /\ exists keep, Forall2 (fun r (b : bool) => b = true <-> resolves ds (wt_item r)) l keep
       /\ rs = map fst (filter (fun rb => negb (snd rb)) (combine l keep)).
Proof.
  intros Hb H. induction H as [|r l found es es' H1 H2 H3 IH].
  - exists []. repeat split; auto; try contradiction; try tauto. exists []. auto.
  - destruct IH as (rs & -> & IH1 & keep & K1 & K2). destruct found.
    + assert (es = []) as -> by (inversion H2; reflexivity). exists rs. split; [reflexivity|]. split.
      { intros r'. rewrite IH1. cbn [In]. split; [tauto|]. intros [[<-|H] Hn]; [|tauto].
        exfalso. apply Hn, H1. reflexivity. }
      exists (true :: keep). split; [constructor; assumption|]. cbn [combine filter snd negb]. exact K2.
    + assert (es = [unresolved_diag r]) as -> by (inversion H2; subst; [contradiction|reflexivity]).
      assert (Hn : ~ resolves ds (wt_item r)) by (intros H; apply H1 in H; discriminate).
      exists (r :: rs). split; [reflexivity|]. split.
      { intros r'. cbn [In]. rewrite IH1. split; [|tauto]. intros [<-|H]; tauto. }
      exists (false :: keep). split; [constructor; assumption|].
      cbn [combine filter snd negb map fst]. f_equal. exact K2.
Qed.

(** [ds] are the definitions of the whole file with its includes. The reports are first those for references
    that open or delete nodes, then one for each reference in a value that does not resolve, in order. *)
Theorem C28_unresolved_exact : forall fs pj file h ac es, project_ok pj ->
  analysed fs pj file DtSource h ac es -> ~ has_plugin (fl_elements file) ->
  exists ds h' es' opened flags,
    elements fs pj (fl_source file) DtSource [] [] h (fl_elements file) ds h' es'
    /\ Forall2 (fun r (b : bool) => b = true <-> resolves ds (wt_item r)) (all_references (fl_elements file)) flags
    /\ of_kind UnresolvedReference es
       = map unresolved_diag opened
         ++ map (fun rb => unresolved_diag (fst rb))
              (filter (fun rb => negb (snd rb)) (combine (all_references (fl_elements file)) flags))
    /\ (forall r, In r opened -> exists p, In p (fl_elements file) /\ opened_reference p = Some r).
Proof.
  intros fs pj file h ac es Hp Ha Hn. apply (analysed_spec _ _ _ _ _ _ _ Hp) in Ha.
  destruct Ha as (ds & h' & A & _ & _ & _). inversion A as [ds0 h0 es0 vs rs H1 H2 H3]; subst.
  destruct (references_dec _ _ _ _ _ (conj eq_refl Hn) H3) as (rs' & -> & _ & keep & K1 & K2).
  assert (O : exists opened, of_kind UnresolvedReference es0 = map unresolved_diag opened
    /\ (forall r, In r opened -> exists p, In p (fl_elements file) /\ opened_reference p = Some r)).
  { clear - H1. revert H1. generalize (@nil def). generalize (@nil primary). revert h.
    induction (fl_elements file) as [|p l IH] in es0 |- *; intros h ps d H.
    - apply elements_nil_inv in H. destruct H as (_ & _ & ->). exists []. split; [reflexivity|]. intros r [].
    - apply elements_cons_inv in H. destruct H as (dp & h1 & ep & e2 & H8 & H9 & ->). apply IH in H9. destruct H9 as (op & E & Hop). rewrite of_kind_app, E.
      apply element_unresolved in H8. destruct H8 as [->|(r & Hr & ->)].
      + exists op. split; [reflexivity|]. intros r Hr. destruct (Hop r Hr) as (q & Hq & Er). exists q. split; [right; exact Hq|exact Er].
      + exists (r :: op). split; [reflexivity|]. intros r' [<-|Hr']; [exists p; split; [left; reflexivity|exact Hr]|].
        destruct (Hop r' Hr') as (q & Hq & Er). exists q. split; [right; exact Hq|exact Er]. }
  destruct O as (opened & O1 & O2). exists ds, h', es0, opened, keep. split; [exact H1|]. split; [exact K1|].
  split; [|exact O2]. rewrite !of_kind_app, O1. f_equal.
  rewrite (of_kind_none _ vs) by (intros d Hd; rewrite (version_kind _ _ _ _ _ H2 Hd); discriminate).
  cbn [app]. rewrite of_kind_all.
  - rewrite K2, map_map. reflexivity.
  - intros d Hd. apply in_map_iff in Hd. destruct Hd as (r & <- & _). reflexivity.
Qed.
Print Assumptions C28_unresolved_exact.

(** a reference before its definition resolves, one to nothing is reported *)
Definition ex28 : dts_file := tree_of (bs "/dts-v1/; / { p = <&l &m>, &{/a}; q = &{/c}; l: a { }; };").
Example C28_case : exists ac es, analysed no_fs empty_project ex28 DtSource [] ac es
  /\ ~ has_plugin (fl_elements ex28)
  /\ map (fun r => wt_item r) (all_references (fl_elements ex28))
     = [RefLabel (bs "l"); RefLabel (bs "m"); RefPath [mkNN (bs "a") None]; RefPath [mkNN (bs "c") None]]
  /\ map (fun d => (dg_kind d, dg_span d)) es
     = [(UnresolvedReference, mkSpan (mkPos 0 22) (mkPos 0 24)); (UnresolvedReference, mkSpan (mkPos 0 38) (mkPos 0 43))].
Proof.
  assert (E : exists ac es a', analyze_file o_id no_fs empty_project ex28 DtSource analysis_new = Done ((ac, es), a')
    /\ map (fun d => (dg_kind d, dg_span d)) es
     = [(UnresolvedReference, mkSpan (mkPos 0 22) (mkPos 0 24)); (UnresolvedReference, mkSpan (mkPos 0 38) (mkPos 0 43))]).
  { do 3 eexists. split; vm_compute; reflexivity. }
  destruct E as (ac & es & a' & E & H). exists ac, es. split; [exact (run_analysed _ _ _ _ _ _ o_id_ok E)|].
  split; [|split; [vm_compute; reflexivity|exact H]]. apply plugin_free_none. vm_compute. reflexivity.
Qed.

(** ** C29: includes, overlays and plugins *)
Lemma silent_elements fs pj src ft l : forall ps ds h ds' h' es, elements fs pj src ft ps ds h l ds' h' es ->
  (ft <> DtSource \/ has_plugin ps \/ Forall (fun p => opened_reference p = None) l) ->
  of_kind UnresolvedReference es = [].
Proof.
  induction l as [|p l IH]; intros ps ds h ds' h' es H Hs.
  - apply elements_nil_inv in H. destruct H as (_ & _ & ->). reflexivity.
  - apply elements_cons_inv in H. destruct H as (dp & h1 & ep & e2 & H1 & H2 & ->).
    rewrite of_kind_app. apply IH in H2.
    + rewrite H2, app_nil_r. destruct (element_unresolved _ _ _ _ _ _ _ _ _ _ _ H1) as [E|(r & Hr & E)]; [exact E|].
      destruct Hs as [Hs|[Hs|Hs]].
      * assert (B : forall r b e, blame ft ps r b e -> e = []).
        { intros r' b e Hb. inversion Hb; subst; auto. destruct H as [H _]. contradiction. }
        inversion H1; subst; cbn [opened_reference] in Hr; try discriminate.
        -- rewrite (B _ _ _ H0). reflexivity.
        -- contradiction.
        -- apply of_kind_none. intros d Hd. apply compatible_kind in Hd. congruence.
      * assert (B : forall r b e, blame ft ps r b e -> e = []).
        { intros r' b e Hb. inversion Hb; subst; auto. destruct H as [_ H]. contradiction. }
        inversion H1; subst; cbn [opened_reference] in Hr; try discriminate.
        -- rewrite (B _ _ _ H0). reflexivity.
        -- rewrite of_kind_app, (B _ _ _ H3). apply of_kind_none. intros d Hd. apply compatible_kind in Hd. congruence.
        -- apply of_kind_none. intros d Hd. apply compatible_kind in Hd. congruence.
      * inversion Hs; subst. congruence.
    + destruct Hs as [Hs|[Hs|Hs]]; [auto| |inversion Hs; auto].
      right. left. apply has_plugin_snoc. auto.
Qed.

Theorem C29_not_blamed : forall fs pj file ft h ac es, project_ok pj ->
  analysed fs pj file ft h ac es ->
  (ft <> DtSource
   \/ exists before t after, fl_elements file = before ++ PDirective (APlugin t) :: after
      /\ Forall (fun p => opened_reference p = None) before) ->
  of_kind UnresolvedReference es = [].
Proof.
  intros fs pj file ft h ac es Hp Ha Hf. apply (analysed_spec _ _ _ _ _ _ _ Hp) in Ha.
  destruct Ha as (ds & h' & A & _ & _ & _). inversion A as [ds0 h0 es0 vs rs H1 H2 H3]; subst.
  assert (Hb : ~ blames ft (fl_elements file)).
  { intros [B1 B2]. destruct Hf as [Hf|(l1 & t & l2 & E & _)]; [contradiction|]. apply B2. exists t. rewrite E.
    apply in_or_app. right. left. reflexivity. }
  rewrite !of_kind_app.
  assert (R : rs = []).
  { clear - H3 Hb. induction H3 as [|r l found es es' K1 K2 K3 IH]; [reflexivity|]. rewrite IH, app_nil_r.
    inversion K2; subst; auto. contradiction. }
  rewrite R, (of_kind_none _ vs) by (intros d Hd; rewrite (version_kind _ _ _ _ _ H2 Hd); discriminate).
  rewrite app_nil_r. cbn [app]. destruct Hf as [Hf|(l1 & t & l2 & E & Hf)].
  - eapply silent_elements; [exact H1|auto].
  - rewrite E in H1. apply elements_app in H1. destruct H1 as (ds1 & h1 & e1 & e2 & A1 & A2 & ->).
    rewrite of_kind_app. apply silent_elements in A1; [|auto]. rewrite A1.
    apply elements_cons_inv in A2. destruct A2 as (dp & h2 & ep & e3 & K1 & K2 & ->).
    rewrite of_kind_app. apply silent_elements in K2.
    + rewrite K2. inversion K1; subst. reflexivity.
    + right. left. exists t. apply in_or_app. right. left. reflexivity.
Qed.
Print Assumptions C29_not_blamed.

Definition ex29 : dts_file := tree_of (bs "/dts-v1/; /plugin/; / { p = <&l>; }; &m { q = &{/c}; };").
Example C29_case :
  (exists before t after, fl_elements ex29 = before ++ PDirective (APlugin t) :: after
     /\ Forall (fun p => opened_reference p = None) before)
  /\ (exists ac, analysed no_fs empty_project ex29 DtSource [] ac [])
  /\ (exists ac, analysed no_fs empty_project ex28 DtSourceInclude [] ac [])
  /\ length (all_references (fl_elements ex29)) = 2%nat.
Proof.
  split; [|split; [|split]].
  - assert (E : exists a t l, fl_elements ex29 = [PDirective (ADtsHeader a)] ++ PDirective (APlugin t) :: l)
      by (do 3 eexists; vm_compute; reflexivity).
    destruct E as (a & t & l & E). exists [PDirective (ADtsHeader a)], t, l. split; [exact E|repeat constructor].
  - assert (E : exists ac a', analyze_file o_id no_fs empty_project ex29 DtSource analysis_new = Done ((ac, []), a'))
      by (do 2 eexists; vm_compute; reflexivity).
    destruct E as (ac & a' & E). exists ac. exact (run_analysed _ _ _ _ _ _ o_id_ok E).
  - assert (E : exists ac a', analyze_file o_id no_fs empty_project ex28 DtSourceInclude analysis_new = Done ((ac, []), a'))
      by (do 2 eexists; vm_compute; reflexivity).
    destruct E as (ac & a' & E). exists ac. exact (run_analysed _ _ _ _ _ _ o_id_ok E).
  - vm_compute. reflexivity.
Qed.

(** ** C30: version headers *)
Definition headers (ps : list primary) : list token :=
  flat_map (fun p => match p with PDirective (ADtsHeader t) => [t] | _ => [] end) ps.
Definition missing_diag (src : fpath) : diag :=
  mkDiag NonDtsV1 (mkSpan (mkPos 0 0) (mkPos 0 0)) src (bs "Files without the '/dts-v1/' Header are not supported").
Definition duplicate_diag (t : token) : diag :=
  mkDiag DuplicateDirective (tk_span t) (tk_source t) (bs "Duplicate dts-v1 version header").
Definition misplaced_diag (t : token) : diag :=
  mkDiag MisplacedDtsHeader (tk_span t) (tk_source t) (bs "dts-v1 header must be placed on top of the file").

Lemma headers_has ps : has_header ps <-> headers ps <> [].
Proof.
  unfold has_header, headers. split.
  - intros (t & H) E. assert (I : In t (headers ps)).
    { apply in_flat_map. eexists. split; [exact H|left; reflexivity]. }
    unfold headers in I. rewrite E in I. exact I.
  - intros H. destruct (flat_map _ ps) as [|t l] eqn:E; [contradiction|].
    assert (I : In t (headers ps)) by (unfold headers; rewrite E; left; reflexivity).
    apply in_flat_map in I. destruct I as (p & I & J). destruct p as [[]| | |]; try contradiction J.
    destruct J as [<-|[]]. eauto.
Qed.
Lemma headers_app a b : headers (a ++ b) = headers a ++ headers b.
Proof. apply flat_map_app. Qed.

(** elements report [NonDtsV1] never, the others only for headers *)
Lemma element_header_kinds fs pj src ft ps ds h p dp h' es k : element fs pj src ft ps ds h p dp h' es ->
  k = NonDtsV1 \/ (k = DuplicateDirective \/ k = MisplacedDtsHeader) /\ headers [p] = [] ->
  of_kind k es = [].
Proof.
  intros H Hk. apply of_kind_none. intros d Hd E. rewrite <- E in Hk. clear E.
  assert (Hk1 : dg_kind d <> UnresolvedReference /\ dg_kind d <> NonStringInCompatible /\ dg_kind d <> IOError
    /\ dg_kind d <> CyclicDependencyError /\ dg_kind d <> ErrorsInInclude).
  { destruct Hk as [->|[[-> | ->] _]]; repeat split; discriminate. }
  destruct Hk1 as (N1 & N2 & N3 & N4 & N5).
  inversion H; subst; try contradiction Hd.
  - destruct Hk as [Hk|[_ Hk]]; [|discriminate Hk]. inversion H0; subst; cbn [In] in Hd; intuition (subst; discriminate).
  - inversion H0; subst; try contradiction Hd; try (destruct Hd as [<-|[]]; cbn in *; congruence).
    match goal with K : _ /\ es = _ \/ _ |- _ => destruct K as [[_ ->]|[_ ->]] end; [|contradiction Hd].
    destruct Hd as [<-|[]]; cbn in *; congruence.
  - apply N1. eapply blame_kind; eassumption.
  - apply N2. eapply compatible_kind; eassumption.
  - apply in_app_or in Hd. destruct Hd as [Hd|Hd]; [apply N1; eapply blame_kind; eassumption|].
    apply N2. eapply compatible_kind; eassumption.
  - apply N2. eapply compatible_kind; eassumption.
Qed.

Lemma duplicate_elements fs pj src ft l : forall ps ds h ds' h' es, elements fs pj src ft ps ds h l ds' h' es ->
  of_kind DuplicateDirective es
  = map duplicate_diag (match headers ps with [] => tl (headers l) | _ => headers l end).
Proof.
  induction l as [|p l IH]; intros ps ds h ds' h' es H.
  - apply elements_nil_inv in H. destruct H as (_ & _ & ->). destruct (headers ps); reflexivity.
  - apply elements_cons_inv in H. destruct H as (dp & h1 & ep & e2 & H1 & H2 & ->).
    rewrite of_kind_app. apply IH in H2. rewrite H2, headers_app.
    rewrite (headers_app [p] l : headers (p :: l) = _). destruct (headers [p]) as [|t r] eqn:E.
    + rewrite (element_header_kinds _ _ _ _ _ _ _ _ _ _ _ DuplicateDirective H1) by auto.
      rewrite app_nil_r. reflexivity.
    + assert (Ep : p = PDirective (ADtsHeader t) /\ r = []).
      { destruct p as [[]| | |]; try discriminate E. injection E as -> <-. auto. }
      destruct Ep as [-> ->]. inversion H1; subst. pose proof (headers_has ps) as Hh.
      inversion H0; subst; cbn [app tl].
      * destruct (headers ps) as [|t0 r0]; [tauto|]. cbn [app]. reflexivity.
      * destruct (headers ps) as [|t0 r0]; [|exfalso; apply H, Hh; discriminate]. cbn [app]. reflexivity.
      * destruct (headers ps) as [|t0 r0]; [|exfalso; apply H, Hh; discriminate]. cbn [app]. reflexivity.
Qed.
Lemma misplaced_none fs pj src ft l : forall ps ds h ds' h' es, elements fs pj src ft ps ds h l ds' h' es ->
  (has_header ps \/ headers l = []) -> of_kind MisplacedDtsHeader es = [].
Proof.
  induction l as [|p l IH]; intros ps ds h ds' h' es H Hh.
  - apply elements_nil_inv in H. destruct H as (_ & _ & ->). reflexivity.
  - apply elements_cons_inv in H. destruct H as (dp & h1 & ep & e2 & H1 & H2 & ->).
    rewrite (headers_app [p] l : headers (p :: l) = _) in Hh.
    rewrite of_kind_app. apply IH in H2.
    + rewrite H2, app_nil_r. destruct (headers [p]) as [|t r] eqn:E.
      * eapply element_header_kinds; [exact H1|]. auto.
      * assert (Ep : p = PDirective (ADtsHeader t)) by (destruct p as [[]| | |]; try discriminate E; injection E as -> <-; auto).
        subst p. destruct Hh as [Hh|Hh]; [|discriminate Hh]. inversion H1; subst. inversion H0; subst; try contradiction; reflexivity.
    + destruct Hh as [Hh|Hh]; [left; apply has_header_snoc; auto|]. right.
      destruct (headers [p]); [exact Hh|discriminate Hh].
Qed.
Lemma never_missing fs pj src ft l : forall ps ds h ds' h' es, elements fs pj src ft ps ds h l ds' h' es ->
  of_kind NonDtsV1 es = [].
Proof.
  induction l as [|p l IH]; intros ps ds h ds' h' es H.
  - apply elements_nil_inv in H. destruct H as (_ & _ & ->). reflexivity.
  - apply elements_cons_inv in H. destruct H as (dp & h1 & ep & e2 & H1 & H2 & ->).
    rewrite of_kind_app. apply IH in H2. rewrite H2, app_nil_r. eapply element_header_kinds; [exact H1|auto].
Qed.

(** what precedes the first header *)
Fixpoint before_header (ps : list primary) : list primary :=
  match ps with
  | PDirective (ADtsHeader _) :: _ => []
  | p :: r => p :: before_header r
  | [] => []
  end.
Lemma before_split ps t r : headers ps = t :: r -> exists l2, ps = before_header ps ++ PDirective (ADtsHeader t) :: l2
  /\ headers (before_header ps) = [].
Proof.
  induction ps as [|p ps IH]; [discriminate|]. intros E. destruct p as [[a|a|a b|i|a b|a b]|n|q|s];
    try (destruct (IH E) as (l2 & E2 & E3); exists l2; cbn [before_header app]; split; [f_equal; exact E2|exact E3]).
  injection E as -> _. exists ps. auto.
Qed.

Theorem C30_headers : forall fs pj file ft h ac es, project_ok pj -> analysed fs pj file ft h ac es ->
  let ps := fl_elements file in
  of_kind NonDtsV1 es
  = match ft, headers ps with DtSource, [] => [missing_diag (fl_source file)] | _, _ => [] end
  /\ of_kind DuplicateDirective es = map duplicate_diag (tl (headers ps))
  /\ of_kind MisplacedDtsHeader es
     = match headers ps with
       | t :: _ => if existsb after_header (before_header ps) then [misplaced_diag t] else []
       | [] => []
       end.
Proof.
  intros fs pj file ft h ac es Hp Ha ps. apply (analysed_spec _ _ _ _ _ _ _ Hp) in Ha.
  destruct Ha as (ds & h' & A & _ & _ & _). fold ps in A. inversion A as [ds0 h0 es0 vs rs H1 H2 H3]; subst ds0 h0 es.
  assert (NR : forall k, k <> UnresolvedReference -> of_kind k rs = []).
  { intros k Hk. apply of_kind_none. intros d Hd. rewrite (references_kind _ _ _ _ _ _ H3 Hd). congruence. }
  assert (NV : forall k, k <> NonDtsV1 -> of_kind k vs = []).
  { intros k Hk. apply of_kind_none. intros d Hd. rewrite (version_kind _ _ _ _ _ H2 Hd). congruence. }
  rewrite !of_kind_app, !NR, (NV DuplicateDirective), (NV MisplacedDtsHeader), !app_nil_r by discriminate. cbn [app].
  split; [|split].
  - rewrite (never_missing _ _ _ _ _ _ _ _ _ _ _ H1). cbn [app]. pose proof (headers_has ps) as Hh.
    inversion H2 as [T K|K]; subst.
    + destruct (headers ps) eqn:E; [reflexivity|]. exfalso. apply K, Hh. discriminate.
    + destruct ft; try reflexivity. destruct (headers ps) eqn:E; [|reflexivity]. destruct K as [K|K]; [congruence|].
      apply Hh in K. congruence.
  - exact (duplicate_elements _ _ _ _ _ _ _ _ _ _ _ H1).
  - destruct (headers ps) as [|t r] eqn:E.
    + eapply misplaced_none; [exact H1|auto].
    + destruct (before_split _ _ _ E) as (l2 & E2 & E3). rewrite E2 in H1.
      apply elements_app in H1. destruct H1 as (ds1 & h1 & e1 & e2 & A1 & A2 & ->).
      apply elements_cons_inv in A2. destruct A2 as (dp & h2 & ep & e3 & K1 & K2 & ->). cbn [app] in *.
      rewrite !of_kind_app, (misplaced_none _ _ _ _ _ _ _ _ _ _ _ A1) by auto.
      rewrite (misplaced_none _ _ _ _ _ _ _ _ _ _ _ K2) by (left; apply has_header_snoc; eauto).
      rewrite app_nil_r. cbn [app]. inversion K1; subst.
      assert (C : existsb after_header (before_header ps) = true <-> has_content (before_header ps)).
      { rewrite existsb_exists. reflexivity. }
      inversion H0; subst.
      * exfalso. apply headers_has in H. congruence.
      * destruct (existsb after_header (before_header ps)); [reflexivity|]. apply C in H1. discriminate.
      * destruct (existsb after_header (before_header ps)); [|reflexivity]. exfalso. apply H1, C. reflexivity.
Qed.
Print Assumptions C30_headers.

Definition ex30a : dts_file := tree_of (bs "/memreserve/ 1 2; /dts-v1/; / { }; /dts-v1/; /dts-v1/;").
Definition ex30b : dts_file := tree_of (bs "/ { };").
Example C30_case :
  kinds (snd (run_with o_id empty_project DtSource ex30a)) = [MisplacedDtsHeader; DuplicateDirective; DuplicateDirective]
  /\ kinds (snd (run_with o_id empty_project DtSource ex30b)) = [NonDtsV1]
  /\ kinds (snd (run_with o_id empty_project DtSourceInclude ex30b)) = [].
Proof. vm_compute. auto. Qed.

(** ** C31: compatible *)
Theorem C31_compatible_exact : forall fs pj file ft h ac es, project_ok pj -> analysed fs pj file ft h ac es ->
  of_kind NonStringInCompatible es = flat_map compatible_diags (all_properties (fl_elements file)).
Proof.
  intros fs pj file ft h ac es Hp Ha. apply (analysed_spec _ _ _ _ _ _ _ Hp) in Ha.
  destruct Ha as (ds & h' & A & _ & _ & _). inversion A as [ds0 h0 es0 vs rs H1 H2 H3]; subst.
  rewrite !of_kind_app.
  rewrite (of_kind_none _ rs) by (intros d Hd; rewrite (references_kind _ _ _ _ _ _ H3 Hd); congruence).
  rewrite (of_kind_none _ vs) by (intros d Hd; rewrite (version_kind _ _ _ _ _ H2 Hd); congruence).
  rewrite !app_nil_r. clear H3 H2 A. revert H1. generalize (@nil primary), (@nil def). revert h es0.
  induction (fl_elements file) as [|p l IH]; intros h es0 ps d H.
  - apply elements_nil_inv in H. destruct H as (_ & _ & ->). reflexivity.
  - apply elements_cons_inv in H. destruct H as (dp & h1 & ep & e2 & H1 & H2 & ->).
    rewrite of_kind_app. apply IH in H2. rewrite H2. unfold all_properties at 2. cbn [flat_map].
    rewrite flat_map_app. f_equal.
    assert (C : forall l, of_kind NonStringInCompatible (flat_map compatible_diags l) = flat_map compatible_diags l).
    { intros q. apply of_kind_all. intros x. apply compatible_kind. }
    assert (B : forall r b e, blame ft ps r b e -> of_kind NonStringInCompatible e = []).
    { intros r b e Hb. apply of_kind_none. intros x Hx. rewrite (blame_kind _ _ _ _ _ _ Hb Hx). discriminate. }
    inversion H1; subst; cbn [element_properties flat_map]; rewrite ?of_kind_app, ?C; auto.
    + inversion H; subst; reflexivity.
    + inversion H; subst; try reflexivity.
      match goal with K : _ /\ ep = _ \/ _ |- _ => destruct K as [[_ ->]|[_ ->]]; reflexivity end.
    + eapply B; eassumption.
    + rewrite (B _ _ _ H3). reflexivity.
Qed.
Print Assumptions C31_compatible_exact.
Definition ex31 : dts_file := tree_of (bs "/dts-v1/; / { a { compatible = ""x"", <1>, [02]; other = <1>; }; compatible = &{/a}; }; &{/a} { compatible = <2>; };").
Example C31_case :
  kinds (snd (run_with o_id empty_project DtSource ex31)) = repeat NonStringInCompatible 4.
Proof. vm_compute. reflexivity. Qed.

(** ** C32: independence from hash orders.
    Full statement: two analyses of a file with the same dependencies have the same diagnostics and lookups.
    It fails if a node with several candidates for its label is opened. *)
Definition ex32 : dts_file :=
  tree_of (bs "/dts-v1/; / { a { l: x { }; }; b { l: y { }; }; }; &l { z { }; }; / { p = &{/a/x/z}; };").
Theorem C32_hash_order_refuted : exists fs pj file ft h ac1 es1 ac2 es2, project_ok pj
  /\ analysed fs pj file ft h ac1 es1 /\ analysed fs pj file ft h ac2 es2
  /\ kinds es1 = [] /\ kinds es2 = [UnresolvedReference]
  /\ (exists p n, get_node_by_path ac1 p = Some n /\ get_node_by_path ac2 p = None).
Proof.
  assert (E1 : exists ac a', analyze_file o_rev no_fs empty_project ex32 DtSource analysis_new = Done ((ac, []), a')
    /\ exists n, get_node_by_path ac (map (fun s => mkNN s None) [bs "a"; bs "x"; bs "z"]) = Some n).
  { do 2 eexists. split; [vm_compute; reflexivity|]. eexists. vm_compute. reflexivity. }
  assert (E2 : exists ac es a', analyze_file o_id no_fs empty_project ex32 DtSource analysis_new = Done ((ac, es), a')
    /\ kinds es = [UnresolvedReference]
    /\ get_node_by_path ac (map (fun s => mkNN s None) [bs "a"; bs "x"; bs "z"]) = None).
  { do 3 eexists. split; [vm_compute; reflexivity|]. split; vm_compute; reflexivity. }
  destruct E1 as (ac1 & a1 & E1 & n & L1). destruct E2 as (ac2 & es2 & a2 & E2 & K2 & L2).
  exists no_fs, empty_project, ex32, DtSource, [], ac1, [], ac2, es2. split; [exact empty_ok|].
  split; [exact (run_analysed _ _ _ _ _ _ o_rev_ok E1)|]. split; [exact (run_analysed _ _ _ _ _ _ o_id_ok E2)|].
  split; [reflexivity|]. split; [exact K2|]. do 2 eexists. split; [exact L1|exact L2].
Qed.
Print Assumptions C32_hash_order_refuted.

(** whenever a label is opened, at most one node carries it *)
Definition unambiguous (fs : fsys) (pj : project) (file : dts_file) (h : list (fpath * list fpath)) : Prop :=
  forall l1 r l2 l, fl_elements file = l1 ++ PReferencedNode r :: l2 -> wt_item (rn_reference r) = RefLabel l ->
  forall ds h1 e1, elements fs pj (fl_source file) DtSource [] [] h l1 ds h1 e1 ->
  forall p n q m, path_means ds p n -> path_means ds q m ->
    label_is (nd_label n) l -> label_is (nd_label m) l -> p = q.

(** equal, except for the cycle named in the message of a cyclic include *)
Definition alike (a b : diag) : Prop :=
  dg_kind a = dg_kind b /\ dg_span a = dg_span b /\ dg_source a = dg_source b
  /\ (dg_kind a <> CyclicDependencyError -> dg_msg a = dg_msg b).
Lemma alike_refl a : alike a a.
Proof. repeat split; auto. Qed.
Lemma alikes_refl l : Forall2 alike l l.
Proof. induction l; constructor; auto using alike_refl. Qed.

Lemma blame_fun ft ps r b e1 e2 : blame ft ps r b e1 -> blame ft ps r b e2 -> e1 = e2.
Proof. intros H1 H2. inversion H1; subst; inversion H2; subst; auto; contradiction. Qed.
Lemma opens_found ds r p q b c : opens ds r p b -> opens ds r q c -> b = c.
Proof.
  intros H1 H2. inversion H1; subst; inversion H2; subst; auto; exfalso;
    match goal with
    | K : forall n, ~ path_means ds ?p n, L : path_means ds ?p _ |- _ => exact (K _ L)
    | K : forall p n, path_means ds p n -> ~ label_is _ _ |- _ => eapply K; eassumption
    end.
Qed.
Lemma opens_fun ds r p q b c : opens ds r p b -> opens ds r q c ->
  (forall l p n q m, r = RefLabel l -> path_means ds p n -> path_means ds q m ->
     label_is (nd_label n) l -> label_is (nd_label m) l -> p = q) -> p = q.
Proof.
  intros H1 H2 Hu. pose proof (opens_found _ _ _ _ _ _ H1 H2) as E.
  inversion H1; subst; inversion H2; subst; auto. eapply Hu; eauto.
Qed.
Lemma simple_not_cycle {V} (E : V -> V -> Prop) p c : simple_cycle E p c -> ~ on_cycle E p -> False.
Proof. intros H1 H2. apply H2. eapply simple_on_cycle, H1. Qed.
Lemma included_fun fs pj src h i d1 h1 e1 d2 h2 e2 : included fs pj src h i d1 h1 e1 ->
  included fs pj src h i d2 h2 e2 -> d1 = d2 /\ h1 = h2 /\ Forall2 alike e1 e2.
Proof.
  intros H1 H2. inversion H1; subst; inversion H2; subst;
    repeat match goal with
    | A : include_path fs i = ?x, B : include_path fs i = ?y |- _ => rewrite A in B; injection B as B; subst; clear A
    | A : include_path fs i = ?x, B : include_path fs i = ?y |- _ => rewrite A in B; discriminate
    end;
    try (exfalso; eapply simple_not_cycle; eassumption); try (exfalso; congruence).
  - repeat split; auto using alikes_refl.
  - repeat split; auto. constructor; [|constructor]. repeat split; auto. cbn. congruence.
  - repeat split; auto using alikes_refl.
  - assert (f = f0) as <- by congruence. repeat split; auto.
    repeat match goal with K : _ /\ _ \/ _ /\ _ |- _ => destruct K as [[? ->]|[? ->]] end;
      try apply alikes_refl; exfalso;
      match goal with A : exists d, _, B : forall d, ~ _ |- _ => destruct A as [? A]; exact (B _ A) end.
Qed.
Lemma header_fun ps t e1 e2 : header_diags ps t e1 -> header_diags ps t e2 -> e1 = e2.
Proof. intros H1 H2. inversion H1; subst; inversion H2; subst; auto; contradiction. Qed.

Lemma elements_fun fs pj src l : forall ft ps ds h ds1 h1 e1 ds2 h2 e2,
  elements fs pj src ft ps ds h l ds1 h1 e1 -> elements fs pj src ft ps ds h l ds2 h2 e2 ->
  (forall l1 r l2 k, l = l1 ++ PReferencedNode r :: l2 -> wt_item (rn_reference r) = RefLabel k -> ft = DtSource ->
     forall ds' h' e', elements fs pj src ft ps ds h l1 ds' h' e' ->
     forall p n q m, path_means ds' p n -> path_means ds' q m ->
       label_is (nd_label n) k -> label_is (nd_label m) k -> p = q) ->
  ds1 = ds2 /\ h1 = h2 /\ Forall2 alike e1 e2.
Proof.
  induction l as [|p l IH]; intros ft ps ds h ds1 h1 e1 ds2 h2 e2 H1 H2 Hu.
  - apply elements_nil_inv in H1, H2. destruct H1 as (-> & -> & ->), H2 as (-> & -> & ->). auto.
  - apply elements_cons_inv in H1, H2.
    destruct H1 as (dp1 & g1 & ep1 & f1 & A1 & B1 & ->), H2 as (dp2 & g2 & ep2 & f2 & A2 & B2 & ->).
    assert (E : dp1 = dp2 /\ g1 = g2 /\ Forall2 alike ep1 ep2).
    { inversion A1; subst; inversion A2; subst; try contradiction; auto using alikes_refl.
      - match goal with A : header_diags _ _ _, B : header_diags _ _ _ |- _ => rewrite (header_fun _ _ _ _ A B) end.
        auto using alikes_refl.
      - eapply included_fun; eassumption.
      - match goal with A : opens _ _ _ _, B : opens _ _ _ _ |- _ => pose proof (opens_found _ _ _ _ _ _ A B) as <- end.
        match goal with A : blame _ _ _ _ _, B : blame _ _ _ _ _ |- _ => rewrite (blame_fun _ _ _ _ _ _ A B) end.
        auto using alikes_refl.
      - match goal with A : opens _ _ ?p _, B : opens _ _ ?q _ |- _ =>
          pose proof (opens_found _ _ _ _ _ _ A B) as <-; assert (p = q) as ->;
          [eapply opens_fun; [exact A|exact B|]; intros k p' n q' m Er; eapply (Hu [] r l k eq_refl Er eq_refl); constructor|]
        end.
        match goal with A : blame _ _ _ _ _, B : blame _ _ _ _ _ |- _ => rewrite (blame_fun _ _ _ _ _ _ A B) end.
        auto using alikes_refl. }
    destruct E as (<- & <- & E). destruct (IH _ _ _ _ _ _ _ _ _ _ B1 B2) as (<- & <- & E2).
    + intros l1 r l2 k -> Er Et ds' h' e' Hl. eapply (Hu (p :: l1) r l2 k eq_refl Er Et). econstructor; eassumption.
    + repeat split; auto. apply Forall2_app; assumption.
Qed.
Lemma version_fun src ft ps e1 e2 : version_diags src ft ps e1 -> version_diags src ft ps e2 -> e1 = e2.
Proof. intros H1 H2. inversion H1; subst; inversion H2; subst; auto; exfalso; intuition congruence. Qed.
Lemma references_fun ft ps ds l : forall e1 e2, reference_diags ft ps ds l e1 -> reference_diags ft ps ds l e2 -> e1 = e2.
Proof.
  induction l as [|r l IH]; intros e1 e2 H1 H2; inversion H1; subst; inversion H2; subst; [reflexivity|].
  assert (found = found0) as <-.
  { destruct found, found0; auto; exfalso; intuition congruence. }
  f_equal; [eapply blame_fun; eassumption|eapply IH; eassumption].
Qed.

Theorem C32_hash_order_partial : forall fs pj file ft h ac1 es1 ac2 es2, project_ok pj ->
  (ft = DtSource -> unambiguous fs pj file h) ->
  analysed fs pj file ft h ac1 es1 -> analysed fs pj file ft h ac2 es2 ->
  Forall2 alike es1 es2
  /\ (forall r, get_referenced ac1 r = get_referenced ac2 r)
  /\ (forall l, m_get str_eq_dec l (ac_labels ac1) = m_get str_eq_dec l (ac_labels ac2)).
Proof.
  intros fs pj file ft h ac1 es1 ac2 es2 Hp Hu H1 H2.
  apply (analysed_spec _ _ _ _ _ _ _ Hp) in H1, H2.
  destruct H1 as (ds1 & h1 & A1 & _ & L1 & P1), H2 as (ds2 & h2 & A2 & _ & L2 & P2).
  inversion A1 as [? ? e1 v1 r1 B1 C1 D1]; subst. inversion A2 as [? ? e2 v2 r2 B2 C2 D2]; subst.
  destruct (elements_fun _ _ _ _ _ _ _ _ _ _ _ _ _ _ B1 B2) as (<- & <- & E).
  { intros l1 r l2 k El Er Et ds' h' e' Hl. subst ft. eapply (Hu eq_refl); eassumption. }
  rewrite (version_fun _ _ _ _ _ C1 C2), (references_fun _ _ _ _ _ _ D1 D2).
  assert (EL : forall l, m_get str_eq_dec l (ac_labels ac1) = m_get str_eq_dec l (ac_labels ac2)).
  { intros l. destruct (m_get str_eq_dec l (ac_labels ac1)) as [x|] eqn:F; [symmetry; apply L2, L1, F|].
    destruct (m_get str_eq_dec l (ac_labels ac2)) as [x|] eqn:F2; [|reflexivity]. apply L2, L1 in F2. congruence. }
  split; [apply Forall2_app; [exact E|apply alikes_refl]|]. split; [|exact EL].
  intros [l|p]; cbn [get_referenced].
  - unfold get_node_by_label. rewrite EL. reflexivity.
  - unfold get_node_by_path. destruct (m_get npath_eq_dec p (ac_flat ac1)) as [x|] eqn:F; [symmetry; apply P2, P1, F|].
    destruct (m_get npath_eq_dec p (ac_flat ac2)) as [x|] eqn:F2; [|reflexivity]. apply P2, P1 in F2. congruence.
Qed.
Print Assumptions C32_hash_order_partial.

(** a file that opens no label is unambiguous, and so is one that opens a label that one node has *)
Definition ex32b : dts_file := tree_of (bs "/dts-v1/; / { l: a { }; b { }; }; &l { z { }; }; /delete-node/ &l;").
Lemma root_only_paths fs pj src ft t n h ds h' es : 
  elements fs pj src ft [] [] h [PDirective (ADtsHeader t); PRoot n] ds h' es -> ds = node_defs [] n.
Proof.
  intros H. assert (Pl : Forall plain [PDirective (ADtsHeader t); PRoot n]) by repeat constructor.
  apply (plain_defs _ _ _ _ _ Pl) in H. rewrite H. cbn. apply app_nil_r.
Qed.
Example C32_case : unambiguous no_fs empty_project ex32b []
  /\ (exists ac es, analysed no_fs empty_project ex32b DtSource [] ac es)
  /\ length (fl_elements ex32b) = 4%nat.
Proof.
  split; [|split; [|vm_compute; reflexivity]].
  - assert (E : exists t n r d, fl_elements ex32b = [PDirective (ADtsHeader t); PRoot n; PReferencedNode r; PDirective d]
      /\ exists a b, node_defs [] n = [DNode [] n; DNode [mkNN (bs "a") None] a; DNode [mkNN (bs "b") None] b]
         /\ nd_label n = None /\ nd_label b = None).
    { do 4 eexists. split; [vm_compute; reflexivity|]. do 2 eexists. split; [vm_compute; reflexivity|]. vm_compute. auto. }
    destruct E as (t & n & r & d & E & a & b & En & Ln & Lb).
    intros l1 r' l2 l El Er ds h1 e1 Hl p m q m' Hp Hq Lp Lq. rewrite E in El.
    assert (E1 : l1 = [PDirective (ADtsHeader t); PRoot n]).
    { destruct l1 as [|x1 [|x2 [|x3 [|x4 [|x5 l1]]]]]; try discriminate El.
      - injection El as -> -> _. reflexivity. }
    subst l1. apply root_only_paths in Hl. subst ds. rewrite En in Hp, Hq.
    assert (K : forall p m, path_means [DNode [] n; DNode [mkNN (bs "a") None] a; DNode [mkNN (bs "b") None] b] p m ->
      label_is (nd_label m) l -> p = [mkNN (bs "a") None]).
    { clear p m q m' Hp Hq Lp Lq. intros p m (pre & d0 & post & E0 & Hb & _) (w & Hw & _).
      assert (I : In d0 [DNode [] n; DNode [mkNN (bs "a") None] a; DNode [mkNN (bs "b") None] b])
        by (rewrite E0; apply in_or_app; right; left; reflexivity).
      destruct I as [<-|[<-|[<-|[]]]]; inversion Hb; subst; auto; congruence. }
    rewrite (K p m Hp Lp), (K q m' Hq Lq). reflexivity.
  - assert (E : exists ac es a', analyze_file o_id no_fs empty_project ex32b DtSource analysis_new = Done ((ac, es), a'))
      by (do 3 eexists; vm_compute; reflexivity).
    destruct E as (ac & es & a' & E). exists ac, es. exact (run_analysed _ _ _ _ _ _ o_id_ok E).
Qed.

(** ** C33: opening a node by label.
    Full statement: in a source that is no plugin "&l { }" is reported iff no earlier node carries the label. *)
Definition ex33 : dts_file := tree_of (bs "/dts-v1/; / { l: a { }; }; / { a { }; }; &l { };").
Theorem C33_reopened_refuted : exists fs pj file h l1 r l2 l ac es, project_ok pj
  /\ analysed fs pj file DtSource h ac es
  /\ fl_elements file = l1 ++ PReferencedNode r :: l2 /\ wt_item (rn_reference r) = RefLabel l
  /\ (exists p n, In (DNode p n) (root_defs l1) /\ label_is (nd_label n) l)
  /\ of_kind UnresolvedReference es = [unresolved_diag (rn_reference r)].
Proof.
  assert (E : exists l1 r ac a', fl_elements ex33 = l1 ++ [PReferencedNode r] /\ wt_item (rn_reference r) = RefLabel (bs "l")
    /\ (exists n d1 m d2, root_defs l1 = d1 :: DNode [mkNN (bs "a") None] n :: d2 :: m /\ exists w, nd_label n = Some w /\ wt_item w = bs "l")
    /\ analyze_file o_id no_fs empty_project ex33 DtSource analysis_new = Done ((ac, [unresolved_diag (rn_reference r)]), a')).
  { assert (F : exists x y z r, fl_elements ex33 = [x; y; z; PReferencedNode r]) by (do 4 eexists; vm_compute; reflexivity).
    destruct F as (x & y & z & r & F). exists [x; y; z], r.
    assert (E : [x; y; z] = firstn 3 (fl_elements ex33)) by (rewrite F; reflexivity).
    assert (E' : PReferencedNode r = nth 3 (fl_elements ex33) (PCStyleInclude [])) by (rewrite F; reflexivity).
    assert (Er : r = match nth 3 (fl_elements ex33) (PCStyleInclude []) with PReferencedNode r => r | _ => r end) by (rewrite <- E'; reflexivity).
    do 2 eexists. split; [rewrite F; reflexivity|]. rewrite E, Er. split; [vm_compute; reflexivity|].
    split; [do 4 eexists; split; [vm_compute; reflexivity|]; eexists; split; vm_compute; reflexivity|].
    vm_compute. reflexivity. }
  destruct E as (l1 & r & ac & a' & E1 & E2 & (n & d1 & m & d2 & E3 & (w & Hw1 & Hw2)) & E4).
  exists no_fs, empty_project, ex33, [], l1, r, [], (bs "l"), ac, [unresolved_diag (rn_reference r)].
  split; [exact empty_ok|]. split; [exact (run_analysed _ _ _ _ _ _ o_id_ok E4)|]. split; [exact E1|]. split; [exact E2|].
  split; [|reflexivity]. exists [mkNN (bs "a") None], n. rewrite E3. split; [right; left; reflexivity|]. exists w. auto.
Qed.
Print Assumptions C33_reopened_refuted.

(** what holds: it is reported iff no node that is the last one at its path carries the label *)
Theorem C33_reopened_partial : forall fs pj file h l1 r l2 l ac es, project_ok pj ->
  analysed fs pj file DtSource h ac es ->
  fl_elements file = l1 ++ PReferencedNode r :: l2 -> wt_item (rn_reference r) = RefLabel l ->
  ~ has_plugin l1 ->
  exists ds h1 e1 e2 er, elements fs pj (fl_source file) DtSource [] [] h l1 ds h1 e1 /\ es = e1 ++ er ++ e2
    /\ ((er = [] /\ exists p n, path_means ds p n /\ label_is (nd_label n) l)
        \/ (er = [unresolved_diag (rn_reference r)] /\ forall p n, path_means ds p n -> ~ label_is (nd_label n) l)).
Proof.
  intros fs pj file h l1 r l2 l ac es Hp Ha El Er Hn. apply (analysed_spec _ _ _ _ _ _ _ Hp) in Ha.
  destruct Ha as (ds & h' & A & _ & _ & _). inversion A as [? ? e0 v0 r0 B C D]; subst. rewrite El in B.
  apply elements_at in B. destruct B as (ds1 & h1 & e1 & dp & h2 & ep & new & e2 & B1 & B2 & B3 & B4 & ->).
  inversion B2; subst; [|contradiction].
  exists ds1, h2, e1, (flat_map compatible_diags (element_properties (PReferencedNode r)) ++ e2 ++ v0 ++ r0), es.
  split; [exact B1|]. split; [rewrite <- !app_assoc; reflexivity|].
  match goal with O : opens _ _ _ _, B : blame _ _ _ _ _ |- _ =>
    rewrite Er in O; inversion O; subst; inversion B; subst
  end.
  - left. eauto.
  - exfalso. match goal with K : ~ blames _ _ |- _ => apply K end. split; auto.
  - right. auto.
Qed.
Print Assumptions C33_reopened_partial.
Definition ex33b : dts_file := tree_of (bs "/dts-v1/; / { l: a { }; }; &l { }; &m { };").
Example C33_case : kinds (snd (run_with o_id empty_project DtSource ex33b)) = [UnresolvedReference]
  /\ plugin_free (fl_elements ex33b) = true.
Proof. vm_compute. auto. Qed.

(** ** C34: included definitions *)
Lemma known_include fs pj src h i dp h' es p f : included fs pj src h i dp h' es ->
  of_kind CyclicDependencyError es = [] -> include_path fs i = inl p -> get_file fs pj p = Some f ->
  dp = match pf_ctx f with Some c => [DInclude c] | None => [] end
  /\ ((exists d, error_diag pj f d) /\ es = [mkDiag ErrorsInInclude (include_span i) (include_source i)
                                             (bs "Included file contains errors")]
       \/ (forall d, ~ error_diag pj f d) /\ es = []).
Proof.
  intros H Hc Ei Ef. inversion H; subst; try congruence.
  - discriminate Hc.
  - assert (p0 = p) as -> by congruence. assert (f0 = f) as -> by congruence. auto.
Qed.

(** the labels and paths of the included file mean the same in the including file, unless defined again by
    the elements after the include *)
Theorem C34_included_visible : forall fs pj file ft h ac es l1 i l2 p f c, project_ok pj ->
  analysed fs pj file ft h ac es ->
  fl_elements file = l1 ++ PDirective (AInclude i) :: l2 ->
  include_path fs i = inl p -> get_file fs pj p = Some f -> pf_ctx f = Some c ->
  of_kind CyclicDependencyError es = [] ->
  exists before h2 later h' e2,
    elements fs pj (fl_source file) ft (l1 ++ [PDirective (AInclude i)]) before h2 l2 (before ++ later) h' e2
    /\ (forall l x, m_get str_eq_dec l (ac_labels c) = Some x ->
          (forall d y, In d later -> ~ binds_label l d y) -> m_get str_eq_dec l (ac_labels ac) = Some x)
    /\ (forall q n, get_node_by_path c q = Some n ->
          (forall d y, In d later -> ~ binds_path q d y) -> get_node_by_path ac q = Some n).
Proof.
  intros fs pj file ft h ac es l1 i l2 p f c Hp Ha El Ei Ef Ec Hc. apply (analysed_spec _ _ _ _ _ _ _ Hp) in Ha.
  destruct Ha as (ds & h' & A & _ & HL & HP). inversion A as [? ? e0 v0 r0 B C D]; subst. rewrite El in B.
  apply elements_at in B. destruct B as (ds1 & h1 & e1 & dp & h2 & ep & new & e2 & B1 & B2 & B3 & B4 & ->).
  rewrite !of_kind_app in Hc. apply app_eq_nil in Hc. destruct Hc as [Hc _]. apply app_eq_nil in Hc. destruct Hc as [_ Hc].
  apply app_eq_nil in Hc. destruct Hc as [Hc _]. inversion B2; subst.
  match goal with K : included _ _ _ _ _ _ _ _ |- _ => destruct (known_include _ _ _ _ _ _ _ _ _ _ K Hc Ei Ef) as [-> _] end.
  rewrite Ec in *. exists (ds1 ++ [DInclude c]), h2, new, h', e2. split; [exact B3|].
  split.
  - intros l x Hx Hn. apply HL. exists ds1, (DInclude c), new. split; [rewrite <- app_assoc; reflexivity|].
    split; [constructor; apply m_get_in in Hx; exact Hx|exact Hn].
  - intros q n Hx Hn. apply HP. exists ds1, (DInclude c), new. split; [rewrite <- app_assoc; reflexivity|].
    split; [constructor; apply m_get_in in Hx; exact Hx|exact Hn].
Qed.
Print Assumptions C34_included_visible.

(** ** C51: errors in includes *)
Theorem C51_errors_in_include : forall fs pj file ft h ac es l1 i l2 p f, project_ok pj ->
  analysed fs pj file ft h ac es ->
  fl_elements file = l1 ++ PDirective (AInclude i) :: l2 ->
  include_path fs i = inl p -> get_file fs pj p = Some f ->
  of_kind CyclicDependencyError es = [] ->
  exists ds1 h1 e1 er e2, elements fs pj (fl_source file) ft [] [] h l1 ds1 h1 e1 /\ es = e1 ++ er ++ e2
    /\ ((exists d, In d (pf_diags f) /\ pj_sev pj (dg_kind d) = SevError)
        /\ er = [mkDiag ErrorsInInclude (include_span i) (include_source i) (bs "Included file contains errors")]
        \/ (forall d, In d (pf_diags f) -> pj_sev pj (dg_kind d) <> SevError) /\ er = []).
Proof.
  intros fs pj file ft h ac es l1 i l2 p f Hp Ha El Ei Ef Hc. apply (analysed_spec _ _ _ _ _ _ _ Hp) in Ha.
  destruct Ha as (ds & h' & A & _ & HL & HP). inversion A as [? ? e0 v0 r0 B C D]; subst. rewrite El in B.
  apply elements_at in B. destruct B as (ds1 & h1 & e1 & dp & h2 & ep & new & e2 & B1 & B2 & B3 & B4 & ->).
  rewrite !of_kind_app in Hc. apply app_eq_nil in Hc. destruct Hc as [Hc _]. apply app_eq_nil in Hc. destruct Hc as [_ Hc].
  apply app_eq_nil in Hc. destruct Hc as [Hc _]. inversion B2; subst.
  match goal with K : included _ _ _ _ _ _ _ _ |- _ => destruct (known_include _ _ _ _ _ _ _ _ _ _ K Hc Ei Ef) as [_ K2] end.
  exists ds1, h1, e1, ep, (e2 ++ v0 ++ r0). split; [exact B1|]. split; [rewrite <- !app_assoc; reflexivity|].
  destruct K2 as [[K1 K2]|[K1 K2]]; [left|right]; split; auto.
  intros d H1 H2. apply (K1 d). split; assumption.
Qed.
Print Assumptions C51_errors_in_include.

(** an include of a file with a context and an error *)
Definition leaf_ctx : actx := fst (run_with o_id empty_project DtSourceInclude (tree_of (bs "/ { l: a { }; m: b { }; };"))).
Definition leaf_error : diag := mkDiag Expected (mkSpan (mkPos 0 0) (mkPos 0 1)) (bs "b.dtsi") [].
Definition leaf_hint : diag := mkDiag NameTooLong (mkSpan (mkPos 0 0) (mkPos 0 1)) (bs "b.dtsi") [].
Definition project_with (ds : list diag) : project :=
  mkProject [(bs "b.dtsi", mkPF ds [] None (Some leaf_ctx) DtSourceInclude [])] [] default_severities.
Definition ex34 : dts_file := tree_of (bs "/dts-v1/; /include/ ""b.dtsi"" / { m: c { p = <&l>; }; };").
Example C34_case :
  project_ok (project_with [leaf_error])
  /\ (exists l1 i l2 f, fl_elements ex34 = l1 ++ PDirective (AInclude i) :: l2
      /\ include_path no_fs i = inl (bs "b.dtsi")
      /\ get_file no_fs (project_with [leaf_error]) (bs "b.dtsi") = Some f /\ pf_ctx f = Some leaf_ctx)
  /\ kinds (snd (run_with o_id (project_with [leaf_error]) DtSource ex34)) = [ErrorsInInclude]
  /\ kinds (snd (run_with o_id (project_with [leaf_hint]) DtSource ex34)) = []
  /\ get_node_by_label (fst (run_with o_id (project_with [leaf_error]) DtSource ex34)) (bs "l")
     = get_node_by_label leaf_ctx (bs "l")
  /\ option_map (fun n => nn_name (wt_item (nd_name n)))
       (get_node_by_label (fst (run_with o_id (project_with [leaf_error]) DtSource ex34)) (bs "m")) = Some (bs "c").
Proof.
  split; [|split; [|vm_compute; auto]].
  - assert (E1 : map fst (ac_labels leaf_ctx) = [bs "m"; bs "l"]) by (vm_compute; reflexivity).
    assert (E2 : map fst (ac_flat leaf_ctx) = [[mkNN (bs "b") None]; [mkNN (bs "a") None]; []]) by (vm_compute; reflexivity).
    assert (K : ctx_ok leaf_ctx).
    { unfold ctx_ok. rewrite E1, E2. split; repeat constructor; cbn [In]; intuition discriminate. }
    unfold project_with, project_ok. cbn [pj_files In]. generalize dependent leaf_ctx. intros x _ _ K p f c [E|[]].
    injection E as _ <-. cbn [pf_ctx]. congruence.
  - assert (E : exists t i n, fl_elements ex34 = [PDirective (ADtsHeader t)] ++ PDirective (AInclude i) :: [PRoot n]
      /\ include_path no_fs i = inl (bs "b.dtsi")) by (do 3 eexists; split; vm_compute; reflexivity).
    destruct E as (t & i & n & E1 & E2). exists [PDirective (ADtsHeader t)], i, [PRoot n], (mkPF [leaf_error] [] None (Some leaf_ctx) DtSourceInclude []).
    split; [exact E1|]. split; [exact E2|].
    unfold project_with, get_file. cbn [pj_files no_fs fs_canon m_get pf_ctx]. generalize leaf_ctx. intros x.
    destruct (str_eq_dec (bs "b.dtsi") (bs "b.dtsi")) as [_|F]; [split; reflexivity|congruence].
Qed.

(** ** C57: deleted nodes.
    Full statement: after "/delete-node/ &l" a reference to l is reported as unresolved. *)
Definition ex57 : dts_file := tree_of (bs "/dts-v1/; / { l: a { }; }; /delete-node/ &l; / { p = <&l>; }; &l { };").
Theorem C57_deleted_refuted : exists fs pj file ac l1 t r n rest, project_ok pj
  /\ analysed fs pj file DtSource [] ac []
  /\ fl_elements file = l1 ++ PDirective (ADeletedNode t r) :: PRoot n :: rest /\ plugin_free (fl_elements file) = true
  /\ wt_item r = RefLabel (bs "l")
  /\ map wt_item (all_references [PRoot n]) = [RefLabel (bs "l")]
  /\ (forall m p, In (DNode p m) (root_defs (PRoot n :: rest)) -> nd_label m = None).
Proof.
  assert (E : exists x y t r n z, fl_elements ex57 = [x; y] ++ PDirective (ADeletedNode t r) :: PRoot n :: [z]
    /\ plugin_free (fl_elements ex57) = true /\ wt_item r = RefLabel (bs "l")
    /\ map wt_item (all_references [PRoot n]) = [RefLabel (bs "l")]
    /\ (exists a b, root_defs (PRoot n :: [z]) = [DNode a n; DProperty b]) /\ nd_label n = None).
  { do 6 eexists. split; [vm_compute; reflexivity|]. repeat split; try (vm_compute; reflexivity).
    do 2 eexists. vm_compute. reflexivity. }
  destruct E as (x & y & t & r & n & z & E1 & E2 & E3 & E4 & (a & b & E5) & E6).
  assert (E : exists ac a', analyze_file o_id no_fs empty_project ex57 DtSource analysis_new = Done ((ac, []), a'))
    by (do 2 eexists; vm_compute; reflexivity).
  destruct E as (ac & a' & E). exists no_fs, empty_project, ex57, ac, [x; y], t, r, n, [z].
  split; [exact empty_ok|]. split; [exact (run_analysed _ _ _ _ _ _ o_id_ok E)|].
  split; [exact E1|]. split; [exact E2|]. split; [exact E3|]. split; [exact E4|].
  intros m p H. rewrite E5 in H. destruct H as [H|[H|[]]]; [|discriminate]. injection H as _ <-. exact E6.
Qed.
Print Assumptions C57_deleted_refuted.

(** what the deletion does: nothing to the lookups; it is reported if its own reference does not resolve *)
Theorem C57_delete_ignored_partial : forall fs pj file ft h ac es l1 t r l2, project_ok pj ->
  analysed fs pj file ft h ac es ->
  fl_elements file = l1 ++ PDirective (ADeletedNode t r) :: l2 ->
  exists ds h1 e1 er later h' e2 er2, elements fs pj (fl_source file) ft [] [] h l1 ds h1 e1
    /\ elements fs pj (fl_source file) ft (l1 ++ [PDirective (ADeletedNode t r)]) ds h1 l2 (ds ++ later) h' e2
    /\ es = e1 ++ er ++ e2 ++ er2
    /\ (er = [] \/ er = [unresolved_diag r] /\ forall p, ~ opens ds (wt_item r) p true)
    /\ (forall l n, get_node_by_label ac l = Some n <-> label_means (ds ++ later) l (LNode n))
    /\ (forall p n, get_node_by_path ac p = Some n <-> path_means (ds ++ later) p n).
Proof.
  intros fs pj file ft h ac es l1 t r l2 Hp Ha El. apply (analysed_spec _ _ _ _ _ _ _ Hp) in Ha.
  destruct Ha as (ds & h' & A & _ & HL & HP). inversion A as [? ? e0 v0 r0 B C D]; subst. rewrite El in B.
  apply elements_at in B. destruct B as (ds1 & h1 & e1 & dp & h2 & ep & new & e2 & B1 & B2 & B3 & B4 & ->).
  inversion B2; subst. rewrite app_nil_r in *.
  exists ds1, h2, e1, ep, new, h', e2, (v0 ++ r0). split; [exact B1|]. split; [exact B3|].
  split; [rewrite <- !app_assoc; reflexivity|]. split; [|split; [|exact HP]].
  - match goal with O : opens _ _ _ ?f, K : blame _ _ _ _ _ |- _ => inversion K; subst; auto; right; split; [reflexivity|];
      intros q Hq; pose proof (opens_found _ _ _ _ _ _ O Hq); discriminate end.
  - intros l n. unfold get_node_by_label. rewrite <- HL. destruct (m_get str_eq_dec l (ac_labels ac)) as [[m|q]|];
      split; congruence.
Qed.
Print Assumptions C57_delete_ignored_partial.
