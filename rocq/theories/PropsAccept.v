(** What the tool accepts: C97 *)
From Verif Require Import ParserBase LexSpec Utf8 LexerProofs LexerProofs2 Grammar PropsGrammar ProjectSpec ProjectProofs2 ProjectHistory
  PropsAnalysis PropsProject PropsProject3 PropsHistory PropsOrder PropsCli Cli Meaning Accept Tests.
From Coq Require Import Permutation Wf_nat Operators_Properties Relation_Operators.

(** ** The sources on the disk *)
(** [written fs incl k els]: the file [k] can be read, and its text is, by the grammar, the elements [els] *)
Definition written (fs : fsys) (incl : list fpath) (k : fpath) (els : list primary) : Prop :=
  exists t toks, read_to_string fs k = inl t /\ lexed k NameExpected [] t toks /\ derives (include_dirs incl k) toks els.
Definition disk_world (fs : fsys) (incl : list fpath) (k : fpath) (ft : file_type) (els : list primary) : Prop :=
  ft = file_type_of_path k /\ written fs incl k els.
Definition disk_leads (fs : fsys) (i : include) (k : fpath) : Prop := include_path fs i = inl k.
Definition disk_includes (fs : fsys) (incl : list fpath) (k q : fpath) : Prop :=
  exists els i, written fs incl k els /\ In (PDirective (AInclude i)) els /\ include_path fs i = inl q.
Definition disk_reaches (fs : fsys) (incl : list fpath) : fpath -> fpath -> Prop := clos_refl_trans _ (disk_includes fs incl).

(** the sources from [root] on are correct: each is grammatical, each is a correct file, and none includes itself in the end *)
Definition correct_sources (fs : fsys) (incl : list fpath) (root : fpath) : Prop :=
  forall k, disk_reaches fs incl root k ->
    (exists els, written fs incl k els /\ correct (disk_leads fs) (disk_world fs incl) (file_type_of_path k) els)
    /\ ~ clos_trans _ (disk_includes fs incl) k k.

Lemma written_fun fs incl k e1 e2 : written fs incl k e1 -> written fs incl k e2 -> e1 = e2.
Proof.
  intros (t & toks & R & L & D) (t' & toks' & R' & L' & D'). assert (t' = t) as -> by congruence. pose proof (proj1 (read_valid fs k t R)) as Hv.
  apply (tokenize_iff t k toks Hv) in L. pose proof L as L2. apply (tokenize_iff t k toks' Hv) in L'. assert (toks' = toks) as -> by congruence.
  apply (tokenize_iff t k toks Hv) in L2. symmetry. exact (proj2 (C11_grammatical_parses_clean _ _ _ _ _ Hv L2 D) _ D').
Qed.
Lemma written_parses fs incl k els t : read_to_string fs k = inl t -> written fs incl k els -> parses (include_dirs incl k) t k (mkFile els k) [].
Proof.
  intros R (t' & toks & R' & L & D). assert (t' = t) as -> by congruence.
  exact (proj1 (C11_grammatical_parses_clean _ _ _ _ _ (proj1 (read_valid fs k t R)) L D)).
Qed.
Lemma parses_written fs incl k f t : read_to_string fs k = inl t -> parses (include_dirs incl k) t k f [] -> written fs incl k (fl_elements f) /\ fl_source f = k.
Proof.
  intros R P. destruct (C10_clean_parse_derives _ _ _ _ (proj1 (read_valid fs k t R)) P) as (E & toks & L & D).
  split; [exists t, toks; auto|exact E].
Qed.

(** ** A run of the tool: one addition to an empty project *)
Record run_facts (fs : fsys) (o : oracle) (incl : list fpath) (root : fpath) (pj' : project) (files : list (fpath * pfile)) (order : list fpath) : Prop := {
  rf_incl : pj_incl pj' = incl;
  rf_stored : forall k v, fget k files = Some v -> exists t, read_to_string fs k = inl t /\ stored fs incl root [] k t (file_type_of_path k) v;
  rf_keys : forall k, In k (keys files) -> exists text, read_to_string fs root = inl text /\ loaded fs incl root text [] k;
  rf_root : In root (keys files);
  rf_closed : closed_files fs files;
  rf_perm : Permutation order (keys files);
  rf_inv : project_inv pj';
  rf_analysed : analysed_in (o_an o) fs files [] order pj';
  rf_same : forall k, match fget k (pj_files pj'), fget k files with Some v, Some w => same_source v w | None, None => True | _, _ => False end
}.
Lemma run_done fs u fuel o name dirs pj' : finite_fs fs u -> (length u < fuel)%nat -> order_ok o -> canon_stable fs ->
  add_file fuel o fs name (set_include_paths fs dirs project_new) = Done (inr pj') ->
  exists root text files order, fs_canon fs name = inl root /\ read_to_string fs root = inl text
    /\ add_file_with_text fuel o fs root text (file_type_of_path root) (set_include_paths fs dirs project_new) = Done pj'
    /\ run_facts fs o (pj_incl (set_include_paths fs dirs project_new)) root pj' files order.
Proof.
  intros Hf Hl Ho Hs E. unfold add_file in E.
  destruct (fs_canon fs name) as [root|e] eqn:Ec; [|discriminate]. destruct (read_to_string fs root) as [text|e] eqn:Er; [|discriminate].
  destruct (add_file_with_text fuel o fs root text (file_type_of_path root) _) as [pj2| |] eqn:E2; try discriminate.
  cbn [obind] in E. injection E as ->.
  assert (Hp : reached (set_include_paths fs dirs project_new)) by (repeat constructor).
  pose proof (proj1 (read_valid fs root text Er)) as Hv.
  destruct (add_done _ _ _ _ _ _ _ _ _ _ Hf Hl Ho (Hs _ _ Ec) Hv Hp E2) as (files' & order & L & Hcl & Hk & P & Hp' & Hi & _ & A & S).
  exists root, text, files', order. split; [reflexivity|]. split; [exact Er|]. split; [exact E2|].
  cbn [set_include_paths pj_files project_new m_keys map] in L. constructor; try assumption.
  - intros k v Hk'. destruct (load_cases _ _ _ _ _ _ _ Hv L k v Hk') as [[_ X]|(Hld & _)]; [discriminate X|].
    destruct (str_eq_dec k root) as [->|Hne].
    + destruct (li_root _ _ _ _ _ _ _ L) as (w & W1 & W2). assert (w = v) as -> by congruence. exists text. auto.
    + destruct (li_new _ _ _ _ _ _ _ L k Hld Hne) as (_ & t & w & R & W1 & W2). assert (w = v) as -> by congruence. exists t. auto.
  - intros k Hk'. exists text. split; [exact Er|]. apply (li_keys _ _ _ _ _ _ _ L) in Hk'. destruct Hk' as [[]|Hk']. exact Hk'.
  - apply (li_keys _ _ _ _ _ _ _ L). right. constructor.
Qed.

Section Run.
  Context (fs : fsys) (o : oracle) (incl : list fpath) (root : fpath) (pj' : project) (files : list (fpath * pfile)) (order : list fpath).
  Hypothesis RF : run_facts fs o incl root pj' files order.
  Hypothesis Hst : canon_stable fs.
  Hypothesis Ho : order_ok o.

  Lemma run_at k w : fget k (pj_files pj') = Some w -> exists v, fget k files = Some v /\ same_source w v.
  Proof. intros H. pose proof (rf_same _ _ _ _ _ _ _ RF k) as S. rewrite H in S. destruct (fget k files) as [v|]; [|contradiction]. exists v. auto. Qed.
  Lemma run_at' k v : fget k files = Some v -> exists w, fget k (pj_files pj') = Some w /\ same_source w v.
  Proof. intros H. pose proof (rf_same _ _ _ _ _ _ _ RF k) as S. rewrite H in S. destruct (fget k (pj_files pj')) as [w|]; [|contradiction]. exists w. auto. Qed.
  Lemma run_type k v : fget k files = Some v -> pf_type v = file_type_of_path k.
  Proof. intros H. destruct (rf_stored _ _ _ _ _ _ _ RF k v H) as (t & _ & _ & S & _). exact S. Qed.

  (** *** Runs in which the parser is silent *)
  Section Clean.
    Hypothesis Hclean : forall k w, fget k (pj_files pj') = Some w -> pf_pdiags w = [].
    Lemma clean_file k v : fget k files = Some v -> exists f, pf_file v = Some f /\ written fs incl k (fl_elements f) /\ fl_source f = k
      /\ forall i, In (PDirective (AInclude i)) (fl_elements f) -> exists q, include_path fs i = inl q /\ In q (keys files).
    Proof.
      intros H. destruct (rf_stored _ _ _ _ _ _ _ RF k v H) as (t & R & _ & _ & _ & _ & S). destruct (run_at' k v H) as (w & Hw & S1 & _).
      rewrite (Hclean k w Hw) in S1. destruct S as [(f & s & S2 & S3 & S4)|(d & s & _ & _ & S4)]; [|congruence].
      rewrite S4 in S1. symmetry in S1. apply app_eq_nil in S1. destruct S1 as [D1 D2]. exists f. split; [exact S3|].
      destruct (parses_written fs incl k f t R) as [W Es]; [exists s; auto|]. split; [exact W|]. split; [exact Es|].
      intros i Hi. destruct (include_path fs i) as [q|e] eqn:Ei.
      - exists q. split; [reflexivity|]. apply (rf_closed _ _ _ _ _ _ _ RF k q). exists v, f, i. auto.
      - exfalso. assert (X : In (mkDiag IOError (include_span i) (include_source i) e) (flat_map (element_diags fs root []) (fl_elements f))); [|rewrite D2 in X; destruct X].
        apply in_flat_map. exists (PDirective (AInclude i)). split; [exact Hi|]. cbn [element_diags]. unfold include_diags. rewrite Ei. left. reflexivity.
    Qed.
    Lemma clean_world k v f : fget k files = Some v -> pf_file v = Some f -> disk_world fs incl k (pf_type v) (fl_elements f).
    Proof.
      intros H E. destruct (clean_file k v H) as (f' & E' & W & _). assert (f' = f) as -> by congruence. split; [exact (run_type k v H)|exact W].
    Qed.

    Lemma clean_reaches k : disk_reaches fs incl root k -> In k (keys files).
    Proof.
      intros H. apply clos_rt_rtn1 in H. induction H as [|q k (els & i & W & Hi & Ei) _ IH]; [exact (rf_root _ _ _ _ _ _ _ RF)|].
      destruct (m_get_some_key str_eq_dec q files IH) as [v Hv]. destruct (clean_file q v Hv) as (f & Ef & W' & _). rewrite (written_fun _ _ _ _ _ W W') in Hi.
      apply (rf_closed _ _ _ _ _ _ _ RF q k). exists v, f, i. auto.
    Qed.
    Lemma clean_edge k q : In k (keys files) -> disk_includes fs incl k q -> stored_includes fs files k q.
    Proof.
      intros Hk (els & i & W & Hi & Ei). destruct (m_get_some_key str_eq_dec k files Hk) as [v Hv]. destruct (clean_file k v Hv) as (f & Ef & W' & _).
      rewrite (written_fun _ _ _ _ _ W W') in Hi. exists v, f, i. auto.
    Qed.
  End Clean.

  (** *** Silent runs *)
  Section Silent.
    Hypothesis Hq : ~ found pj'.
    Lemma silent_at k w : fget k (pj_files pj') = Some w -> pf_pdiags w = [] /\ pf_adiags w = [].
    Proof.
      intros H. destruct (pf_diags w) as [|d ds] eqn:E; [apply app_eq_nil in E; exact E|]. destruct Hq. exists k, w. split; [eapply m_get_in, H|congruence].
    Qed.
    Let Hclean : forall k w, fget k (pj_files pj') = Some w -> pf_pdiags w = [] := fun k w H => proj1 (silent_at k w H).
    Let silent_file := clean_file Hclean.
    Let silent_world := clean_world Hclean.
    Lemma silent_prefix k1 : forall k2, order = k1 ++ k2 -> forall q w c f, In q k1 -> fget q (pj_files pj') = Some w -> pf_ctx w = Some c -> pf_file w = Some f ->
      describes (disk_leads fs) (disk_world fs incl) c (pf_type w) (fl_elements f) /\ correct (disk_leads fs) (disk_world fs incl) (pf_type w) (fl_elements f).
    Proof.
      induction k1 as [|k k1 IH] using rev_ind; intros k2 Eo q w c f Hin Hw Hc Hfile; [destruct Hin|].
      rewrite <- app_assoc in Eo. cbn [app] in Eo. apply in_app_or in Hin. destruct Hin as [Hin|[<-|[]]]; [exact (IH (k :: k2) Eo q w c f Hin Hw Hc Hfile)|].
      destruct (run_at k w Hw) as (v & Hv & S1 & S2 & S3 & S4). assert (Ef : pf_file v = Some f) by congruence.
      destruct (rf_analysed _ _ _ _ _ _ _ RF) as (A1 & A2 & A3 & A4).
      destruct (A4 k1 k k2 v f Eo Hv Ef) as (pjk & a & a' & ac & es & B1 & B2 & B3 & B4 & B5 & Bs & B6 & B7).
      assert (Ew : w = store_result (ac, es) v) by congruence. destruct (silent_at k w Hw) as [_ Q]. rewrite Ew in Q, Hc. cbn [store_result pf_adiags pf_ctx fst snd] in Q, Hc. injection Hc as ->. subst es.
      destruct (analysed_spec fs pjk f (pf_type v) (deps_of fs files k1) c [] B5) as (ds & h' & An & Ok & HL & HP).
      { exists (o_an o), a, a'. split; [apply Ho|]. split; [exact B2|exact B3]. }
      destruct (silent_file k v Hv) as (f' & E' & W & Hsrc & Hinc). assert (f' = f) as -> by congruence. rewrite Hsrc in An. rewrite S3.
      destruct (file_sound (disk_leads fs) (disk_world fs incl) fs pjk k (fun _ => True)) with (ft := pf_type v) (h := deps_of fs files k1) (ps := fl_elements f) (ds := ds) (h' := h') as [F C].
      - intros i q Hi. exact Hi.
      - intros i q g c' _ Hi Hg Hc'. destruct (include_canon fs i q Hi) as [x Hx]. unfold get_file in Hg. rewrite (Hst x q Hx) in Hg.
        change (m_get str_eq_dec q (pj_files pjk)) with (fget q (pj_files pjk)) in Hg.
        destruct (in_dec str_eq_dec q k1) as [Hq1|Hq1].
        + rewrite (B6 q Hq1) in Hg. destruct (run_at q g Hg) as (gv & Hgv & T1 & T2 & T3 & T4). destruct (silent_file q gv Hgv) as (gf & Gf & _).
          exists (pf_type g), (fl_elements gf). split; [rewrite T3; exact (silent_world q gv gf Hgv Gf)|].
          eapply IH; [exact Eo|exact Hq1|exact Hg|exact Hc'|congruence].
        + rewrite (B7 q Hq1) in Hg. destruct (rf_stored _ _ _ _ _ _ _ RF q g Hg) as (t & _ & _ & _ & N & _). congruence.
      - exact An.
      - intros; exact Logic.I.
      - intros i Hi. destruct (Hinc i Hi) as (q & Eq & Hk). destruct (m_get_some_key str_eq_dec q files Hk) as [gv Hgv]. destruct (silent_file q gv Hgv) as (gf & Gf & _).
        exists q, (pf_type gv), (fl_elements gf). split; [exact Eq|exact (silent_world q gv gf Hgv Gf)].
      - split; [|exact C]. eapply lookups_describe; [exact F|]. split; [exact Ok|]. split; [exact HL|exact HP].
    Qed.
    Lemma silent_correct k v f : fget k files = Some v -> pf_file v = Some f -> correct (disk_leads fs) (disk_world fs incl) (pf_type v) (fl_elements f).
    Proof.
      intros Hv Ef. assert (Hko : In k order) by (eapply Permutation_in; [apply Permutation_sym, (rf_perm _ _ _ _ _ _ _ RF)|eapply m_get_key, Hv]).
      pose proof Hko as Hko'. apply in_split in Hko'. destruct Hko' as (k1 & k2 & Eo). destruct (rf_analysed _ _ _ _ _ _ _ RF) as (A1 & A2 & A3 & A4).
      destruct (A4 k1 k k2 v f Eo Hv Ef) as (pjk & a & a' & ac & es & B1 & _). destruct (run_at k _ B1) as (v' & Hv' & S1 & S2 & S3 & S4).
      assert (v' = v) as -> by congruence. rewrite <- S3.
      apply (silent_prefix order [] (eq_sym (app_nil_r order)) k _ ac f Hko B1); [reflexivity|congruence].
    Qed.
  End Silent.
  (** *** Runs over correct sources *)
  Section Right.
    Hypothesis Hgood : correct_sources fs incl root.
    Lemma right_reaches k : In k (keys files) -> disk_reaches fs incl root k.
    Proof.
      intros H. destruct (rf_keys _ _ _ _ _ _ _ RF k H) as (text & R & L). clear H. induction L as [|p q L IH (t & f & s & i & T & Pt & Hi & Ei) _ _]; [apply rt_refl|].
      destruct (Hgood p IH) as [(els & W & _) _]. eapply rt_trans; [exact IH|]. apply rt_step. exists els, i. split; [exact W|]. split; [|exact Ei].
      assert (Rp : read_to_string fs p = inl t).
      { unfold text_of in T. destruct (str_eq_dec p root) as [->|]; [congruence|]. destruct (read_to_string fs p); congruence. }
      destruct (written_parses fs incl p els t Rp W) as (s' & P & _). rewrite Pt in P. injection P as -> _. exact Hi.
    Qed.
    Lemma right_file k v : fget k files = Some v -> exists els, pf_file v = Some (mkFile els k) /\ pf_pdiags v = [] /\ written fs incl k els
      /\ correct (disk_leads fs) (disk_world fs incl) (pf_type v) els.
    Proof.
      intros H. pose proof (right_reaches k ltac:(eapply m_get_key, H)) as Hk. destruct (Hgood k Hk) as [(els & W & C) _].
      destruct (rf_stored _ _ _ _ _ _ _ RF k v H) as (t & R & _ & Ty & _ & _ & S). destruct (written_parses fs incl k els t R W) as (s' & P & D).
      exists els. rewrite Ty. destruct S as [(f & s & S2 & S3 & S4)|(d & s & S2 & _)]; [|congruence].
      rewrite P in S2. injection S2 as <- <-. split; [exact S3|]. split; [|auto]. rewrite S4, D. cbn [app fl_elements].
      assert (G : forall l, (forall i, In (PDirective (AInclude i)) l -> exists k ft' els, disk_leads fs i k /\ disk_world fs incl k ft' els) -> flat_map (element_diags fs root []) l = []).
      { induction l as [|e l IH]; intros G; [reflexivity|]. cbn [flat_map]. rewrite IH by (intros i Hi; apply G; right; exact Hi). rewrite app_nil_r.
        destruct e as [[]| | |]; try reflexivity. cbn [element_diags]. destruct (G i (or_introl eq_refl)) as (q & _ & els' & Hq & _ & (t' & _ & R' & _)).
        unfold include_diags. unfold disk_leads in Hq. rewrite Hq, R'. destruct (in_dec _ _ _); reflexivity. }
      apply G. exact (co_includes _ _ _ _ C).
    Qed.
    Hypothesis Hrank : ranked fs (pj_files pj').
    Hypothesis Hset : forall k v, fget k (pj_files pj') = Some v -> settled fs pj' k v.
    Hypothesis Hclear : forall k els, disk_reaches fs incl root k -> written fs incl k els -> clear_labels (disk_leads fs) (disk_world fs incl) (file_type_of_path k) els.
    Hypothesis Htame : forall k els, disk_reaches fs incl root k -> written fs incl k els -> tame (file_type_of_path k) els.

    Lemma right_silent k : forall w, fget k (pj_files pj') = Some w -> pf_diags w = []
      /\ exists els c, pf_file w = Some (mkFile els k) /\ pf_ctx w = Some c /\ written fs incl k els
         /\ describes (disk_leads fs) (disk_world fs incl) c (file_type_of_path k) els /\ covers (disk_leads fs) (disk_world fs incl) c (file_type_of_path k) els.
    Proof.
      destruct Hrank as [rank R]. remember (rank k) as n eqn:En. revert k En.
      induction n as [n IH] using (well_founded_induction lt_wf). intros k En w Hw.
      destruct (run_at k w Hw) as (v & Hv & S1 & S2 & S3 & S4). destruct (right_file k v Hv) as (els & Ef & Pd & W & C).
      pose proof (right_reaches k ltac:(eapply m_get_key, Hv)) as Hk. pose proof (run_type k v Hv) as Ty.
      pose proof (Hset k w Hw) as St. unfold settled in St. rewrite S2, Ef in St. destruct St as (ds & h' & c & An & Ec & Lk). cbn [fl_elements] in An.
      rewrite S3, Ty in An. rewrite Ty in C.
      assert (Hinc : forall i q, In (PDirective (AInclude i)) els -> include_path fs i = inl q -> stored_includes fs (pj_files pj') k q).
      { intros i q Hi Ei. exists w, (mkFile els k), i. split; [exact Hw|]. split; [congruence|]. auto. }
      assert (Hget : forall i q g, In (PDirective (AInclude i)) els -> include_path fs i = inl q -> get_file fs pj' q = Some g -> fget q (pj_files pj') = Some g /\ (rank q < n)%nat).
      { intros i q g Hi Ei G. destruct (include_canon fs i q Ei) as [x Hx]. unfold get_file in G. rewrite (Hst x q Hx) in G. split; [exact G|].
        subst n. apply R, (Hinc i q Hi Ei). }
      destruct (file_silent (disk_leads fs) (disk_world fs incl) fs pj' k (file_type_of_path k) els (included_by fs (pj_files pj'))) with (ds := ds) (h' := h') (es := pf_adiags w) as (Q & F & B).
      - intros i q. reflexivity.
      - exact C.
      - exact (Hclear k els Hk W).
      - exact (Htame k els Hk W).
      - intros i q ft' els' Hi Ei [-> W']. unfold disk_leads in Ei.
        assert (Hkey : In q (keys files)).
        { apply (rf_closed _ _ _ _ _ _ _ RF k q). exists v, (mkFile els k), i. auto. }
        destruct (m_get_some_key str_eq_dec q files Hkey) as [gv Hgv]. destruct (run_at' q gv Hgv) as (g & Hg & _).
        assert (G : get_file fs pj' q = Some g).
        { destruct (include_canon fs i q Ei) as [x Hx]. unfold get_file. rewrite (Hst x q Hx). exact Hg. }
        destruct (Hget i q g Hi Ei G) as [_ Hlt]. destruct (IH (rank q) Hlt q eq_refl g Hg) as (D & els2 & c2 & _ & Ec2 & W2 & _ & Cv).
        exists g, c2. split; [exact G|]. split; [exact Ec2|]. split; [|rewrite (written_fun _ _ _ _ _ W' W2); exact Cv].
        intros d [Hd _]. rewrite D in Hd. exact Hd.
      - intros i q g c' Hi Ei G Hc'. destruct (Hget i q g Hi Ei G) as [Hg Hlt]. destruct (IH (rank q) Hlt q eq_refl g Hg) as (_ & els2 & c2 & _ & Ec2 & W2 & Ds & _).
        assert (c2 = c') as -> by congruence. exists (file_type_of_path q), els2. split; [split; [reflexivity|exact W2]|exact Ds].
      - intros q Hc'. exact (ranked_acyclic _ _ Hrank q Hc').
      - intros i q Hi Ei. exact (Hinc i q Hi Ei).
      - exact An.
      - split; [unfold pf_diags; rewrite Q, S1, Pd; reflexivity|]. exists els, c. split; [congruence|]. split; [exact Ec|]. split; [exact W|].
        split; [exact (lookups_describe _ _ _ _ _ _ F Lk)|exact (bound_covers _ _ _ _ _ _ B Lk)].
    Qed.
  End Right.
End Run.

(** the sources of a run in which the parser is silent and no cycle is reported *)
Lemma run_sources fs u fuel o name dirs pj : finite_fs fs u -> (length u < fuel)%nat -> order_ok o -> canon_stable fs ->
  add_file fuel o fs name (set_include_paths fs dirs project_new) = Done (inr pj) ->
  (forall k w, fget k (pj_files pj) = Some w -> pf_pdiags w = []) ->
  (forall k w d, fget k (pj_files pj) = Some w -> In d (pf_adiags w) -> dg_kind d <> CyclicDependencyError) ->
  exists root, fs_canon fs name = inl root /\ forall k, disk_reaches fs (pj_incl pj) root k ->
    (exists w f, fget k (pj_files pj) = Some w /\ pf_file w = Some f /\ written fs (pj_incl pj) k (fl_elements f))
    /\ ~ clos_trans _ (disk_includes fs (pj_incl pj)) k k.
Proof.
  intros Hf Hl Ho Hst E Hp Hn.
  destruct (run_done _ _ _ _ _ _ _ Hf Hl Ho Hst E) as (root & text & files & order & Ec & Er & Ea & RF). exists root. split; [exact Ec|].
  rewrite (rf_incl _ _ _ _ _ _ _ RF). set (incl := pj_incl _) in *. intros k Hk.
  pose proof (clean_reaches _ _ _ _ _ _ _ RF Hp k Hk) as Hin. destruct (m_get_some_key str_eq_dec k files Hin) as [v Hv].
  destruct (clean_file _ _ _ _ _ _ _ RF Hp k v Hv) as (f & Ef & W & _). split.
  - destruct (run_at' _ _ _ _ _ _ _ RF k v Hv) as (w & Hw & _ & S & _). exists w, f. split; [exact Hw|]. split; [congruence|exact W].
  - intros Hc. assert (X : exists k v d, fget k (pj_files pj) = Some v /\ In d (pf_adiags v) /\ dg_kind d = CyclicDependencyError).
    { apply (C59_cycles_reported fs u fuel o root root text (file_type_of_path root) (set_include_paths fs dirs project_new) pj Hf Hl Ho (Hst _ _ Ec) (proj1 (read_valid fs root text Er)) ltac:(repeat constructor) Ea).
      exists k. assert (G : forall a b, In a (keys files) -> clos_trans _ (disk_includes fs incl) a b -> In b (keys files) /\ clos_trans _ (stored_includes fs (pj_files pj)) a b).
      { intros a b Ha H. apply clos_trans_tn1 in H. induction H as [b H|b c H _ IH].
        - pose proof (clean_edge _ _ _ _ _ _ _ RF Hp a b Ha H) as S. split; [exact (rf_closed _ _ _ _ _ _ _ RF a b S)|]. apply t_step.
          apply (same_includes fs files (pj_files pj) (rf_same _ _ _ _ _ _ _ RF)). exact S.
        - destruct IH as [Hb IH]. pose proof (clean_edge _ _ _ _ _ _ _ RF Hp b c Hb H) as S. split; [exact (rf_closed _ _ _ _ _ _ _ RF b c S)|].
          eapply t_trans; [exact IH|]. apply t_step. apply (same_includes fs files (pj_files pj) (rf_same _ _ _ _ _ _ _ RF)). exact S. }
      exact (proj2 (G k k Hin Hc)). }
    destruct X as (q & w & d & Hw & Hd & Hkd). exact (Hn q w d Hw Hd Hkd).
Qed.

(** A run that finds nothing: the sources are correct. Whatever the order of the analysis. *)
Theorem C97_silent_correct : forall fs u fuel o name dirs pj, finite_fs fs u -> (length u < fuel)%nat -> order_ok o -> canon_stable fs ->
  add_file fuel o fs name (set_include_paths fs dirs project_new) = Done (inr pj) -> ~ found pj ->
  exists root, fs_canon fs name = inl root /\ correct_sources fs (pj_incl pj) root.
Proof.
  intros fs u fuel o name dirs pj Hf Hl Ho Hst E Hq.
  destruct (run_sources fs u fuel o name dirs pj Hf Hl Ho Hst E) as (root & Ec & G).
  { intros k w Hw. exact (proj1 (silent_at pj Hq k w Hw)). }
  { intros k w d Hw Hd. rewrite (proj2 (silent_at pj Hq k w Hw)) in Hd. destruct Hd. }
  exists root. split; [exact Ec|]. intros k Hk. destruct (G k Hk) as [(w & f & Hw & Ef & W) Hc]. split; [|exact Hc].
  destruct (run_done _ _ _ _ _ _ _ Hf Hl Ho Hst E) as (root' & text & files & order & Ec' & Er & Ea & RF).
  exists (fl_elements f). split; [exact W|]. destruct (run_at _ _ _ _ _ _ _ RF k w Hw) as (v & Hv & _ & S & _).
  rewrite <- (run_type _ _ _ _ _ _ _ RF k v Hv), (rf_incl _ _ _ _ _ _ _ RF). apply (silent_correct _ _ _ _ _ _ _ RF Hst Ho Hq k v f Hv). congruence.
Qed.
Print Assumptions C97_silent_correct.

(** ** Correct sources, and what the tool then says *)
(** in each of the sources a label stays with one node, and no node is opened where references are not judged *)
Definition clear_sources (fs : fsys) (incl : list fpath) (root : fpath) : Prop :=
  forall k els, disk_reaches fs incl root k -> written fs incl k els ->
    clear_labels (disk_leads fs) (disk_world fs incl) (file_type_of_path k) els /\ tame (file_type_of_path k) els.

(** Missing for the full claim: runs that do not analyse included files first (C38), labels that move or get lost
    (C32, C33; [C97_label_refuted]), nodes opened in included files ([C97_opened_refuted]). *)
Theorem C97_correct_silent_partial : forall fs u fuel o name dirs pj root text, finite_fs fs u -> (length u < fuel)%nat -> order_ok o -> canon_stable fs ->
  add_file fuel o fs name (set_include_paths fs dirs project_new) = Done (inr pj) ->
  fs_canon fs name = inl root -> read_to_string fs root = inl text ->
  in_order fuel o fs root text (file_type_of_path root) (set_include_paths fs dirs project_new) -> clear_sources fs (pj_incl pj) root ->
  correct_sources fs (pj_incl pj) root -> ~ found pj.
Proof.
  intros fs u fuel o name dirs pj root text Hf Hl Ho Hst E Ec Er Hord Hclear Hgood.
  destruct (run_done _ _ _ _ _ _ _ Hf Hl Ho Hst E) as (root' & text' & files & order & Ec' & Er' & Ea & RF).
  assert (root' = root) as -> by congruence. assert (text' = text) as -> by congruence.
  rewrite (rf_incl _ _ _ _ _ _ _ RF) in Hclear, Hgood.
  destruct (C70_in_order_partial fs u fuel o root root text (file_type_of_path root) (set_include_paths fs dirs project_new) pj Hf Hl Ho Hst (Hst _ _ Ec) (proj1 (read_valid fs root text Er)) ltac:(repeat constructor) Ea Hord) as [Hr Hs].
  intros (k & w & Hin & Hd). apply Hd.
  apply (right_silent _ _ _ _ _ _ _ RF Hst Hgood Hr Hs (fun k els H W => proj1 (Hclear k els H W)) (fun k els H W => proj2 (Hclear k els H W)) k w).
  apply (m_in_get str_eq_dec); [apply (pi_nodup _ (rf_inv _ _ _ _ _ _ _ RF))|exact Hin].
Qed.
Print Assumptions C97_correct_silent_partial.

(** On clear sources the tool, if it analyses included files first, says nothing exactly if they are correct. *)
Theorem C97_exact_partial : forall dbg fs u fuel o ofiles name dirs root text status out, finite_fs fs u -> (length u < fuel)%nat -> order_ok o ->
  canon_stable fs -> (forall l, Permutation (ofiles l) l) -> cli_main dbg fuel o ofiles fs dirs name = Done (status, out) ->
  fs_canon fs name = inl root -> read_to_string fs root = inl text ->
  in_order fuel o fs root text (file_type_of_path root) (set_include_paths fs dirs project_new) ->
  clear_sources fs (pj_incl (set_include_paths fs dirs project_new)) root ->
  out = [] <-> correct_sources fs (pj_incl (set_include_paths fs dirs project_new)) root.
Proof.
  intros dbg fs u fuel o ofiles name dirs root text status out Hf Hl Ho Hst Hof E Ec Er Hord Hcl.
  destruct (C42_inverted _ _ _ _ _ _ _ _ _ Hof E) as [(e & Ea & _)|(pj & Ea & F1 & F2)].
  - exfalso. unfold add_file in Ea. rewrite Ec, Er in Ea. destruct (add_file_with_text _ _ _ _ _ _ _); discriminate Ea.
  - destruct (run_done _ _ _ _ _ _ _ Hf Hl Ho Hst Ea) as (root' & text' & files & order & Ec' & Er' & _ & RF). pose proof (rf_incl _ _ _ _ _ _ _ RF) as Hi.
    split.
    + intros ->. destruct (C97_silent_correct fs u fuel o name dirs pj Hf Hl Ho Hst Ea) as (root2 & Ec2 & C).
      * intros F. destruct (F1 F) as (_ & pre & X). destruct pre; discriminate X.
      * assert (root2 = root) as -> by congruence. rewrite <- Hi. exact C.
    + intros C. apply F2. rewrite <- Hi in C, Hcl. exact (C97_correct_silent_partial fs u fuel o name dirs pj root text Hf Hl Ho Hst Ea Ec Er Hord Hcl C).
Qed.
Print Assumptions C97_exact_partial.

(** ** Cases *)
Definition elements_of (pj : project) : list (fpath * list primary) :=
  flat_map (fun kv => match pf_file (snd kv) with Some f => [(fst kv, fl_elements f)] | None => [] end) (pj_files pj).
Definition parser_silent (pj : project) : bool := forallb (fun kv => match pf_pdiags (snd kv) with [] => true | _ => false end) (pj_files pj).
Definition no_cycles (pj : project) : bool :=
  forallb (fun kv => forallb (fun d => if error_code_eq_dec (dg_kind d) CyclicDependencyError then false else true) (pf_adiags (snd kv))) (pj_files pj).
Lemma mem_stable l : canon_stable (mem_fs l).
Proof. intros x p H. unfold mem_fs in *. cbn [fs_canon] in *. destruct (m_mem str_eq_dec x _) eqn:E; [|discriminate]. injection H as <-. rewrite E. reflexivity. Qed.
Definition run97 (l : list (fpath * str)) : outcome (str + project) := add_file 9 id_oracle (mem_fs l) (bs "/a.dts") (set_include_paths (mem_fs l) [] project_new).
Definition pj97 (l : list (fpath * str)) : project := match run97 l with Done (inr pj) => pj | _ => project_new end.
Lemma mem_sources l pj : run97 l = Done (inr pj) ->
  (length (m_keys l) < 9)%nat -> parser_silent pj = true -> no_cycles pj = true ->
  forall k, disk_reaches (mem_fs l) (pj_incl pj) (bs "/a.dts") k ->
    (exists els, In (k, els) (elements_of pj) /\ written (mem_fs l) (pj_incl pj) k els) /\ ~ clos_trans _ (disk_includes (mem_fs l) (pj_incl pj)) k k.
Proof.
  intros E Hl Hp Hn. destruct (run_sources (mem_fs l) (m_keys l) 9 id_oracle (bs "/a.dts") [] pj (mem_fs_finite l) Hl id_order_ok (mem_stable l) E) as (root & Ec & G).
  - intros k w Hw. unfold parser_silent in Hp. rewrite forallb_forall in Hp. apply m_get_in in Hw. specialize (Hp _ Hw). cbn [snd] in Hp. destruct (pf_pdiags w); [reflexivity|discriminate Hp].
  - intros k w d Hw Hd Hk. unfold no_cycles in Hn. rewrite forallb_forall in Hn. apply m_get_in in Hw. specialize (Hn _ Hw). cbn [snd] in Hn.
    rewrite forallb_forall in Hn. specialize (Hn d Hd). cbv beta in Hn. destruct (error_code_eq_dec (dg_kind d) CyclicDependencyError); [discriminate Hn|contradiction].
  - intros k Hk. assert (Er : root = bs "/a.dts").
    { cbn [fs_canon mem_fs] in Ec. destruct (m_mem str_eq_dec _ l); [congruence|discriminate Ec]. }
    rewrite <- Er in Hk. destruct (G k Hk) as [(w & f & Hw & Ef & W) Hc]. split; [|exact Hc]. exists (fl_elements f). split; [|exact W].
    unfold elements_of. apply in_flat_map. exists (k, w). split; [apply m_get_in in Hw; exact Hw|]. cbn [snd fst]. rewrite Ef. left. reflexivity.
Qed.
Lemma lies_inv its p n : lies its p n -> exists m, In (INode m) its /\ (p = [wt_item (nd_name m)] /\ n = m \/ exists q, p = wt_item (nd_name m) :: q /\ lies (pl_items (nd_payload m)) q n).
Proof. intros H. inversion H; subst; eauto 6. Qed.
Lemma declared_nil leads world ft p n : ~ declared leads world ft [] p n.
Proof. intros D. inversion D; match goal with K : In _ [] |- _ => destruct K | K : _ ++ _ :: _ = [] |- _ => destruct (app_cons_not_nil _ _ _ (eq_sym K)) end. Qed.
(** one labelled node, at one path *)
Definition only_label (l : str) (p0 : npath) (p : npath) (n : node) : Prop :=
  (p = p0 /\ exists w, nd_label n = Some w /\ wt_item w = l) \/ (p <> p0 /\ nd_label n = None).
Lemma only_clear leads world ft ps l p0 : (forall p n, declared leads world ft ps p n -> only_label l p0 p n) -> clear_labels leads world ft ps.
Proof.
  intros H. split.
  - intros l' p n q m D (w & Ew & _) D' (w' & Ew' & _). destruct (H _ _ D) as [[-> _]|[_ X]]; [|congruence]. destruct (H _ _ D') as [[-> _]|[_ X]]; congruence.
  - intros l' p n m D (w & Ew & El) D'. destruct (H _ _ D) as [[-> (w1 & E1 & L1)]|[_ X]]; [|congruence]. destruct (H _ _ D') as [[_ (w2 & E2 & L2)]|[X _]]; [|congruence].
    exists w2. split; [exact E2|]. congruence.
Qed.


(** a label of an included file is opened and used *)
Definition ex97 : list (fpath * str) :=
  [(bs "/a.dts", bs "/dts-v1/; /include/ ""/b.dtsi"" &l { m { x = <&l>; }; }; / { y = &{/n/m}; };"); (bs "/b.dtsi", bs "/ { l: n { }; };")].
Definition a97 : list primary := Eval vm_compute in match elements_of (pj97 ex97) with [(_, x); _] => x | _ => [] end.
Definition b97 : list primary := Eval vm_compute in match elements_of (pj97 ex97) with [_; (_, x)] => x | _ => [] end.
Lemma elements97 : elements_of (pj97 ex97) = [(bs "/a.dts", a97); (bs "/b.dtsi", b97)].
Proof. vm_compute. reflexivity. Qed.
Lemma incl97 l : pj_incl (set_include_paths (mem_fs l) [] project_new) = [].
Proof. reflexivity. Qed.
Ltac lies_in H := apply lies_inv in H; let m := fresh "m" in let Hin := fresh "Hin" in let q := fresh "q" in
  destruct H as (m & Hin & [[-> ->]|(q & -> & H)]); cbn in Hin;
  repeat (destruct Hin as [Hin|Hin]; [try discriminate Hin; injection Hin as <-; cbn [nd_payload pl_items] in *|]); try contradiction.
Lemma b97_declared leads world ft p n : declared leads world ft b97 p n -> only_label (bs "l") [mkNN (bs "n") None] p n.
Proof.
  intros D. unfold b97 in D. change [?x] with ([] ++ [x]) in D. apply declared_snoc in D.
  destruct D as [D|[(m & E & D)|[(r & q & p' & E & _)|(i & k & ft' & els & E & _)]]]; [destruct (declared_nil _ _ _ _ _ D)| |discriminate E|discriminate E].
  injection E as <-. destruct D as [[-> ->]|D]; [right; split; [discriminate|reflexivity]|].
  lies_in D; [left; split; [reflexivity|eexists; split; reflexivity]|lies_in D].
Qed.
Lemma run97_ok : run97 ex97 = Done (inr (pj97 ex97)).
Proof. vm_compute. reflexivity. Qed.
Lemma written97 k : disk_reaches (mem_fs ex97) [] (bs "/a.dts") k ->
  (k = bs "/a.dts" /\ written (mem_fs ex97) [] k a97) \/ (k = bs "/b.dtsi" /\ written (mem_fs ex97) [] k b97).
Proof.
  intros H. assert (Hi : pj_incl (pj97 ex97) = []) by (vm_compute; reflexivity). pose proof (mem_sources ex97 (pj97 ex97) run97_ok) as S. rewrite Hi in S.
  destruct (S ltac:(cbn; lia) ltac:(vm_compute; reflexivity) ltac:(vm_compute; reflexivity) k H) as [(els & Hin & W) _]. rewrite elements97 in Hin. destruct Hin as [Hin|[Hin|[]]]; injection Hin as <- <-; auto.
Qed.
Lemma b97_written : written (mem_fs ex97) [] (bs "/b.dtsi") b97.
Proof.
  destruct (written97 (bs "/b.dtsi")) as [[E _]|[_ W]]; [|discriminate E|exact W]. 
  destruct (written97 (bs "/a.dts") (rt_refl _ _ _)) as [[_ W]|[E _]]; [|discriminate E].
  apply rt_step. eexists a97, _. split; [exact W|]. split; [right; left; reflexivity|]. vm_compute. reflexivity.
Qed.
Lemma a97_declared p n : declared (disk_leads (mem_fs ex97)) (disk_world (mem_fs ex97) []) DtSource a97 p n -> only_label (bs "l") [mkNN (bs "n") None] p n.
Proof.
  assert (Hb : forall i k ft els q m, disk_leads (mem_fs ex97) i k -> In (PDirective (AInclude i)) a97 -> disk_world (mem_fs ex97) [] k ft els ->
    declared (disk_leads (mem_fs ex97)) (disk_world (mem_fs ex97) []) ft els q m -> only_label (bs "l") [mkNN (bs "n") None] q m).
  { intros i k ft els q m L Hin [_ W] D. assert (k = bs "/b.dtsi") as ->.
    { unfold disk_leads in L. cbn in Hin. destruct Hin as [Hin|[Hin|[Hin|[Hin|[]]]]]; try discriminate Hin. injection Hin as <-. vm_compute in L. injection L as <-. reflexivity. }
    rewrite (written_fun _ _ _ _ _ W b97_written) in D. exact (b97_declared _ _ _ _ _ D). }
  intros D. unfold a97 in *. 
  change [?x; ?y; ?z; ?w] with ((([] ++ [x]) ++ [y]) ++ [z] ++ [w]) in D. rewrite app_assoc in D.
  apply declared_snoc in D. destruct D as [D|[(m & E & D)|[(r & q & p' & E & _)|(i & k & ft' & els & E & _)]]]; [| |discriminate E|discriminate E].
  2:{ injection E as <-. destruct D as [[-> ->]|D]; [right; split; [discriminate|reflexivity]|]. lies_in D. }
  apply declared_snoc in D. destruct D as [D|[(m & E & D)|[(r & q & p' & E & -> & T & D)|(i & k & ft' & els & E & _)]]]; [|discriminate E| |discriminate E].
  2:{ injection E as <-. right. lies_in D; [|lies_in D]. split; [|reflexivity]. intros X. apply (app_inj_tail q [] _ (mkNN (bs "n") None)) in X. destruct X as [_ X]. discriminate X. }
  apply declared_snoc in D. destruct D as [D|[(m & E & D)|[(r & q & p' & E & -> & T & D)|(i & k & ft' & els & E & L & W & D)]]]; [|discriminate E|discriminate E|].
  2:{ apply (Hb i k ft' els p n L); [|exact W|exact D]. rewrite <- E. right. left. reflexivity. }
  apply declared_snoc in D. destruct D as [D|[(m & E & D)|[(r & q & p' & E & -> & T & D)|(i & k & ft' & els & E & L & W & D)]]]; [|discriminate E|discriminate E|discriminate E].
  destruct (declared_nil _ _ _ _ _ D).
Qed.
Lemma clear97 : clear_sources (mem_fs ex97) [] (bs "/a.dts").
Proof.
  intros k els Hk W. destruct (written97 k Hk) as [[-> W']|[-> W']]; rewrite (written_fun _ _ _ _ _ W W'); clear W W' Hk; split.
  - eapply only_clear. exact a97_declared.
  - left. intros [X|(t & X)]; [exact (X eq_refl)|]. cbn in X. destruct X as [X|[X|[X|[X|[]]]]]; discriminate X.
  - eapply only_clear. intros p n. apply b97_declared.
  - right. intros r X. cbn in X. destruct X as [X|[]]; discriminate X.
Qed.
(** the run ends, is in order, on clear sources, and says nothing: the sources are correct *)
Example C97_case : cli_main true 9 id_oracle (fun l => l) (mem_fs ex97) [] (bs "/a.dts") = Done (1, [])
  /\ in_order 9 id_oracle (mem_fs ex97) (bs "/a.dts") (snd (hd ([], []) ex97)) DtSource (set_include_paths (mem_fs ex97) [] project_new)
  /\ clear_sources (mem_fs ex97) [] (bs "/a.dts") /\ correct_sources (mem_fs ex97) [] (bs "/a.dts").
Proof.
  assert (E : cli_main true 9 id_oracle (fun l => l) (mem_fs ex97) [] (bs "/a.dts") = Done (1, [])) by (vm_compute; reflexivity).
  assert (O : in_order 9 id_oracle (mem_fs ex97) (bs "/a.dts") (snd (hd ([], []) ex97)) DtSource (set_include_paths (mem_fs ex97) [] project_new))
    by (apply in_orderb_ok; vm_compute; reflexivity).
  split; [exact E|]. split; [exact O|]. split; [exact clear97|].
  pose proof (C97_exact_partial true (mem_fs ex97) (m_keys ex97) 9 id_oracle (fun l => l) (bs "/a.dts") [] (bs "/a.dts") (snd (hd ([], []) ex97)) 1 []
    (mem_fs_finite ex97) ltac:(cbn; lia) id_order_ok (mem_stable ex97) (fun l => Permutation_refl l) E ltac:(vm_compute; reflexivity) ltac:(vm_compute; reflexivity)) as H.
  rewrite incl97 in H. apply H; [exact O|exact clear97|reflexivity].
Qed.

(** ** Correct sources that are not accepted *)
(** a node is written again without its label: the label no longer opens it (C33) *)
Definition ex97l : list (fpath * str) := [(bs "/a.dts", bs "/dts-v1/; / { l: n { }; }; / { n { }; }; &l { };")].
Definition a97l : list primary := Eval vm_compute in match elements_of (pj97 ex97l) with [(_, x)] => x | _ => [] end.
Lemma bears_inv its q : bears its q -> In (IProperty q) its \/ exists n, In (INode n) its /\ bears (pl_items (nd_payload n)) q.
Proof. intros H. inversion H; subst; eauto. Qed.
Ltac bears_in H := apply bears_inv in H; let m := fresh "m" in let Hin := fresh "Hin" in
  destruct H as [Hin|(m & Hin & H)]; cbn in Hin;
  repeat (destruct Hin as [Hin|Hin]; [try discriminate Hin; injection Hin as <-; cbn [nd_payload pl_items] in *|]); try contradiction.
Lemma correct97l leads world : correct leads world DtSource a97l.
Proof.
  constructor.
  - intros _. eexists. left. reflexivity.
  - intros a t b E. unfold a97l in E. destruct a as [|x0 a]; [split; [intros (t' & [])|constructor]|exfalso].
    injection E as _ E. do 4 (destruct a as [|? a]; [cbn [app] in E; try discriminate E|cbn [app] in E; try discriminate E; injection E as _ E]).
  - intros a e b r E Hr _. unfold a97l in E. destruct a as [|x0 a]; [injection E as <- _; discriminate Hr|]. injection E as <- E.
    destruct a as [|x1 a]; [injection E as <- _; discriminate Hr|]. injection E as <- E.
    destruct a as [|x2 a]; [injection E as <- _; discriminate Hr|]. injection E as <- E.
    destruct a as [|x3 a]; [injection E as <- _|injection E as _ E; destruct a; discriminate E]. cbn in Hr. injection Hr as <-.
    eexists. eapply ta_label; [eapply de_below; [right; left; reflexivity|apply li_here; left; reflexivity]|eexists; split; reflexivity].
  - intros _ e q r He Hq _. exfalso. cbn in He. destruct He as [<-|[<-|[<-|[<-|[]]]]]; bears_in Hq; bears_in Hq.
  - intros e q v He Hq _ _. exfalso. cbn in He. destruct He as [<-|[<-|[<-|[<-|[]]]]]; bears_in Hq; bears_in Hq.
  - intros i He. exfalso. cbn in He. destruct He as [He|[He|[He|[He|[]]]]]; discriminate He.
Qed.
Theorem C97_label_refuted : exists l pj, run97 l = Done (inr pj) /\ correct_sources (mem_fs l) (pj_incl pj) (bs "/a.dts")
  /\ in_order 9 id_oracle (mem_fs l) (bs "/a.dts") (snd (hd ([], []) l)) DtSource (set_include_paths (mem_fs l) [] project_new) /\ found pj.
Proof.
  exists ex97l, (pj97 ex97l). assert (R : run97 ex97l = Done (inr (pj97 ex97l))) by (vm_compute; reflexivity).
  split; [exact R|]. split; [|split; [apply in_orderb_ok; vm_compute; reflexivity|apply foundb_spec; vm_compute; reflexivity]].
  intros k Hk. destruct (mem_sources ex97l (pj97 ex97l) R ltac:(cbn; lia) ltac:(vm_compute; reflexivity) ltac:(vm_compute; reflexivity) k Hk) as [(els & Hin & W) Hc].
  split; [|exact Hc]. exists els. split; [exact W|]. assert (E : elements_of (pj97 ex97l) = [(bs "/a.dts", a97l)]) by (vm_compute; reflexivity).
  rewrite E in Hin. destruct Hin as [Hin|[]]. injection Hin as <- <-. apply correct97l.
Qed.
Print Assumptions C97_label_refuted.

(** an included file opens a node of its own: what stands inside is put below the root (C76) *)
Definition ex97o : list (fpath * str) :=
  [(bs "/a.dts", bs "/dts-v1/; /include/ ""/b.dtsi"" / { y = &{/n/m}; };"); (bs "/b.dtsi", bs "/ { l: n { }; }; &l { m { }; };")].
Definition a97o : list primary := Eval vm_compute in match elements_of (pj97 ex97o) with [(_, x); _] => x | _ => [] end.
Definition b97o : list primary := Eval vm_compute in match elements_of (pj97 ex97o) with [_; (_, x)] => x | _ => [] end.
Lemma li_at its n p : In (INode n) its -> p = [wt_item (nd_name n)] -> lies its p n.
Proof. intros H ->. apply li_here, H. Qed.
Lemma b97o_declared leads world : exists n, declared leads world DtSourceInclude b97o [mkNN (bs "n") None; mkNN (bs "m") None] n.
Proof.
  eexists. unfold b97o. change [?x; ?y] with ([x] ++ y :: []).
  apply (de_opened leads world DtSourceInclude _ _ _ [mkNN (bs "n") None] [mkNN (bs "m") None]).
  - eapply ta_label; [eapply de_below; [left; reflexivity|eapply li_at; [left; reflexivity|reflexivity]]|eexists; split; reflexivity].
  - eapply li_at; [left; reflexivity|reflexivity].
Qed.
Lemma correct_b97o leads world : correct leads world DtSourceInclude b97o.
Proof.
  constructor.
  - discriminate.
  - intros a t b E. exfalso. unfold b97o in E. do 3 (destruct a as [|? a]; [cbn [app] in E; try discriminate E|cbn [app] in E; try discriminate E; injection E as _ E]).
  - intros a e b r E Hr H. destruct H. left. discriminate.
  - intros H. destruct H. left. discriminate.
  - intros e q v He Hq _ _. exfalso. cbn in He. destruct He as [<-|[<-|[]]]; bears_in Hq; bears_in Hq.
  - intros i He. exfalso. cbn in He. destruct He as [He|[He|[]]]; discriminate He.
Qed.
Lemma correct_a97o (leads : include -> fpath -> Prop) (world : fpath -> file_type -> list primary -> Prop) :
  (forall i, In (PDirective (AInclude i)) a97o -> exists k, leads i k /\ world k DtSourceInclude b97o) -> correct leads world DtSource a97o.
Proof.
  intros Hw. constructor.
  - intros _. eexists. left. reflexivity.
  - intros a t b E. unfold a97o in E. destruct a as [|x0 a]; [split; [intros (t' & [])|constructor]|exfalso].
    injection E as _ E. do 3 (destruct a as [|? a]; [cbn [app] in E; try discriminate E|cbn [app] in E; try discriminate E; injection E as _ E]).
  - intros a e b r E Hr _. exfalso. unfold a97o in E. destruct a as [|x0 a]; [injection E as <- _; discriminate Hr|]. injection E as <- E.
    destruct a as [|x1 a]; [injection E as <- _; discriminate Hr|]. injection E as <- E.
    destruct a as [|x2 a]; [injection E as <- _; discriminate Hr|injection E as _ E; destruct a; discriminate E].
  - intros _ e q r He Hq Hr. assert (D : exists n, declared leads world DtSource a97o [mkNN (bs "n") None; mkNN (bs "m") None] n).
    { destruct (b97o_declared leads world) as [n D]. assert (Hi : exists i, In (PDirective (AInclude i)) a97o) by (eexists; right; left; reflexivity).
      destruct Hi as [i Hi]. destruct (Hw i Hi) as (k & L & W). exists n. eapply de_included; eassumption. }
    cbn in He. destruct He as [<-|[<-|[<-|[]]]]; bears_in Hq; apply refers_iff in Hr; cbn in Hr. destruct Hr as [<-|[]]. exact D.
  - intros e q v He Hq Hn _. exfalso. cbn in He. destruct He as [<-|[<-|[<-|[]]]]; bears_in Hq; discriminate Hn.
  - intros i He. destruct (Hw i He) as (k & L & W). eauto.
Qed.
Theorem C97_opened_refuted : exists l pj, run97 l = Done (inr pj) /\ correct_sources (mem_fs l) (pj_incl pj) (bs "/a.dts")
  /\ in_order 9 id_oracle (mem_fs l) (bs "/a.dts") (snd (hd ([], []) l)) DtSource (set_include_paths (mem_fs l) [] project_new) /\ found pj.
Proof.
  exists ex97o, (pj97 ex97o). assert (R : run97 ex97o = Done (inr (pj97 ex97o))) by (vm_compute; reflexivity).
  split; [exact R|]. split; [|split; [apply in_orderb_ok; vm_compute; reflexivity|apply foundb_spec; vm_compute; reflexivity]].
  pose proof (mem_sources ex97o (pj97 ex97o) R ltac:(cbn; lia) ltac:(vm_compute; reflexivity) ltac:(vm_compute; reflexivity)) as S.
  assert (Hi : pj_incl (pj97 ex97o) = []) by (vm_compute; reflexivity). rewrite Hi in *. clear Hi R.
  assert (E : elements_of (pj97 ex97o) = [(bs "/a.dts", a97o); (bs "/b.dtsi", b97o)]) by (vm_compute; reflexivity). rewrite E in S. clear E.
  assert (P : forall i k, In (PDirective (AInclude i)) a97o -> include_path (mem_fs ex97o) i = inl k -> k = bs "/b.dtsi").
  { intros i k Hin Ei. cbn in Hin. destruct Hin as [Hin|[Hin|[Hin|[]]]]; try discriminate Hin. injection Hin as <-. vm_compute in Ei. injection Ei as <-. reflexivity. }
  assert (Wa : written (mem_fs ex97o) [] (bs "/a.dts") a97o).
  { destruct (S _ (rt_refl _ _ _)) as [(els & Hin & W) _]. destruct Hin as [Hin|[Hin|[]]]; [injection Hin as <-; exact W|discriminate Hin]. }
  assert (L : forall i, In (PDirective (AInclude i)) a97o -> include_path (mem_fs ex97o) i = inl (bs "/b.dtsi")).
  { intros i Hin. cbn in Hin. destruct Hin as [Hin|[Hin|[Hin|[]]]]; try discriminate Hin. injection Hin as <-. vm_compute. reflexivity. }
  assert (Wb : forall i, In (PDirective (AInclude i)) a97o -> written (mem_fs ex97o) [] (bs "/b.dtsi") b97o).
  { intros i Hin. destruct (S (bs "/b.dtsi")) as [(els & Hin' & W) _].
    - apply rt_step. exists a97o, i. split; [exact Wa|]. split; [exact Hin|exact (L i Hin)].
    - destruct Hin' as [Hin'|[Hin'|[]]]; [discriminate Hin'|injection Hin' as <-; exact W]. }
  intros k Hk. destruct (S k Hk) as [(els & Hin & W) Hc]. split; [|exact Hc]. exists els. split; [exact W|].
  destruct Hin as [Hin|[Hin|[]]]; injection Hin as <- <-.
  - apply correct_a97o. intros i Hi. exists (bs "/b.dtsi"). split; [exact (L i Hi)|]. split; [reflexivity|exact (Wb i Hi)].
  - apply correct_b97o.
Qed.
Print Assumptions C97_opened_refuted.
