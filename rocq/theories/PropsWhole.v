(** What the command line tool prints, from the files on the disk to the last character: C108 *)
From Verif Require Import Base Analysis AnalysisSpec AnalysisProofs Project ProjectSpec ProjectProofs2 ProjectHistory PropsAnalysis PropsRealise
  PropsHistory PropsProject PropsProject2 PropsCli Parser Cli Whole ParserBase Utf8 Grammar PropsGrammar Forgiving PropsForgiving Rejected PropsRejected LexerProofs2 ParserSim PropsAccept Tests.
From Coq Require Import Permutation.

(** ** The loaded files *)
Section Load.
  Context (fs : fsys) (incl : list fpath) (root : fpath) (text : str).
  Hypothesis Hr : read_to_string fs root = inl text.

  Lemma element_unfollowable p : element_diags fs root [] p = unfollowable fs p.
  Proof.
    destruct p as [[t|t|x l|i|t r|t r]|n|r|s]; cbn [element_diags unfollowable]; try reflexivity. unfold include_diags.
    destruct (include_path fs i) as [q|e]; [|reflexivity]. destruct (in_dec str_eq_dec q [root]) as [H|H]; [|reflexivity].
    destruct H as [<-|[]]. rewrite Hr. reflexivity.
  Qed.
  Lemma stored_entry k t v : read_to_string fs k = inl t -> (stored fs incl root [] k t (file_type_of_path k) v <-> entry fs incl k v).
  Proof.
    intros R. assert (M : forall l, flat_map (element_diags fs root []) l = flat_map (unfollowable fs) l)
      by (intros l; apply flat_map_ext; exact element_unfollowable). split.
    - intros (E1 & E2 & E3 & E4 & [(f & s & P & E5 & E6)|(d & s & P & E5 & E6)]); destruct v as [a b c d0 e g]; cbn in *; subst.
      + rewrite M. exact (en_tree fs incl k t f s R P).
      + exact (en_error fs incl k t d s R P).
    - intros H. inversion H as [t' f s R' P|t' d s R' P]; subst; assert (t' = t) as -> by congruence; repeat split; [left|right].
      + exists f, s. cbn. rewrite M. auto.
      + exists d, s. auto.
  Qed.
  Lemma root_text k t : text_of fs root text k = Some t <-> read_to_string fs k = inl t.
  Proof.
    unfold text_of. destruct (str_eq_dec k root) as [->|]; [rewrite Hr; split; congruence|].
    destruct (read_to_string fs k); split; congruence.
  Qed.
  Lemma loaded_met k : loaded fs incl root text [] k <-> met fs incl root k.
  Proof.
    split.
    - induction 1 as [|a b _ IH (t & f & s & i & T & P & Hi & Ei) _ Hb]; [constructor|]. apply root_text in T.
      eapply me_include; [exact IH|exact (en_tree fs incl _ t f s T P)|reflexivity|exact Hi|exact Ei|exact Hb].
    - induction 1 as [|a v f i b _ IH En Ef Hi Ei Hb]; [constructor|].
      inversion En as [t g s R P|t d s R P]; subst; cbn in Ef; [injection Ef as ->|discriminate Ef].
      eapply ld_include; [exact IH| |intros []|exact Hb]. exists t, f, s, i. split; [apply root_text; exact R|]. auto.
  Qed.
  Lemma entry_fun k v w : entry fs incl k v -> entry fs incl k w -> v = w.
  Proof.
    intros H K. inversion H as [t f s R P|t d s R P]; subst; inversion K as [t' f' s' R' P'|t' d' s' R' P']; subst;
      assert (t' = t) as -> by congruence; rewrite P in P'; try discriminate P'; injection P' as <- <-; reflexivity.
  Qed.
  Lemma load_met T : load_inv fs incl root text (file_type_of_path root) [] T -> all_met fs incl root T.
  Proof.
    intros L. split; [apply L|]. split.
    - intros k. rewrite <- loaded_met. pose proof (li_keys _ _ _ _ _ _ _ L k) as K. cbn [m_keys map] in K. rewrite K. split; [intros [[]|H]; exact H|auto].
    - intros k v Hv. assert (Hl : loaded fs incl root text [] k).
      { apply m_get_key in Hv. apply (li_keys _ _ _ _ _ _ _ L) in Hv. destruct Hv as [[]|Hv]. exact Hv. }
      destruct (str_eq_dec k root) as [->|Hne].
      + destruct (li_root _ _ _ _ _ _ _ L) as (w & W1 & W2). assert (w = v) as -> by congruence. apply (stored_entry root text v Hr). exact W2.
      + destruct (li_new _ _ _ _ _ _ _ L k Hl Hne) as (_ & t & w & R & W1 & W2). assert (w = v) as -> by congruence. apply (stored_entry k t v R). exact W2.
  Qed.
  Lemma met_perm T U : all_met fs incl root T -> all_met fs incl root U -> Permutation T U.
  Proof.
    intros (N1 & K1 & E1) (N2 & K2 & E2).
    assert (X : forall T U, NoDup (keys T) -> NoDup (keys U) -> (forall k, In k (keys T) -> In k (keys U)) ->
      (forall k v, fget k T = Some v -> entry fs incl k v) -> (forall k v, fget k U = Some v -> entry fs incl k v) -> forall x, In x T -> In x U).
    { intros A B NA NB HK EA EB [k v] Hx. pose proof (HK k (in_map fst _ _ Hx)) as Hk. apply (m_get_some_key str_eq_dec) in Hk. destruct Hk as [w Hw].
      apply (m_in_get str_eq_dec) in Hx; [|exact NA]. rewrite (entry_fun k v w (EA _ _ Hx) (EB _ _ Hw)). apply (m_get_in str_eq_dec). exact Hw. }
    apply NoDup_Permutation; [eapply NoDup_map_inv; exact N1|eapply NoDup_map_inv; exact N2|]. intros x. split.
    - apply X; auto. intros k. rewrite K1, K2. auto.
    - apply X; auto. intros k. rewrite K1, K2. auto.
  Qed.
End Load.

(** ** The printed pages *)
Definition pages_of (dbg : bool) (l : table) (pages : list (list str)) : Prop :=
  Forall2 (fun kv => Forall2 (block dbg (snd kv)) (pf_diags (snd kv))) l pages.
Lemma blocks_fmt dbg code m ds bl : Forall2 (fun d b => fmt_diagnostic dbg code m d = Done b) ds bl ->
  fmt_diagnostics dbg code m ds = Done (concat (map (fun b => b ++ [cNL; cNL]) bl)).
Proof.
  induction 1 as [|d b ds bl E _ IH]; cbn [fmt_diagnostics map concat]; [reflexivity|]. rewrite E, IH. cbn [obind]. rewrite <- app_assoc. reflexivity.
Qed.
Definition noisy (kv : fpath * pfile) : bool := match pf_diags (snd kv) with [] => false | _ => true end.
Lemma pages_print dbg l pages : pages_of dbg l pages -> print_files dbg l = Done (existsb noisy l, concat (map page pages)).
Proof.
  induction 1 as [|[k v] bl l pages H _ IH]; cbn [print_files existsb map concat]; [reflexivity|]. cbn [snd] in H. unfold noisy at 1. cbn [snd].
  destruct (pf_diags v) as [|d ds] eqn:Ed; [inversion H; subst; exact IH|].
  rewrite (blocks_fmt _ _ _ _ bl H). cbn [obind]. rewrite IH. cbn [obind orb]. inversion H; subst. unfold page at 2. rewrite <- !app_assoc. reflexivity.
Qed.
Lemma silent_pages dbg l pages : pages_of dbg l pages -> existsb noisy l = false -> concat (map page pages) = [].
Proof.
  induction 1 as [|[k v] bl l pages H _ IH]; intros E; cbn [existsb map concat] in *; [reflexivity|]. apply orb_false_iff in E. destruct E as [E1 E2].
  unfold noisy in E1. cbn [snd] in *. destruct (pf_diags v); [|discriminate E1]. inversion H; subst. cbn [page app]. exact (IH E2).
Qed.
Lemma noisy_perm l T : Permutation l T -> existsb noisy l = existsb noisy T.
Proof.
  intros P. apply Bool.eq_iff_eq_true. rewrite !existsb_exists. split; intros (x & H & N); exists x; (split; [|exact N]);
    [eapply Permutation_in; eassumption|eapply Permutation_in; [apply Permutation_sym|]; eassumption].
Qed.
Lemma noisy_iff T : (existsb noisy T = true <-> exists k v, In (k, v) T /\ pf_diags v <> []) /\ (existsb noisy T = false <-> forall k v, In (k, v) T -> pf_diags v = []).
Proof.
  assert (A : existsb noisy T = true <-> exists k v, In (k, v) T /\ pf_diags v <> []).
  { rewrite existsb_exists. split.
    - intros ([k v] & H & N). exists k, v. split; [exact H|]. unfold noisy in N. cbn [snd] in N. destruct (pf_diags v); [discriminate N|discriminate].
    - intros (k & v & H & N). exists (k, v). split; [exact H|]. unfold noisy. cbn [snd]. destruct (pf_diags v); [contradiction|reflexivity]. }
  split; [exact A|]. destruct (existsb noisy T) eqn:E.
  - split; [discriminate|]. intros H. destruct (proj1 A eq_refl) as (k & v & Hi & N). destruct (N (H k v Hi)).
  - split; [|reflexivity]. intros _ k v Hi. destruct (pf_diags v) eqn:Ed; [reflexivity|]. exfalso.
    assert (X : false = true); [apply A; exists k, v; split; [exact Hi|rewrite Ed; discriminate]|discriminate X].
Qed.
Lemma printed_iff dbg T status out : printed dbg T status out <->
  exists l pages, Permutation l T /\ pages_of dbg l pages
    /\ (status, out) = if existsb noisy l then (0, concat (map page pages) ++ ok_message) else (1, concat (map page pages)).
Proof.
  destruct (noisy_iff T) as [N1 N2]. split.
  - intros (l & pages & P & H & K). exists l, pages. split; [exact P|]. split; [exact H|]. pose proof (noisy_perm l T P) as E.
    destruct K as [(K & -> & ->)|(K & -> & ->)].
    + apply N2 in K. rewrite (silent_pages dbg l pages H) by congruence. rewrite E, K. reflexivity.
    + apply N1 in K. rewrite E, K. reflexivity.
  - intros (l & pages & P & H & K). exists l, pages. split; [exact P|]. split; [exact H|]. pose proof (noisy_perm l T P) as E.
    destruct (existsb noisy l) eqn:El.
    + right. split; [apply N1; congruence|]. injection K as -> ->. split; reflexivity.
    + left. split; [apply N2; congruence|]. rewrite (silent_pages dbg l pages H El) in K. injection K as -> ->. split; reflexivity.
Qed.

Lemma walk_table fs incl sev order h T T' : walk fs incl sev order h T T' -> keys T' = keys T.
Proof. induction 1 as [| |k r h T T' v f ds h' es c _ _ _ _ _ IH]; [reflexivity|assumption|]. rewrite IH. apply update_keys. Qed.
Lemma alike_refl T : (forall k v, fget k T = Some v -> pf_ctx v = None) -> alike_table T T.
Proof.
  intros H k. destruct (fget k T) as [v|] eqn:E; [|exact I]. split; [repeat split|]. split; [reflexivity|]. rewrite (H k v E). exact I.
Qed.
Lemma perm_get T U k : NoDup (keys T) -> Permutation T U -> fget k T = fget k U.
Proof.
  intros N P. assert (N' : NoDup (keys U)) by (eapply Permutation_NoDup; [apply Permutation_map, P|exact N]).
  destruct (fget k T) as [v|] eqn:E.
  - symmetry. apply (m_in_get str_eq_dec); [exact N'|]. eapply Permutation_in; [exact P|]. apply (m_get_in str_eq_dec). exact E.
  - symmetry. apply (m_get_none str_eq_dec). apply (m_get_none str_eq_dec) in E. intros K. apply E.
    eapply Permutation_in; [apply Permutation_sym, (Permutation_map fst P)|exact K].
Qed.

(** ** C108: over all iteration orders of the hash maps, the exit status and the output of the tool are exactly those of the runs of the spec. *)
Theorem C108_exact : forall dbg fs u fuel dirs name status out, finite_fs fs u -> (length u < fuel)%nat -> canon_stable fs ->
  (exists o ofiles, order_ok o /\ (forall l, Permutation (ofiles l) l) /\ cli_main dbg fuel o ofiles fs dirs name = Done (status, out))
  <-> run_of dbg fs (map (fun p => match fs_canon fs p with inl q => q | inr _ => [] end) dirs) name status out.
Proof.
  intros dbg fs u fuel dirs name status out Hf Hl Hst. set (incl := map (fun p => match fs_canon fs p with inl q => q | inr _ => [] end) dirs).
  set (pj0 := set_include_paths fs dirs project_new). assert (Ei : pj_incl pj0 = incl) by reflexivity.
  assert (I0 : project_inv pj0) by (apply reached_inv; repeat constructor).
  split.
  - intros (o & ofiles & Ho & Hp & E). unfold cli_main in E. fold pj0 in E. unfold add_file in E.
    destruct (fs_canon fs name) as [root|e] eqn:Ec; [|cbn [obind] in E; injection E as <- <-; eapply ru_unknown; exact Ec].
    destruct (read_to_string fs root) as [text|e] eqn:Er; [|cbn [obind] in E; injection E as <- <-; eapply ru_unreadable; eassumption].
    pose proof (proj1 (read_valid fs root text Er)) as Hv.
    unfold add_file_with_text in E. rewrite (Hst _ _ Ec), Ei in E.
    destruct (load_inv_holds fs u fuel incl root text (file_type_of_path root) [] Hf Hv Hl (NoDup_nil _)) as (files & Ep & L).
    change (pj_files pj0) with (@nil (fpath * pfile)) in E. rewrite Ep in E. cbn [obind] in E.
    destruct (compute_key_order o fs files) as [order| |] eqn:Ek; cbn [obind] in E; try discriminate E.
    destruct (analyze_keys (o_an o) fs order analysis_new (set_files files pj0)) as [pj'| |] eqn:Ea; cbn [obind] in E; try discriminate E.
    destruct (print_files dbg (ofiles (pj_files pj'))) as [[errs s]| |] eqn:Epr; cbn [obind] in E; try discriminate E.
    pose proof (load_keeps fs incl root text (file_type_of_path root) pj0 files Hv I0 L) as Iq.
    eapply ru_checked with (root := root) (text := text) (T := files) (order := order) (T' := pj_files pj'); [exact Ec|exact Er|exact (load_met fs incl root text Er files L)| | |].
    + exists (o_files o files), (o_map o (includer_map fs (o_files o files))). split; [apply Ho|]. split; [apply Ho|]. exact Ek.
    + apply (keys_walk fs incl default_severities (o_an o) (proj2 (proj2 Ho)) order analysis_new (set_files files pj0) [] pj'); [apply Iq|reflexivity|reflexivity|reflexivity|exact Ea].
    + apply printed_iff. pose proof Epr as Epr'. apply print_pages in Epr'. destruct Epr' as (pages & Hpg & ->). exists (ofiles (pj_files pj')), pages.
      split; [apply Hp|]. split; [exact Hpg|]. rewrite (pages_print dbg _ pages Hpg) in Epr. injection Epr as <-.
      destruct (existsb noisy (ofiles (pj_files pj'))); injection E as <- <-; reflexivity.
  - intros R. inversion R as [e Ec|root e Ec Er|root text T order T' st ou Ec Er HT (l & m & P1 & P2 & Eo) W Pr]; subst.
    + exists id_oracle, (fun l => l). split; [apply id_order_ok|]. split; [intros; apply Permutation_refl|]. unfold cli_main, add_file. rewrite Ec. reflexivity.
    + exists id_oracle, (fun l => l). split; [apply id_order_ok|]. split; [intros; apply Permutation_refl|]. unfold cli_main, add_file. rewrite Ec, Er. reflexivity.
    + pose proof (proj1 (read_valid fs root text Er)) as Hv.
      destruct (load_inv_holds fs u fuel incl root text (file_type_of_path root) [] Hf Hv Hl (NoDup_nil _)) as (files & Ep & L).
      pose proof (load_met fs incl root text Er files L) as HF. pose proof (met_perm fs incl root T files HT HF) as PT.
      pose proof (load_keeps fs incl root text (file_type_of_path root) pj0 files Hv I0 L) as Iq.
      assert (At : alike_table T files).
      { intros k. rewrite <- (perm_get T files k (proj1 HT) PT). apply alike_refl. intros q v Hq. apply (proj2 (proj2 HT)) in Hq. destruct Hq; reflexivity. }
      destruct (walk_keys fs incl default_severities order [] T T' W analysis_new (set_files files pj0) (pi_ok _ Iq) eq_refl At eq_refl)
        as (oa & pj' & Hoa & Ea & A' & Kk). cbn [pj_files set_files] in Kk.
      apply printed_iff in Pr. destruct Pr as (l2 & pages & P3 & Hpg & Es).
      set (W2 := map (fun kv => (fst kv, match fget (fst kv) (pj_files pj') with Some w => w | None => snd kv end)) l2).
      assert (NT : NoDup (keys T')) by (rewrite (walk_table _ _ _ _ _ _ _ W); apply HT).
      assert (Nl : NoDup (keys l2)) by (eapply Permutation_NoDup; [apply Permutation_sym, (Permutation_map fst P3)|exact NT]).
      assert (NP : NoDup (keys (pj_files pj'))) by (rewrite Kk; apply L).
      assert (KW : map fst W2 = map fst l2) by (unfold W2; rewrite map_map; reflexivity).
      assert (NW : NoDup (map fst W2)) by (rewrite KW; exact Nl).
      assert (Al : forall k v, In (k, v) l2 -> exists w, fget k (pj_files pj') = Some w /\ alike_file v w).
      { intros k v Hi. assert (Hi' : In (k, v) T') by (eapply Permutation_in; eassumption). apply (m_in_get str_eq_dec) in Hi'; [|exact NT].
        specialize (A' k). rewrite Hi' in A'. destruct (fget k (pj_files pj')) as [w|]; [|contradiction]. exists w. split; [reflexivity|exact A']. }
      assert (PW : Permutation (pj_files pj') W2).
      { apply NoDup_Permutation; [eapply NoDup_map_inv; exact NP|exact (NoDup_map_inv _ _ NW)|]. intros [k w]. split.
        - intros Hi. apply (m_in_get str_eq_dec) in Hi; [|exact NP]. pose proof (A' k) as Hk. rewrite Hi in Hk. destruct (fget k T') as [v|] eqn:Ev; [|contradiction].
          apply (m_get_in str_eq_dec) in Ev. apply (Permutation_in _ (Permutation_sym P3)) in Ev. unfold W2. apply in_map_iff. exists (k, v). cbn [fst snd]. rewrite Hi. auto.
        - intros Hi. unfold W2 in Hi. apply in_map_iff in Hi. destruct Hi as ([k' v] & E & Hi). cbn [fst snd] in E. destruct (Al k' v Hi) as (w' & Ew & _). rewrite Ew in E.
          injection E as <- <-. apply (m_get_in str_eq_dec). exact Ew. }
      assert (Hpw : pages_of dbg W2 pages /\ existsb noisy W2 = existsb noisy l2).
      { unfold W2. clear - Hpg Al. induction Hpg as [|[k v] bl l2 pages H Hpg IH]; [split; [constructor|reflexivity]|]. cbn [map existsb fst snd].
        destruct (Al k v (or_introl eq_refl)) as (w & Ew & Aw). rewrite Ew. destruct IH as [I1 I2]; [intros; apply Al; right; assumption|].
        pose proof (alike_diags _ _ Aw) as Ed. destruct Aw as ((_ & _ & _ & Et) & _). split.
        - constructor; [|exact I1]. cbn [snd] in *. rewrite <- Ed. unfold block in *. rewrite <- Et. exact H.
        - f_equal; [|exact I2]. unfold noisy. cbn [snd]. rewrite Ed. reflexivity. }
      destruct Hpw as [Hpw Hnw].
      assert (Nf : NoDup (map fst l)) by (eapply Permutation_NoDup; [apply Permutation_sym, (Permutation_map fst P1)|apply HT]).
      assert (Nm : NoDup (map fst m)) by (eapply Permutation_NoDup; [apply Permutation_sym, (Permutation_map fst P2)|apply includer_map_spec]).
      set (oc := mkPOracle (sort_by str_eq_dec (map fst l)) (sort_by str_eq_dec (map fst m)) oa).
      assert (S1 : o_files oc files = l) by exact (sort_to str_eq_dec l files Nf (Permutation_trans (Permutation_sym PT) (Permutation_sym P1))).
      assert (S2 : o_map oc (includer_map fs l) = m) by exact (sort_to str_eq_dec m _ Nm (Permutation_sym P2)).
      pose proof (sort_to str_eq_dec W2 (pj_files pj') NW PW) as S3.
      exists oc, (fun x => sort_by str_eq_dec (map fst W2) x).
      split; [split; [|split; [|exact Hoa]]; intros x; apply sort_perm|]. split; [intros x; apply sort_perm|].
      unfold cli_main, add_file. fold pj0. rewrite Ec, Er. unfold add_file_with_text. rewrite (Hst _ _ Ec), Ei.
      change (pj_files pj0) with (@nil (fpath * pfile)). rewrite Ep. cbn [obind]. unfold compute_key_order. rewrite S1, S2, Eo. cbn [obind].
      change (o_an oc) with oa. rewrite Ea. cbn [obind].
      rewrite S3, (pages_print dbg W2 pages Hpw). cbn [obind]. rewrite Hnw. destruct (existsb noisy l2); injection Es as -> ->; reflexivity.
Qed.
Print Assumptions C108_exact.

(** What the parser contributes to a run is what the two grammars of C105 and C106 say of the texts on the disk. *)
Theorem C108_entries : forall fs incl k v, entry fs incl k v ->
  exists t, read_to_string fs k = inl t /\ pf_text v = t /\ pf_type v = file_type_of_path k
    /\ ((exists els rs ds, pf_file v = Some (mkFile els k) /\ reads_as (include_dirs incl k) t k els rs /\ Forall2 (said t k) rs ds
           /\ pf_pdiags v = ds ++ flat_map (unfollowable fs) els)
        \/ (exists st d, pf_file v = None /\ refused (include_dirs incl k) t k st /\ complains t k st d /\ pf_pdiags v = [d])).
Proof.
  intros fs incl k v H. inversion H as [t f s R P|t d s R P]; subst; exists t; (split; [exact R|]); (split; [reflexivity|]); (split; [reflexivity|]);
    pose proof (proj1 (read_valid fs k t R)) as Hv; cbn [pf_file pf_pdiags].
  - left. destruct (C105_tree_derived (include_dirs incl k) t k f (ps_diags s) Hv) as (Es & rs & K & F); [exists s; split; [exact P|reflexivity]|].
    exists (fl_elements f), rs, (ps_diags s). split; [f_equal; rewrite <- Es; destruct f; reflexivity|]. split; [exact K|]. split; [exact F|reflexivity].
  - right. destruct (C106_error_derived (include_dirs incl k) t k d s Hv P) as (st & K & C). exists st, d. auto.
Qed.
Print Assumptions C108_entries.
(** Every readable file is the one or the other. *)
Theorem C108_every_file : forall fs incl k, readable fs k -> exists v, entry fs incl k v /\ forall w, entry fs incl k w -> w = v.
Proof.
  intros fs incl k [t R]. pose proof (proj1 (read_valid fs k t R)) as Hv.
  assert (X : exists v, entry fs incl k v).
  { destruct (parse_text (include_dirs incl k) t k) as [f s|d s| |] eqn:E.
    - eexists. eapply en_tree; eassumption.
    - eexists. eapply en_error; eassumption.
    - exfalso. destruct (tokenize_total t k Hv) as [toks Ht]. pose proof (parse_behind (include_dirs incl k) t k toks Hv Ht) as B. rewrite E in B.
      destruct (t_parse (include_dirs incl k) t k toks); contradiction.
    - exfalso. destruct (tokenize_total t k Hv) as [toks Ht]. pose proof (parse_behind (include_dirs incl k) t k toks Hv Ht) as B. rewrite E in B.
      destruct (t_parse (include_dirs incl k) t k toks); contradiction. }
  destruct X as [v H]. exists v. split; [exact H|]. intros w K. exact (entry_fun fs incl k w v K H).
Qed.
Print Assumptions C108_every_file.

(** a includes b, b includes c, a uses a label of c: there is a run that reports the label, and one that does not *)
Definition out108 : str := match cli_main true 4 id_oracle (fun l => l) (mem_fs ex38) [] (bs "/a.dts") with Done (_, s) => s | _ => [] end.
Example C108_case : run_of true (mem_fs ex38) [] (bs "/a.dts") 0 out108 /\ run_of true (mem_fs ex38) [] (bs "/a.dts") 1 []
  /\ out108 = bs "error --> /a.dts:1:40
  |
1 | /dts-v1/; /include/ ""/b.dtsi"" / { p = <&l>; };
  |                                        ^^ Reference cannot be resolved


OK; No issues found
".
Proof.
  split; [|split; [|vm_compute; reflexivity]];
    apply (C108_exact true (mem_fs ex38) (m_keys ex38) 4 [] (bs "/a.dts") _ _ (mem_fs_finite ex38) ltac:(cbn; lia) (mem_stable ex38)).
  - exists id_oracle, (fun l => l). split; [apply id_order_ok|]. split; [intros; apply Permutation_refl|]. vm_compute. reflexivity.
  - exists rev_oracle, (fun l => l). split; [apply rev_order_ok|]. split; [intros; apply Permutation_refl|]. vm_compute. reflexivity.
Qed.
(** a text that is refused, with an include of it *)
Definition ex108 : list (fpath * str) := [(bs "/a.dts", bs "/dts-v1/; /include/ ""/b.dtsi"""); (bs "/b.dtsi", bs "/ { = };")].
Example C108_refused_case : exists out, run_of true (mem_fs ex108) [] (bs "/a.dts") 0 out.
Proof.
  eexists (match cli_main true 4 id_oracle (fun l => l) (mem_fs ex108) [] (bs "/a.dts") with Done (_, s) => s | _ => [] end).
  apply (C108_exact true (mem_fs ex108) (m_keys ex108) 4 [] (bs "/a.dts") _ _ (mem_fs_finite ex108) ltac:(cbn; lia) (mem_stable ex108)).
  exists id_oracle, (fun l => l). split; [apply id_order_ok|]. split; [intros; apply Permutation_refl|]. vm_compute. reflexivity.
Qed.
