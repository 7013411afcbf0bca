(** C112: reformatting the files changes only places in what the tool prints; C79 over all iteration orders *)
From Verif Require Import Base DisplayProofs TreeProofs LexSpec Parser Analysis AnalysisSpec AnalysisProofs Project ProjectSpec ProjectProofs2 ProjectHistory PropsAnalysis
  PropsRealise PropsHistory PropsReformat PropsLayout PropsProject PropsCli Cli Whole PropsWhole PropsPointing Relaid LexerProofs2 Tests.
From Coq Require Import Permutation.

(** ** What is printed *)
Definition same_complaint (d d' : diag) : Prop := dg_kind d = dg_kind d' /\ dg_source d = dg_source d' /\ dg_msg d = dg_msg d'.
(** [shown_as fs R status out]: the output is that for the diagnostics [R], file by file, each beside the line of the file on the disk it is about *)
Definition shown_as (fs : fsys) (R : list (fpath * list diag)) (status : N) (out : str) : Prop :=
  exists pages,
    Forall2 (fun kd bl => exists text, read_to_string fs (fst kd) = inl text
      /\ Forall2 (fun d b => fmt_diagnostic false (lines text) default_severities d = Done b) (snd kd) bl) R pages
    /\ (((forall k ds, In (k, ds) R -> ds = []) /\ status = 1 /\ out = [])
        \/ ((exists k ds, In (k, ds) R /\ ds <> []) /\ status = 0 /\ out = concat (map page pages) ++ bs "OK; No issues found" ++ [cNL])).
Definition same_reports (R R' : list (fpath * list diag)) : Prop :=
  Forall2 (fun a b => fst a = fst b /\ Forall2 same_complaint (snd a) (snd b)) R R'.

(** ** Places in the tables of a run *)
Definition rooted (fs : fsys) (T : table) : Prop := forall k v, fget k T = Some v -> pointing k v /\ read_to_string fs k = inl (pf_text v).
Lemma entry_rooted fs incl k v : entry fs incl k v -> pointing k v /\ read_to_string fs k = inl (pf_text v).
Proof.
  intros H. assert (X : exists t, read_to_string fs k = inl t /\ pf_text v = t) by (inversion H; subst; eexists; (split; [eassumption|reflexivity])).
  destruct X as (t & R & E). split; [|rewrite E; exact R]. apply (stored_entry fs incl k t R k t v R) in H.
  eapply stored_pointing; [exact (proj1 (read_valid fs k t R))|exact H].
Qed.
Lemma walk_rooted fs incl sev order h T T' : walk fs incl sev order h T T' -> rooted fs T -> rooted fs T'.
Proof.
  induction 1 as [| |k r h T T' v f ds h' es c Hv Hf An Hc _ IH]; intros R; auto. apply IH. intros q w Hq. rewrite update_get in Hq.
  destruct (str_eq_dec k q) as [<-|]; [|exact (R q w Hq)]. rewrite Hv in Hq. injection Hq as <-. destruct (R k v Hv) as [[P1 P2 P3 P4] Rd]. split; [|exact Rd].
  constructor; cbn [store_result pf_text pf_pdiags pf_adiags pf_file fst snd]; try assumption.
  destruct (P4 f Hf) as (dirs & s & P). rewrite (parse_source _ _ _ _ _ P1 P) in An. destruct (PropsParser.tree_tokens _ _ _ _ _ P1 P) as (p & _ & S & F).
  exact (analysis_marked _ _ _ _ S F _ _ _ _ _ _ _ An).
Qed.
Lemma same_complaints k v w : pointing k v -> pointing k w -> relaid_file v w -> Forall2 same_complaint (pf_diags v) (pf_diags w).
Proof.
  intros P Q R. apply relaid_diags in R.
  assert (X : forall v, pointing k v -> Forall (fun d => dg_source d = k) (pf_diags v)).
  { clear. intros v [_ A B _]. unfold pf_diags. apply Forall_app. split.
    - eapply Forall_impl; [|exact A]. intros d H. apply H.
    - eapply Forall_impl; [|exact B]. intros d H. apply H. }
  pose proof (X v P) as A. pose proof (X w Q) as B. clear - A B R. unfold says_same in R. revert R A B. generalize (pf_diags w). induction (pf_diags v) as [|d l IH]; intros [|e m] R A B; try discriminate R; constructor.
  - injection R as E1 E2 _. inversion A; subst. inversion B; subst. repeat split; congruence.
  - injection R as _ _ R. inversion A; subst. inversion B; subst. apply IH; assumption.
Qed.

Definition diags_of (l : table) : list (fpath * list diag) := map (fun kv => (fst kv, pf_diags (snd kv))) l.
Lemma print_shown fs l T status out : rooted fs T -> NoDup (keys T) -> Permutation l T ->
  (exists pages, Forall2 (fun kv => Forall2 (block false (snd kv)) (pf_diags (snd kv))) l pages
    /\ (((forall k v, In (k, v) T -> pf_diags v = []) /\ status = 1 /\ out = [])
        \/ ((exists k v, In (k, v) T /\ pf_diags v <> []) /\ status = 0 /\ out = concat (map page pages) ++ bs "OK; No issues found" ++ [cNL])))
  -> shown_as fs (diags_of l) status out.
Proof.
  intros R N P (pages & F & K). exists pages. split.
  - assert (Rl : forall k v, In (k, v) l -> read_to_string fs k = inl (pf_text v)).
    { intros k v Hi. apply (R k v). apply (m_in_get str_eq_dec); [exact N|]. eapply Permutation_in; eassumption. }
    clear - F Rl. unfold diags_of. induction F as [|[k v] bl l pages H _ IH]; cbn [map]; constructor; cbn [fst snd].
    + exists (pf_text v). split; [apply Rl; left; reflexivity|exact H].
    + apply IH. intros. apply Rl. right. assumption.
  - unfold diags_of. destruct K as [(A & B)|((k & v & Hi & Hd) & B)]; [left|right]; (split; [|exact B]).
    + intros k ds Hi. apply in_map_iff in Hi. destruct Hi as ([k' v] & E & Hi). injection E as <- <-. cbn [snd]. eapply A, Permutation_in; eassumption.
    + exists k, (pf_diags v). split; [|exact Hd]. apply in_map_iff. exists (k, v). split; [reflexivity|]. eapply Permutation_in; [apply Permutation_sym, P|exact Hi].
Qed.
Lemma pages_exist l : exists pages, Forall2 (fun kv : fpath * pfile => Forall2 (block false (snd kv)) (pf_diags (snd kv))) l pages.
Proof.
  induction l as [|[k v] l [pages IH]]; [exists []; constructor|].
  assert (X : exists bl, Forall2 (block false v) (pf_diags v) bl).
  { induction (pf_diags v) as [|d ds [bl B]]; [exists []; constructor|]. destruct (C43_release_total (lines (pf_text v)) default_severities d) as [b Eb]. exists (b :: bl). constructor; assumption. }
  destruct X as [bl B]. exists (bl :: pages). constructor; assumption.
Qed.

Lemma run_relaid fs fs' incl name status out : relaid fs fs' -> run_of false fs incl name status out ->
  exists R R' out', shown_as fs R status out /\ run_of false fs' incl name status out' /\ shown_as fs' R' status out' /\ same_reports R R'.
Proof.
  intros Hr H.
  assert (Empty : forall fs, shown_as fs [] 1 []) by (intros g; exists []; split; [constructor|left; split; [intros k ds []|auto]]).
  inversion H as [e Ec|root e Ec Er|root text T order T' st ou Ec Er HT (l & m & P1 & P2 & Eo) W (l2 & pages & P3 & Fp & Pr)]; subst.
  - exists [], [], []. split; [apply Empty|]. split; [eapply ru_unknown; rewrite <- (proj1 Hr); exact Ec|]. split; [apply Empty|constructor].
  - exists [], [], []. split; [apply Empty|]. split; [|split; [apply Empty|constructor]].
    pose proof (proj2 Hr root) as Hk. rewrite Er in Hk. destruct (read_to_string fs' root) as [|e'] eqn:Er'; [contradiction|].
    eapply ru_unreadable; [rewrite <- (proj1 Hr); exact Ec|exact Er'].
  - destruct (loaded_relaid (LK := bare_likeness) fs fs' incl root T Hr (fun _ _ _ _ _ => I) HT) as (U & HU & PU).
    pose proof (proj2 Hr root) as Hk. rewrite Er in Hk. destruct (read_to_string fs' root) as [text'|] eqn:Er'; [|contradiction].
    assert (Fresh : forall k v, fget k U = Some v -> pf_ctx v = None) by (intros k v Hv; apply (proj2 (proj2 HU)) in Hv; inversion Hv; reflexivity).
    assert (Ok : project_ok (mkProject U incl default_severities)).
    { intros k v c Hin Hc. cbn [pj_files] in Hin. apply (m_in_get str_eq_dec) in Hin; [|apply HU]. rewrite (Fresh _ _ Hin) in Hc. discriminate Hc. }
    destruct (walk_relaid fs fs' incl default_severities order [] T T' Hr W U (paired_table _ _ PU) Ok) as (U' & W' & R' & K').
    assert (NT : NoDup (keys T')) by (rewrite (walk_table _ _ _ _ _ _ _ W); apply HT).
    assert (NU : NoDup (keys U')) by (rewrite K'; apply HU).
    assert (PT : Forall2 paired T' U').
    { apply table_paired; [exact NT| |exact R']. rewrite K', (walk_table _ _ _ _ _ _ _ W). apply paired_keys, PU. }
    assert (QT : rooted fs T') by (eapply walk_rooted; [exact W|intros k v Hv; apply (entry_rooted fs incl), (proj2 (proj2 HT)), Hv]).
    assert (QU : rooted fs' U') by (eapply walk_rooted; [exact W'|intros k v Hv; apply (entry_rooted fs' incl), (proj2 (proj2 HU)), Hv]).
    destruct (perm_paired l T U (Permutation_sym P1) PU) as (lu & PL & Fl).
    destruct (perm_paired l2 T' U' (Permutation_sym P3) PT) as (l3 & P4 & F3).
    destruct (pages_exist l3) as [pages' Fp'].
    assert (Same : forall a b, In a T' -> In b U' -> fst a = fst b -> Forall2 same_complaint (pf_diags (snd a)) (pf_diags (snd b))).
    { intros [k v] [k' w] Ha Hb E. cbn [fst snd] in *. subst k'. apply (m_in_get str_eq_dec) in Ha; [|exact NT]. apply (m_in_get str_eq_dec) in Hb; [|exact NU].
      pose proof (R' k) as Rk. rewrite Ha, Hb in Rk. exact (same_complaints k v w (proj1 (QT k v Ha)) (proj1 (QU k w Hb)) Rk). }
    assert (Pr' : exists out', ((forall k v, In (k, v) U' -> pf_diags v = []) /\ status = 1 /\ out' = [])
        \/ ((exists k v, In (k, v) U' /\ pf_diags v <> []) /\ status = 0 /\ out' = concat (map page pages') ++ bs "OK; No issues found" ++ [cNL])).
    { destruct Pr as [(A & -> & _)|((k & v & Hi & Hd) & -> & _)].
      - exists []. left. split; [|auto]. intros k w Hi. assert (X : exists v, In (k, v) T').
        { clear - PT Hi. induction PT as [|[a x] [b y] T' U' [E _] _ IH]; [contradiction|]. cbn [fst] in E. subst b. destruct Hi as [Hi|Hi]; [injection Hi as <- <-; exists x; left; reflexivity|].
          destruct (IH Hi) as [v Hv]. exists v. right. exact Hv. }
        destruct X as [v Hv]. pose proof (Same (k, v) (k, w) Hv Hi eq_refl) as S. cbn [snd] in S. rewrite (A k v Hv) in S. inversion S. reflexivity.
      - eexists. right. split; [|split; [reflexivity|reflexivity]]. assert (X : exists w, In (k, w) U').
        { clear - PT Hi. induction PT as [|[a x] [b y] T' U' [E _] _ IH]; [contradiction|]. cbn [fst] in E. subst b. destruct Hi as [Hi|Hi]; [injection Hi as <- <-; exists y; left; reflexivity|].
          destruct (IH Hi) as [w Hw]. exists w. right. exact Hw. }
        destruct X as [w Hw]. exists k, w. split; [exact Hw|]. pose proof (Same (k, v) (k, w) Hi Hw eq_refl) as S. cbn [snd] in S. intros E. rewrite E in S. inversion S. congruence. }
    destruct Pr' as [out' Pr']. exists (diags_of l2), (diags_of l3), out'.
    split; [eapply print_shown; [exact QT|exact NT|exact P3|exists pages; split; assumption]|].
    split; [|split; [eapply print_shown; [exact QU|exact NU|apply Permutation_sym, P4|exists pages'; split; assumption]|]].
    + eapply ru_checked with (root := root) (text := text') (T := U) (order := order) (T' := U');
        [rewrite <- (proj1 Hr); exact Ec|exact Er'|exact HU| |exact W'|exists l3, pages'; split; [apply Permutation_sym, P4|split; assumption]].
      exists lu, m. split; [apply Permutation_sym, PL|]. split; [rewrite <- (includers_relaid fs fs' Hr l lu Fl); exact P2|].
      rewrite <- (paired_keys _ _ Fl). exact Eo.
    + unfold same_reports, diags_of. assert (I2 : forall a, In a l2 -> In a T') by (intros a; apply Permutation_in, P3).
      assert (I3 : forall a, In a l3 -> In a U') by (intros a; apply Permutation_in, Permutation_sym, P4).
      clear - F3 I2 I3 Same. induction F3 as [|a b l2 l3 [E _] _ IH]; cbn [map]; constructor.
      * cbn [fst snd]. split; [exact E|]. apply Same; [apply I2; left; reflexivity|apply I3; left; reflexivity|exact E].
      * apply IH; intros; [apply I2|apply I3]; right; assumption.
Qed.

(** *** C112: if the files of a disk are laid out differently, or not at all changed, each run of the tool has its like: the same exit status, and
    the same complaints about the same files in the same order, apart from places and the lines of code shown beside them. *)
Theorem C112_relaid_run : forall fs fs' u u' fuel dirs name o ofiles status out, relaid fs fs' ->
  finite_fs fs u -> (length u < fuel)%nat -> finite_fs fs' u' -> (length u' < fuel)%nat -> canon_stable fs ->
  order_ok o -> (forall l, Permutation (ofiles l) l) -> cli_main false fuel o ofiles fs dirs name = Done (status, out) ->
  exists o' ofiles' out' R R', order_ok o' /\ (forall l, Permutation (ofiles' l) l) /\ cli_main false fuel o' ofiles' fs' dirs name = Done (status, out')
    /\ shown_as fs R status out /\ shown_as fs' R' status out' /\ same_reports R R'.
Proof.
  intros fs fs' u u' fuel dirs name o ofiles status out Hr Hf Hl Hf' Hl' Hst Ho Hp E.
  assert (Hst' : canon_stable fs') by (intros x p Hx; rewrite <- (proj1 Hr) in *; exact (Hst x p Hx)).
  pose proof (proj1 (C108_exact false fs u fuel dirs name status out Hf Hl Hst) (ex_intro _ o (ex_intro _ ofiles (conj Ho (conj Hp E))))) as R.
  destruct (run_relaid fs fs' _ name status out Hr R) as (A & A' & out' & S & R' & S' & SR).
  assert (Ei : map (fun p => match fs_canon fs p with inl q => q | inr _ => [] end) dirs = map (fun p => match fs_canon fs' p with inl q => q | inr _ => [] end) dirs)
    by (apply map_ext; intros p; rewrite (proj1 Hr p); reflexivity).
  rewrite Ei in R'. apply (proj2 (C108_exact false fs' u' fuel dirs name status out' Hf' Hl' Hst')) in R'. destruct R' as (o' & ofiles' & Ho' & Hp' & E').
  exists o', ofiles', out', A, A'. auto 10.
Qed.
Print Assumptions C112_relaid_run.

Lemma bare_ctx_refl c : @ctx_like bare_likeness c c.
Proof.
  assert (X : forall x, @lkl bare_likeness x x) by (intros []; reflexivity).
  split; (split; [intros l x H; exists x; split; [exact H|apply X]|intros p n H; exists n; split; [exact H|reflexivity]]).
Qed.
(** *** C79 over all iteration orders: whatever the analysis of a file can say, it can say of the same file in another layout, word by word and even
    with the same cycles, and then all names mean the same in both. *)
Theorem C79_every_order : forall fs pj incl text text' src f s f' s' ft h ac es, project_ok pj ->
  valid_utf8 text = true -> valid_utf8 text' = true -> relaid_text src text text' ->
  parse_text incl text src = ROk f s -> parse_text incl text' src = ROk f' s' -> analysed fs pj f ft h ac es ->
  exists ac' es', analysed fs pj f' ft h ac' es' /\ Forall2 same_complaint (ps_diags s ++ es) (ps_diags s' ++ es')
    /\ (forall r, option_map bare_node (get_referenced ac r) = option_map bare_node (get_referenced ac' r))
    /\ (forall l, option_map bare_labeled (m_get str_eq_dec l (ac_labels ac)) = option_map bare_labeled (m_get str_eq_dec l (ac_labels ac'))).
Proof.
  intros fs pj incl text text' src f s f' s' ft h ac es Hp Hv Hv' Hr E E' (o & a & a' & Ho & G & An).
  pose proof (reading_relaid incl src text text' Hr Hv Hv') as Rd. rewrite E, E' in Rd. cbn [same_reading] in Rd. destruct Rd as [Eb Ed].
  destruct (analysed_spec fs pj f ft h ac es Hp (ex_intro _ o (ex_intro _ a (ex_intro _ a' (conj Ho (conj G An)))))) as (ds & g & A & Ok & L & P).
  assert (Rt : relaid_table (pj_files pj) (pj_files pj)).
  { intros k. destruct (fget k (pj_files pj)) as [v|]; [|exact I]. constructor; try reflexivity.
    - unfold tree_like. destruct (pf_file v) as [x|]; [split; [reflexivity|split; [reflexivity|apply file_nodes_bare; reflexivity]]|exact I].
    - unfold context_like. destruct (pf_ctx v); [apply bare_ctx_refl|exact I]. }
  rewrite (parse_source _ _ _ _ _ Hv E), <- (parse_source _ _ _ _ _ Hv' E') in A.
  destruct (analysis_relay fs fs (fun p => eq_refl) pj pj eq_refl Rt _ _ _ _ (fl_elements f') _ _ _ Eb (file_nodes_bare f f' Eb) A) as (ds2 & es2 & A2 & D & S).
  destruct (analysis_lookups _ _ _ _ _ _ _ _ _ Hp A2) as (c2 & Ok2 & L2 & P2).
  destruct (proj2 (C98_results_exact fs pj f' ft h a es2 (fun l => m_get str_eq_dec l (ac_labels c2)) (fun p => m_get npath_eq_dec p (ac_flat c2)) Hp G))
    as (o2 & ac2 & a2 & Ho2 & E2 & L3 & P3).
  { exists ds2, g. split; [exact A2|]. split; [exact L2|exact P2]. }
  assert (An2 : analysed fs pj f' ft h ac2 es2) by (exists o2, a, a2; auto).
  assert (EL : forall l, option_map bare_labeled (m_get str_eq_dec l (ac_labels ac)) = option_map bare_labeled (m_get str_eq_dec l (ac_labels ac2))).
  { intros l. rewrite L3. destruct (m_get str_eq_dec l (ac_labels ac)) as [x|] eqn:X.
    - apply L in X. destruct (label_means_like _ _ _ _ D X) as (y & Y & Ey). apply lkl_bare in Ey. apply L2 in Y. rewrite Y. cbn. congruence.
    - destruct (m_get str_eq_dec l (ac_labels c2)) as [y|] eqn:Y; [|reflexivity]. apply L2 in Y.
      destruct (label_means_like _ _ _ _ (defs_like_flip _ _ D) Y) as (x & X' & _). apply L in X'. congruence. }
  exists ac2, es2. split; [exact An2|]. split; [|split; [|exact EL]].
  - assert (M : forall l m, says_same l m -> Forall (fun d => dg_source d = src) l -> Forall (fun d => dg_source d = src) m -> Forall2 same_complaint l m).
    { clear. intros l. induction l as [|d l IH]; intros [|e m] R A B; try discriminate R; constructor.
      - injection R as E1 E2 _. inversion A; subst. inversion B; subst. repeat split; congruence.
      - injection R as _ _ R. inversion A; subst. inversion B; subst. apply IH; assumption. }
    assert (PS : forall t g st, valid_utf8 t = true -> parse_text incl t src = ROk g st -> Forall (fun d => dg_source d = src) (ps_diags st)).
    { intros t g0 st Ht Et. apply Forall_forall. intros d Hd. apply (PropsParser.C16_diagnostics_inside incl t src d Ht). rewrite Et. exact Hd. }
    apply M; [apply says_app; assumption| |]; (apply Forall_app; split; [first [exact (PS _ _ _ Hv E)|exact (PS _ _ _ Hv' E')]|]); apply Forall_forall; intros d Hd.
    + exact (proj1 (C111_analysis_points fs pj incl text src f s ft h ac es d Hp Hv E (ex_intro _ o (ex_intro _ a (ex_intro _ a' (conj Ho (conj G An))))) Hd)).
    + exact (proj1 (C111_analysis_points fs pj incl text' src f' s' ft h ac2 es2 d Hp Hv' E' An2 Hd)).
  - intros [l|p]; cbn [get_referenced].
    + unfold get_node_by_label. specialize (EL l).
      destruct (m_get str_eq_dec l (ac_labels ac)) as [[]|], (m_get str_eq_dec l (ac_labels ac2)) as [[]|]; try discriminate EL; try reflexivity. cbn in EL |- *. congruence.
    + unfold get_node_by_path. rewrite P3. destruct (m_get npath_eq_dec p (ac_flat ac)) as [x|] eqn:X.
      * apply P in X. destruct (path_means_like _ _ _ _ D X) as (y & Y & Ey). apply lk_bare in Ey. apply P2 in Y. rewrite Y. cbn. congruence.
      * destruct (m_get npath_eq_dec p (ac_flat c2)) as [y|] eqn:Y; [|reflexivity]. apply P2 in Y.
        destruct (path_means_like _ _ _ _ (defs_like_flip _ _ D) Y) as (x & X' & _). apply P in X'. congruence.
Qed.
Print Assumptions C79_every_order.

(** a project in two layouts, with a comment in one of them *)
Definition ex112 : list (fpath * str) :=
  [(bs "/a.dts", bs "/dts-v1/; /include/ ""/b.dtsi"" / { p = <&l>; q = <1> };"); (bs "/b.dtsi", bs "&m { reg = ""x""; };")].
Definition ex112' : list (fpath * str) :=
  [(bs "/a.dts", bs "/dts-v1/;
/include/ ""/b.dtsi""
/ {
  p = <&l>; // comment
  q = <1>
};"); (bs "/b.dtsi", bs "&m {
  reg = ""x"";
};")].
Lemma mem_relaid a b : Forall2 (fun x y => fst x = fst y /\ relaid_text (fst x) (snd x) (snd y) /\ valid_utf8 (snd x) = true /\ valid_utf8 (snd y) = true) a b ->
  relaid (mem_fs a) (mem_fs b).
Proof.
  intros H. split.
  - intros p. cbn [fs_canon mem_fs]. unfold m_mem. induction H as [|[k t] [k' t'] a b (E & _) _ IH]; [reflexivity|]. cbn [fst snd] in *. subst k'. cbn [m_get].
    destruct (str_eq_dec p k); [reflexivity|exact IH].
  - intros p. unfold read_to_string. cbn [fs_read mem_fs]. induction H as [|[k t] [k' t'] a b (E & R & V & V') _ IH]; [reflexivity|]. cbn [fst snd] in *. subst k'. cbn [m_get].
    destruct (str_eq_dec p k) as [->|]; [rewrite V, V'; exact R|exact IH].
Qed.
Definition out112 (l : list (fpath * str)) : N * str := match cli_main false 3 id_oracle (fun l => l) (mem_fs l) [] (bs "/a.dts") with Done r => r | _ => (9, []) end.
Lemma relaid_check k t t' :
  match tokenize t k, tokenize t' k with
  | Done a, Done b => map tk_kind a = map tk_kind b /\ forallb (fun k => match k with Unknown _ => false | _ => true end) (map tk_kind a) = true
  | _, _ => False
  end -> relaid_text k t t'.
Proof.
  intros H. right. destruct (tokenize t k) as [a| |]; try contradiction. destruct (tokenize t' k) as [b| |]; try contradiction. destruct H as [E F].
  exists a, b. split; [reflexivity|]. split; [reflexivity|]. split; [exact E|]. rewrite forallb_forall in F. apply Forall_forall.
  intros x Hx [c ->]. specialize (F _ Hx). discriminate F.
Qed.
Example C112_case : relaid (mem_fs ex112) (mem_fs ex112') /\ ex112 <> ex112'
  /\ cli_main false 3 id_oracle (fun l => l) (mem_fs ex112) [] (bs "/a.dts") = Done (0, bs "error --> /a.dts:1:52
  |
1 | /dts-v1/; /include/ ""/b.dtsi"" / { p = <&l>; q = <1> };
  |                                                    ^ Expected ';'

error --> /a.dts:1:40
  |
1 | /dts-v1/; /include/ ""/b.dtsi"" / { p = <&l>; q = <1> };
  |                                        ^^ Reference cannot be resolved


OK; No issues found
")
  /\ cli_main false 3 id_oracle (fun l => l) (mem_fs ex112') [] (bs "/a.dts") = Done (0, bs "error --> /a.dts:5:10
  |
5 |   q = <1>
  |          ^ Expected ';'

error --> /a.dts:4:8
  |
4 |   p = <&l>; // comment
  |        ^^ Reference cannot be resolved


OK; No issues found
").
Proof.
  split; [|split; [discriminate|split; vm_compute; reflexivity]]. apply mem_relaid. unfold ex112, ex112'.
  constructor; [|constructor; [|constructor]]; (split; [reflexivity|split; [|split; vm_compute; reflexivity]]); apply relaid_check; vm_compute; auto.
Qed.
(** the hypotheses of [C79_every_order], with a file that has several diagnostics *)
Example C79_order_case : relaid_text (bs "a.dts") ex79a ex79b /\ exists f s f' s' ac es,
  parse_text [] ex79a (bs "a.dts") = ROk f s /\ parse_text [] ex79b (bs "a.dts") = ROk f' s' /\ analysed no_fs empty_project f DtSource [] ac es /\ length es = 5%nat.
Proof.
  destruct C79_case as (f & s & f' & s' & toks & toks' & ac & es & ac' & es' & _ & _ & T & T' & K & U & P & P' & _ & A & _ & M & _).
  split; [right; exists toks, toks'; auto|]. exists f, s, f', s', ac, es. split; [exact P|]. split; [exact P'|]. split; [exact A|].
  assert (L : length (ps_diags s) = 1%nat).
  { assert (X : match parse_text [] ex79a (bs "a.dts") with ROk _ s => length (ps_diags s) = 1%nat | _ => False end) by (vm_compute; reflexivity). rewrite P in X. exact X. }
  apply (f_equal (@length _)) in M. rewrite map_length, app_length, L in M. cbn [length] in M. lia.
Qed.
