(** A whole run of the command line tool: the spec of C108, and what its proof needs *)
From Verif Require Import Base Analysis AnalysisSpec AnalysisProofs Project ProjectSpec ProjectProofs2 ProjectHistory PropsAnalysis PropsRealise
  PropsHistory PropsCli Parser Cli.
From Coq Require Import Permutation.

Definition table := list (fpath * pfile).

Section Spec.
  Context (fs : fsys) (incl : list fpath).
  (** an include that cannot be followed *)
  Definition unfollowable (p : primary) : list diag :=
    match p with
    | PDirective (AInclude i) =>
      match include_path fs i with
      | inr e => [mkDiag IOError (include_span i) (include_source i) e]
      | inl q => match read_to_string fs q with
                 | inl _ => []
                 | inr e => [mkDiag IOError (include_span i) (include_source i) e]
                 end
      end
    | _ => []
    end.
  (** [entry k v]: what is known of the file [k] before anything is analysed *)
  Inductive entry (k : fpath) : pfile -> Prop :=
  | en_tree t f s : read_to_string fs k = inl t -> parse_text (include_dirs incl k) t k = ROk f s ->
      entry k (mkPF (ps_diags s ++ flat_map unfollowable (fl_elements f)) [] (Some f) None (file_type_of_path k) t)
  | en_error t d s : read_to_string fs k = inl t -> parse_text (include_dirs incl k) t k = RErr d s ->
      entry k (mkPF [d] [] None None (file_type_of_path k) t).
  (** the files that are met on the way from [root] along readable includes *)
  Inductive met (root : fpath) : fpath -> Prop :=
  | me_root : met root root
  | me_include k v f i q : met root k -> entry k v -> pf_file v = Some f -> In (PDirective (AInclude i)) (fl_elements f) ->
      include_path fs i = inl q -> readable fs q -> met root q.
  Definition all_met (root : fpath) (T : table) : Prop :=
    NoDup (keys T) /\ (forall k, In k (keys T) <-> met root k) /\ (forall k v, fget k T = Some v -> entry k v).
  (** the orders of analysis: the files are enumerated in some order, and so are the files with their includers; then the exchanges of
      project.rs:147-157 are made ([order_loop]; when the result is a good order is C38) *)
  Definition possible (T : table) (order : list fpath) : Prop :=
    exists l m, Permutation l T /\ Permutation m (includer_map fs l) /\ order_loop m (keys l) = Done order.
  (** the analysis, one file after the other; [h] are the includes seen so far *)
  Context (sev : severity_map).
  Inductive walk : list fpath -> deps -> table -> table -> Prop :=
  | wk_end h T : walk [] h T T
  | wk_none k r h T T' v : fget k T = Some v -> pf_file v = None -> walk r h T T' -> walk (k :: r) h T T'
  | wk_file k r h T T' v f ds h' es c : fget k T = Some v -> pf_file v = Some f ->
      analysis_of fs (mkProject T incl sev) (fl_source f) (pf_type v) h (fl_elements f) ds h' es -> lookups ds c ->
      walk r h' (m_update k (store_result (c, es) v) T) T' -> walk (k :: r) h T T'.
End Spec.

(** what is printed in the end, the files in any order *)
Definition printed (dbg : bool) (T : table) (status : N) (out : str) : Prop :=
  exists l pages, Permutation l T /\ Forall2 (fun kv => Forall2 (block dbg (snd kv)) (pf_diags (snd kv))) l pages
    /\ (((forall k v, In (k, v) T -> pf_diags v = []) /\ status = 1 /\ out = [])
        \/ ((exists k v, In (k, v) T /\ pf_diags v <> []) /\ status = 0 /\ out = concat (map page pages) ++ bs "OK; No issues found" ++ [cNL])).
Inductive run_of (dbg : bool) (fs : fsys) (incl : list fpath) (name : str) : N -> str -> Prop :=
| ru_unknown e : fs_canon fs name = inr e -> run_of dbg fs incl name 1 []
| ru_unreadable root e : fs_canon fs name = inl root -> read_to_string fs root = inr e -> run_of dbg fs incl name 1 []
| ru_checked root text T order T' status out : fs_canon fs name = inl root -> read_to_string fs root = inl text ->
    all_met fs incl root T -> possible fs T order -> walk fs incl default_severities order [] T T' ->
    printed dbg T' status out -> run_of dbg fs incl name status out.

(** ** Orders by a list of keys *)
Section Sort.
  Context {K V : Type} (dec : forall a b : K, {a = b} + {a <> b}).
  Definition at_key (k : K) (e : K * V) : bool := if dec (fst e) k then true else false.
  Fixpoint sort_by (ks : list K) (m : list (K * V)) : list (K * V) :=
    match ks with [] => m | k :: r => filter (at_key k) m ++ sort_by r (filter (fun e => negb (at_key k e)) m) end.
  Lemma both_parts (p : K * V -> bool) m : Permutation (filter p m ++ filter (fun e => negb (p e)) m) m.
  Proof.
    induction m as [|x m IH]; [constructor|]. cbn [filter]. destruct (p x); cbn [negb app]; [constructor; exact IH|].
    eapply Permutation_trans; [apply Permutation_sym, Permutation_middle|]. constructor. exact IH.
  Qed.
  Lemma sort_perm ks : forall m, Permutation (sort_by ks m) m.
  Proof.
    induction ks as [|k ks IH]; intros m; cbn [sort_by]; [apply Permutation_refl|].
    eapply Permutation_trans; [apply Permutation_app_head, IH|]. apply both_parts.
  Qed.
  Lemma perm_filter (p : K * V -> bool) a b : Permutation a b -> Permutation (filter p a) (filter p b).
  Proof.
    induction 1 as [|x a b _ IH|x y a|a b c _ IH1 _ IH2]; cbn [filter]; [constructor| | |eapply Permutation_trans; eassumption].
    - destruct (p x); [constructor|]; exact IH.
    - destruct (p x), (p y); try apply Permutation_refl. apply perm_swap.
  Qed.
  Lemma filter_absent k (m : list (K * V)) : ~ In k (map fst m) -> filter (at_key k) m = [] /\ filter (fun e => negb (at_key k e)) m = m.
  Proof.
    induction m as [|[a v] m IH]; intros H; [split; reflexivity|]. cbn [map fst] in H.
    assert (E : at_key k (a, v) = false) by (unfold at_key; cbn [fst]; destruct (dec a k) as [->|]; [exfalso; apply H; left; reflexivity|reflexivity]).
    cbn [filter]. rewrite E. cbn [negb]. destruct IH as [A B]; [intros X; apply H; right; exact X|].
    rewrite A, B. split; reflexivity.
  Qed.
  Lemma sort_to l : forall m, NoDup (map fst l) -> Permutation m l -> sort_by (map fst l) m = l.
  Proof.
    induction l as [|[k v] l IH]; intros m N P; cbn [map fst sort_by].
    - apply Permutation_sym, Permutation_nil in P. exact P.
    - inversion N as [|? ? N1 N2]; subst. destruct (filter_absent k l N1) as [F1 F2].
      assert (Ek : at_key k (k, v) = true) by (unfold at_key; cbn [fst]; destruct (dec k k); [reflexivity|contradiction]).
      assert (A : Permutation (filter (at_key k) m) [(k, v)]).
      { eapply Permutation_trans; [apply perm_filter, P|]. cbn [filter]. rewrite Ek, F1. apply Permutation_refl. }
      assert (B : Permutation (filter (fun e => negb (at_key k e)) m) l).
      { eapply Permutation_trans; [apply (perm_filter (fun e => negb (at_key k e))), P|]. cbn [filter]. rewrite Ek. cbn [negb]. rewrite F2. apply Permutation_refl. }
      apply Permutation_sym, Permutation_length_1_inv in A. rewrite A, (IH _ N2 B). reflexivity.
  Qed.
End Sort.

(** ** The analysis of all files against its spec *)
Section Walk.
  Context (fs : fsys) (incl : list fpath) (sev : severity_map).
  Notation walk := (walk fs incl sev).

  Lemma keys_walk o : oracle_ok o -> forall order a pj h pj', project_ok pj -> pj_incl pj = incl -> pj_sev pj = sev ->
    an_guard a = guard_after str_eq_dec h -> analyze_keys o fs order a pj = Done pj' -> walk order h (pj_files pj) (pj_files pj').
  Proof.
    intros Ho. induction order as [|k order IH]; intros a pj h pj' Hp Ei Es G E; cbn [analyze_keys] in E.
    - injection E as <-. constructor.
    - destruct (fget k (pj_files pj)) as [v|] eqn:Ev; [|discriminate E]. destruct (pf_file v) as [f|] eqn:Ef; [|eapply wk_none; eauto].
      destruct (file_spec o fs pj f (pf_type v) Ho Hp h a G) as (ac & es & a' & ds & h' & E2 & An & Hc & ML & MP & G').
      rewrite E2 in E. cbn [obind] in E. assert (Ep : pj = mkProject (pj_files pj) incl sev) by (rewrite <- Ei, <- Es; destruct pj; reflexivity).
      eapply wk_file; [exact Ev|exact Ef|rewrite <- Ep; exact An|split; [exact Hc|split; [exact ML|exact MP]]|].
      apply (IH a' (set_files (m_update k (store_result (ac, es) v) (pj_files pj)) pj) h' pj'); [|exact Ei|exact Es|exact G'|exact E].
      apply project_ok_update; [exact Hp|exact Hc].
  Qed.

  (** tables that look the same *)
  Definition ctx_alike (a b : option actx) : Prop := match a, b with Some c, Some d => same_answers c d | None, None => True | _, _ => False end.
  Definition alike_file (v w : pfile) : Prop := same_source v w /\ pf_adiags v = pf_adiags w /\ ctx_alike (pf_ctx v) (pf_ctx w).
  Definition alike_table (T U : table) : Prop := forall k, match fget k T, fget k U with
    | Some v, Some w => alike_file v w | None, None => True | _, _ => False end.
  Lemma alike_diags v w : alike_file v w -> pf_diags v = pf_diags w.
  Proof. intros ((H & _) & K & _). unfold pf_diags. congruence. Qed.

  Lemma elements_carry pj1 pj2 src ft l : pj_sev pj1 = pj_sev pj2 -> alike_table (pj_files pj1) (pj_files pj2) ->
    forall ps a1 a2 h b1 g e, Forall2 def_sim a1 a2 -> elements fs pj1 src ft ps a1 h l b1 g e ->
    exists b2, Forall2 def_sim b1 b2 /\ elements fs pj2 src ft ps a2 h l b2 g e.
  Proof.
    intros Es Ha. induction l as [|p l IH]; intros ps a1 a2 h b1 g e Hs H.
    - apply elements_nil_inv in H. destruct H as (-> & -> & ->). exists a2. split; [exact Hs|constructor].
    - apply elements_cons_inv in H. destruct H as (dp & k & ep & f & A & B & ->).
      assert (K : exists dp2, Forall2 def_sim dp dp2 /\ element fs pj2 src ft ps a2 h p dp2 k ep).
      { inversion A as [t e1 X|t|x y|t r|s|i ds1 h1 e1 X|t r q found e1 X Y|n|r q found e1 T X Y|r T]; subst;
          try (eexists; split; [apply sim_refl|]; constructor; assumption).
        - inversion X as [e0 X1|q cycle X1 X2|q X1 X2 X3|q f0 d0 e0 X1 X2 X3 X4 X5]; subst;
            try (exists []; split; [constructor|]; constructor; econstructor; eassumption).
          + exists []. split; [constructor|]. constructor. apply in_unknown; [exact X1|exact X2|]. unfold get_file in *.
            destruct (fs_canon fs q) as [z|]; [|reflexivity]. specialize (Ha z). rewrite X3 in Ha. destruct (fget z (pj_files pj2)); [contradiction|reflexivity].
          + unfold get_file in X3. destruct (fs_canon fs q) as [z|] eqn:Ez; [|discriminate X3]. specialize (Ha z). rewrite X3 in Ha.
            destruct (fget z (pj_files pj2)) as [w|] eqn:Ew; [|contradiction].
            exists (match pf_ctx w with Some c => [DInclude c] | None => [] end). split.
            * destruct Ha as (_ & _ & Hc). unfold ctx_alike in Hc. destruct (pf_ctx f0), (pf_ctx w); try contradiction; repeat constructor; apply Hc.
            * constructor. eapply in_file with (f := w); [exact X1|exact X2|unfold get_file; rewrite Ez; exact Ew|reflexivity|].
              unfold error_diag in *. rewrite <- Es, <- (alike_diags _ _ Ha). exact X5.
        - exists []. split; [constructor|]. econstructor; [eapply opens_sim; eassumption|exact Y].
        - eexists. split; [apply sim_refl|]. econstructor; [reflexivity|eapply opens_sim; eassumption|exact Y]. }
      destruct K as (dp2 & K1 & K2). destruct (IH _ _ _ _ _ _ _ (Forall2_app Hs K1) B) as (b2 & R1 & R2).
      exists b2. split; [exact R1|]. econstructor; eassumption.
  Qed.
  Lemma analysis_carry pj1 pj2 src ft h l ds h' es : pj_sev pj1 = pj_sev pj2 -> alike_table (pj_files pj1) (pj_files pj2) ->
    analysis_of fs pj1 src ft h l ds h' es -> exists ds', Forall2 def_sim ds ds' /\ analysis_of fs pj2 src ft h l ds' h' es.
  Proof.
    intros Es Ha H. inversion H as [? ? e vs rs H1 H2 H3]; subst.
    destruct (elements_carry pj1 pj2 src ft l Es Ha _ _ _ _ _ _ _ (sim_refl []) H1) as (ds' & S & K).
    exists ds'. split; [exact S|]. constructor; [exact K|exact H2|eapply references_sim; eassumption].
  Qed.

  (** *** Orders for one part of the queries *)
  Lemma primaries_until o o' pj file l : forall a c a' c', analyze_primaries o fs pj file l a c = Done (a', c') ->
    (an_tick a <= an_tick a')%nat /\ ((forall t, (an_tick a <= t < an_tick a')%nat -> same_at o o' t) ->
      analyze_primaries o' fs pj file l a c = Done (a', c')).
  Proof.
    induction l as [|p l IH]; intros a c a' c' E; cbn [analyze_primaries] in *; [injection E as <- <-; split; [lia|reflexivity]|].
    destruct (analyze_primary o fs pj file p a c) as [[a1 c1]| |] eqn:E1; cbn [obind] in E; try discriminate E.
    destruct (IH _ _ _ _ E) as [L K]. destruct (primary_tick _ _ _ _ _ _ _ _ _ E1) as [T|[T U]].
    - split; [lia|]. intros H. rewrite <- (primary_local o o' fs pj file p a c) by (apply H; lia). rewrite E1. cbn [obind]. apply K. intros t Ht. apply H. lia.
    - split; [lia|]. intros H. rewrite (U o'). cbn [obind]. apply K. intros t Ht. apply H. lia.
  Qed.
  Lemma file_until o o' pj file ft a r a' : analyze_file o fs pj file ft a = Done (r, a') ->
    (an_tick a <= an_tick a')%nat /\ ((forall t, (an_tick a <= t < an_tick a')%nat -> same_at o o' t) -> analyze_file o' fs pj file ft a = Done (r, a')).
  Proof.
    unfold analyze_file. destruct (analyze_primaries o fs pj file (fl_elements file) a (fctx_new ft)) as [[a1 c1]| |] eqn:E; cbn [obind]; try discriminate.
    intros E'. injection E' as <- <-. destruct (primaries_until o o' pj file _ _ _ _ _ E) as [L K]. split; [exact L|]. intros H. rewrite (K H). reflexivity.
  Qed.
  Lemma file_local o o' pj file ft a : (forall t, (an_tick a <= t)%nat -> same_at o o' t) -> analyze_file o fs pj file ft a = analyze_file o' fs pj file ft a.
  Proof. intros H. unfold analyze_file. rewrite (primaries_local o o' fs pj file _ _ _ H). reflexivity. Qed.
  Lemma keys_local o o' order : forall a pj, (forall t, (an_tick a <= t)%nat -> same_at o o' t) -> analyze_keys o fs order a pj = analyze_keys o' fs order a pj.
  Proof.
    induction order as [|k order IH]; intros a pj H; cbn [analyze_keys]; [reflexivity|].
    destruct (fget k (pj_files pj)) as [v|]; [|reflexivity]. destruct (pf_file v) as [f|]; [|apply IH; exact H].
    rewrite (file_local o o' pj f _ a H). destruct (analyze_file o' fs pj f (pf_type v) a) as [[r a']| |] eqn:E; cbn [obind]; try reflexivity.
    apply IH. intros t Ht. apply H. pose proof (proj1 (file_until o' o' pj f _ _ _ _ E)). lia.
  Qed.
  Definition then_orders (n : nat) (o o' : an_oracle) : an_oracle :=
    mkOracle (fun t => if Nat.ltb t n then o_guard o t else o_guard o' t) (fun t => if Nat.ltb t n then o_flat o t else o_flat o' t).
  Lemma then_ok n o o' : oracle_ok o -> oracle_ok o' -> oracle_ok (then_orders n o o').
  Proof. intros [A B] [C D]. split; intros t; cbn [o_guard o_flat then_orders]; destruct (Nat.ltb t n); auto. Qed.

  Lemma lookups_alike ds ds' c c' : Forall2 def_sim ds ds' -> lookups ds c -> lookups ds' c' -> same_answers c c'.
  Proof.
    intros S ([N1 N2] & L & P) ([N3 N4] & L' & P'). split; intros.
    - rewrite <- (m_get_iff str_eq_dec _ _ _ N1), <- (m_get_iff str_eq_dec _ _ _ N3), L, L'. apply label_means_sim, S.
    - rewrite <- (m_get_iff npath_eq_dec _ _ _ N2), <- (m_get_iff npath_eq_dec _ _ _ N4), P, P'. apply path_means_sim, S.
  Qed.

  Lemma walk_keys order h T T' : walk order h T T' -> forall a pj, project_ok pj -> pj_sev pj = sev -> alike_table T (pj_files pj) ->
    an_guard a = guard_after str_eq_dec h ->
    exists o pj', oracle_ok o /\ analyze_keys o fs order a pj = Done pj' /\ alike_table T' (pj_files pj') /\ keys (pj_files pj') = keys (pj_files pj).
  Proof.
    induction 1 as [h T|k r h T T' v Hv Hf _ IH|k r h T T' v f ds h' es c Hv Hf An Hc _ IH]; intros a pj Hp Es Ha G.
    - exists o_id, pj. split; [exact o_id_ok|]. split; [reflexivity|]. split; [exact Ha|reflexivity].
    - destruct (IH a pj Hp Es Ha G) as (o & pj' & Ho & E & A & B). exists o, pj'. split; [exact Ho|]. split; [|auto].
      cbn [analyze_keys]. pose proof (Ha k) as Hk. rewrite Hv in Hk. destruct (fget k (pj_files pj)) as [w|]; [|contradiction].
      destruct Hk as ((_ & Hk & _) & _). rewrite <- Hk, Hf. exact E.
    - pose proof (Ha k) as Hk. rewrite Hv in Hk. destruct (fget k (pj_files pj)) as [w|] eqn:Ew; [|contradiction].
      destruct (analysis_carry (mkProject T incl sev) pj _ _ _ _ _ _ _ (eq_sym Es) Ha An) as (ds2 & S & An2).
      pose proof Hk as ((Hk1 & Hk2 & Hk3 & Hk4) & Hk5 & Hk6).
      destruct (proj2 (C98_results_exact fs pj f (pf_type v) h a es (fun l => m_get str_eq_dec l (ac_labels c)) (fun p => m_get npath_eq_dec p (ac_flat c)) Hp G))
        as (o1 & ac & a1 & Ho1 & E1 & L1 & P1).
      { exists ds2, h'. split; [exact An2|]. destruct Hc as (_ & HL & HP). split; intros.
        - rewrite HL. apply label_means_sim, S.
        - rewrite HP. apply path_means_sim, S. }
      destruct (file_spec o1 fs pj f (pf_type v) Ho1 Hp h a G) as (ac' & es' & a1' & ds3 & h3 & E3 & An3 & Hok & HL3 & HP3 & G3).
      rewrite E1 in E3. injection E3 as <- <- <-.
      assert (h3 = h') as ->.
      { inversion An2; inversion An3; subst. repeat match goal with K : elements _ _ _ _ _ _ _ _ _ _ _ |- _ => apply elements_deps in K end. congruence. }
      assert (Sa : same_answers c ac).
      { destruct Hc as ((N1 & N2) & _). destruct Hok as (N3 & N4). split; intros.
        - rewrite <- (m_get_iff str_eq_dec _ _ _ N1), <- (m_get_iff str_eq_dec _ _ _ N3), L1. reflexivity.
        - rewrite <- (m_get_iff npath_eq_dec _ _ _ N2), <- (m_get_iff npath_eq_dec _ _ _ N4), P1. reflexivity. }
      destruct (IH a1 (set_files (m_update k (store_result (ac, es) w) (pj_files pj)) pj)) as (o2 & pj' & Ho2 & E2 & A2 & B2).
      { apply project_ok_update; [exact Hp|exact Hok]. }
      { exact Es. }
      { intros q. cbn [pj_files set_files]. rewrite !update_get. specialize (Ha q).
        destruct (str_eq_dec k q) as [<-|]; [|exact Ha]. rewrite Hv, Ew. unfold alike_file, same_source. cbn [store_result pf_pdiags pf_adiags pf_file pf_ctx pf_type pf_text fst snd].
        repeat split; try assumption; apply Sa. }
      { exact G3. }
      pose proof (file_until o1 (then_orders (an_tick a1) o1 o2) pj f (pf_type v) a _ _ E1) as [Lt K].
      exists (then_orders (an_tick a1) o1 o2), pj'. split; [apply then_ok; assumption|]. split.
      + cbn [analyze_keys]. rewrite Ew, <- Hk2, Hf, <- Hk3, K.
        * cbn [obind]. rewrite <- E2. apply keys_local. intros t Ht. unfold same_at. cbn [o_guard o_flat then_orders].
          destruct (Nat.ltb_spec t (an_tick a1)); [lia|]. split; reflexivity.
        * intros t Ht. unfold same_at. cbn [o_guard o_flat then_orders]. destruct (Nat.ltb_spec t (an_tick a1)); [|lia]. split; reflexivity.
      + split; [exact A2|]. rewrite B2. cbn [pj_files set_files]. apply update_keys.
  Qed.
End Walk.
