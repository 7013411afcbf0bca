(** What happens to other files does not matter: C75 *)
From Verif Require Import ParserBase ProjectSpec ProjectProofs2 ProjectOrder ProjectHistory PropsAnalysis AnalysisProofs PropsProject PropsProject2 PropsProject3 PropsGoto PropsHistory
  Server ServerProofs PropsServer PropsServed PropsOrder Tests.
From Coq Require Import Permutation Wf_nat Operators_Properties Relation_Operators.

(** the file [k] and all files it includes, directly or not, are present, their results are those of the present
    files, and none of them is on a cycle of includes *)
Definition current_from (fs : fsys) (pj : project) (k : fpath) : Prop :=
  forall q, reaches fs pj k q -> (exists v, fget q (pj_files pj) = Some v /\ settled fs pj q v)
    /\ ~ clos_trans _ (stored_includes fs (pj_files pj)) q q.
(** what the two projects hold for these files looks the same *)
Definition view_kept (fs : fsys) (pj pj' : project) (k : fpath) : Prop :=
  forall q, reaches fs pj k q -> exists v w, fget q (pj_files pj) = Some v /\ fget q (pj_files pj') = Some w /\ same_source v w /\ result_sim v w.

Lemma result_refl v : result_sim v v.
Proof. split; [reflexivity|]. unfold ctx_sim. destruct (pf_ctx v) as [c|]; [|exact I]. split; intros; tauto. Qed.
Lemma result_trans u v w : result_sim u v -> result_sim v w -> result_sim u w.
Proof.
  intros [A B] [C D]. split; [congruence|]. unfold ctx_sim in *.
  destruct (pf_ctx u) as [a|], (pf_ctx v) as [b|], (pf_ctx w) as [c|]; try contradiction; try exact I.
  destruct B as [B1 B2], D as [D1 D2]. split; intros; [rewrite B1; apply D1|rewrite B2; apply D2].
Qed.
Lemma result_sym v w : result_sim v w -> result_sim w v.
Proof.
  intros [A B]. split; [congruence|]. unfold ctx_sim in *. destruct (pf_ctx v), (pf_ctx w); try contradiction; [|exact I].
  destruct B as [B1 B2]. split; intros; symmetry; [apply B1|apply B2].
Qed.
Lemma source_sym v w : same_source v w -> same_source w v.
Proof. unfold same_source. intuition congruence. Qed.
Lemma source_trans u v w : same_source u v -> same_source v w -> same_source u w.
Proof. unfold same_source. intuition congruence. Qed.

Section View.
  Context (fs : fsys) (pj pj' : project) (k : fpath).
  Context (T : forall q, reaches fs pj k q -> exists v w, fget q (pj_files pj) = Some v /\ fget q (pj_files pj') = Some w /\ pf_file v = pf_file w).
  Lemma edge_same p q : reaches fs pj k p -> (stored_includes fs (pj_files pj) p q <-> stored_includes fs (pj_files pj') p q).
  Proof.
    intros Hp. destruct (T p Hp) as (v & w & Ev & Ew & E).
    unfold stored_includes. change (m_get str_eq_dec p (pj_files pj)) with (fget p (pj_files pj)). change (m_get str_eq_dec p (pj_files pj')) with (fget p (pj_files pj')).
    rewrite Ev, Ew. split; intros (x & f & i & A & B & C); injection A as <-; [exists w, f, i|exists v, f, i]; (split; [reflexivity|split; [congruence|exact C]]).
  Qed.
  Lemma reach_same q : reaches fs pj k q <-> reaches fs pj' k q.
  Proof.
    split; intros H.
    - apply clos_rt_rtn1 in H. induction H as [|a b H1 H2 IH]; [apply rt_refl|].
      apply clos_rtn1_rt in H2. eapply rt_trans; [exact IH|]. apply rt_step, (edge_same a b H2), H1.
    - apply clos_rt_rtn1 in H. induction H as [|a b H1 _ IH]; [apply rt_refl|].
      eapply rt_trans; [exact IH|]. apply rt_step, (edge_same a b IH), H1.
  Qed.
  Lemma cycle_same p q : reaches fs pj k p -> clos_trans _ (stored_includes fs (pj_files pj')) p q -> clos_trans _ (stored_includes fs (pj_files pj)) p q.
  Proof.
    intros Hp H. assert (K : clos_trans _ (stored_includes fs (pj_files pj)) p q /\ reaches fs pj k q); [|apply K].
    apply clos_trans_tn1 in H. induction H as [b H|b c H1 H2 [IH1 IH2]].
    - apply (edge_same p b Hp) in H. split; [apply t_step, H|]. eapply rt_trans; [exact Hp|apply rt_step, H].
    - apply (edge_same b c IH2) in H1. split; [eapply t_trans; [exact IH1|apply t_step, H1]|]. eapply rt_trans; [exact IH2|apply rt_step, H1].
  Qed.
End View.

Lemma flip_cycle fs files p q : clos_trans _ (included_by fs files) p q -> clos_trans _ (stored_includes fs files) q p.
Proof. induction 1 as [a b H|a b c _ IH1 _ IH2]; [apply t_step, H|eapply t_trans; eassumption]. Qed.

Section Add.
  Context (fs : fsys) (u : list fpath) (fuel : nat) (o : oracle) (name root : fpath) (text : str) (ft : file_type) (pj pj' : project) (k : fpath).
  Context (Hst : canon_stable fs) (Hf : finite_fs fs u) (Hl : (length u < fuel)%nat) (Ho : order_ok o) (Hc : fs_canon fs name = inl root)
    (Hv : valid_utf8 text = true) (Hp : reached pj) (E : add_file_with_text fuel o fs name text ft pj = Done pj').
  Context (Hcur : current_from fs pj k) (Hne : ~ reaches fs pj k root) (Hu : unambiguous_from fs pj k).

  Lemma add_view : view_kept fs pj pj' k.
  Proof.
    destruct (add_done _ _ _ _ _ _ _ _ _ _ Hf Hl Ho Hc Hv Hp E) as (files' & order & L & Hcl & Hk & P & Hp' & _ & Es & A & S).
    pose proof (reached_inv _ Hp) as I1.
    pose proof (same_includes fs files' (pj_files pj') S) as SI.
    assert (Hin : forall k, In k order <-> In k (keys files')).
    { intros x. split; apply Permutation_in; [exact P|apply Permutation_sym, P]. }
    assert (Fr : forall q v, reaches fs pj k q -> fget q (pj_files pj) = Some v -> fget q files' = Some v).
    { intros q v Hq Hqv. rewrite (li_frame _ _ _ _ _ _ _ L q (m_get_key _ _ _ _ Hqv)); [exact Hqv|]. intros ->. exact (Hne Hq). }
    assert (Sp : forall q v, reaches fs pj k q -> fget q (pj_files pj) = Some v -> exists w, fget q (pj_files pj') = Some w /\ same_source v w).
    { intros q v Hq Hqv. pose proof (S q) as Sq. rewrite (Fr q v Hq Hqv) in Sq. destruct (fget q (pj_files pj')) as [w|]; [|contradiction].
      exists w. split; [reflexivity|]. apply source_sym, Sq. }
    assert (Tr : forall q, reaches fs pj k q -> exists v w, fget q (pj_files pj) = Some v /\ fget q (pj_files pj') = Some w /\ pf_file v = pf_file w).
    { intros q Hq. destruct (proj1 (Hcur q Hq)) as (v & Ev & _). destruct (Sp q v Hq Ev) as (w & Ew & X). exists v, w. split; [exact Ev|]. split; [exact Ew|apply X]. }
    assert (Hsrc : forall k v f, fget k files' = Some v -> pf_file v = Some f -> fl_source f = k).
    { intros x y z H1 H3. specialize (S x). rewrite H1 in S. destruct (fget x (pj_files pj')) as [w|] eqn:Ew; [|contradiction].
      apply (pi_source _ Hp' x w z Ew). destruct S as (_ & S & _). congruence. }
    assert (HE : forall q, reaches fs pj k q -> ~ on_cycle (included_by fs files') q).
    { intros q Hq Hcy. apply flip_cycle in Hcy. apply (proj2 (Hcur q Hq)). apply (cycle_same fs pj pj' k Tr q q Hq).
      clear - Hcy SI. revert Hcy. generalize q at 2 4. intros r H. induction H as [a b H|a b c _ IH1 _ IH2]; [apply t_step, SI, H|eapply t_trans; eassumption]. }
    assert (R : forall k1 k2, order = k1 ++ k2 -> forall q v w, In q k1 -> reaches fs pj k q -> fget q (pj_files pj) = Some v -> fget q (pj_files pj') = Some w -> result_sim v w).
    { destruct A as (A1 & A2 & A3 & A4). induction k1 as [|q k1 IH] using rev_ind; intros k2 Eo q' v w Hq' Hr Ev Ew; [destruct Hq'|].
      rewrite <- app_assoc in Eo. cbn [app] in Eo. apply in_app_or in Hq'. destruct Hq' as [Hq'|[<-|[]]]; [exact (IH _ Eo q' v w Hq' Hr Ev Ew)|].
      specialize (IH _ Eo). pose proof (Fr q v Hr Ev) as Ev'. destruct (pf_file v) as [f|] eqn:Ef.
      - destruct (A4 k1 q k2 v f Eo Ev' Ef) as (pjk & a & a' & ac & es & B1 & B2 & B3 & B4 & B5 & Bs & B6 & B7).
        assert (w = store_result (ac, es) v) as -> by congruence.
        destruct (analysed_spec fs pjk f (pf_type v) (deps_of fs files' k1) ac es B5) as (ds2 & h2 & An & Ok & HL & HP).
        { exists (o_an o), a, a'. split; [apply Ho|]. split; [exact B2|exact B3]. }
        rewrite (Hsrc q v f Ev' Ef) in An. inversion An as [dA hA e2 vs2 rs2 An1 An2 An3 Q4 Q5 Q6]. subst ds2 h2 es.
        destruct (proj1 (Hcur q Hr)) as (v0 & Ev0 & St). assert (v0 = v) as -> by congruence. unfold settled in St. rewrite Ef in St.
        destruct St as (ds1 & h1 & c1 & A1' & C1 & L1). inversion A1' as [dB hB e1 vs1 rs1 M1 M2 M3 Q1 Q2 Q3]. subst ds1 h1.
        assert (DE : Forall2 def_sim dB dA /\ e1 = e2);
          [eapply (elements_sim (included_by fs files') (reaches fs pj k) HE fs pj pjk q (pf_type v) (fl_elements f));
           [|exact (sim_refl [])|apply inside_nil| |exact M1|exact An1|]|].
        + intros i q2 Hi Ei. assert (Hqq : stored_includes fs (pj_files pj) q q2) by (exists v, f, i; auto).
          assert (Hr2 : reaches fs pj k q2) by (eapply rt_trans; [exact Hr|apply rt_step, Hqq]).
          split; [exact Hr2|]. split; [exists v, f, i; auto|]. destruct (include_canon fs i q2 Ei) as [x Hx]. unfold get_file. rewrite (Hst x q2 Hx).
          change (m_get str_eq_dec q2 (pj_files pj)) with (fget q2 (pj_files pj)). change (m_get str_eq_dec q2 (pj_files pjk)) with (fget q2 (pj_files pjk)).
          destruct (proj1 (Hcur q2 Hr2)) as (v2 & Ev2 & _). rewrite Ev2.
          assert (W : exists w2, fget q2 (pj_files pjk) = Some w2 /\ same_source v2 w2 /\ result_sim v2 w2).
          { destruct (in_dec str_eq_dec q2 k1) as [Hk1|Hk1].
            - rewrite (B6 q2 Hk1). destruct (Sp q2 v2 Hr2 Ev2) as (w2 & Ew2 & Ss). exists w2. split; [exact Ew2|]. split; [exact Ss|]. exact (IH q2 v2 w2 Hk1 Hr2 Ev2 Ew2).
            - rewrite (B7 q2 Hk1), (Fr q2 v2 Hr2 Ev2). exists v2. split; [reflexivity|]. split; [repeat split|apply result_refl]. }
          destruct W as (w2 & -> & Ss & [Y1 Y2]). split; [|exact Y2]. unfold error_diag, pf_diags. rewrite Y1, (proj1 Ss), Bs, Es. reflexivity.
        + intros x y Hxy. unfold included_by.
          pose proof (deps_of_depends fs files' order (li_nodup _ _ _ _ _ _ _ L) Hin Hsrc x y) as D. apply D.
          rewrite Eo. unfold deps_of. rewrite flat_map_app. apply depends_app. left. exact Hxy.
        + intros l1 r l2 l El Er Et ds' h' e' Hl' p n q2 m.
          pose proof (Hu q v f Hr Ev Ef Et l1 r l2 l El Er) as U. rewrite (pi_source _ I1 q v f Ev Ef), <- Et in U.
          exact (U ds' h' e' Hl' p n q2 m).
        + destruct DE as [D ->]. split.
          * cbn [store_result pf_adiags snd]. rewrite <- Q3, (version_fun _ _ _ _ _ M2 An2), (references_fun _ _ _ _ _ _ (references_sim _ _ _ _ _ _ D M3) An3). reflexivity.
          * cbn [store_result pf_ctx fst]. rewrite C1. eapply lookups_sim; [exact D|exact L1|]. repeat split; try apply Ok; try apply HL; try apply HP.
      - rewrite (A3 q v Ev' Ef) in Ew. injection Ew as <-. apply result_refl. }
    intros q Hq. destruct (proj1 (Hcur q Hq)) as (v & Ev & _). destruct (Sp q v Hq Ev) as (w & Ew & Ss). exists v, w.
    split; [exact Ev|]. split; [exact Ew|]. split; [exact Ss|]. apply (R order []) with (q := q); [rewrite app_nil_r; reflexivity| |exact Hq|exact Ev|exact Ew].
    apply Hin. eapply m_get_key. exact (Fr q v Hq Ev).
  Qed.
End Add.

(** an analysis against one project is possible against another one that looks the same *)
Lemma elements_exist (R : fpath -> fpath -> Prop) (P : fpath -> Prop) (HE : forall q, P q -> ~ on_cycle R q) fs pj1 pj2 src ft l :
  (forall i q, In (PDirective (AInclude i)) l -> include_path fs i = inl q ->
     P q /\ R q src /\ file_sim pj1 pj2 (get_file fs pj1 q) (get_file fs pj2 q)) ->
  forall ps a1 a2 h1 b1 g1 e, elements fs pj1 src ft ps a1 h1 l b1 g1 e -> inside R h1 -> Forall2 def_sim a1 a2 ->
  forall h2, inside R h2 -> exists b2 g2, elements fs pj2 src ft ps a2 h2 l b2 g2 e /\ Forall2 def_sim b1 b2.
Proof.
  induction l as [|p l IH]; intros Hi ps a1 a2 h1 b1 g1 e H I1 Hs h2 I2.
  - apply elements_nil_inv in H. destruct H as (-> & -> & ->). exists a2, h2. split; [constructor|exact Hs].
  - apply elements_cons_inv in H. destruct H as (dp & k & ep & f & A & B & ->).
    assert (K : exists dp2 k2, element fs pj2 src ft ps a2 h2 p dp2 k2 ep /\ Forall2 def_sim dp dp2 /\ inside R k /\ inside R k2).
    { inversion A; subst;
        try (do 2 eexists; split; [econstructor; solve [eassumption|reflexivity]|split; [apply sim_refl|auto]]).
      - match goal with K : included _ _ _ _ _ _ _ _ |- _ => inversion K as [x X|q cy X Y|q X Y Z|q f0 ? ? X Y Z T1 T2]; subst; clear K end.
        + exists [], h2. split; [constructor; econstructor; eassumption|]. split; [constructor|auto].
        + exfalso. destruct (Hi i q (or_introl eq_refl) X) as (Pq & Eq & _).
          eapply (inside_cycle R P HE (h1 ++ [(q, [src])]) q); [apply inside_snoc; eassumption|exact Pq|eapply simple_on_cycle, Y].
        + destruct (Hi i q (or_introl eq_refl) X) as (Pq & Eq & Fs). rewrite Z in Fs. exists [], (h2 ++ [(q, [src])]).
          split; [|split; [constructor|split; apply inside_snoc; assumption]]. constructor. apply in_unknown; [exact X| |].
          * apply (inside_cycle R P HE); [apply inside_snoc; assumption|exact Pq].
          * destruct (get_file fs pj2 q); [destruct Fs|reflexivity].
        + destruct (Hi i q (or_introl eq_refl) X) as (Pq & Eq & Fs). rewrite Z in Fs.
          destruct (get_file fs pj2 q) as [f2|] eqn:E2; [|destruct Fs]. destruct Fs as [F1 F2].
          exists (match pf_ctx f2 with Some c => [DInclude c] | None => [] end), (h2 ++ [(q, [src])]).
          split; [|split; [|split; apply inside_snoc; assumption]].
          * constructor. eapply in_file with (f := f2); [exact X| |exact E2|reflexivity|].
            -- apply (inside_cycle R P HE); [apply inside_snoc; assumption|exact Pq].
            -- destruct T2 as [[T2 ->]|[T2 ->]]; [left|right]; (split; [|reflexivity]); firstorder.
          * destruct (pf_ctx f0), (pf_ctx f2); try contradiction; repeat constructor; apply F2.
      - do 2 eexists. split; [eapply el_delete; [eapply opens_sim; eassumption|assumption]|]. split; [apply sim_refl|auto].
      - do 2 eexists. split; [eapply el_opened; [reflexivity|eapply opens_sim; eassumption|assumption]|]. split; [apply sim_refl|auto]. }
    destruct K as (dp2 & k2 & K1 & K2 & K3 & K4).
    destruct (IH (fun i q Hi' => Hi i q (or_intror Hi')) _ _ (a2 ++ dp2) _ _ _ _ B K3 (Forall2_app Hs K2) k2 K4) as (b2 & g2 & M1 & M2).
    exists b2, g2. split; [econstructor; eassumption|exact M2].
Qed.

Lemma lookups_move a b c d : Forall2 def_sim a b -> lookups a c -> ctx_ok d -> same_answers c d -> lookups b d.
Proof.
  intros Hs (Ok & L & Q) Ok2 [A B]. split; [exact Ok2|]. destruct Ok as [N1 N2], Ok2 as [M1 M2]. split.
  - intros l x. rewrite (m_get_iff str_eq_dec _ _ _ M1), <- A, <- (m_get_iff str_eq_dec _ _ _ N1), L. apply label_means_sim, Hs.
  - intros p n. rewrite (m_get_iff npath_eq_dec _ _ _ M2), <- B, <- (m_get_iff npath_eq_dec _ _ _ N2), Q. apply path_means_sim, Hs.
Qed.

Section Kept.
  Context (fs : fsys) (pj pj' : project) (k : fpath).
  Context (Hst : canon_stable fs) (I1 : project_inv pj) (I2 : project_inv pj') (Hsev : pj_sev pj' = pj_sev pj).
  Context (Hcur : current_from fs pj k) (V : view_kept fs pj pj' k).

  Lemma kept_trees : forall q, reaches fs pj k q -> exists v w, fget q (pj_files pj) = Some v /\ fget q (pj_files pj') = Some w /\ pf_file v = pf_file w.
  Proof. intros q Hq. destruct (V q Hq) as (v & w & Ev & Ew & S & _). exists v, w. split; [exact Ev|]. split; [exact Ew|apply S]. Qed.
  Lemma kept_cycles q : reaches fs pj k q -> ~ on_cycle (included_by fs (pj_files pj')) q.
  Proof. intros Hq Hcy. apply flip_cycle in Hcy. apply (proj2 (Hcur q Hq)). exact (cycle_same fs pj pj' k kept_trees q q Hq Hcy). Qed.
  Lemma kept_sim q v f : reaches fs pj k q -> fget q (pj_files pj) = Some v -> pf_file v = Some f ->
    forall i q2, In (PDirective (AInclude i)) (fl_elements f) -> include_path fs i = inl q2 ->
      reaches fs pj k q2 /\ included_by fs (pj_files pj') q2 q /\ file_sim pj pj' (get_file fs pj q2) (get_file fs pj' q2).
  Proof.
    intros Hr Ev Ef i q2 Hi Ei. assert (Hqq : stored_includes fs (pj_files pj) q q2) by (exists v, f, i; auto).
    assert (Hr2 : reaches fs pj k q2) by (eapply rt_trans; [exact Hr|apply rt_step, Hqq]).
    split; [exact Hr2|]. split; [apply (edge_same fs pj pj' k kept_trees q q2 Hr), Hqq|].
    destruct (include_canon fs i q2 Ei) as [x Hx]. unfold get_file. rewrite (Hst x q2 Hx).
    change (m_get str_eq_dec q2 (pj_files pj)) with (fget q2 (pj_files pj)). change (m_get str_eq_dec q2 (pj_files pj')) with (fget q2 (pj_files pj')).
    destruct (V q2 Hr2) as (v2 & w2 & -> & -> & Ss & [Y1 Y2]). split; [|exact Y2]. unfold error_diag, pf_diags. rewrite Y1, (proj1 Ss), Hsev. reflexivity.
  Qed.
  Lemma kept_current : current_from fs pj' k.
  Proof.
    intros q Hq'. assert (Hq : reaches fs pj k q) by (apply (reach_same fs pj pj' k kept_trees), Hq').
    split; [|intros Hcy; apply (proj2 (Hcur q Hq)); exact (cycle_same fs pj pj' k kept_trees q q Hq Hcy)].
    destruct (V q Hq) as (v & w & Ev & Ew & (S1 & S2 & S3 & S4) & [R1 R2]). exists w. split; [exact Ew|].
    destruct (proj1 (Hcur q Hq)) as (v0 & Ev0 & St). assert (v0 = v) as -> by congruence. unfold settled in *. rewrite <- S2, <- S3, <- R1.
    destruct (pf_file v) as [f|] eqn:Ef.
    - destruct St as (ds1 & h1 & c1 & A1 & C1 & L1). inversion A1 as [dB hB e1 vs1 rs1 M1 M2 M3 Q1 Q2 Q3]. subst ds1 h1.
      destruct (elements_exist (included_by fs (pj_files pj')) (reaches fs pj k) kept_cycles fs pj pj' q (pf_type v) (fl_elements f) (kept_sim q v f Hq Ev Ef)
        _ _ [] _ _ _ _ M1 (inside_nil _) (Forall2_nil _) [] (inside_nil _)) as (b2 & g2 & N1 & N2).
      unfold ctx_sim in R2. rewrite C1 in R2. destruct (pf_ctx w) as [c2|] eqn:C2; [|destruct R2].
      exists b2, g2, c2. split; [|split; [reflexivity|]].
      + constructor; [exact N1|exact M2|]. eapply references_sim; eassumption.
      + eapply lookups_move; [exact N2|exact L1| |exact R2]. eapply (pi_ok _ I2); [apply m_get_in in Ew; exact Ew|exact C2].
    - destruct St as [St1 St2]. unfold ctx_sim in R2. rewrite St1 in R2. destruct (pf_ctx w); [destruct R2|auto].
  Qed.
  Lemma kept_unambiguous : unambiguous_from fs pj k -> unambiguous_from fs pj' k.
  Proof.
    intros Hu q w f Hq' Ew Ef Et. assert (Hq : reaches fs pj k q) by (apply (reach_same fs pj pj' k kept_trees), Hq').
    destruct (V q Hq) as (v & w' & Ev & Ew' & (S1 & S2 & S3 & S4) & _). assert (w' = w) as -> by congruence. rewrite <- S2 in Ef. rewrite <- S3 in Et.
    intros l1 r l2 l El Er ds h1 e1 Hel p n q2 m Hp Hq2 Hn Hm.
    rewrite (pi_source _ I1 q v f Ev Ef) in *.
    pose proof (Hu q v f Hq Ev Ef Et l1 r l2 l El Er) as U. rewrite (pi_source _ I1 q v f Ev Ef) in U.
    assert (Hi : forall i q2, In (PDirective (AInclude i)) l1 -> include_path fs i = inl q2 ->
      reaches fs pj k q2 /\ included_by fs (pj_files pj') q2 q /\ file_sim pj' pj (get_file fs pj' q2) (get_file fs pj q2)).
    { intros i q3 Hi Ei. destruct (kept_sim q v f Hq Ev Ef i q3) as (X1 & X2 & X3); [rewrite El; apply in_or_app; left; exact Hi|exact Ei|].
      split; [exact X1|]. split; [exact X2|]. unfold file_sim in *. destruct (get_file fs pj q3) as [a|], (get_file fs pj' q3) as [b|]; try contradiction; [|exact I].
      destruct X3 as [Y1 Y2]. split; [tauto|]. destruct (pf_ctx a), (pf_ctx b); try contradiction; [|exact I]. destruct Y2 as [Y2 Y3]. split; intros; symmetry; [apply Y2|apply Y3]. }
    destruct (elements_exist (included_by fs (pj_files pj')) (reaches fs pj k) kept_cycles fs pj' pj q DtSource l1 Hi
      _ _ [] _ _ _ _ Hel (inside_nil _) (Forall2_nil _) [] (inside_nil _)) as (b2 & g2 & N1 & N2).
    apply (U b2 g2 e1 N1 p n q2 m); try assumption; apply (path_means_sim _ _ _ _ N2); assumption.
  Qed.
  Lemma kept_answers name : fs_canon fs name = inl k -> get_diagnostics fs pj' name = get_diagnostics fs pj name
    /\ get_root fs pj' name = get_root fs pj name
    /\ forall r, get_node_position fs pj' name r = get_node_position fs pj name r /\ document_reference fs pj' name r = document_reference fs pj name r.
  Proof.
    intros Hc. destruct (V k (rt_refl _ _ _)) as (v & w & Ev & Ew & (S1 & S2 & S3 & S4) & [R1 R2]).
    unfold get_root, get_node_position, document_reference, get_diagnostics, get_analysis, get_file. rewrite Hc.
    change (m_get str_eq_dec k (pj_files pj)) with (fget k (pj_files pj)). change (m_get str_eq_dec k (pj_files pj')) with (fget k (pj_files pj')).
    rewrite Ev, Ew. split; [unfold pf_diags; congruence|]. split; [congruence|].
    unfold ctx_sim in R2. destruct (pf_ctx v) as [c|] eqn:Ecv, (pf_ctx w) as [d|] eqn:Ecw; try contradiction; [|auto].
    intros r. rewrite (same_answers_get c d); [auto| | |exact R2].
    - eapply (pi_ok _ I1); [apply m_get_in in Ev; exact Ev|exact Ecv].
    - eapply (pi_ok _ I2); [apply m_get_in in Ew; exact Ew|exact Ecw].
  Qed.
End Kept.

(** additions, removals and new include directories that do not touch the file [k] and the files it includes *)
Inductive elsewhere (fs : fsys) (k : fpath) (pj : project) : project -> Prop :=
| ew_start : elsewhere fs k pj pj
| ew_add u fuel o name root text ft pj1 pj2 : elsewhere fs k pj pj1 -> finite_fs fs u -> (length u < fuel)%nat -> order_ok o ->
    fs_canon fs name = inl root -> valid_utf8 text = true -> ~ reaches fs pj1 k root ->
    add_file_with_text fuel o fs name text ft pj1 = Done pj2 -> elsewhere fs k pj pj2
| ew_remove p q pj1 : elsewhere fs k pj pj1 -> fs_canon fs p = inl q -> ~ reaches fs pj1 k q -> elsewhere fs k pj (remove_file fs p pj1)
| ew_dirs ds pj1 : elsewhere fs k pj pj1 -> elsewhere fs k pj (set_include_paths fs ds pj1).

Lemma view_trans fs k a b c : view_kept fs a b k -> view_kept fs b c k -> view_kept fs a c k.
Proof.
  intros H1 H2 q Hq. destruct (H1 q Hq) as (v & w & Ev & Ew & S1 & R1).
  destruct (H2 q) as (w' & x & Ew' & Ex & S2 & R2).
  { apply (reach_same fs a b k); [|exact Hq]. intros p Hp. destruct (H1 p Hp) as (y & z & Y & Z & (_ & S & _) & _). exists y, z. auto. }
  assert (w' = w) as -> by congruence. exists v, x. split; [exact Ev|]. split; [exact Ex|]. split; [eapply source_trans; eassumption|eapply result_trans; eassumption].
Qed.
(** Missing for the full claim: projects with stale results (C70), which a later addition may repair; labels with several
    nodes (C32). *)
Theorem C75_elsewhere_partial : forall fs k name pj pj', canon_stable fs -> reached pj -> current_from fs pj k -> unambiguous_from fs pj k ->
  elsewhere fs k pj pj' -> fs_canon fs name = inl k ->
  get_diagnostics fs pj' name = get_diagnostics fs pj name
  /\ get_root fs pj' name = get_root fs pj name
  /\ (forall r, get_node_position fs pj' name r = get_node_position fs pj name r
       /\ document_reference fs pj' name r = document_reference fs pj name r)
  /\ current_from fs pj' k /\ unambiguous_from fs pj' k.
Proof.
  intros fs k name pj pj' Hst Hp Hcur Hu H Hc.
  assert (G : reached pj' /\ pj_sev pj' = pj_sev pj /\ view_kept fs pj pj' k).
  { induction H as [|u fuel o name' root text ft pj1 pj2 H IH Hf Hl Ho Hc' Hv Hne E|p q pj1 H IH Hc' Hne|ds pj1 H IH].
    - split; [exact Hp|]. split; [reflexivity|]. intros q Hq. destruct (proj1 (Hcur q Hq)) as (v & Ev & _). exists v, v.
      split; [exact Ev|]. split; [exact Ev|]. split; [repeat split|apply result_refl].
    - destruct IH as (R & S & V). pose proof (reached_inv _ Hp) as I1. pose proof (reached_inv _ R) as I2.
      split; [eapply re_add; eassumption|]. split.
      + destruct (add_done _ _ _ _ _ _ _ _ _ _ Hf Hl Ho Hc' Hv R E) as (files' & order & _ & _ & _ & _ & _ & _ & Es & _). congruence.
      + eapply view_trans; [exact V|]. apply (add_view fs u fuel o name' root text ft pj1 pj2 k Hst Hf Hl Ho Hc' Hv R E);
          [exact (kept_current fs pj pj1 k Hst I2 S Hcur V)|exact Hne|exact (kept_unambiguous fs pj pj1 k Hst I1 S Hcur V Hu)].
    - destruct IH as (R & S & V). split; [apply re_remove, R|]. split; [unfold remove_file; rewrite Hc'; exact S|].
      assert (Rs : forall x, reaches fs pj k x <-> reaches fs pj1 k x) by (intros x; apply reach_same, kept_trees, V).
      intros x Hx. destruct (V x Hx) as (v & w & Ev & Ew & X). exists v, w. split; [exact Ev|]. split; [|exact X].
      rewrite (remove_get fs p q pj1 Hc'). destruct (str_eq_dec x q) as [->|]; [|exact Ew]. exfalso. apply Hne, Rs, Hx.
    - destruct IH as (R & S & V). split; [apply re_dirs, R|]. split; [exact S|]. exact V. }
  destruct G as (R & S & V). pose proof (reached_inv _ Hp) as I1. pose proof (reached_inv _ R) as I2.
  destruct (kept_answers fs pj pj' k I1 I2 V name Hc) as (A & B & C). split; [exact A|]. split; [exact B|]. split; [exact C|].
  split; [exact (kept_current fs pj pj' k Hst I2 S Hcur V)|exact (kept_unambiguous fs pj pj' k Hst I1 S Hcur V Hu)].
Qed.
Print Assumptions C75_elsewhere_partial.

(** every file of a project whose last addition took included files first is of this kind *)
Lemma in_order_current fs dirs pj k : canon_stable fs -> updated_in_order fs dirs pj -> In k (keys (pj_files pj)) -> current_from fs pj k.
Proof.
  intros Hst U Hk q Hq. destruct (in_order_settled _ _ _ Hst U) as [Hr Hs]. pose proof (updated_closed _ _ _ (in_order_updated _ _ _ U)) as Cl.
  assert (Hin : In q (keys (pj_files pj))).
  { apply clos_rt_rtn1 in Hq. destruct Hq as [|q z Hz _]; [exact Hk|exact (Cl _ _ Hz)]. }
  destruct (m_get_some_key str_eq_dec q _ Hin) as [v Ev]. split; [exists v; split; [exact Ev|exact (Hs q v Ev)]|].
  destruct Hr as [rank R]. intros Hcy. assert (K : forall a b, clos_trans _ (stored_includes fs (pj_files pj)) a b -> (rank b < rank a)%nat).
  { intros a b K. induction K as [a b K|a b c _ IH1 _ IH2]; [apply R, K|lia]. }
  specialize (K q q Hcy). lia.
Qed.

(** without these conditions the answers change: the first addition analyses [/a.dts] before the files it includes (C70), the
    addition of an unrelated file afterwards analyses it again *)
Definition pj75s : project := unwrap (add_file_with_text 5 id_oracle fs75 (bs "/a.dts") text38 DtSource project_new).
Definition pj75sz : project := unwrap (add_file_with_text 5 rev_oracle fs75 (bs "/z.dts") text75 DtSource pj75s).
Lemma pj75s_edges p q : stored_includes fs75 (pj_files pj75s) p q ->
  (p = bs "/a.dts" /\ q = bs "/b.dtsi") \/ (p = bs "/b.dtsi" /\ q = bs "/c.dtsi").
Proof.
  intros H. apply edge_table_in in H. destruct H as (l & K & Kq).
  assert (T : edge_table fs75 pj75s = [(bs "/a.dts", [bs "/b.dtsi"]); (bs "/b.dtsi", [bs "/c.dtsi"]); (bs "/c.dtsi", [])]) by (vm_compute; reflexivity).
  rewrite T in K. clear T. destruct K as [K|[K|[K|[]]]]; injection K as <- <-; first [destruct Kq as [<-|[]]; auto|destruct Kq].
Qed.
Lemma edges_reach fs pj q : (forall p q, stored_includes fs (pj_files pj) p q -> (p = bs "/a.dts" /\ q = bs "/b.dtsi") \/ (p = bs "/b.dtsi" /\ q = bs "/c.dtsi")) ->
  reaches fs pj (bs "/a.dts") q -> q <> bs "/z.dts".
Proof.
  intros E H. apply clos_rt_rtn1 in H. destruct H as [|y z H _]; [discriminate|]. destruct (E y z H) as [[_ ->]|[_ ->]]; discriminate.
Qed.
Theorem C75_refuted : exists fs dirs pj pj' k, canon_stable fs /\ updated fs dirs pj /\ unambiguous_from fs pj k /\ elsewhere fs k pj pj'
  /\ fs_canon fs k = inl k /\ get_diagnostics fs pj' k <> get_diagnostics fs pj k.
Proof.
  exists fs75, [], pj75s, pj75sz, (bs "/a.dts"). split; [exact fs75_stable|]. split; [|split; [|split; [|split]]].
  - exists (m_keys ex75), 5%nat, id_oracle, (bs "/a.dts"), text38, DtSource, project_new. split; [apply (se_start fs75 [])|].
    split; [apply mem_fs_finite|]. split; [cbn; lia|]. split; [apply id_order_ok|]. split; vm_compute; reflexivity.
  - assert (E : plain_files pj75s = true) by (vm_compute; reflexivity). intros q v f _ Hv Hf Ht. exact (plain_unambiguous fs75 pj75s E q v f Hv Hf Ht).
  - apply (ew_add fs75 (bs "/a.dts") pj75s (m_keys ex75) 5 rev_oracle (bs "/z.dts") (bs "/z.dts") text75 DtSource pj75s pj75sz).
    + constructor.
    + apply mem_fs_finite.
    + cbn. lia.
    + apply rev_order_ok.
    + vm_compute. reflexivity.
    + vm_compute. reflexivity.
    + intros H. exact (edges_reach fs75 pj75s _ pj75s_edges H eq_refl).
    + vm_compute. reflexivity.
  - vm_compute. reflexivity.
  - intros H. apply (f_equal (@length diag)) in H. revert H.
    assert (E1 : length (get_diagnostics fs75 pj75s (bs "/a.dts")) = 1%nat) by (vm_compute; reflexivity).
    assert (E2 : length (get_diagnostics fs75 pj75sz (bs "/a.dts")) = 0%nat) by (vm_compute; reflexivity).
    rewrite E1, E2. discriminate.
Qed.
Print Assumptions C75_refuted.

(** in [pj75] every file was analysed after the files it includes; then a file is added in another order *)
Example C75_elsewhere_case : reached pj75 /\ current_from fs75 pj75 (bs "/a.dts") /\ unambiguous_from fs75 pj75 (bs "/a.dts")
  /\ elsewhere fs75 (bs "/a.dts") pj75 (pj75z id_oracle)
  /\ length (pj_files (pj75z id_oracle)) = 4%nat /\ get_node_position fs75 pj75 (bs "/a.dts") (RefLabel (bs "l")) <> None.
Proof.
  split; [exact (session_reached _ _ _ (updated_session _ _ _ (in_order_updated _ _ _ pj75_in_order)))|].
  split; [apply (in_order_current fs75 [] pj75 (bs "/a.dts") fs75_stable pj75_in_order)|].
  { assert (E : keys (pj_files pj75) = [bs "/a.dts"; bs "/b.dtsi"; bs "/c.dtsi"]) by (vm_compute; reflexivity). rewrite E. left. reflexivity. }
  split; [apply pj75_unambiguous|]. split; [|split; [vm_compute; reflexivity|vm_compute; discriminate]].
  apply (ew_add fs75 (bs "/a.dts") pj75 (m_keys ex75) 5 id_oracle (bs "/z.dts") (bs "/z.dts") text75 DtSource pj75 (pj75z id_oracle)).
  - constructor.
  - apply mem_fs_finite.
  - cbn. lia.
  - apply id_order_ok.
  - vm_compute. reflexivity.
  - vm_compute. reflexivity.
  - intros H. exact (edges_reach fs75 pj75 _ pj75_edges H eq_refl).
  - vm_compute. reflexivity.
Qed.
