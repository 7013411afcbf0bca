(** Property theorems on the histories of projects: C70, C71 *)
From Coq Require Import Relations.
From Verif Require Import Base Analysis Project ProjectSpec AnalysisSpec GuardProofs ProjectProofs2 ProjectHistory ProjectOrder
  AnalysisProofs PropsAnalysis PropsProject PropsProject2 PropsProject3.

(** ** Analyses against similar projects *)
(** contexts that answer alike *)
Definition same_answers (c d : actx) : Prop :=
  (forall l x, In (l, x) (ac_labels c) <-> In (l, x) (ac_labels d))
  /\ (forall p n, In (p, n) (ac_flat c) <-> In (p, n) (ac_flat d)).
Inductive def_sim : def -> def -> Prop :=
| ds_same d : def_sim d d
| ds_include c d : same_answers c d -> def_sim (DInclude c) (DInclude d).

Lemma sim_refl l : Forall2 def_sim l l.
Proof. induction l; constructor; auto using ds_same. Qed.
Lemma binds_label_sim l d e x : def_sim d e -> (binds_label l d x <-> binds_label l e x).
Proof.
  intros H. destruct H as [d|c d [H _]]; [reflexivity|]. split; intros K; inversion K; subst; constructor; apply H; assumption.
Qed.
Lemma binds_path_sim p d e n : def_sim d e -> (binds_path p d n <-> binds_path p e n).
Proof.
  intros H. destruct H as [d|c d [_ H]]; [reflexivity|]. split; intros K; inversion K; subst; constructor; apply H; assumption.
Qed.
Lemma last_of_sim {D X} (binds : D -> X -> Prop) (R : D -> D -> Prop) : (forall d e x, R d e -> (binds d x -> binds e x) /\ (binds e x -> binds d x)) ->
  forall a b x, Forall2 R a b -> last_of binds a x -> last_of binds b x.
Proof.
  intros HR a b x H (pre & d & post & -> & Hd & Hp). apply Forall2_app_inv_l in H. destruct H as (pre' & b2 & H1 & H2 & ->).
  inversion H2 as [|? e ? post' He H3]; subst. exists pre', e, post'. split; [reflexivity|]. split; [apply (HR _ _ x He), Hd|].
  intros d' y Hd' K. clear - H3 Hd' K Hp HR. induction H3 as [|u v post post' Huv H3 IH]; [contradiction|].
  destruct Hd' as [<-|Hd'].
  - apply (HR _ _ y Huv) in K. exact (Hp u y (or_introl eq_refl) K).
  - apply IH; [|exact Hd']. intros w z Hw. apply Hp. right. exact Hw.
Qed.
Lemma sim_flip a b : Forall2 def_sim a b -> Forall2 def_sim b a.
Proof.
  induction 1 as [|x y a b H _ IH]; constructor; [|exact IH]. destruct H as [d|c d [H1 H2]]; [constructor|].
  constructor. split; intros; symmetry; auto.
Qed.
Lemma label_means_sim a b l x : Forall2 def_sim a b -> (label_means a l x <-> label_means b l x).
Proof.
  intros H. split; (apply (last_of_sim _ def_sim); [intros d e y K; pose proof (binds_label_sim l d e y K); tauto|]);
    [exact H|apply sim_flip, H].
Qed.
Lemma path_means_sim a b p n : Forall2 def_sim a b -> (path_means a p n <-> path_means b p n).
Proof.
  intros H. split; (apply (last_of_sim _ def_sim); [intros d e y K; pose proof (binds_path_sim p d e y K); tauto|]);
    [exact H|apply sim_flip, H].
Qed.
Lemma opens_sim a b r p f : Forall2 def_sim a b -> opens a r p f -> opens b r p f.
Proof.
  intros H K. inversion K; subst.
  - apply op_path with (n := n). apply (path_means_sim _ _ _ _ H). assumption.
  - constructor. intros n X. apply (path_means_sim _ _ _ _ H) in X. match goal with K0 : forall n, ~ _ |- _ => exact (K0 n X) end.
  - apply op_label with (n := n); [|assumption]. apply (path_means_sim _ _ _ _ H). assumption.
  - constructor. intros q n X. apply (path_means_sim _ _ _ _ H) in X. match goal with K0 : forall p n, _ -> _ |- _ => exact (K0 q n X) end.
Qed.
Lemma references_sim ft ps a b l es : Forall2 def_sim a b -> reference_diags ft ps a l es -> reference_diags ft ps b l es.
Proof.
  intros H K. induction K as [|r l found es es' K1 K2 K3 IH]; constructor 2 with (found := found) || constructor; try assumption.
  rewrite K1. destruct (wt_item r) as [k|k]; cbn [resolves]; split; intros [x X]; exists x;
    (apply (label_means_sim _ _ _ _ H) || apply (path_means_sim _ _ _ _ H)); exact X.
Qed.

Section Move.
  (** an include order without cycles through the files of interest *)
  Context (E : fpath -> fpath -> Prop) (P : fpath -> Prop) (HE : forall q, P q -> ~ on_cycle E q).
  Definition inside (h : deps) : Prop := forall a b, depends h a b -> E a b.
  Lemma inside_nil : inside [].
  Proof. intros a b (ds & [] & _). Qed.
  Lemma inside_snoc h q src : inside h -> E q src -> inside (h ++ [(q, [src])]).
  Proof.
    intros H K a b X. apply depends_app in X. destruct X as [X|X]; [exact (H a b X)|].
    destruct X as (ds & [X|[]] & Y). injection X as <- <-. destruct Y as [<-|[]]. exact K.
  Qed.
  Lemma inside_cycle h q : inside h -> P q -> ~ on_cycle (depends h) q.
  Proof.
    intros H Pq K. apply (HE q Pq). unfold on_cycle in *. clear Pq. revert K. generalize q at 2 4. intros r K.
    induction K as [a b K|a b c _ IH1 _ IH2]; [apply t_step, H, K|eapply t_trans; eassumption].
  Qed.

  (** what an including file sees of an included one *)
  Definition file_sim (pj1 pj2 : project) (o1 o2 : option pfile) : Prop :=
    match o1, o2 with
    | None, None => True
    | Some f1, Some f2 => ((exists d, error_diag pj1 f1 d) <-> (exists d, error_diag pj2 f2 d))
        /\ match pf_ctx f1, pf_ctx f2 with
           | None, None => True
           | Some c, Some d => same_answers c d
           | _, _ => False
           end
    | _, _ => False
    end.

  (** the same elements analysed against two projects that look the same *)
  Lemma elements_sim fs pj1 pj2 src ft l : 
    (forall i q, In (PDirective (AInclude i)) l -> include_path fs i = inl q ->
       P q /\ E q src /\ file_sim pj1 pj2 (get_file fs pj1 q) (get_file fs pj2 q)) ->
    forall ps a1 a2 h1 h2 b1 b2 g1 g2 e1 e2, Forall2 def_sim a1 a2 -> inside h1 -> inside h2 ->
    elements fs pj1 src ft ps a1 h1 l b1 g1 e1 -> elements fs pj2 src ft ps a2 h2 l b2 g2 e2 ->
    (forall l1 r l2 k, l = l1 ++ PReferencedNode r :: l2 -> wt_item (rn_reference r) = RefLabel k -> ft = DtSource ->
       forall ds' h' e', elements fs pj1 src ft ps a1 h1 l1 ds' h' e' ->
       forall p n q m, path_means ds' p n -> path_means ds' q m ->
         label_is (nd_label n) k -> label_is (nd_label m) k -> p = q) ->
    Forall2 def_sim b1 b2 /\ e1 = e2.
  Proof.
    induction l as [|p l IH]; intros Hi ps a1 a2 h1 h2 b1 b2 g1 g2 e1 e2 Hs I1 I2 H1 H2 Hu.
    - apply elements_nil_inv in H1, H2. destruct H1 as (-> & -> & ->), H2 as (-> & -> & ->). auto.
    - apply elements_cons_inv in H1, H2.
      destruct H1 as (dp1 & k1 & ep1 & f1 & A1 & B1 & ->), H2 as (dp2 & k2 & ep2 & f2 & A2 & B2 & ->).
      assert (K : Forall2 def_sim dp1 dp2 /\ ep1 = ep2 /\ inside k1 /\ inside k2).
      { inversion A1; subst; inversion A2; subst; try contradiction;
          try (split; [apply sim_refl|]; split; [reflexivity|]; split; assumption).
        - split; [constructor|]. split; [eapply header_fun; eassumption|]. auto.
        - assert (Hi' := fun q => Hi i q (or_introl eq_refl)).
          repeat match goal with K : included _ _ _ _ _ _ _ _ |- _ => inversion K; subst; clear K end;
          repeat match goal with
          | A : include_path fs i = inl ?x, B : include_path fs i = inl ?y |- _ => rewrite A in B; injection B as B; subst
          | A : include_path fs i = ?x, B : include_path fs i = ?y |- _ => rewrite A in B; discriminate B
          end;
          try (match goal with A : include_path fs i = inr _ |- _ => idtac end;
               split; [constructor|]; split; [congruence|]; split; assumption);
          match goal with A : include_path fs i = inl ?q |- _ => destruct (Hi' q A) as (Pq & Eq & Fs) end;
          try (exfalso; match goal with K : simple_cycle (depends (?h ++ _)) ?q _ |- _ =>
                 eapply (inside_cycle (h ++ [(q, [src])]) q); [apply inside_snoc; eassumption|eassumption|eapply simple_on_cycle, K] end);
          repeat match goal with K : get_file _ _ _ = _ |- _ => rewrite K in Fs; clear K end;
          cbn [file_sim] in Fs; try contradiction;
          try (split; [constructor|]; split; [reflexivity|]; split; apply inside_snoc; assumption).
          destruct Fs as [F1 F2]. split; [|split; [|split; apply inside_snoc; assumption]].
          + destruct (pf_ctx f), (pf_ctx f0); try contradiction; repeat constructor; apply F2.
          + repeat match goal with K : _ /\ _ \/ _ /\ _ |- _ => destruct K as [[? ->]|[? ->]] end; try reflexivity; exfalso; firstorder.
        - match goal with A : opens _ _ _ _ |- _ => apply (opens_sim _ _ _ _ _ Hs) in A end.
          match goal with A : opens _ _ _ _, B : opens _ _ _ _ |- _ => pose proof (opens_found _ _ _ _ _ _ A B) as <- end.
          split; [constructor|]. split; [eapply blame_fun; eassumption|]. auto.
        - match goal with A : opens a1 _ ?p _, B : opens a2 _ ?q _ |- _ =>
            pose proof (opens_found _ _ _ _ _ _ (opens_sim _ _ _ _ _ Hs A) B) as <-; assert (p = q) as ->;
            [eapply opens_fun; [exact A|eapply opens_sim; [apply sim_flip; exact Hs|exact B]|]; intros k p' n q' m Er; eapply (Hu [] r l k eq_refl Er eq_refl); constructor|]
          end.
          split; [apply sim_refl|]. split; [f_equal; eapply blame_fun; eassumption|]. auto. }
      destruct K as (K1 & <- & K2 & K3).
      destruct (IH (fun i q Hi' => Hi i q (or_intror Hi')) _ _ _ _ _ _ _ _ _ _ _ (Forall2_app Hs K1) K2 K3 B1 B2) as (R1 & <-).
      + intros l1 r l2 k -> Er Et ds' h' e' Hl. eapply (Hu (p :: l1) r l2 k eq_refl Er Et). econstructor; eassumption.
      + auto.
  Qed.

  (** an analysis moves to a project with the same included files and to other histories without cycles *)
  Lemma elements_move fs pj1 pj2 src ft l : pj_sev pj1 = pj_sev pj2 ->
    (forall i q, In (PDirective (AInclude i)) l -> include_path fs i = inl q ->
       P q /\ E q src /\ get_file fs pj1 q = get_file fs pj2 q) ->
    forall ps a h1 b g1 e, elements fs pj1 src ft ps a h1 l b g1 e -> inside h1 ->
    forall h2, inside h2 -> exists g2, elements fs pj2 src ft ps a h2 l b g2 e.
  Proof.
    intros Hsev. induction l as [|p l IH]; intros Hi ps a h1 b g1 e H I1 h2 I2.
    - apply elements_nil_inv in H. destruct H as (-> & -> & ->). exists h2. constructor.
    - apply elements_cons_inv in H. destruct H as (dp & k & ep & f & A & B & ->).
      assert (K : exists k2, element fs pj2 src ft ps a h2 p dp k2 ep /\ inside k /\ inside k2).
      { inversion A; subst; try (exists h2; split; [econstructor; solve [eassumption|reflexivity]|auto]).
        match goal with K : included _ _ _ _ _ _ _ _ |- _ => inversion K; subst; clear K end.
        - exists h2. split; [constructor; econstructor; eassumption|auto].
        - exfalso. destruct (Hi i p (or_introl eq_refl)) as (Pq & Eq & _); [assumption|].
          match goal with K : simple_cycle _ _ _ |- _ => eapply (inside_cycle (h1 ++ [(p, [src])]) p); [apply inside_snoc; eassumption|exact Pq|eapply simple_on_cycle, K] end.
        - destruct (Hi i p (or_introl eq_refl)) as (Pq & Eq & Eg); [assumption|]. exists (h2 ++ [(p, [src])]).
          split; [|split; apply inside_snoc; assumption]. constructor. apply in_unknown; [assumption| |congruence].
          apply inside_cycle; [apply inside_snoc; assumption|exact Pq].
        - destruct (Hi i p (or_introl eq_refl)) as (Pq & Eq & Eg); [assumption|]. exists (h2 ++ [(p, [src])]).
          split; [|split; apply inside_snoc; assumption]. constructor. eapply in_file with (f := f0); [assumption| |congruence|reflexivity|].
          + apply inside_cycle; [apply inside_snoc; assumption|exact Pq].
          + unfold error_diag in *. rewrite <- Hsev. assumption. }
      destruct K as (k2 & K1 & K2 & K3).
      destruct (IH (fun i q Hi' => Hi i q (or_intror Hi')) _ _ _ _ _ _ B K2 k2 K3) as (g2 & R).
      exists g2. econstructor; eassumption.
  Qed.
End Move.

(** ** C70: after an addition the analysis of every file is the analysis against the project as it is *)
Definition lookups (ds : list def) (c : actx) : Prop :=
  ctx_ok c /\ (forall l x, m_get str_eq_dec l (ac_labels c) = Some x <-> label_means ds l x)
  /\ (forall p n, m_get npath_eq_dec p (ac_flat c) = Some n <-> path_means ds p n).
(** the stored results of a file are those of an analysis that starts afresh, with the files that are there now *)
Definition settled (fs : fsys) (pj : project) (k : fpath) (v : pfile) : Prop :=
  match pf_file v with
  | None => pf_ctx v = None /\ pf_adiags v = []
  | Some f => exists ds h c, analysis_of fs pj k (pf_type v) [] (fl_elements f) ds h (pf_adiags v)
      /\ pf_ctx v = Some c /\ lookups ds c
  end.

Definition included_by (fs : fsys) (files : list (fpath * pfile)) (a b : fpath) : Prop := stored_includes fs files b a.
Lemma two_level_acyclic fs files : two_level fs files -> acyclic (included_by fs files).
Proof.
  intros [H _] x Hx. unfold on_cycle in Hx.
  apply Operators_Properties.clos_trans_tn1 in Hx. inversion Hx as [y Hy|y z Hy Hz]; subst; [exact (H x x x Hy Hy)|].
  apply Operators_Properties.clos_tn1_trans in Hz. apply Operators_Properties.clos_trans_tn1 in Hz.
  inversion Hz as [z' Hz'|z' w Hz' _]; subst; exact (H _ _ _ Hy Hz').
Qed.

Theorem C70_settled_partial : forall fs u fuel o name root text ft pj pj', finite_fs fs u -> (length u < fuel)%nat -> order_ok o ->
  canon_stable fs -> fs_canon fs name = inl root -> valid_utf8 text = true -> reached pj ->
  add_file_with_text fuel o fs name text ft pj = Done pj' -> two_level fs (pj_files pj') ->
  forall k v, fget k (pj_files pj') = Some v -> settled fs pj' k v.
Proof.
  intros fs u fuel o name root text ft pj pj' Hf Hl Ho Hst Hc Hv Hp E H2 k w Hw.
  destruct (add_done _ _ _ _ _ _ _ _ _ _ Hf Hl Ho Hc Hv Hp E) as (files' & order & L & Hcl & Hk & P & Hp' & _ & _ & A & S).
  pose proof (same_includes fs files' (pj_files pj') S) as SI.
  unfold settled. destruct (pf_file w) as [f|] eqn:Efw; [|exact (pi_bare _ Hp' k w Hw Efw)].
  destruct (key_order_flat o fs files' Ho (li_nodup _ _ _ _ _ _ _ L) Hcl) as (order' & O1 & O2).
  { destruct H2 as [X Y]. split; [intros x y z; rewrite <- !SI; apply X|intros x x' y y'; rewrite <- !SI; apply Y]. }
  assert (order' = order) as -> by congruence.
  assert (Hin : forall k, In k order <-> In k (keys files')).
  { intros x. split; apply Permutation_in; [exact P|apply Permutation_sym, P]. }
  assert (No : NoDup order) by (eapply Permutation_NoDup; [apply Permutation_sym, P|apply L]).
  pose proof (S k) as Sk. rewrite Hw in Sk. destruct (fget k files') as [v|] eqn:Ev; [|contradiction].
  destruct Sk as (_ & Sf & St & _). assert (Ef : pf_file v = Some f) by congruence.
  assert (Hko : In k order) by (apply Hin; eapply m_get_key, Ev).
  apply in_split in Hko. destruct Hko as (k1 & k2 & Eo).
  destruct A as (A1 & A2 & A3 & A4).
  destruct (A4 k1 k k2 v f Eo Ev Ef) as (pjk & a & a' & ac & es & B1 & B2 & B3 & B4 & B5 & Bs & B6 & _).
  assert (w = store_result (ac, es) v) as -> by congruence. cbn [store_result pf_type pf_adiags pf_ctx fst snd].
  destruct (analysed_spec fs pjk f (pf_type v) (deps_of fs files' k1) ac es B5) as (ds & h' & An & Ok & HL & HP).
  { exists (o_an o), a, a'. split; [apply Ho|]. split; [exact B2|exact B3]. }
  assert (Hsrc : forall k v f, fget k files' = Some v -> pf_file v = Some f -> fl_source f = k).
  { intros x y z H1 H3. specialize (S x). rewrite H1 in S. destruct (fget x (pj_files pj')) as [w|] eqn:Ew; [|contradiction].
    apply (pi_source _ Hp' x w z Ew). destruct S as (_ & S & _). congruence. }
  rewrite (Hsrc k v f Ev Ef) in An. destruct An as [ds h' e0 vs rs An1 An2 An3].
  pose proof (two_level_acyclic _ _ H2) as Hac.
  assert (M : exists g2, elements fs pj' k (pf_type v) [] [] [] (fl_elements f) ds g2 e0).
  { eapply (elements_move _ (fun _ => True) (fun q _ => Hac q) fs pjk pj' k (pf_type v) (fl_elements f) Bs); [|exact An1| |apply inside_nil].
  - intros i q Hi Ei. assert (Hkq : stored_includes fs files' k q) by (exists v, f, i; auto).
    split; [exact Logic.I|]. split; [unfold included_by; apply SI; exact Hkq|]. unfold get_file. destruct (include_canon fs i q Ei) as [x Hx].
    rewrite (Hst x q Hx). apply B6. specialize (O2 k q Hkq). rewrite Eo in O2, No.
    assert (O3 : (idx q (k1 ++ k :: k2) < length k1)%nat) by (eapply Nat.lt_le_trans; [exact O2|apply Nat.eq_le_incl; exact (idx_split k1 k k2 No)]). clear O2.
    assert (Hqo : In q (k1 ++ k :: k2)) by (rewrite <- Eo; apply Hin; exact (Hcl k q Hkq)).
    destruct (idx_in q _ Hqo) as (N1 & _ & _). rewrite nth_error_app1 in N1 by exact O3. eapply nth_error_In, N1.
  - intros x y Hxy. unfold included_by. apply SI.
    pose proof (deps_of_depends fs files' order (li_nodup _ _ _ _ _ _ _ L) Hin Hsrc x y) as D. apply D.
    rewrite Eo. unfold deps_of. rewrite flat_map_app. apply depends_app. left. exact Hxy. }
  destruct M as [g2 M]. exists ds, g2, ac. split; [constructor; assumption|]. split; [reflexivity|]. repeat split; try apply Ok; try apply HL; try apply HP.
Qed.
Print Assumptions C70_settled_partial.

(** ** C71: the results depend on the current texts, not on the way to them *)
Definition same_files (R : pfile -> pfile -> Prop) (a b : list (fpath * pfile)) : Prop :=
  forall k, match fget k a, fget k b with
            | Some v, Some w => R v w
            | None, None => True
            | _, _ => False
            end.
Definition ctx_sim (a b : option actx) : Prop :=
  match a, b with
  | None, None => True
  | Some c, Some d => same_answers c d
  | _, _ => False
  end.
Definition result_sim (v w : pfile) : Prop := pf_adiags v = pf_adiags w /\ ctx_sim (pf_ctx v) (pf_ctx w).

Lemma lookups_sim a b c d : Forall2 def_sim a b -> lookups a c -> lookups b d -> same_answers c d.
Proof.
  intros H ((N1 & N2) & L1 & P1) ((M1 & M2) & L2 & P2). split.
  - intros l x. split; intros X.
    + apply (m_in_get str_eq_dec) in X; [|exact N1]. apply L1, (label_means_sim _ _ _ _ H), L2 in X. eapply m_get_in, X.
    + apply (m_in_get str_eq_dec) in X; [|exact M1]. apply L2, (label_means_sim _ _ _ _ H), L1 in X. eapply m_get_in, X.
  - intros p n. split; intros X.
    + apply (m_in_get npath_eq_dec) in X; [|exact N2]. apply P1, (path_means_sim _ _ _ _ H), P2 in X. eapply m_get_in, X.
    + apply (m_in_get npath_eq_dec) in X; [|exact M2]. apply P2, (path_means_sim _ _ _ _ H), P1 in X. eapply m_get_in, X.
Qed.

Definition unambiguous_files (fs : fsys) (pj : project) : Prop :=
  forall k v f, fget k (pj_files pj) = Some v -> pf_file v = Some f -> pf_type v = DtSource -> unambiguous fs pj f [].

Section Unique.
  Context (fs : fsys) (pj1 pj2 : project).
  Context (Hst : canon_stable fs) (I1 : project_inv pj1) (I2 : project_inv pj2).
  Context (Hsev : pj_sev pj1 = pj_sev pj2) (Hsrc : same_files same_source (pj_files pj1) (pj_files pj2)).
  Context (H2 : two_level fs (pj_files pj1)) (Hu : unambiguous_files fs pj1).
  Context (S1 : forall k v, fget k (pj_files pj1) = Some v -> settled fs pj1 k v).
  Context (S2 : forall k v, fget k (pj_files pj2) = Some v -> settled fs pj2 k v).

  Lemma settled_step k v w : fget k (pj_files pj1) = Some v -> fget k (pj_files pj2) = Some w ->
    (forall q v' w', stored_includes fs (pj_files pj1) k q -> fget q (pj_files pj1) = Some v' -> fget q (pj_files pj2) = Some w' ->
       result_sim v' w') -> result_sim v w.
  Proof.
    intros Ev Ew IH. pose proof (Hsrc k) as K. rewrite Ev, Ew in K. destruct K as (K1 & K2 & K3 & K4).
    pose proof (S1 k v Ev) as X1. pose proof (S2 k w Ew) as X2. unfold settled in X1, X2. rewrite <- K2, <- K3 in X2.
    destruct (pf_file v) as [f|] eqn:Ef.
    - destruct X1 as (ds1 & h1 & c1 & A1 & C1 & L1), X2 as (ds2 & h2 & c2 & A2 & C2 & L2).
      inversion A1 as [? ? e1 vs1 rs1 B1 V1 R1 Q1 Q2 Q3]. inversion A2 as [? ? e2 vs2 rs2 B2 V2 R2 Q4 Q5 Q6]. subst.
      assert (DE : Forall2 def_sim ds1 ds2 /\ e1 = e2);
        [eapply (elements_sim _ (fun _ => True) (fun q _ => two_level_acyclic _ _ H2 q) fs pj1 pj2 k (pf_type v) (fl_elements f)); 
         [|exact (sim_refl [])|apply inside_nil|apply inside_nil|exact B1|exact B2|]|destruct DE as [D E]].
      + intros i q Hi Ei. assert (Hkq : stored_includes fs (pj_files pj1) k q) by (exists v, f, i; auto).
        split; [exact Logic.I|]. split; [exact Hkq|]. destruct (include_canon fs i q Ei) as [x Hx]. unfold get_file. rewrite (Hst x q Hx).
        pose proof (Hsrc q) as Kq. unfold file_sim. change (m_get str_eq_dec q (pj_files pj1)) with (fget q (pj_files pj1)).
        change (m_get str_eq_dec q (pj_files pj2)) with (fget q (pj_files pj2)).
        destruct (fget q (pj_files pj1)) as [v'|] eqn:Ev', (fget q (pj_files pj2)) as [w'|] eqn:Ew'; try contradiction; [|exact I].
        destruct (IH q v' w' Hkq Ev' Ew') as [Y1 Y2]. split; [|exact Y2]. unfold error_diag, pf_diags. rewrite Y1, (proj1 Kq), Hsev. reflexivity.
      + intros l1 r l2 l El Er Et ds' h' e' Hl p n q m.
        pose proof (Hu k v f Ev Ef Et l1 r l2 l El Er) as U. rewrite (pi_source _ I1 k v f Ev Ef), <- Et in U.
        exact (U ds' h' e' Hl p n q m).
      + split.
        * rewrite <- Q3, <- Q6. rewrite E, (version_fun _ _ _ _ _ V1 V2), (references_fun _ _ _ _ _ _ (references_sim _ _ _ _ _ _ D R1) R2). reflexivity.
        * rewrite C1, C2. exact (lookups_sim _ _ _ _ D L1 L2).
    - unfold result_sim. destruct X1 as [-> ->], X2 as [-> ->]. split; [reflexivity|exact I].
  Qed.
  Lemma settled_unique : same_files result_sim (pj_files pj1) (pj_files pj2).
  Proof.
    assert (Leaf : forall k v w, (forall q, ~ stored_includes fs (pj_files pj1) k q) ->
      fget k (pj_files pj1) = Some v -> fget k (pj_files pj2) = Some w -> result_sim v w).
    { intros k v w Hk Ev Ew. apply (settled_step k v w Ev Ew). intros q v' w' H. destruct (Hk q H). }
    intros k. pose proof (Hsrc k) as K. destruct (fget k (pj_files pj1)) as [v|] eqn:Ev, (fget k (pj_files pj2)) as [w|] eqn:Ew; try contradiction; [|exact I].
    apply (settled_step k v w Ev Ew). intros q v' w' H. apply Leaf. intros r Hr. exact (proj1 H2 k q r H Hr).
  Qed.
End Unique.

(** sessions: additions and removals in one file system, with the include directories set at the start *)
Inductive session (fs : fsys) (dirs : list str) : project -> Prop :=
| se_start : session fs dirs (set_include_paths fs dirs project_new)
| se_add u fuel o name text ft pj pj' : session fs dirs pj -> finite_fs fs u -> (length u < fuel)%nat -> order_ok o ->
    valid_utf8 text = true -> add_file_with_text fuel o fs name text ft pj = Done pj' -> session fs dirs pj'
| se_remove p pj : session fs dirs pj -> session fs dirs (remove_file fs p pj).
(** a session whose last step is an addition *)
Definition updated (fs : fsys) (dirs : list str) (pj' : project) : Prop :=
  exists u fuel o name text ft pj, session fs dirs pj /\ finite_fs fs u /\ (length u < fuel)%nat /\ order_ok o
    /\ valid_utf8 text = true /\ add_file_with_text fuel o fs name text ft pj = Done pj'.
Lemma session_reached fs dirs pj : session fs dirs pj -> reached pj.
Proof.
  induction 1 as [|u fuel o name text ft pj pj' H IH Hf Hl Ho Hv E|p pj H IH].
  - apply re_dirs. constructor.
  - eapply re_add; eassumption.
  - apply re_remove, IH.
Qed.
Lemma updated_session fs dirs pj : updated fs dirs pj -> session fs dirs pj.
Proof. intros (u & fuel & o & name & text & ft & pj0 & H1 & H2 & H3 & H4 & H5 & H6). econstructor; eassumption. Qed.

(** the file that is stored for a text *)
Definition unfollowed (fs : fsys) (p : primary) : list diag :=
  match p with
  | PDirective (AInclude i) =>
    match include_path fs i with inr e => [mkDiag IOError (include_span i) (include_source i) e] | inl _ => [] end
  | _ => []
  end.
Definition by_text (fs : fsys) (incl : list fpath) (k : fpath) (v : pfile) : Prop :=
  match parse_text (include_dirs incl k) (pf_text v) k with
  | ROk f s => pf_file v = Some f /\ pf_pdiags v = ps_diags s ++ flat_map (unfollowed fs) (fl_elements f)
  | RErr d _ => pf_file v = None /\ pf_pdiags v = [d]
  | _ => False
  end.
Lemma by_text_source fs incl k v w : same_source v w -> by_text fs incl k w -> by_text fs incl k v.
Proof. intros (A & B & C & D). unfold by_text. rewrite A, B, D. auto. Qed.
Lemma flat_map_ext_in {A B} (f g : A -> list B) l : (forall x, In x l -> f x = g x) -> flat_map f l = flat_map g l.
Proof.
  induction l as [|x l IH]; intros H; [reflexivity|]. cbn [flat_map]. rewrite (H x (or_introl eq_refl)), IH; [reflexivity|].
  intros y Hy. apply H. right. exact Hy.
Qed.

Lemma session_by_text fs dirs pj : session fs dirs pj ->
  pj_incl pj = pj_incl (set_include_paths fs dirs project_new) /\ pj_sev pj = default_severities
  /\ forall k v, fget k (pj_files pj) = Some v -> by_text fs (pj_incl pj) k v.
Proof.
  induction 1 as [|u fuel o name text ft pj pj' H IH Hf Hl Ho Hv E|p pj H IH].
  - split; [reflexivity|]. split; [reflexivity|]. intros k v X. discriminate.
  - destruct IH as (I1 & I2 & I3).
    destruct (fs_canon fs name) as [root|e] eqn:Ec; [|unfold add_file_with_text in E; rewrite Ec in E; discriminate].
    destruct (add_done _ _ _ _ _ _ _ _ _ _ Hf Hl Ho Ec Hv (session_reached _ _ _ H) E) as (files' & order & L & Hcl & Hk & P & Hp' & Ei & Es & A & S).
    split; [congruence|]. split; [congruence|]. intros k v Hkv. rewrite Ei. specialize (S k). rewrite Hkv in S.
    destruct (fget k files') as [w|] eqn:Ew; [|contradiction]. eapply by_text_source; [exact S|].
    destruct (load_cases _ _ _ _ _ _ _ Hv L k w Ew) as [[_ X]|(X & t & ft' & _ & Xt & T1 & T2 & _ & _ & T)]; [exact (I3 k w X)|].
    unfold by_text. rewrite T1. destruct T as [(f & s & Y1 & Y2 & Y3)|(d & s & Y1 & Y2 & Y3)]; rewrite Y1; [|auto].
    split; [exact Y2|]. rewrite Y3. f_equal. apply flat_map_ext_in. intros p Hp. destruct p as [[]| | |]; try reflexivity.
    cbn [element_diags unfollowed]. unfold include_diags. destruct (include_path fs i) as [q|e] eqn:Eq; [|reflexivity].
    destruct (in_dec str_eq_dec q (root :: keys (pj_files pj))) as [Hq|Hq]; [reflexivity|].
    assert (Hq' : In q (keys files')) by (apply (Hcl k q); exists w, f, i; auto).
    apply (li_keys _ _ _ _ _ _ _ L) in Hq'. destruct Hq' as [Hq'|Hq']; [exfalso; apply Hq; right; exact Hq'|].
    inversion Hq' as [Hr|x q' _ _ _ [t' Ht']]; subst; [exfalso; apply Hq; left; reflexivity|]. rewrite Ht'. reflexivity.
  - destruct IH as (I1 & I2 & I3). destruct (fs_canon fs p) as [q|e] eqn:Ec; [|unfold remove_file; rewrite Ec; auto].
    split; [unfold remove_file; rewrite Ec; exact I1|]. split; [unfold remove_file; rewrite Ec; exact I2|].
    intros k v Hk. rewrite (remove_get fs p q pj Ec) in Hk. destruct (str_eq_dec k q); [discriminate|].
    unfold remove_file. rewrite Ec. exact (I3 k v Hk).
Qed.

(** the files of the projects have the same texts and types *)
Definition same_texts (pj1 pj2 : project) : Prop :=
  same_files (fun v w => pf_text v = pf_text w /\ pf_type v = pf_type w) (pj_files pj1) (pj_files pj2).
Lemma session_same_source fs dirs pj1 pj2 : session fs dirs pj1 -> session fs dirs pj2 -> same_texts pj1 pj2 ->
  same_files same_source (pj_files pj1) (pj_files pj2).
Proof.
  intros H1 H2 Ht k. destruct (session_by_text _ _ _ H1) as (I1 & _ & B1), (session_by_text _ _ _ H2) as (I2 & _ & B2).
  specialize (Ht k). destruct (fget k (pj_files pj1)) as [v|] eqn:Ev, (fget k (pj_files pj2)) as [w|] eqn:Ew; try contradiction; [|exact I].
  destruct Ht as [T1 T2]. specialize (B1 k v Ev). specialize (B2 k w Ew). unfold by_text in B1, B2. rewrite I1, T1 in B1. rewrite I2 in B2.
  destruct (parse_text _ _ _) as [f s|d s| |]; try contradiction; destruct B1 as [X1 X2], B2 as [Y1 Y2]; repeat split; congruence.
Qed.

Lemma updated_settled fs dirs pj : canon_stable fs -> updated fs dirs pj -> two_level fs (pj_files pj) ->
  forall k v, fget k (pj_files pj) = Some v -> settled fs pj k v.
Proof.
  intros Hst (u & fuel & o & name & text & ft & pj0 & H1 & H2 & H3 & H4 & H5 & H6) Htl.
  destruct (fs_canon fs name) as [root|e] eqn:Ec; [|unfold add_file_with_text in H6; rewrite Ec in H6; discriminate].
  eapply C70_settled_partial; try eassumption. eapply session_reached; eassumption.
Qed.
Lemma same_answers_get c d : ctx_ok c -> ctx_ok d -> same_answers c d -> forall r, get_referenced c r = get_referenced d r.
Proof.
  intros [N1 N2] [M1 M2] [A B]. assert (EL : forall l, m_get str_eq_dec l (ac_labels c) = m_get str_eq_dec l (ac_labels d)).
  { intros l. destruct (m_get str_eq_dec l (ac_labels c)) as [x|] eqn:F.
    - symmetry. apply (m_get_iff str_eq_dec); [exact M1|]. apply A. eapply m_get_in, F.
    - destruct (m_get str_eq_dec l (ac_labels d)) as [x|] eqn:F2; [|reflexivity]. apply m_get_in, A, (m_in_get str_eq_dec) in F2; [congruence|exact N1]. }
  intros [l|p]; cbn [get_referenced]; [unfold get_node_by_label; rewrite EL; reflexivity|]. unfold get_node_by_path.
  destruct (m_get npath_eq_dec p (ac_flat c)) as [x|] eqn:F.
  - symmetry. apply (m_get_iff npath_eq_dec); [exact M2|]. apply B. eapply m_get_in, F.
  - destruct (m_get npath_eq_dec p (ac_flat d)) as [x|] eqn:F2; [|reflexivity]. apply m_get_in, B, (m_in_get npath_eq_dec) in F2; [congruence|exact N2].
Qed.

(** Missing for the full claim: deeper or partially shared includes (C38) and opened labels with several nodes (C32), where it is
    false; file systems that change during the session. *)
Theorem C71_current_texts_partial : forall fs dirs pj1 pj2, canon_stable fs -> updated fs dirs pj1 -> updated fs dirs pj2 ->
  same_texts pj1 pj2 -> two_level fs (pj_files pj1) -> unambiguous_files fs pj1 ->
  forall name, get_diagnostics fs pj1 name = get_diagnostics fs pj2 name
    /\ get_root fs pj1 name = get_root fs pj2 name
    /\ forall r, get_node_position fs pj1 name r = get_node_position fs pj2 name r
         /\ document_reference fs pj1 name r = document_reference fs pj2 name r.
Proof.
  intros fs dirs pj1 pj2 Hst U1 U2 Ht H2 Hu name.
  pose proof (updated_session _ _ _ U1) as Z1. pose proof (updated_session _ _ _ U2) as Z2.
  pose proof (session_same_source _ _ _ _ Z1 Z2 Ht) as Hs.
  pose proof (reached_inv _ (session_reached _ _ _ Z1)) as I1. pose proof (reached_inv _ (session_reached _ _ _ Z2)) as I2.
  assert (Hs' : same_files same_source (pj_files pj2) (pj_files pj1)).
  { intros k. specialize (Hs k). destruct (fget k (pj_files pj1)), (fget k (pj_files pj2)); try contradiction; [|exact I].
    unfold same_source in *. intuition congruence. }
  pose proof (same_includes fs _ _ Hs') as SI.
  assert (H2' : two_level fs (pj_files pj2)).
  { destruct H2 as [X Y]. split; [intros x y z; rewrite !SI; apply X|intros x x' y y'; rewrite !SI; apply Y]. }
  assert (R : same_files result_sim (pj_files pj1) (pj_files pj2)).
  { eapply settled_unique; try eassumption.
    - destruct (session_by_text _ _ _ Z1) as (_ & -> & _), (session_by_text _ _ _ Z2) as (_ & -> & _). reflexivity.
    - eapply updated_settled; eassumption.
    - eapply updated_settled; eassumption. }
  unfold get_root, get_node_position, document_reference, get_diagnostics, get_analysis, get_file. destruct (fs_canon fs name) as [q|]; [|auto].
  specialize (R q). specialize (Hs q). change (m_get str_eq_dec q (pj_files pj1)) with (fget q (pj_files pj1)).
  change (m_get str_eq_dec q (pj_files pj2)) with (fget q (pj_files pj2)).
  destruct (fget q (pj_files pj1)) as [v|] eqn:Ev, (fget q (pj_files pj2)) as [w|] eqn:Ew; try contradiction; [|auto].
  destruct R as [R1 R2], Hs as (S1 & S2 & S3 & S4). split; [unfold pf_diags; congruence|]. split; [exact S2|].
  unfold ctx_sim in R2. destruct (pf_ctx v) as [c|] eqn:Ecv, (pf_ctx w) as [d|] eqn:Ecw; try contradiction; [|auto].
  intros r. rewrite (same_answers_get c d); [auto| | |exact R2].
  - eapply (pi_ok _ I1); [apply m_get_in in Ev; exact Ev|exact Ecv].
  - eapply (pi_ok _ I2); [apply m_get_in in Ew; exact Ew|exact Ecw].
Qed.
Print Assumptions C71_current_texts_partial.

(** the text of a file is given again: nothing changes *)
Theorem C71_repeat_partial : forall fs dirs u fuel o name root pj pj' v, canon_stable fs -> updated fs dirs pj ->
  finite_fs fs u -> (length u < fuel)%nat -> order_ok o -> fs_canon fs name = inl root -> fget root (pj_files pj) = Some v ->
  valid_utf8 (pf_text v) = true -> add_file_with_text fuel o fs name (pf_text v) (pf_type v) pj = Done pj' ->
  two_level fs (pj_files pj) -> unambiguous_files fs pj ->
  forall x, get_diagnostics fs pj' x = get_diagnostics fs pj x
    /\ forall r, get_node_position fs pj' x r = get_node_position fs pj x r.
Proof.
  intros fs dirs u fuel o name root pj pj' v Hst U Hf Hl Ho Hc Hr Hv E H2 Hu.
  pose proof (updated_session _ _ _ U) as Z.
  assert (U' : updated fs dirs pj') by (exists u, fuel, o, name, (pf_text v), (pf_type v), pj; auto 10).
  assert (Cl : closed_files fs (pj_files pj)).
  { destruct U as (u0 & fuel0 & o0 & name0 & text0 & ft0 & pj0 & X1 & X2 & X3 & X4 & X5 & X6).
    destruct (fs_canon fs name0) as [root0|e] eqn:Ec; [|unfold add_file_with_text in X6; rewrite Ec in X6; discriminate].
    destruct (add_done _ _ _ _ _ _ _ _ _ _ X2 X3 X4 Ec X5 (session_reached _ _ _ X1) X6) as (files' & order & L & Hcl & _ & _ & _ & _ & _ & (A & _) & S).
    intros p q Hpq. apply (same_includes fs _ _ S) in Hpq. rewrite A. exact (Hcl p q Hpq). }
  destruct (add_done _ _ _ _ _ _ _ _ _ _ Hf Hl Ho Hc Hv (session_reached _ _ _ Z) E) as (files' & order & L & Hcl & _ & _ & _ & _ & _ & A & S).
  destruct (session_by_text _ _ _ Z) as (_ & _ & B). pose proof (B root v Hr) as Br. unfold by_text in Br.
  assert (T : same_texts pj pj').
  { intros k. specialize (S k). destruct (fget k (pj_files pj)) as [w|] eqn:Ew.
    - destruct (str_eq_dec k root) as [->|Hne].
      + destruct (li_root _ _ _ _ _ _ _ L) as (w' & W1 & W2 & W3 & _). rewrite W1 in S. destruct (fget root (pj_files pj')) as [z|]; [|contradiction].
        destruct S as (_ & _ & S3 & S4). split; congruence.
      + rewrite (li_frame _ _ _ _ _ _ _ L k (m_get_key _ _ _ _ Ew) Hne), Ew in S. destruct (fget k (pj_files pj')) as [z|]; [|contradiction].
        destruct S as (_ & _ & S3 & S4). split; congruence.
    - destruct (fget k (pj_files pj')) as [z|] eqn:Ez; [|exact I]. destruct (fget k files') as [y|] eqn:Ey; [|contradiction]. exfalso.
      assert (Hk : ~ In k (keys (pj_files pj))) by (apply (m_get_none str_eq_dec); exact Ew).
      apply m_get_key, (li_keys _ _ _ _ _ _ _ L) in Ey. destruct Ey as [Ey|Ey]; [contradiction|].
      assert (K : forall x, loaded fs (pj_incl pj) root (pf_text v) (keys (pj_files pj)) x -> x = root).
      { intros x Hx. induction Hx as [|p q Hp IH Hpq Hq _]; [reflexivity|]. subst p. exfalso. apply Hq. apply (Cl root q).
        destruct Hpq as (t & f & s & i & P1 & P2 & P3 & P4). rewrite text_of_root in P1. injection P1 as <-. rewrite P2 in Br.
        exists v, f, i. split; [exact Hr|]. split; [apply Br|]. auto. }
      apply K in Ey. subst k. congruence. }
  intros x. destruct (C71_current_texts_partial fs dirs pj pj' Hst U U' T H2 Hu x) as (R1 & _ & R2).
  split; [symmetry; exact R1|]. intros r. symmetry. apply R2.
Qed.
Print Assumptions C71_repeat_partial.

(** a table of the texts *)
Definition texts (pj : project) : list (fpath * (str * file_type)) := map (fun kv => (fst kv, (pf_text (snd kv), pf_type (snd kv)))) (pj_files pj).
Lemma fget_texts k pj : option_map (fun v => (pf_text v, pf_type v)) (fget k (pj_files pj)) = m_get str_eq_dec k (texts pj).
Proof.
  unfold texts. induction (pj_files pj) as [|[a v] m IH]; [reflexivity|]. cbn [m_get map fst snd]. destruct (str_eq_dec a k), (str_eq_dec k a); congruence || exact IH || reflexivity.
Qed.
Lemma same_texts_table pj1 pj2 : (forall k, m_get str_eq_dec k (texts pj1) = m_get str_eq_dec k (texts pj2)) -> same_texts pj1 pj2.
Proof.
  intros H k. specialize (H k). rewrite <- !fget_texts in H. destruct (fget k (pj_files pj1)), (fget k (pj_files pj2)); try discriminate; [|exact I].
  injection H as H1 H2. auto.
Qed.

(** In general the results depend on the iteration order of the hash maps (C38, C32): two sessions that add one file. *)
Definition pj71 (o : oracle) : project := unwrap (add_file_with_text 4 o (mem_fs ex38) (bs "/a.dts") text38 DtSource project_new).
Lemma pj71_updated o : order_ok o -> add_file_with_text 4 o (mem_fs ex38) (bs "/a.dts") text38 DtSource project_new = Done (pj71 o) ->
  updated (mem_fs ex38) [] (pj71 o).
Proof.
  intros Ho E. exists (m_keys ex38), 4%nat, o, (bs "/a.dts"), text38, DtSource, project_new. split; [apply (se_start (mem_fs ex38) [])|].
  split; [apply mem_fs_finite|]. split; [cbn; lia|]. split; [exact Ho|]. split; [vm_compute; reflexivity|exact E].
Qed.
Theorem C71_refuted : exists fs pj1 pj2 name, updated fs [] pj1 /\ updated fs [] pj2 /\ same_texts pj1 pj2
  /\ acyclic (stored_includes fs (pj_files pj1)) /\ get_diagnostics fs pj1 name <> get_diagnostics fs pj2 name.
Proof.
  exists (mem_fs ex38), (pj71 id_oracle), (pj71 rev_oracle), (bs "/a.dts").
  split; [apply pj71_updated; [apply id_order_ok|vm_compute; reflexivity]|].
  split; [apply pj71_updated; [apply rev_order_ok|vm_compute; reflexivity]|].
  split; [|split].
  - apply same_texts_table. intros k. assert (E : texts (pj71 id_oracle) = texts (pj71 rev_oracle)) by (vm_compute; reflexivity). rewrite E. reflexivity.
  - apply (forward_acyclic _ [bs "/a.dts"; bs "/b.dtsi"; bs "/c.dtsi"]); [|vm_compute; reflexivity].
    assert (E : m_keys (pj_files (pj71 id_oracle)) = [bs "/a.dts"; bs "/b.dtsi"; bs "/c.dtsi"]) by (vm_compute; reflexivity). rewrite E.
    repeat constructor; cbn; intuition discriminate.
  - intros H. apply (f_equal (@length diag)) in H. revert H.
    assert (E1 : length (get_diagnostics (mem_fs ex38) (pj71 id_oracle) (bs "/a.dts")) = 1%nat) by (vm_compute; reflexivity).
    assert (E2 : length (get_diagnostics (mem_fs ex38) (pj71 rev_oracle) (bs "/a.dts")) = 0%nat) by (vm_compute; reflexivity).
    rewrite E1, E2. discriminate.
Qed.
Print Assumptions C71_refuted.

(** one session adds a source; another one adds the include first, with another text, and corrects it at the end *)
Definition text71 : str := bs "/dts-v1/; /include/ ""/b.dtsi"" /include/ ""/c.dtsi"" &l { p = <&l>; };".
Definition text71c : str := bs "/ { l: n { }; };".
Definition ex71 : list (fpath * str) := [(bs "/a.dts", text71); (bs "/b.dtsi", bs "/ { };"); (bs "/c.dtsi", text71c)].
Definition add71 (name text : str) (ft : file_type) (pj : project) : project := unwrap (add_file_with_text 4 id_oracle (mem_fs ex71) name text ft pj).
Definition pj71a : project := add71 (bs "/a.dts") text71 DtSource project_new.
Definition pj71b : project :=
  add71 (bs "/c.dtsi") text71c DtSourceInclude (add71 (bs "/a.dts") text71 DtSource (add71 (bs "/c.dtsi") (bs "/ {") DtSourceInclude project_new)).
Lemma add71_updated name text ft pj : session (mem_fs ex71) [] pj -> valid_utf8 text = true ->
  match add_file_with_text 4 id_oracle (mem_fs ex71) name text ft pj with Done _ => true | _ => false end = true ->
  updated (mem_fs ex71) [] (add71 name text ft pj).
Proof.
  intros H Hv E. exists (m_keys ex71), 4%nat, id_oracle, name, text, ft, pj. split; [exact H|]. split; [apply mem_fs_finite|].
  split; [cbn; lia|]. split; [apply id_order_ok|]. split; [exact Hv|]. unfold add71.
  destruct (add_file_with_text 4 id_oracle (mem_fs ex71) name text ft pj); [reflexivity|discriminate|discriminate].
Qed.
(** the nodes known before an element come from the roots and the included files, if no label or path is opened before *)
Definition opens_none (p : primary) : Prop := match p with PReferencedNode _ => False | _ => True end.
Lemma defs_from fs pj src ft l : Forall opens_none l -> forall ps ds h ds' h' es, elements fs pj src ft ps ds h l ds' h' es ->
  forall d, In d ds' -> In d ds \/ (exists n, In (PRoot n) l /\ In d (node_defs [] n))
    \/ exists k v c, fget k (pj_files pj) = Some v /\ pf_ctx v = Some c /\ d = DInclude c.
Proof.
  induction 1 as [|p l Hp _ IH]; intros ps ds h ds' h' es H d Hd.
  - apply elements_nil_inv in H. destruct H as (-> & _). auto.
  - apply elements_cons_inv in H. destruct H as (dp & h1 & ep & e2 & H7 & H8 & ->). destruct (IH _ _ _ _ _ _ H8 d Hd) as [K|[(n & K1 & K2)|K]].
    + apply in_app_or in K. destruct K as [K|K]; [auto|right]. inversion H7; subst; try contradiction.
      * right. match goal with X : included _ _ _ _ _ _ _ _ |- _ => inversion X; subst end; try contradiction.
        destruct (pf_ctx f) as [c|] eqn:Ec; [|contradiction]. destruct K as [<-|[]]. unfold get_file in *.
        destruct (fs_canon fs p) as [q|]; [|discriminate]. exists q, f, c. auto.
      * left. exists n. split; [left; reflexivity|exact K].
    + right. left. exists n. split; [right; exact K1|exact K2].
    + auto.
Qed.
Definition node_labels (l : list (npath * node)) : list (npath * option str) :=
  map (fun x => (fst x, option_map wt_item (nd_label (snd x)))) l.
Definition flat_nodes (pj : project) : list (npath * node) :=
  flat_map (fun kv => match pf_ctx (snd kv) with Some c => ac_flat c | None => [] end) (pj_files pj).
Lemma flat_nodes_in pj k w c x : fget k (pj_files pj) = Some w -> pf_ctx w = Some c -> In x (ac_flat c) -> In x (flat_nodes pj).
Proof.
  intros H1 H2 H3. apply in_flat_map. exists (k, w). split; [eapply m_get_in, H1|]. cbn [snd]. rewrite H2. exact H3.
Qed.

Example C71_case : canon_stable (mem_fs ex71) /\ updated (mem_fs ex71) [] pj71a /\ updated (mem_fs ex71) [] pj71b
  /\ same_texts pj71a pj71b /\ two_level (mem_fs ex71) (pj_files pj71a) /\ unambiguous_files (mem_fs ex71) pj71a
  /\ pj_files pj71a <> pj_files pj71b /\ get_node_position (mem_fs ex71) pj71b (bs "/a.dts") (RefLabel (bs "l")) <> None.
Proof.
  assert (U1 : updated (mem_fs ex71) [] pj71a).
  { apply add71_updated; [apply (se_start (mem_fs ex71) [])|vm_compute; reflexivity|vm_compute; reflexivity]. }
  split.
  { intros x p H. unfold mem_fs in *. cbn [fs_canon] in *. destruct (m_mem str_eq_dec x _) eqn:E; [|discriminate]. injection H as <-. rewrite E. reflexivity. }
  split; [exact U1|]. split.
  { apply add71_updated; [|vm_compute; reflexivity|vm_compute; reflexivity]. apply updated_session.
    apply add71_updated; [|vm_compute; reflexivity|vm_compute; reflexivity]. apply updated_session.
    apply add71_updated; [apply (se_start (mem_fs ex71) [])|vm_compute; reflexivity|vm_compute; reflexivity]. }
  pose proof (pi_nodup _ (reached_inv _ (session_reached _ _ _ (updated_session _ _ _ U1)))) as N.
  assert (T1 : texts pj71a = [(bs "/a.dts", (text71, DtSource)); (bs "/c.dtsi", (text71c, DtSourceInclude)); (bs "/b.dtsi", (bs "/ { };", DtSourceInclude))]) by (vm_compute; reflexivity).
  assert (T2 : texts pj71b = [(bs "/c.dtsi", (text71c, DtSourceInclude)); (bs "/a.dts", (text71, DtSource)); (bs "/b.dtsi", (bs "/ { };", DtSourceInclude))]) by (vm_compute; reflexivity).
  split.
  { apply same_texts_table. intros k. rewrite T1, T2. cbn [m_get].
    destruct (str_eq_dec k (bs "/a.dts")) as [->|]; [reflexivity|]. destruct (str_eq_dec k (bs "/c.dtsi")); reflexivity. }
  assert (SI : forall p q, stored_includes (mem_fs ex71) (pj_files pj71a) p q <-> p = bs "/a.dts" /\ (q = bs "/b.dtsi" \/ q = bs "/c.dtsi")).
  { intros p q. assert (T : map (fun kv => (fst kv, targets_of (mem_fs ex71) (snd kv))) (pj_files pj71a)
      = [(bs "/a.dts", [bs "/b.dtsi"; bs "/c.dtsi"]); (bs "/c.dtsi", []); (bs "/b.dtsi", [])]) by (vm_compute; reflexivity).
    rewrite (stored_by_table _ _ _ N T). clear. split.
    - intros (l & A & B). destruct A as [A|[A|[A|[]]]]; injection A as <- <-; cbn [In] in B;
        repeat (destruct B as [<-|B]; [auto|]); contradiction.
    - intros [-> [-> | ->]]; eexists; (split; [cbn [In]; eauto|cbn [In]; auto]). }
  split.
  { split.
    - intros p q r H1 H2. apply SI in H1. apply SI in H2. destruct H1 as [_ H1], H2 as [-> _]. destruct H1; discriminate.
    - intros p p' q q' H1 H2 H3. apply SI in H1, H2, H3. apply SI. tauto. }
  split.
  { intros k v f Hv Hf Ht l1 r l2 l El Er ds h1 e1 Hel p n q m Hp Hq Hn Hm.
    assert (Hk : k = bs "/a.dts").
    { pose proof (fget_texts k pj71a) as K. rewrite Hv, T1 in K. cbn [option_map m_get] in K. rewrite Ht in K.
      destruct (str_eq_dec k (bs "/a.dts")); [congruence|]. destruct (str_eq_dec k (bs "/c.dtsi")); [discriminate|].
      destruct (str_eq_dec k (bs "/b.dtsi")); discriminate. }
    subst k. clear Ht. assert (Ea : exists t i j r, option_map (fun v => option_map fl_elements (pf_file v)) (fget (bs "/a.dts") (pj_files pj71a))
      = Some (Some [PDirective (ADtsHeader t); PDirective (AInclude i); PDirective (AInclude j); PReferencedNode r])).
    { do 4 eexists. vm_compute. reflexivity. }
    destruct Ea as (t & i & j & r' & Ea). rewrite Hv in Ea. cbn [option_map] in Ea. rewrite Hf in Ea. cbn [option_map] in Ea. injection Ea as Ea.
    rewrite Ea in El. assert (E1 : l1 = [PDirective (ADtsHeader t); PDirective (AInclude i); PDirective (AInclude j)]).
    { clear - El. destruct l1 as [|x1 [|x2 [|x3 [|x4 l1]]]]; cbn [app] in El; try discriminate; injection El; intros; subst; [reflexivity|]. destruct l1; discriminate. }
    subst l1. assert (Fl : forall p n, path_means ds p n -> In (p, n) (flat_nodes pj71a)).
    { intros x y (pre & d & post & -> & Hb & _).
      assert (Ho : Forall opens_none [PDirective (ADtsHeader t); PDirective (AInclude i); PDirective (AInclude j)]) by (repeat constructor).
      destruct (defs_from _ _ _ _ _ Ho _ _ _ _ _ _ Hel d) as [[]|[(z & Hz & _)|(k & w & c & K1 & K2 & ->)]].
      - apply in_or_app. right. left. reflexivity.
      - repeat (destruct Hz as [Hz|Hz]; [discriminate Hz|]). destruct Hz.
      - inversion Hb as [|? ? Hc]; subst. exact (flat_nodes_in pj71a k w c (x, y) K1 K2 Hc). }
    assert (Lb : forall x, In x (node_labels (flat_nodes pj71a)) -> fst x = [mkNN (bs "n") None] \/ snd x = None).
    { assert (L : node_labels (flat_nodes pj71a) = [([], None); ([mkNN (bs "n") None], Some (bs "l")); ([mkNN (bs "n") None], Some (bs "l")); ([], None); ([], None)]) by (vm_compute; reflexivity).
      rewrite L. intros x Hx. cbn [In] in Hx. intuition (subst; auto). }
    assert (Fp : forall p n, path_means ds p n -> label_is (nd_label n) l -> p = [mkNN (bs "n") None]).
    { intros x y Hx (w & Hw & _). pose proof (Lb _ (in_map (fun x => (fst x, option_map wt_item (nd_label (snd x)))) _ _ (Fl x y Hx))) as K.
      cbn [fst snd] in K. destruct K as [K|K]; [exact K|]. rewrite Hw in K. discriminate K. }
    rewrite (Fp p n Hp Hn), (Fp q m Hq Hm). reflexivity. }
  split.
  - intros H. apply (f_equal m_keys) in H. revert H.
    assert (K1 : m_keys (pj_files pj71a) = [bs "/a.dts"; bs "/c.dtsi"; bs "/b.dtsi"]) by (vm_compute; reflexivity).
    assert (K2 : m_keys (pj_files pj71b) = [bs "/c.dtsi"; bs "/a.dts"; bs "/b.dtsi"]) by (vm_compute; reflexivity).
    rewrite K1, K2. discriminate.
  - assert (K : match get_node_position (mem_fs ex71) pj71b (bs "/a.dts") (RefLabel (bs "l")) with Some _ => true | None => false end = true) by (vm_compute; reflexivity).
    intros X. rewrite X in K. discriminate K.
Qed.

(** With deeper includes a file can be left with the analysis of an earlier state: b is analysed before the file c that it
    includes (C38). *)
Theorem C70_refuted : exists fs pj k v, updated fs [] pj /\ acyclic (stored_includes fs (pj_files pj))
  /\ fget k (pj_files pj) = Some v /\ ~ settled fs pj k v.
Proof.
  assert (Ev : exists v, fget (bs "/b.dtsi") (pj_files (pj71 id_oracle)) = Some v) by (eexists; vm_compute; reflexivity).
  destruct Ev as [v Ev]. exists (mem_fs ex38), (pj71 id_oracle), (bs "/b.dtsi"), v.
  split; [apply pj71_updated; [apply id_order_ok|vm_compute; reflexivity]|].
  assert (Ac : acyclic (stored_includes (mem_fs ex38) (pj_files (pj71 id_oracle)))).
  { apply (forward_acyclic _ [bs "/a.dts"; bs "/b.dtsi"; bs "/c.dtsi"]); [|vm_compute; reflexivity].
    assert (E : m_keys (pj_files (pj71 id_oracle)) = [bs "/a.dts"; bs "/b.dtsi"; bs "/c.dtsi"]) by (vm_compute; reflexivity). rewrite E.
    repeat constructor; cbn; intuition discriminate. }
  split; [exact Ac|]. split; [exact Ev|]. intros S.
  assert (E : exists i src, match fget (bs "/b.dtsi") (pj_files (pj71 id_oracle)) with Some v => pf_file v | None => None end
      = Some (mkFile [PDirective (AInclude i)] src) /\ include_path (mem_fs ex38) i = inl (bs "/c.dtsi")).
  { do 2 eexists. split; vm_compute; reflexivity. }
  destruct E as (i & src & Ef & Ei). rewrite Ev in Ef. unfold settled in S. rewrite Ef in S. cbn [fl_elements] in S.
  destruct S as (ds & h & c & An & Ec & _ & L & _).
  assert (Lc : match fget (bs "/b.dtsi") (pj_files (pj71 id_oracle)) with
    | Some v => match pf_ctx v with Some c => m_get str_eq_dec (bs "l") (ac_labels c) | None => None end | None => None end = None) by (vm_compute; reflexivity).
  rewrite Ev, Ec in Lc.
  assert (Fc : exists w, get_file (mem_fs ex38) (pj71 id_oracle) (bs "/c.dtsi") = Some w) by (eexists; vm_compute; reflexivity).
  destruct Fc as [w Fc].
  assert (Lw : exists d x, match get_file (mem_fs ex38) (pj71 id_oracle) (bs "/c.dtsi") with Some w => pf_ctx w | None => None end = Some d
    /\ m_get str_eq_dec (bs "l") (ac_labels d) = Some x) by (do 2 eexists; split; vm_compute; reflexivity).
  destruct Lw as (d & x & Lw & Lx). rewrite Fc in Lw.
  assert (Hd : ds = [DInclude d]).
  { inversion An as [? ? e0 vs rs An1 An2 An3]; subst. apply elements_cons_inv in An1. destruct An1 as (dp & h1 & ep & e2 & H7 & H8 & _).
    apply elements_nil_inv in H8. destruct H8 as (-> & _). cbn [app]. inversion H7 as [| | | | |i0 ds0 h0 es0 Y1| | | |]; subst.
    inversion Y1 as [? X|p cy X Y|p X Y Z|p f ? ? X Y Z T]; subst; [congruence| | |]; assert (p = bs "/c.dtsi") as -> by congruence.
    - exfalso. apply simple_on_cycle in Y. revert Y. apply (inside_cycle (fun a b => a = bs "/c.dtsi" /\ b = bs "/b.dtsi") (fun _ => True)).
      + intros z _. revert z. apply acyclic_rank with (rank := fun y => if str_eq_dec y (bs "/c.dtsi") then 0%nat else 1%nat). intros p q [-> ->]. vm_compute. repeat constructor.
      + apply inside_snoc; [apply inside_nil|auto].
      + exact Logic.I.
    - exfalso. match goal with K : get_file _ _ _ = None |- _ => revert K end. rewrite Fc. discriminate.
    - assert (f = w) as -> by (match goal with K : get_file _ _ _ = Some f |- _ => revert K end; rewrite Fc; congruence). rewrite Lw. reflexivity. }
  assert (M : label_means ds (bs "l") x).
  { rewrite Hd. exists [], (DInclude d), []. split; [reflexivity|]. split; [constructor; eapply m_get_in, Lx|intros ? ? []]. }
  apply L in M. congruence.
Qed.
Print Assumptions C70_refuted.
Example C70_case : exists v, fget (bs "/a.dts") (pj_files pj71a) = Some v /\ settled (mem_fs ex71) pj71a (bs "/a.dts") v /\ pf_ctx v <> None.
Proof.
  assert (Ev : exists v c, fget (bs "/a.dts") (pj_files pj71a) = Some v /\ pf_ctx v = Some c) by (do 2 eexists; split; vm_compute; reflexivity).
  destruct Ev as (v & c & Ev & Ec). exists v. split; [exact Ev|]. destruct C71_case as (A & B & _ & _ & C & _).
  split; [exact (updated_settled _ _ _ A B C _ _ Ev)|]. rewrite Ec. discriminate.
Qed.
