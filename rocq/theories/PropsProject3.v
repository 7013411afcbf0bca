(** Cyclic includes and visibility of included files in a project *)
From Verif Require Export PropsProject2.
From Coq Require Import Relations.

(** ** Cycles in a history of dependencies *)
Section Bad.
  Context {V : Type} (eq_dec : forall a b : V, {a = b} + {a <> b}).
  Notation history := (list (V * list V)).
  (** some addition closes a cycle *)
  Definition closes (h : history) : Prop :=
    exists h1 e h2, h = h1 ++ e :: h2 /\ on_cycle (depends (h1 ++ [e])) (fst e).
  Lemma depends_app (a b : history) x y : depends (a ++ b) x y <-> depends a x y \/ depends b x y.
  Proof.
    unfold depends. split.
    - intros (ds & H1 & H2). apply in_app_or in H1. destruct H1 as [H1|H1]; [left|right]; eauto.
    - intros [(ds & H1 & H2)|(ds & H1 & H2)]; exists ds; (split; [apply in_or_app; auto|exact H2]).
  Qed.
  Lemma trans_mono (E F : V -> V -> Prop) : (forall a b, E a b -> F a b) -> forall a b, clos_trans V E a b -> clos_trans V F a b.
  Proof. intros H a b K. induction K as [a b K|a b c _ IH1 _ IH2]; [constructor; auto|econstructor; eassumption]. Qed.
  Lemma chain_walk (E : V -> V -> Prop) l : forall x y, chain E (x :: l ++ [y]) -> clos_trans V E x y.
  Proof.
    induction l as [|z l IH]; intros x y [H1 H2]; [apply t_step, H1|]. eapply t_trans; [apply t_step, H1|apply IH, H2].
  Qed.
  Lemma simple_on_cycle (E : V -> V -> Prop) x c : simple_cycle E x c -> on_cycle E x.
  Proof. intros (mid & -> & H & _). eapply chain_walk, H. Qed.
  Lemma closes_iff (h : history) : closes h <-> exists x, on_cycle (depends h) x.
  Proof.
    split.
    - intros (h1 & e & h2 & -> & H). exists (fst e). revert H. apply trans_mono. intros a b Hab.
      replace (h1 ++ e :: h2) with ((h1 ++ [e]) ++ h2) by (rewrite <- app_assoc; reflexivity). apply depends_app. auto.
    - intros Hx. assert (K : closes h \/ acyclic (depends h)).
      { clear Hx. induction h as [|[e ds] h IH] using rev_ind.
        - right. apply acyclic_rank with (rank := fun _ => 0%nat). intros p q (d & [] & _).
        - destruct IH as [(h1 & e' & h2 & -> & IH)|IH].
          + left. exists h1, e', (h2 ++ [(e, ds)]). split; [rewrite <- app_assoc; reflexivity|exact IH].
          + destruct (guard_add_spec eq_dec (fun _ l => l) (fun _ s => Permutation_refl s) h e ds) as (r & _ & R). destruct r as [c|].
            * left. exists h, (e, ds), []. split; [reflexivity|]. cbn [fst]. eapply simple_on_cycle, R.
            * right. apply acyclic_add; assumption. }
      destruct K as [K|K]; [exact K|]. destruct Hx as [x Hx]. destruct (K x Hx).
  Qed.
End Bad.

(** ** The cyclic includes an analysis reports *)
Definition is_cyclic (d : diag) : Prop := dg_kind d = CyclicDependencyError.
Lemma element_cyclic fs pj src ft ps ds h p dp h1 ep d : element fs pj src ft ps ds h p dp h1 ep -> In d ep -> is_cyclic d ->
  exists i q, p = PDirective (AInclude i) /\ include_path fs i = inl q /\ on_cycle (depends (h ++ [(q, [src])])) q.
Proof.
  unfold is_cyclic. intros H Hd Hk. inversion H; subst; try contradiction.
  - match goal with K : header_diags _ _ _ |- _ => inversion K; subst end; cbn [In] in Hd; intuition (subst; discriminate).
  - match goal with K : included _ _ _ _ _ _ _ _ |- _ => inversion K; subst end; cbn [In] in Hd; try contradiction.
    + destruct Hd as [<-|[]]. discriminate.
    + exists i, p. split; [reflexivity|]. split; [assumption|]. eapply simple_on_cycle; eassumption.
    + match goal with K : _ \/ _ |- _ => destruct K as [[_ ->]|[_ ->]] end; cbn [In] in Hd; [|contradiction].
      destruct Hd as [<-|[]]. discriminate.
  - match goal with K : blame _ _ _ _ _ |- _ => rewrite (blame_kind _ _ _ _ _ _ K Hd) in Hk end. discriminate.
  - rewrite (compatible_kind _ _ Hd) in Hk. discriminate.
  - apply in_app_or in Hd. destruct Hd as [Hd|Hd].
    + match goal with K : blame _ _ _ _ _ |- _ => rewrite (blame_kind _ _ _ _ _ _ K Hd) in Hk end. discriminate.
    + rewrite (compatible_kind _ _ Hd) in Hk. discriminate.
  - rewrite (compatible_kind _ _ Hd) in Hk. discriminate.
Qed.
Lemma included_cyclic fs pj src h i ds h' es q : included fs pj src h i ds h' es -> include_path fs i = inl q ->
  on_cycle (depends (h ++ [(q, [src])])) q -> exists d, In d es /\ is_cyclic d.
Proof.
  intros H Ei Hc. inversion H; subst; try congruence.
  eexists. split; [left; reflexivity|reflexivity].
Qed.
Definition element_deps (fs : fsys) (src : fpath) (p : primary) : list (fpath * list fpath) :=
  match p with
  | PDirective (AInclude i) => match include_path fs i with inl q => [(q, [src])] | inr _ => [] end
  | _ => []
  end.
Lemma element_deps_spec fs pj src ft ps ds h p dp h1 ep : element fs pj src ft ps ds h p dp h1 ep -> h1 = h ++ element_deps fs src p.
Proof.
  intros H. inversion H; subst; cbn [element_deps]; rewrite ?app_nil_r; try reflexivity.
  match goal with K : included _ _ _ _ _ _ _ _ |- _ => inversion K; subst end;
    match goal with K : include_path _ _ = _ |- _ => rewrite K end; rewrite ?app_nil_r; reflexivity.
Qed.
Lemma elements_cyclic fs pj src ft l : forall ps ds h ds' h' es, elements fs pj src ft ps ds h l ds' h' es ->
  (exists d, In d es /\ is_cyclic d) <->
  (exists h1 e h2, flat_map (element_deps fs src) l = h1 ++ e :: h2 /\ on_cycle (depends (h ++ h1 ++ [e])) (fst e)).
Proof.
  induction l as [|p l IH]; intros ps ds h ds' h' es H.
  - apply elements_nil_inv in H. destruct H as (_ & _ & ->). split; [intros (d & [] & _)|]. intros ([|? ?] & e & h2 & E & _); discriminate.
  - apply elements_cons_inv in H. destruct H as (dp & h1 & ep & e2 & H1 & H2 & ->). pose proof (element_deps_spec _ _ _ _ _ _ _ _ _ _ _ H1) as ->.
    apply IH in H2. cbn [flat_map]. split.
    + intros (d & Hd & Hk). apply in_app_or in Hd. destruct Hd as [Hd|Hd].
      * destruct (element_cyclic _ _ _ _ _ _ _ _ _ _ _ _ H1 Hd Hk) as (i & q & -> & Ei & Hc). cbn [element_deps]. rewrite Ei.
        exists [], (q, [src]). eexists. split; [reflexivity|exact Hc].
      * destruct (proj1 H2 (ex_intro _ d (conj Hd Hk))) as (h2 & e & h3 & -> & Hc).
        exists (element_deps fs src p ++ h2), e, h3. split; [rewrite <- app_assoc; reflexivity|].
        rewrite <- app_assoc in *. exact Hc.
    + intros (h2 & e & h3 & E & Hc).
      destruct (element_deps fs src p) as [|x [|y r]] eqn:Ed.
      * cbn [app] in E. rewrite app_nil_r in H2. destruct (proj2 H2) as (d & Hd & Hk); [exists h2, e, h3; auto|].
        exists d. split; [apply in_or_app; right; exact Hd|exact Hk].
      * destruct h2 as [|x2 h2]; cbn [app] in E.
        -- injection E as <- E. unfold element_deps in Ed. destruct p as [[]| | |]; try discriminate.
           destruct (include_path fs i) as [q|] eqn:Ei; [|discriminate]. injection Ed as <-.
           inversion H1; subst. match goal with K : included _ _ _ _ _ _ _ _ |- _ => destruct (included_cyclic _ _ _ _ _ _ _ _ _ K Ei Hc) as (d & Hd & Hk) end.
           exists d. split; [apply in_or_app; left; exact Hd|exact Hk].
        -- injection E as <- E. destruct (proj2 H2) as (d & Hd & Hk).
           { exists h2, e, h3. split; [exact E|]. rewrite <- app_assoc. exact Hc. }
           exists d. split; [apply in_or_app; right; exact Hd|exact Hk].
      * exfalso. unfold element_deps in Ed. destruct p as [[]| | |]; try discriminate. destruct (include_path fs i); discriminate.
Qed.
Lemma flat_map_split {A B} (g : A -> list B) l : forall h1 e h2, flat_map g l = h1 ++ e :: h2 ->
  exists l1 x l2 a b, l = l1 ++ x :: l2 /\ g x = a ++ e :: b /\ h1 = flat_map g l1 ++ a.
Proof.
  induction l as [|y l IH]; intros h1 e h2 E; cbn [flat_map] in E; [destruct h1; discriminate|].
  assert (K : (exists a b, g y = a ++ e :: b /\ h1 = a) \/ exists h, h1 = g y ++ h /\ flat_map g l = h ++ e :: h2).
  { revert h1 E. induction (g y) as [|z r IHr]; intros h1 E; cbn [app] in E; [right; exists h1; auto|].
    destruct h1 as [|z1 h1]; cbn [app] in E.
    - injection E as -> E. left. exists [], r. auto.
    - injection E as -> E. destruct (IHr h1 E) as [(a & b & -> & ->)|(h & -> & Eh)].
      + left. exists (z1 :: a), b. auto.
      + right. exists h. auto. }
  destruct K as [(a & b & Ey & ->)|(h & -> & Eh)].
  - exists [], y, l, a, b. auto.
  - destruct (IH h e h2 Eh) as (l1 & x & l2 & a & b & -> & Ex & ->). exists (y :: l1), x, l2, a, b.
    split; [reflexivity|]. split; [exact Ex|]. cbn [flat_map]. rewrite app_assoc. reflexivity.
Qed.

(** ** C59: a cyclic include is reported somewhere exactly if the include graph has a cycle *)
Lemma deps_of_depends fs files order : NoDup (keys files) -> (forall k, In k order <-> In k (keys files)) ->
  (forall k v f, fget k files = Some v -> pf_file v = Some f -> fl_source f = k) ->
  forall a b, depends (deps_of fs files order) a b <-> stored_includes fs files b a.
Proof.
  intros Hn Ho Hs a b. unfold depends, deps_of. split.
  - intros (ds & H1 & H2). apply in_flat_map in H1. destruct H1 as (k & Hk & H1). destruct (fget k files) as [v|] eqn:Ev; [|contradiction].
    destruct (pf_file v) as [f|] eqn:Ef; [|contradiction]. unfold file_deps in H1. apply in_flat_map in H1. destruct H1 as (p & Hp & H1).
    destruct p as [[]| | |]; try contradiction. destruct (include_path fs i) as [q|] eqn:Ei; [|contradiction].
    destruct H1 as [H1|[]]. injection H1 as <- <-. destruct H2 as [<-|[]]. rewrite (Hs k v f Ev Ef). exists v, f, i. auto.
  - intros (v & f & i & H1 & H2 & H3 & H4). exists [b]. split; [|left; reflexivity]. apply in_flat_map. exists b.
    split; [apply Ho; eapply m_get_key, H1|]. rewrite H1, H2. unfold file_deps. apply in_flat_map. exists (PDirective (AInclude i)).
    split; [exact H3|]. rewrite H4, (Hs b v f H1 H2). left. reflexivity.
Qed.
Lemma on_cycle_flip {V} (E F : V -> V -> Prop) : (forall a b, E a b <-> F b a) -> (exists x, on_cycle E x) -> exists x, on_cycle F x.
Proof.
  intros H [x Hx]. exists x. assert (K : forall a b, clos_trans V E a b -> clos_trans V F b a).
  { intros a b K. induction K as [a b K|a b c _ IH1 _ IH2]; [apply t_step, H, K|eapply t_trans; eassumption]. }
  apply K, Hx.
Qed.

Lemma analysis_cyclic fs pj src ft h ps ds h' es : analysis_of fs pj src ft h ps ds h' es ->
  (exists d, In d es /\ is_cyclic d) <->
  (exists h1 e h2, flat_map (element_deps fs src) ps = h1 ++ e :: h2 /\ on_cycle (depends (h ++ h1 ++ [e])) (fst e)).
Proof.
  intros H. inversion H as [? ? e0 vs rs H1 H2 H3]; subst. rewrite <- (elements_cyclic _ _ _ _ _ _ _ _ _ _ _ H1). split.
  - intros (d & Hd & Hk). apply in_app_or in Hd. destruct Hd as [Hd|Hd]; [eauto|]. exfalso. unfold is_cyclic in Hk.
    apply in_app_or in Hd. destruct Hd as [Hd|Hd].
    + rewrite (version_kind _ _ _ _ _ H2 Hd) in Hk. discriminate.
    + rewrite (references_kind _ _ _ _ _ _ H3 Hd) in Hk. discriminate.
  - intros (d & Hd & Hk). exists d. split; [apply in_or_app; left; exact Hd|exact Hk].
Qed.

Theorem C59_cycles_reported : forall fs u fuel o name root text ft pj pj', finite_fs fs u -> (length u < fuel)%nat -> order_ok o ->
  fs_canon fs name = inl root -> valid_utf8 text = true -> reached pj -> add_file_with_text fuel o fs name text ft pj = Done pj' ->
  (exists k v d, fget k (pj_files pj') = Some v /\ In d (pf_adiags v) /\ dg_kind d = CyclicDependencyError)
  <-> exists p, on_cycle (stored_includes fs (pj_files pj')) p.
Proof.
  intros fs u fuel o name root text ft pj pj' Hf Hl Ho Hc Hv Hp E.
  destruct (add_done _ _ _ _ _ _ _ _ _ _ Hf Hl Ho Hc Hv Hp E) as (files' & order & L & Hcl & Hk & P & Hp' & _ & _ & A & S).
  assert (Hin : forall k, In k order <-> In k (keys files')).
  { intros k. split; apply Permutation_in; [exact P|apply Permutation_sym, P]. }
  assert (Hsrc : forall k v f, fget k files' = Some v -> pf_file v = Some f -> fl_source f = k).
  { intros k v f H1 H2. specialize (S k). rewrite H1 in S. destruct (fget k (pj_files pj')) as [w|] eqn:Ew; [|contradiction].
    apply (pi_source _ Hp' k w f Ew). destruct S as (_ & S & _). congruence. }
  pose proof (deps_of_depends fs files' order (li_nodup _ _ _ _ _ _ _ L) Hin Hsrc) as D.
  pose proof (same_includes fs files' (pj_files pj') S) as SI.
  assert (R : closes (deps_of fs files' order) <-> exists p, on_cycle (stored_includes fs (pj_files pj')) p).
  { rewrite (closes_iff str_eq_dec). split; apply on_cycle_flip; intros a b; rewrite D, SI; reflexivity. }
  rewrite <- R. clear R. destruct A as (A1 & A2 & A3 & A4).
  assert (An : forall k1 k k2 v f, order = k1 ++ k :: k2 -> fget k files' = Some v -> pf_file v = Some f ->
    exists w, fget k (pj_files pj') = Some w /\
      ((exists d, In d (pf_adiags w) /\ is_cyclic d) <->
       exists h1 e h2, file_deps fs f = h1 ++ e :: h2 /\ on_cycle (depends ((deps_of fs files' k1 ++ h1) ++ [e])) (fst e))).
  { intros k1 k k2 v f Eo Ev Ef. destruct (A4 k1 k k2 v f Eo Ev Ef) as (pjk & a & a' & ac & es & B1 & B2 & B3 & B4 & B5 & _).
    exists (store_result (ac, es) v). split; [exact B1|]. cbn [store_result pf_adiags snd].
    destruct (analysed_spec fs pjk f (pf_type v) (deps_of fs files' k1) ac es B5) as (ds & h' & An & _).
    { exists (o_an o), a, a'. split; [apply Ho|]. split; [exact B2|exact B3]. }
    apply analysis_cyclic in An. rewrite An. clear. split; intros (h1 & e & h2 & H1 & H2); exists h1, e, h2; (split; [exact H1|]);
      [rewrite <- app_assoc|rewrite <- app_assoc in H2]; exact H2. }
  split.
  - intros (k & w & d & Hw & Hd & Hkd). assert (Hko : In k order).
    { apply Hin. change (@m_keys fpath pfile files') with (keys files'). rewrite <- A1. eapply m_get_key, Hw. }
    apply in_split in Hko. destruct Hko as (k1 & k2 & Eo). pose proof (S k) as Sk. rewrite Hw in Sk.
    destruct (fget k files') as [v|] eqn:Ev; [|contradiction]. destruct (pf_file v) as [f|] eqn:Ef.
    + destruct (An k1 k k2 v f Eo Ev Ef) as (w' & Ew & An'). assert (w' = w) as -> by congruence.
      destruct (proj1 An' (ex_intro _ d (conj Hd Hkd))) as (h1 & e & h2 & H1 & H2).
      exists (deps_of fs files' k1 ++ h1), e, (h2 ++ deps_of fs files' k2). split; [|exact H2].
      rewrite Eo. unfold deps_of. rewrite flat_map_app. cbn [flat_map]. rewrite Ev, Ef, H1. rewrite <- !app_assoc. reflexivity.
    + exfalso. destruct Sk as (_ & Sk & _). destruct (pi_bare _ Hp' k w Hw) as [_ X]; [congruence|]. rewrite X in Hd. exact Hd.
  - intros (h1 & e & h2 & H1 & H2). unfold deps_of in H1. apply flat_map_split in H1. destruct H1 as (k1 & k & k2 & a & b & Eo & Ek & ->).
    destruct (fget k files') as [v|] eqn:Ev; [|destruct a; discriminate]. destruct (pf_file v) as [f|] eqn:Ef; [|destruct a; discriminate].
    destruct (An k1 k k2 v f Eo Ev Ef) as (w & Ew & An'). destruct (proj2 An') as (d & Hd & Hkd); [exists a, e, b; split; [exact Ek|exact H2]|].
    exists k, w, d. auto.
Qed.
Print Assumptions C59_cycles_reported.

(** the project of C35 has a cycle, the one of C38 has none *)
Definition reported_cycles (pj : project) : list (fpath * span) :=
  flat_map (fun kv => flat_map (fun d => if error_code_eq_dec (dg_kind d) CyclicDependencyError then [(fst kv, dg_span d)] else [])
    (pf_adiags (snd kv))) (pj_files pj).
Example C59_case : exists pj, add_file_with_text 3 id_oracle (mem_fs ex35) (bs "/a.dts") (bs "/dts-v1/; /include/ ""/b.dtsi""") DtSource project_new = Done pj
  /\ reported_cycles pj = [(bs "/b.dtsi", mkSpan (mkPos 0 0) (mkPos 0 18)); (bs "/b.dtsi", mkSpan (mkPos 0 19) (mkPos 0 38))]
  /\ reported_cycles pj38c = [].
Proof. eexists. split; [vm_compute; reflexivity|]. split; vm_compute; reflexivity. Qed.

(** ** C58: labels and paths of included files *)
Lemma last_of_exists {D X} (binds : D -> X -> Prop) : (forall d, (exists y, binds d y) \/ (forall y, ~ binds d y)) ->
  forall l d x, In d l -> binds d x -> exists y, last_of binds l y.
Proof.
  intros Dec. induction l as [|e l IH] using rev_ind; intros d x Hd Hb; [destruct Hd|].
  destruct (Dec e) as [[y He]|He].
  - exists y, l, e, []. split; [reflexivity|]. split; [exact He|]. intros d' z [].
  - apply in_app_or in Hd. destruct Hd as [Hd|[<-|[]]]; [|destruct (He x Hb)].
    destruct (IH d x Hd Hb) as (y & pre & d' & post & -> & H1 & H2). exists y, pre, d', (post ++ [e]).
    split; [rewrite <- app_assoc; reflexivity|]. split; [exact H1|]. intros d2 z H. apply in_app_or in H.
    destruct H as [H|[<-|[]]]; [exact (H2 d2 z H)|exact (He z)].
Qed.
Lemma label_is_dec o l : label_is o l \/ ~ label_is o l.
Proof.
  destruct o as [w|]; [|right; intros (w & H & _); discriminate].
  destruct (str_eq_dec (wt_item w) l) as [H|H]; [left; exists w; auto|right; intros (w' & E & H'); congruence].
Qed.
Lemma binds_label_dec l d : (exists y, binds_label l d y) \/ (forall y, ~ binds_label l d y).
Proof.
  destruct d as [p n|p|c].
  - destruct (label_is_dec (nd_label n) l) as [H|H]; [left; eexists; constructor; exact H|right]. intros y K. inversion K; subst; contradiction.
  - destruct (label_is_dec (pr_label p) l) as [H|H]; [left; eexists; constructor; exact H|right]. intros y K. inversion K; subst; contradiction.
  - destruct (m_get str_eq_dec l (ac_labels c)) as [x|] eqn:E.
    + left. exists x. constructor. eapply m_get_in, E.
    + right. intros y K. inversion K; subst. eapply (m_get_none str_eq_dec); [exact E|]. apply in_map_iff. exists (l, y). auto.
Qed.
Lemma binds_path_dec p d : (exists y, binds_path p d y) \/ (forall y, ~ binds_path p d y).
Proof.
  destruct d as [q n|q|c].
  - destruct (npath_eq_dec q p) as [->|H]; [left; eexists; constructor|right]. intros y K. inversion K; subst; contradiction.
  - right. intros y K. inversion K.
  - destruct (m_get npath_eq_dec p (ac_flat c)) as [x|] eqn:E.
    + left. exists x. constructor. eapply m_get_in, E.
    + right. intros y K. inversion K; subst. eapply (m_get_none npath_eq_dec); [exact E|]. apply in_map_iff. exists (p, y). auto.
Qed.

(** After an addition, if the includes have two levels, a file sees every label and path of the files it includes.
    Missing for the full claim: deeper includes and partially shared files (C38). *)
Theorem C58_included_visible_partial : forall fs u fuel o name root text ft pj pj', finite_fs fs u -> (length u < fuel)%nat -> order_ok o ->
  canon_stable fs -> fs_canon fs name = inl root -> valid_utf8 text = true -> reached pj ->
  add_file_with_text fuel o fs name text ft pj = Done pj' -> two_level fs (pj_files pj') ->
  forall p q vq c, stored_includes fs (pj_files pj') p q -> fget q (pj_files pj') = Some vq -> pf_ctx vq = Some c ->
  exists vp ac, fget p (pj_files pj') = Some vp /\ pf_ctx vp = Some ac
    /\ (forall l, In l (m_keys (ac_labels c)) -> In l (m_keys (ac_labels ac)))
    /\ (forall n, In n (m_keys (ac_flat c)) -> In n (m_keys (ac_flat ac))).
Proof.
  intros fs u fuel o name root text ft pj pj' Hf Hl Ho Hst Hc Hv Hp E H2 p q vq c Hpq Hq Hctx.
  destruct (add_done _ _ _ _ _ _ _ _ _ _ Hf Hl Ho Hc Hv Hp E) as (files' & order & L & Hcl & Hk & P & Hp' & _ & _ & A & S).
  pose proof (same_includes fs files' (pj_files pj') S) as SI.
  pose proof (C59_cycles_reported _ _ _ _ _ _ _ _ _ _ Hf Hl Ho Hc Hv Hp E) as Cy.
  assert (Nc : forall k v d, fget k (pj_files pj') = Some v -> In d (pf_adiags v) -> dg_kind d <> CyclicDependencyError).
  { intros k v d Kv Kd Kk. destruct (proj1 Cy) as [x Hx]; [exists k, v, d; auto|]. destruct H2 as [H2 _].
    apply Operators_Properties.clos_trans_tn1 in Hx. inversion Hx as [y Hy|y z Hy Hz]; subst; [exact (H2 x x x Hy Hy)|].
    apply Operators_Properties.clos_tn1_trans in Hz. apply Operators_Properties.clos_trans_t1n in Hz.
    inversion Hz as [z Hz'|z w Hz' _]; subst; exact (H2 _ _ _ Hy Hz'). }
  destruct (key_order_flat o fs files' Ho (li_nodup _ _ _ _ _ _ _ L) Hcl) as (order' & O1 & O2).
  { destruct H2 as [X Y]. split; [intros x y z; rewrite <- !SI; apply X|intros x x' y y'; rewrite <- !SI; apply Y]. }
  assert (order' = order) as -> by congruence.
  pose proof (proj1 (SI p q) Hpq) as Hpq'. specialize (O2 p q Hpq').
  destruct Hpq' as (v & f & i & Ev & Ef & Hi & Ei).
  assert (Hin : forall k, In k order <-> In k (keys files')).
  { intros k. split; apply Permutation_in; [exact P|apply Permutation_sym, P]. }
  assert (Hpo : In p order) by (apply Hin; eapply m_get_key, Ev).
  assert (No : NoDup order) by (eapply Permutation_NoDup; [apply Permutation_sym, P|apply L]).
  apply in_split in Hpo. destruct Hpo as (k1 & k2 & Eo).
  assert (Hqk : In q k1).
  { rewrite Eo in O2, No. rewrite (idx_split k1 p k2 No) in O2.
    assert (Hqo : In q (k1 ++ p :: k2)).
    { rewrite <- Eo. apply Hin. destruct A as (A1 & _). rewrite <- A1. eapply m_get_key, Hq. }
    destruct (idx_in q _ Hqo) as (N1 & _ & _). rewrite nth_error_app1 in N1 by exact O2. eapply nth_error_In, N1. }
  destruct A as (A1 & A2 & A3 & A4).
  destruct (A4 k1 p k2 v f Eo Ev Ef) as (pjk & a & a' & ac & es & B1 & B2 & B3 & B4 & B5 & _ & B6 & _).
  exists (store_result (ac, es) v), ac. split; [exact B1|]. split; [reflexivity|].
  destruct (analysed_spec fs pjk f (pf_type v) (deps_of fs files' k1) ac es B5) as (ds & h' & An & _ & HL & HP).
  { exists (o_an o), a, a'. split; [apply Ho|]. split; [exact B2|exact B3]. }
  assert (Hg : get_file fs pjk q = Some vq).
  { unfold get_file. destruct (include_canon fs i q Ei) as [x Hx]. rewrite (Hst x q Hx), (B6 q Hqk). exact Hq. }
  assert (Hd : In (DInclude c) ds).
  { inversion An as [? ? e0 vs rs An1 An2 An3]; subst. apply in_split in Hi. destruct Hi as (l1 & l2 & El). rewrite El in An1.
    apply elements_at in An1. destruct An1 as (ds1 & h1 & e1 & dp & h2 & ep & new & e2 & X1 & X2 & X3 & -> & ->).
    apply in_or_app. left. apply in_or_app. right. inversion X2 as [| | | | |i0 ds0 h0 es0 Y1| | | |]; subst.
    inversion Y1; subst; try congruence.
    - exfalso. eapply Nc; [exact B1|cbn [store_result pf_adiags snd]; rewrite <- app_assoc; apply in_or_app; right; left; reflexivity|reflexivity].
    - assert (p0 = q) as -> by congruence. assert (f0 = vq) as -> by congruence. rewrite Hctx. left. reflexivity. }
  split.
  - intros l Hl'. destruct (m_get_some_key str_eq_dec l _ Hl') as [x Hx]. apply m_get_in in Hx.
    destruct (last_of_exists (binds_label l) (binds_label_dec l) ds (DInclude c) x Hd) as [y Hy]; [constructor; exact Hx|].
    apply HL in Hy. eapply m_get_key, Hy.
  - intros n Hn. destruct (m_get_some_key npath_eq_dec n _ Hn) as [x Hx]. apply m_get_in in Hx.
    destruct (last_of_exists (binds_path n) (binds_path_dec n) ds (DInclude c) x Hd) as [y Hy]; [constructor; exact Hx|].
    apply HP in Hy. eapply m_get_key, Hy.
Qed.
Print Assumptions C58_included_visible_partial.
Example C58_case : exists c ac, get_analysis (mem_fs ex38c) pj38c (bs "/c.dtsi") = Some c
  /\ get_analysis (mem_fs ex38c) pj38c (bs "/a.dts") = Some ac
  /\ m_keys (ac_labels c) = [bs "l"] /\ m_keys (ac_labels ac) = [bs "l"]
  /\ stored_includes (mem_fs ex38c) (pj_files pj38c) (bs "/a.dts") (bs "/c.dtsi") /\ canon_stable (mem_fs ex38c).
Proof.
  do 2 eexists. split; [vm_compute; reflexivity|]. split; [vm_compute; reflexivity|]. split; [vm_compute; reflexivity|].
  split; [vm_compute; reflexivity|]. split; [apply pj38c_includes; auto|].
  intros x p H. unfold mem_fs in *. cbn [fs_canon] in *. destruct (m_mem str_eq_dec x _) eqn:E; [|discriminate]. injection H as <-. rewrite E. reflexivity.
Qed.

(** ** C39: what an addition changes *)
Theorem C39_frame : forall fs u fuel o name root text ft pj pj', finite_fs fs u -> (length u < fuel)%nat -> order_ok o ->
  fs_canon fs name = inl root -> valid_utf8 text = true -> reached pj -> add_file_with_text fuel o fs name text ft pj = Done pj' ->
  (exists v, fget root (pj_files pj') = Some v /\ pf_text v = text /\ pf_type v = ft
     /\ match parse_text (include_dirs (pj_incl pj) root) text root with
        | ROk f s => pf_file v = Some f /\ pf_pdiags v = ps_diags s ++ flat_map (element_diags fs root (keys (pj_files pj))) (fl_elements f)
        | RErr d s => pf_file v = None /\ pf_pdiags v = [d]
        | _ => False
        end)
  /\ (forall k v, k <> root -> fget k (pj_files pj) = Some v -> exists v', fget k (pj_files pj') = Some v' /\ same_source v' v).
Proof.
  intros fs u fuel o name root text ft pj pj' Hf Hl Ho Hc Hv Hp E.
  destruct (add_done _ _ _ _ _ _ _ _ _ _ Hf Hl Ho Hc Hv Hp E) as (files' & order & L & _ & _ & _ & _ & _ & _ & _ & S). split.
  - destruct (li_root _ _ _ _ _ _ _ L) as (w & W1 & W2). specialize (S root). rewrite W1 in S.
    destruct (fget root (pj_files pj')) as [v|]; [|contradiction]. exists v. split; [reflexivity|].
    destruct S as (S1 & S2 & S3 & S4), W2 as (T1 & T2 & _ & _ & T3). split; [congruence|]. split; [congruence|].
    destruct T3 as [(f & s & T3 & T4 & T5)|(d & s & T3 & T4 & T5)]; rewrite T3; split; congruence.
  - intros k v Hne Hk. assert (Hk' : fget k files' = Some v).
    { rewrite (li_frame _ _ _ _ _ _ _ L k); [exact Hk|eapply m_get_key, Hk|exact Hne]. }
    specialize (S k). rewrite Hk' in S. destruct (fget k (pj_files pj')) as [v'|]; [|contradiction]. eauto.
Qed.
Print Assumptions C39_frame.
(** a second text for a file, with another file present *)
Definition text39 : str := bs "/dts-v1/; / { }".
Example C39_case : exists pj v w, add_file_with_text 4 id_oracle (mem_fs ex38c) (bs "/a.dts") text39 DtSource pj38c = Done pj
  /\ fget (bs "/a.dts") (pj_files pj) = Some v /\ pf_text v = text39 /\ map dg_kind (pf_pdiags v) = [Expected]
  /\ fget (bs "/c.dtsi") (pj_files pj) = Some w /\ pf_text w = bs "/ { l: n { }; };".
Proof. do 3 eexists. split; [vm_compute; reflexivity|]. repeat (split; [vm_compute; reflexivity|]). vm_compute. reflexivity. Qed.

(** ** C40: removal *)
Theorem C40_remove : forall fs p pj,
  get_file fs (remove_file fs p pj) p = None
  /\ (forall x, fs_canon fs x <> fs_canon fs p -> get_file fs (remove_file fs p pj) x = get_file fs pj x)
  /\ pj_incl (remove_file fs p pj) = pj_incl pj /\ pj_sev (remove_file fs p pj) = pj_sev pj.
Proof.
  intros fs p pj. unfold get_file. split; [|split; [|split]].
  - destruct (fs_canon fs p) as [q|e] eqn:E; [|reflexivity]. rewrite (remove_get fs p q pj E). destruct (str_eq_dec q q); [reflexivity|congruence].
  - intros x Hx. destruct (fs_canon fs x) as [y|e]; [|reflexivity]. destruct (fs_canon fs p) as [q|e] eqn:E.
    + rewrite (remove_get fs p q pj E). destruct (str_eq_dec y q); [congruence|reflexivity].
    + unfold remove_file. rewrite E. reflexivity.
  - unfold remove_file. destruct (fs_canon fs p); reflexivity.
  - unfold remove_file. destruct (fs_canon fs p); reflexivity.
Qed.
Print Assumptions C40_remove.
Example C40_case : exists v, get_file (mem_fs ex38c) pj38c (bs "/a.dts") = Some v
  /\ get_file (mem_fs ex38c) (remove_file (mem_fs ex38c) (bs "/a.dts") pj38c) (bs "/a.dts") = None
  /\ m_keys (pj_files (remove_file (mem_fs ex38c) (bs "/a.dts") pj38c)) = [bs "/c.dtsi"; bs "/b.dtsi"].
Proof. eexists. split; [vm_compute; reflexivity|]. split; vm_compute; reflexivity. Qed.

(** ** C60: the list of files after a removal *)
(** after a removal of a path that exists the files are those before without this one *)
Theorem C60_listed : forall fs p q pj, fs_canon fs p = inl q ->
  forall k, In k (keys (pj_files (remove_file fs p pj))) <-> In k (keys (pj_files pj)) /\ k <> q.
Proof.
  intros fs p q pj E k. unfold remove_file. rewrite E. cbn [pj_files set_files]. split.
  - intros H. destruct (m_get_some_key str_eq_dec k _ H) as [v Hv]. destruct (str_eq_dec k q) as [->|Hne].
    + rewrite (m_get_remove_eq str_eq_dec) in Hv. discriminate.
    + rewrite (m_get_remove_neq str_eq_dec) in Hv by exact Hne. split; [eapply m_get_key, Hv|exact Hne].
  - intros [H Hne]. destruct (m_get_some_key str_eq_dec k _ H) as [v Hv].
    apply (m_get_key str_eq_dec) with (v := v). rewrite (m_get_remove_neq str_eq_dec) by exact Hne. exact Hv.
Qed.
Print Assumptions C60_listed.
(** a file that was deleted on disk is not removed *)
Theorem C60_refuted : exists fs fs' u fuel o name text ft pj, finite_fs fs u /\ (length u < fuel)%nat /\ order_ok o
  /\ add_file_with_text fuel o fs name text ft project_new = Done pj
  /\ In name (m_keys (pj_files (remove_file fs' name pj))).
Proof.
  exists (mem_fs ex38c), (mem_fs []), (m_keys ex38c), 4%nat, id_oracle, (bs "/a.dts"), text38c, DtSource, pj38c.
  split; [apply mem_fs_finite|]. split; [cbn; lia|]. split; [apply id_order_ok|]. split; [apply pj38c_added|].
  assert (E : m_keys (pj_files (remove_file (mem_fs []) (bs "/a.dts") pj38c)) = [bs "/a.dts"; bs "/c.dtsi"; bs "/b.dtsi"]) by (vm_compute; reflexivity).
  rewrite E. left. reflexivity.
Qed.
Print Assumptions C60_refuted.

(** ** C41: parser diagnostics *)
(** Every diagnostic of a text that parses, and the error of one that does not, is kept, for the added file and the
    files it brings in. Missing: the diagnostics before an unrecoverable error, which are lost. *)
Theorem C41_kept_partial : forall fs u fuel o name root text ft pj pj', finite_fs fs u -> (length u < fuel)%nat -> order_ok o ->
  fs_canon fs name = inl root -> valid_utf8 text = true -> reached pj -> add_file_with_text fuel o fs name text ft pj = Done pj' ->
  forall k t, loaded fs (pj_incl pj) root text (keys (pj_files pj)) k -> text_of fs root text k = Some t ->
  exists v, fget k (pj_files pj') = Some v /\ pf_text v = t
    /\ match parse_text (include_dirs (pj_incl pj) k) t k with
       | ROk f s => forall d, In d (ps_diags s) -> In d (pf_diags v)
       | RErr d s => In d (pf_diags v)
       | _ => False
       end.
Proof.
  intros fs u fuel o name root text ft pj pj' Hf Hl Ho Hc Hv Hp E k t Hk Ht.
  destruct (add_done _ _ _ _ _ _ _ _ _ _ Hf Hl Ho Hc Hv Hp E) as (files' & order & L & _ & _ & _ & _ & _ & _ & _ & S).
  assert (G : exists w ft', fget k files' = Some w /\ stored fs (pj_incl pj) root (keys (pj_files pj)) k t ft' w).
  { destruct (str_eq_dec k root) as [->|Hne].
    - rewrite text_of_root in Ht. injection Ht as <-. destruct (li_root _ _ _ _ _ _ _ L) as (w & A & B). exists w, ft. auto.
    - destruct (li_new _ _ _ _ _ _ _ L k Hk Hne) as (_ & t' & w & A & B & C).
      rewrite (text_of_other fs root text k t' Hne A) in Ht. injection Ht as <-. exists w, (file_type_of_path k). auto. }
  destruct G as (w & ft' & G1 & (T1 & T2 & _ & _ & T3)). specialize (S k). rewrite G1 in S.
  destruct (fget k (pj_files pj')) as [v|]; [|contradiction]. exists v. split; [reflexivity|].
  destruct S as (S1 & S2 & S3 & S4). split; [congruence|]. unfold pf_diags.
  destruct T3 as [(f & s & T3 & T4 & T5)|(d & s & T3 & T4 & T5)]; rewrite T3, S1, T5.
  - intros d Hd. apply in_or_app. left. apply in_or_app. left. exact Hd.
  - left. reflexivity.
Qed.
Print Assumptions C41_kept_partial.

(** the claim in full is false *)
Definition text41 : str := bs "/dts-v1/ / { a }; }".
Definition lost41 : option (list diag * diag) :=
  match parse_text [bs "/"] text41 (bs "/a.dts") with RErr d s => Some (ps_diags s, d) | _ => None end.
Theorem C41_refuted : exists fs u fuel o root text ft pj d s d', finite_fs fs u /\ (length u < fuel)%nat /\ order_ok o
  /\ fs_canon fs root = inl root /\ add_file_with_text fuel o fs root text ft project_new = Done pj
  /\ parse_text (include_dirs [] root) text root = RErr d s /\ In d' (ps_diags s)
  /\ forall k e, In e (get_diagnostics fs pj k) -> dg_span e <> dg_span d'.
Proof.
  assert (K : exists d' d s, parse_text (include_dirs [] (bs "/a.dts")) text41 (bs "/a.dts") = RErr d s /\ ps_diags s = [d']
     /\ dg_span d' = mkSpan (mkPos 0 8) (mkPos 0 9)).
  { do 3 eexists. split; [vm_compute; reflexivity|]. split; vm_compute; reflexivity. }
  destruct K as (d' & d & s & K1 & K2 & K3).
  exists (mem_fs [(bs "/a.dts", text41)]), [bs "/a.dts"], 2%nat, id_oracle, (bs "/a.dts"), text41, DtSource,
    (unwrap (add_file_with_text 2 id_oracle (mem_fs [(bs "/a.dts", text41)]) (bs "/a.dts") text41 DtSource project_new)), d, s, d'.
  split; [apply mem_fs_finite|]. split; [cbn; lia|]. split; [apply id_order_ok|]. split; [vm_compute; reflexivity|].
  split; [vm_compute; reflexivity|]. split; [exact K1|]. split; [rewrite K2; left; reflexivity|].
  intros k e He. rewrite K3. clear - He. unfold get_diagnostics, get_file, mem_fs in He. cbn [fs_canon] in He.
  destruct (m_mem str_eq_dec k _) eqn:E; [|contradiction]. apply (m_mem_spec str_eq_dec) in E. destruct E as [<-|[]].
  assert (X : exists f, m_get str_eq_dec (bs "/a.dts") (pj_files (unwrap (add_file_with_text 2 id_oracle (mem_fs [(bs "/a.dts", text41)]) (bs "/a.dts") text41 DtSource project_new))) = Some f
    /\ map dg_span (pf_diags f) = [mkSpan (mkPos 0 14) (mkPos 0 14)]).
  { eexists. split; vm_compute; reflexivity. }
  destruct X as (f & X1 & X2). cbn [fst] in He. unfold mem_fs in X1. rewrite X1 in He.
  apply (in_map dg_span) in He. rewrite X2 in He. destruct He as [<-|[]]. discriminate.
Qed.
Print Assumptions C41_refuted.
Example C41_case : exists pj v, add_file_with_text 2 id_oracle (mem_fs [(bs "/a.dts", text39)]) (bs "/a.dts") text39 DtSource project_new = Done pj
  /\ fget (bs "/a.dts") (pj_files pj) = Some v /\ map dg_kind (pf_diags v) = [Expected].
Proof. do 2 eexists. repeat (split; [vm_compute; reflexivity|]). vm_compute. reflexivity. Qed.
