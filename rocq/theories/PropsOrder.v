(** When included files are analysed first, nothing but the texts counts: C70, C71, C74 for any include graph; C75 *)
From Verif Require Import ParserBase ProjectSpec ProjectProofs2 ProjectOrder ProjectHistory PropsProject PropsProject2 PropsProject3 PropsGoto PropsHistory
  Server ServerProofs PropsServer PropsServed Tests.
From Coq Require Import Permutation Wf_nat Operators_Properties Relation_Operators.

(** ** Orders of the analysis *)
(** every file comes behind the files it includes *)
Definition includes_first (fs : fsys) (files : list (fpath * pfile)) (order : list fpath) : Prop :=
  forall k1 k k2 q, order = k1 ++ k :: k2 -> stored_includes fs files k q -> In q k1.
(** the order that an addition computes is of this kind *)
Definition in_order (fuel : nat) (o : oracle) (fs : fsys) (root : fpath) (text : str) (ft : file_type) (pj : project) : Prop :=
  forall files order, parse_file fuel fs (pj_incl pj) root text ft (pj_files pj) = Done files ->
    compute_key_order o fs files = Done order -> includes_first fs files order.

Definition ranked (fs : fsys) (files : list (fpath * pfile)) : Prop :=
  exists rank : fpath -> nat, forall k q, stored_includes fs files k q -> (rank q < rank k)%nat.
Lemma ranked_acyclic fs files : ranked fs files -> acyclic (included_by fs files).
Proof.
  intros [rank H] x Hx. unfold on_cycle in Hx.
  assert (K : forall a b, clos_trans _ (included_by fs files) a b -> (rank a < rank b)%nat).
  { intros a b K. induction K as [a b K|a b c _ IH1 _ IH2]; [apply H, K|lia]. }
  specialize (K x x Hx). lia.
Qed.
Lemma first_ranked fs files order : NoDup order -> (forall k, In k order <-> In k (keys files)) -> includes_first fs files order -> ranked fs files.
Proof.
  intros N Hin H. exists (fun k => idx k order). intros k q Hkq.
  assert (Hk : In k order) by (apply Hin; destruct Hkq as (v & f & i & Hv & _); eapply m_get_key, Hv).
  apply in_split in Hk. destruct Hk as (k1 & k2 & E). pose proof (H k1 k k2 q E Hkq) as Hq.
  apply in_split in Hq. destruct Hq as (a & b & ->). rewrite E in N |- *. rewrite <- app_assoc in N |- *. cbn [app] in N |- *. apply idx_lt. exact N.
Qed.

(** ** C70 for any order that takes included files first *)
(** Missing for the full claim: the additions whose order is wrong, see C38_refuted. *)
Theorem C70_in_order_partial : forall fs u fuel o name root text ft pj pj', finite_fs fs u -> (length u < fuel)%nat -> order_ok o ->
  canon_stable fs -> fs_canon fs name = inl root -> valid_utf8 text = true -> reached pj ->
  add_file_with_text fuel o fs name text ft pj = Done pj' -> in_order fuel o fs root text ft pj ->
  ranked fs (pj_files pj') /\ forall k v, fget k (pj_files pj') = Some v -> settled fs pj' k v.
Proof.
  intros fs u fuel o name root text ft pj pj' Hf Hl Ho Hst Hc Hv Hp E Hord.
  destruct (add_done_at _ _ _ _ _ _ _ _ _ _ Hf Hl Ho Hc Hv Hp E) as (files' & order & Pf & L & Hcl & Hk & P & Hp' & _ & _ & A & S).
  specialize (Hord files' order Pf Hk).
  pose proof (same_includes fs files' (pj_files pj') S) as SI.
  assert (Hin : forall k, In k order <-> In k (keys files')).
  { intros x. split; apply Permutation_in; [exact P|apply Permutation_sym, P]. }
  assert (No : NoDup order) by (eapply Permutation_NoDup; [apply Permutation_sym, P|apply L]).
  assert (Hr : ranked fs (pj_files pj')).
  { destruct (first_ranked fs files' order No Hin Hord) as [rank R]. exists rank. intros x y. rewrite SI. apply R. }
  split; [exact Hr|]. intros k w Hw.
  unfold settled. destruct (pf_file w) as [f|] eqn:Efw; [|exact (pi_bare _ Hp' k w Hw Efw)].
  pose proof (S k) as Sk. rewrite Hw in Sk. destruct (fget k files') as [v|] eqn:Ev; [|contradiction].
  destruct Sk as (_ & Sf & St & _). assert (Ef : pf_file v = Some f) by congruence.
  assert (Hko : In k order) by (apply Hin; eapply m_get_key, Ev).
  apply in_split in Hko. destruct Hko as (k1 & k2 & Eo).
  destruct A as (A1 & A2 & A3 & A4).
  destruct (A4 k1 k k2 v f Eo Ev Ef) as (pjk & a & a' & ac & es & B1 & B2 & B3 & B4 & B5 & Bs & B6 & _).
  assert (w = store_result (ac, es) v) as -> by congruence. cbn [store_result pf_type pf_adiags pf_ctx fst snd].
  destruct (analysed_spec fs pjk f (pf_type v) (deps_of fs files' k1) ac es B5) as (ds & h' & An & Ok & HL & HP).
  { exists (o_an o), a, a'. split; [apply Ho|]. split; [exact B2|exact B3]. }
  assert (Hsrc : forall k v f, fget k files' = Some v -> pf_file v = Some f -> fl_source f = k).
  { intros x y z H1 H3. specialize (S x). rewrite H1 in S. destruct (fget x (pj_files pj')) as [w|] eqn:Ew; [|contradiction].
    apply (pi_source _ Hp' x w z Ew). destruct S as (_ & S & _). congruence. }
  rewrite (Hsrc k v f Ev Ef) in An. destruct An as [ds h' e0 vs rs An1 An2 An3].
  pose proof (ranked_acyclic _ _ Hr) as Hac.
  assert (M : exists g2, elements fs pj' k (pf_type v) [] [] [] (fl_elements f) ds g2 e0).
  { eapply (elements_move _ (fun _ => True) (fun q _ => Hac q) fs pjk pj' k (pf_type v) (fl_elements f) Bs); [|exact An1| |apply inside_nil].
  - intros i q Hi Ei. assert (Hkq : stored_includes fs files' k q) by (exists v, f, i; auto).
    split; [exact Logic.I|]. split; [unfold included_by; apply SI; exact Hkq|]. unfold get_file. destruct (include_canon fs i q Ei) as [x Hx].
    rewrite (Hst x q Hx). apply B6. exact (Hord k1 k k2 q Eo Hkq).
  - intros x y Hxy. unfold included_by. apply SI.
    pose proof (deps_of_depends fs files' order (li_nodup _ _ _ _ _ _ _ L) Hin Hsrc x y) as D. apply D.
    rewrite Eo. unfold deps_of. rewrite flat_map_app. apply depends_app. left. exact Hxy. }
  destruct M as [g2 M]. exists ds, g2, ac. split; [constructor; assumption|]. split; [reflexivity|]. repeat split; try apply Ok; try apply HL; try apply HP.
Qed.
Print Assumptions C70_in_order_partial.

(** ** Files with the same texts, and the same texts of all files they include, have the same results *)
Section Local.
  Context (fs : fsys) (pj1 pj2 : project) (K : fpath -> Prop).
  Context (Hst : canon_stable fs) (I1 : project_inv pj1) (Hsev : pj_sev pj1 = pj_sev pj2) (Hr : ranked fs (pj_files pj1)).
  Context (Hcl : forall k q, K k -> stored_includes fs (pj_files pj1) k q -> K q).
  Context (Hsrc : forall k, K k -> match fget k (pj_files pj1), fget k (pj_files pj2) with
                                   | Some v, Some w => same_source v w
                                   | None, None => True
                                   | _, _ => False
                                   end).
  Context (Hu : forall k v f, K k -> fget k (pj_files pj1) = Some v -> pf_file v = Some f -> pf_type v = DtSource -> unambiguous fs pj1 f []).
  Context (S1 : forall k v, fget k (pj_files pj1) = Some v -> settled fs pj1 k v).
  Context (S2 : forall k v, fget k (pj_files pj2) = Some v -> settled fs pj2 k v).

  Lemma local_step k v w : K k -> fget k (pj_files pj1) = Some v -> fget k (pj_files pj2) = Some w ->
    (forall q v' w', stored_includes fs (pj_files pj1) k q -> fget q (pj_files pj1) = Some v' -> fget q (pj_files pj2) = Some w' ->
       result_sim v' w') -> result_sim v w.
  Proof.
    intros HK Ev Ew IH. pose proof (Hsrc k HK) as Q. rewrite Ev, Ew in Q. destruct Q as (K1 & K2 & K3 & K4).
    pose proof (S1 k v Ev) as X1. pose proof (S2 k w Ew) as X2. unfold settled in X1, X2. rewrite <- K2, <- K3 in X2.
    destruct (pf_file v) as [f|] eqn:Ef.
    - destruct X1 as (ds1 & h1 & c1 & A1 & C1 & L1), X2 as (ds2 & h2 & c2 & A2 & C2 & L2).
      inversion A1 as [? ? e1 vs1 rs1 B1 V1 R1 Q1 Q2 Q3]. inversion A2 as [? ? e2 vs2 rs2 B2 V2 R2 Q4 Q5 Q6]. subst.
      assert (DE : Forall2 def_sim ds1 ds2 /\ e1 = e2);
        [eapply (elements_sim _ (fun _ => True) (fun q _ => ranked_acyclic _ _ Hr q) fs pj1 pj2 k (pf_type v) (fl_elements f));
         [|exact (sim_refl [])|apply inside_nil|apply inside_nil|exact B1|exact B2|]|destruct DE as [D E]].
      + intros i q Hi Ei. assert (Hkq : stored_includes fs (pj_files pj1) k q) by (exists v, f, i; auto).
        split; [exact Logic.I|]. split; [exact Hkq|]. destruct (include_canon fs i q Ei) as [x Hx]. unfold get_file. rewrite (Hst x q Hx).
        pose proof (Hsrc q (Hcl k q HK Hkq)) as Kq. unfold file_sim. change (m_get str_eq_dec q (pj_files pj1)) with (fget q (pj_files pj1)).
        change (m_get str_eq_dec q (pj_files pj2)) with (fget q (pj_files pj2)).
        destruct (fget q (pj_files pj1)) as [v'|] eqn:Ev', (fget q (pj_files pj2)) as [w'|] eqn:Ew'; try contradiction; [|exact I].
        destruct (IH q v' w' Hkq Ev' Ew') as [Y1 Y2]. split; [|exact Y2]. unfold error_diag, pf_diags. rewrite Y1, (proj1 Kq), Hsev. reflexivity.
      + intros l1 r l2 l El Er Et ds' h' e' Hl p n q m.
        pose proof (Hu k v f HK Ev Ef Et l1 r l2 l El Er) as U. rewrite (pi_source _ I1 k v f Ev Ef), <- Et in U.
        exact (U ds' h' e' Hl p n q m).
      + split.
        * rewrite <- Q3, <- Q6. rewrite E, (version_fun _ _ _ _ _ V1 V2), (references_fun _ _ _ _ _ _ (references_sim _ _ _ _ _ _ D R1) R2). reflexivity.
        * rewrite C1, C2. exact (lookups_sim _ _ _ _ D L1 L2).
    - unfold result_sim. destruct X1 as [-> ->], X2 as [-> ->]. split; [reflexivity|exact I].
  Qed.
  Lemma local_unique k v w : K k -> fget k (pj_files pj1) = Some v -> fget k (pj_files pj2) = Some w -> result_sim v w.
  Proof.
    destruct Hr as [rank R]. remember (rank k) as n eqn:En. revert k v w En.
    induction n as [n IH] using (well_founded_induction lt_wf). intros k v w En HK Ev Ew.
    apply (local_step k v w HK Ev Ew). intros q v' w' Hq Ev' Ew'. apply (IH (rank q)) with (k := q); [|reflexivity|eapply Hcl; eassumption|exact Ev'|exact Ew'].
    subst n. apply R, Hq.
  Qed.
End Local.

(** a session whose last step is an addition that analyses included files first *)
Definition updated_in_order (fs : fsys) (dirs : list str) (pj' : project) : Prop :=
  exists u fuel o name root text ft pj, session fs dirs pj /\ finite_fs fs u /\ (length u < fuel)%nat /\ order_ok o
    /\ fs_canon fs name = inl root /\ valid_utf8 text = true /\ add_file_with_text fuel o fs name text ft pj = Done pj'
    /\ in_order fuel o fs root text ft pj.
Lemma in_order_updated fs dirs pj : updated_in_order fs dirs pj -> updated fs dirs pj.
Proof. intros (u & fuel & o & name & root & text & ft & pj0 & H1 & H2 & H3 & H4 & H5 & H6 & H7 & _). exists u, fuel, o, name, text, ft, pj0. auto 10. Qed.
Lemma in_order_settled fs dirs pj : canon_stable fs -> updated_in_order fs dirs pj ->
  ranked fs (pj_files pj) /\ forall k v, fget k (pj_files pj) = Some v -> settled fs pj k v.
Proof.
  intros Hst (u & fuel & o & name & root & text & ft & pj0 & H1 & H2 & H3 & H4 & H5 & H6 & H7 & H8).
  eapply C70_in_order_partial; try eassumption. eapply session_reached; eassumption.
Qed.
(** the case of C70_settled_partial and C71_current_texts_partial *)
Lemma two_level_in_order fs u fuel o name root text ft pj pj' : finite_fs fs u -> (length u < fuel)%nat -> order_ok o -> fs_canon fs name = inl root ->
  valid_utf8 text = true -> reached pj -> add_file_with_text fuel o fs name text ft pj = Done pj' -> two_level fs (pj_files pj') ->
  in_order fuel o fs root text ft pj.
Proof.
  intros Hf Hl Ho Hc Hv Hp E H2 files order Ef Eo.
  destruct (add_done_at _ _ _ _ _ _ _ _ _ _ Hf Hl Ho Hc Hv Hp E) as (files' & order' & Pf & L & Hcl & Hk & P & Hp' & _ & _ & A & S).
  rewrite Ef in Pf. injection Pf as <-. rewrite Eo in Hk. injection Hk as <-.
  pose proof (same_includes fs files (pj_files pj') S) as SI.
  destruct (key_order_flat o fs files Ho (li_nodup _ _ _ _ _ _ _ L) Hcl) as (order' & O1 & O2).
  { destruct H2 as [X Y]. split; [intros x y z; rewrite <- !SI; apply X|intros x x' y y'; rewrite <- !SI; apply Y]. }
  assert (order' = order) as -> by congruence.
  intros k1 k k2 q E1 Hkq. specialize (O2 k q Hkq).
  assert (No : NoDup (k1 ++ k :: k2)) by (rewrite <- E1; eapply Permutation_NoDup; [apply Permutation_sym, P|apply L]).
  rewrite E1 in O2. assert (O3 : (idx q (k1 ++ k :: k2) < length k1)%nat) by (eapply Nat.lt_le_trans; [exact O2|apply Nat.eq_le_incl; exact (idx_split k1 k k2 No)]). clear O2.
  assert (Hqo : In q (k1 ++ k :: k2)).
  { rewrite <- E1. eapply Permutation_in; [apply Permutation_sym, P|]. exact (Hcl k q Hkq). }
  destruct (idx_in q _ Hqo) as (N1 & _ & _). rewrite nth_error_app1 in N1 by exact O3. eapply nth_error_In, N1.
Qed.

(** ** C75: answers about a file depend on its text and the texts of the files it includes *)
Definition reaches (fs : fsys) (pj : project) : fpath -> fpath -> Prop := clos_refl_trans fpath (stored_includes fs (pj_files pj)).
(** [k] and the files it includes, directly or not, have the same texts in both projects *)
Definition same_view (fs : fsys) (pj1 pj2 : project) (k : fpath) : Prop :=
  forall q, reaches fs pj1 k q -> exists v w, fget q (pj_files pj1) = Some v /\ fget q (pj_files pj2) = Some w
    /\ pf_text v = pf_text w /\ pf_type v = pf_type w.
Definition unambiguous_from (fs : fsys) (pj : project) (k : fpath) : Prop :=
  forall q v f, reaches fs pj k q -> fget q (pj_files pj) = Some v -> pf_file v = Some f -> pf_type v = DtSource -> unambiguous fs pj f [].

Lemma by_text_eq fs dirs pj1 pj2 k v w : session fs dirs pj1 -> session fs dirs pj2 -> fget k (pj_files pj1) = Some v -> fget k (pj_files pj2) = Some w ->
  pf_text v = pf_text w -> pf_type v = pf_type w -> same_source v w.
Proof.
  intros H1 H2 Ev Ew T1 T2. destruct (session_by_text _ _ _ H1) as (I1 & _ & B1), (session_by_text _ _ _ H2) as (I2 & _ & B2).
  specialize (B1 k v Ev). specialize (B2 k w Ew). unfold by_text in B1, B2. rewrite I1, T1 in B1. rewrite I2 in B2.
  destruct (parse_text _ _ _) as [f s|d s| |]; try contradiction; destruct B1 as [X1 X2], B2 as [Y1 Y2]; repeat split; congruence.
Qed.

(** Missing for the full claim: the additions whose order is wrong (C38) and opened labels with several nodes (C32). *)
Theorem C75_local_partial : forall fs dirs pj1 pj2 k name, canon_stable fs -> updated_in_order fs dirs pj1 -> updated_in_order fs dirs pj2 ->
  same_view fs pj1 pj2 k -> unambiguous_from fs pj1 k -> fs_canon fs name = inl k ->
  get_diagnostics fs pj1 name = get_diagnostics fs pj2 name
  /\ get_root fs pj1 name = get_root fs pj2 name
  /\ forall r, get_node_position fs pj1 name r = get_node_position fs pj2 name r
       /\ document_reference fs pj1 name r = document_reference fs pj2 name r.
Proof.
  intros fs dirs pj1 pj2 k name Hst U1 U2 Ht Hu Hc.
  pose proof (updated_session _ _ _ (in_order_updated _ _ _ U1)) as Z1. pose proof (updated_session _ _ _ (in_order_updated _ _ _ U2)) as Z2.
  pose proof (reached_inv _ (session_reached _ _ _ Z1)) as I1. pose proof (reached_inv _ (session_reached _ _ _ Z2)) as I2.
  destruct (in_order_settled _ _ _ Hst U1) as [R1 S1], (in_order_settled _ _ _ Hst U2) as [_ S2].
  destruct (Ht k (rt_refl _ _ _)) as (v & w & Ev & Ew & T1 & T2).
  assert (R : result_sim v w).
  { apply (local_unique fs pj1 pj2 (reaches fs pj1 k) Hst I1) with (k := k); try assumption.
    - destruct (session_by_text _ _ _ Z1) as (_ & -> & _), (session_by_text _ _ _ Z2) as (_ & -> & _). reflexivity.
    - intros a b Ha Hb. eapply rt_trans; [exact Ha|apply rt_step, Hb].
    - intros q Hq. destruct (Ht q Hq) as (v' & w' & Ev' & Ew' & T1' & T2'). rewrite Ev', Ew'. exact (by_text_eq fs dirs pj1 pj2 q v' w' Z1 Z2 Ev' Ew' T1' T2').
    - apply rt_refl. }
  pose proof (by_text_eq fs dirs pj1 pj2 k v w Z1 Z2 Ev Ew T1 T2) as Hs.
  unfold get_root, get_node_position, document_reference, get_diagnostics, get_analysis, get_file. rewrite Hc.
  change (m_get str_eq_dec k (pj_files pj1)) with (fget k (pj_files pj1)). change (m_get str_eq_dec k (pj_files pj2)) with (fget k (pj_files pj2)).
  rewrite Ev, Ew. destruct R as [Ra Rc], Hs as (A1 & A2 & A3 & A4). split; [unfold pf_diags; congruence|]. split; [exact A2|].
  unfold ctx_sim in Rc. destruct (pf_ctx v) as [c|] eqn:Ecv, (pf_ctx w) as [d|] eqn:Ecw; try contradiction; [|auto].
  intros r. rewrite (same_answers_get c d); [auto| | |exact Rc].
  - eapply (pi_ok _ I1); [apply m_get_in in Ev; exact Ev|exact Ecv].
  - eapply (pi_ok _ I2); [apply m_get_in in Ew; exact Ew|exact Ecw].
Qed.
Print Assumptions C75_local_partial.

Lemma updated_closed fs dirs pj : updated fs dirs pj -> closed_files fs (pj_files pj).
Proof.
  intros (u0 & fuel0 & o0 & name0 & text0 & ft0 & pj0 & X1 & X2 & X3 & X4 & X5 & X6).
  destruct (fs_canon fs name0) as [root0|e] eqn:Ec; [|unfold add_file_with_text in X6; rewrite Ec in X6; discriminate].
  destruct (add_done _ _ _ _ _ _ _ _ _ _ X2 X3 X4 Ec X5 (session_reached _ _ _ X1) X6) as (files' & order & L & Hcl & _ & _ & _ & _ & _ & (A & _) & S).
  intros p q Hpq. apply (same_includes fs _ _ S) in Hpq. rewrite A. exact (Hcl p q Hpq).
Qed.

(** ** C71 and C74 for any order that takes included files first *)
(** Missing for the full claims: as in C75_local_partial. *)
Theorem C71_in_order_partial : forall fs dirs pj1 pj2, canon_stable fs -> updated_in_order fs dirs pj1 -> updated_in_order fs dirs pj2 ->
  same_texts pj1 pj2 -> unambiguous_files fs pj1 ->
  forall name, get_diagnostics fs pj1 name = get_diagnostics fs pj2 name
    /\ get_root fs pj1 name = get_root fs pj2 name
    /\ forall r, get_node_position fs pj1 name r = get_node_position fs pj2 name r
         /\ document_reference fs pj1 name r = document_reference fs pj2 name r.
Proof.
  intros fs dirs pj1 pj2 Hst U1 U2 Ht Hu name. pose proof (updated_closed _ _ _ (in_order_updated _ _ _ U1)) as Cl.
  assert (V : forall k v, fget k (pj_files pj1) = Some v -> exists w, fget k (pj_files pj2) = Some w /\ pf_text v = pf_text w /\ pf_type v = pf_type w).
  { intros k v Hk. specialize (Ht k). rewrite Hk in Ht. destruct (fget k (pj_files pj2)) as [w|]; [|contradiction]. exists w. auto. }
  destruct (fs_canon fs name) as [k|e] eqn:Ec.
  - destruct (fget k (pj_files pj1)) as [v|] eqn:Ev.
    + apply (C75_local_partial fs dirs pj1 pj2 k name Hst U1 U2); [| |exact Ec].
      * intros q Hq. assert (Hin : In q (keys (pj_files pj1))).
        { apply clos_rt_rtn1 in Hq. destruct Hq as [|q z Hz _]; [eapply m_get_key, Ev|exact (Cl _ _ Hz)]. }
        destruct (m_get_some_key str_eq_dec q _ Hin) as [v' Ev']. destruct (V q v' Ev') as (w' & Ew' & T). exists v', w'. auto.
      * intros q v' f _ Hq. exact (Hu q v' f Hq).
    + specialize (Ht k). rewrite Ev in Ht. unfold get_root, get_node_position, document_reference, get_diagnostics, get_analysis, get_file. rewrite Ec.
      change (m_get str_eq_dec k (pj_files pj1)) with (fget k (pj_files pj1)). change (m_get str_eq_dec k (pj_files pj2)) with (fget k (pj_files pj2)).
      rewrite Ev. destruct (fget k (pj_files pj2)); [contradiction|auto].
  - unfold get_root, get_node_position, document_reference, get_diagnostics, get_analysis, get_file. rewrite Ec. auto.
Qed.
Print Assumptions C71_in_order_partial.

(** the last notification opened or changed a document, and included files were analysed first *)
Definition edited_in_order (fs : fsys) (dirs : list str) (sv' : server) : Prop :=
  exists fuel o ok p root text sv, connection fs dirs sv /\ disk fs fuel /\ order_ok o /\ shuffle ok /\ valid_utf8 text = true
    /\ fs_canon fs p = inl root /\ in_order fuel o fs root text (file_type_of_path p) (sv_project sv)
    /\ (did_open fuel o ok fs (FileUri p) text sv = Done sv' \/ exists texts, did_change fuel o ok fs (FileUri p) (text :: texts) sv = Done sv').
Lemma edited_in_order_updated fs dirs sv : edited_in_order fs dirs sv -> updated_in_order fs dirs (sv_project sv) /\ up_to_date fs sv.
Proof.
  intros (fuel & o & ok & p & root & text & sv0 & H & Hd & Ho & Hk & Hv & Hc & Hord & E). destruct (connection_session _ _ _ H) as [Z S].
  assert (E' : did_open fuel o ok fs (FileUri p) text sv0 = Done sv) by (destruct E as [E|[texts E]]; [exact E|rewrite change_open in E; exact E]).
  split; [|eapply C47_open_published; eassumption]. unfold did_open in E'. cbn [to_file_path] in E'. destruct Hd as [_ (l & Hf & Hl)].
  destruct (add_file_with_text fuel o fs p text (file_type_of_path p) (sv_project sv0)) as [pj| |] eqn:Ea; cbn [obind] in E'; try discriminate.
  apply publish_project in E'. rewrite E'. exists l, fuel, o, p, root, text, (file_type_of_path p), (sv_project sv0).
  repeat (split; [assumption|]). exact Hord.
Qed.
Theorem C74_in_order_partial : forall fs dirs sv1 sv2, canon_stable fs -> edited_in_order fs dirs sv1 -> edited_in_order fs dirs sv2 ->
  same_texts (sv_project sv1) (sv_project sv2) -> unambiguous_files fs (sv_project sv1) ->
  (forall k v, fget k (pj_files (sv_project sv1)) = Some v -> client_view (sv_sent sv1) (FileUri k) = client_view (sv_sent sv2) (FileUri k))
  /\ (forall u c, goto_definition fs u c sv1 = goto_definition fs u c sv2 /\ hover fs u c sv1 = hover fs u c sv2)
  /\ forall u, document_symbol fs u sv1 = document_symbol fs u sv2.
Proof.
  intros fs dirs sv1 sv2 Hst E1 E2 Ht Hu. destruct (edited_in_order_updated _ _ _ E1) as [U1 V1], (edited_in_order_updated _ _ _ E2) as [U2 V2].
  pose proof (C71_in_order_partial fs dirs _ _ Hst U1 U2 Ht Hu) as R.
  assert (F : forall p c, find_at_pos fs (sv_project sv1) p c = find_at_pos fs (sv_project sv2) p c).
  { intros p c. destruct (R p) as (_ & X & _). revert X. unfold find_at_pos, get_root.
    destruct (get_file fs (sv_project sv1) p) as [v|], (get_file fs (sv_project sv2) p) as [w|]; intros X; rewrite ?X; try reflexivity.
    - rewrite <- X. reflexivity. }
  split; [|split].
  - intros k v Hk. rewrite V1 by (eapply m_get_key, Hk). rewrite V2.
    + f_equal. apply R.
    + specialize (Ht k). rewrite Hk in Ht. destruct (fget k (pj_files (sv_project sv2))) as [w|] eqn:Ew; [|contradiction]. eapply m_get_key, Ew.
  - intros u c. unfold goto_definition, hover. destruct (to_file_path u) as [p|]; [|auto]. rewrite F. destruct (R p) as (_ & _ & X).
    destruct (find_at_pos fs (sv_project sv2) p c) as [[r|l|i]|]; try (split; reflexivity). destruct (X r) as [X1 X2]. rewrite X1, X2. auto.
  - intros u. unfold document_symbol. destruct (to_file_path u) as [p|]; [|reflexivity]. destruct (R p) as (_ & X & _). rewrite X. reflexivity.
Qed.
Print Assumptions C74_in_order_partial.

(** ** C58: labels and paths of files included directly or not *)
Lemma elements_inside (R : fpath -> fpath -> Prop) fs pj src ft l : (forall i q, In (PDirective (AInclude i)) l -> include_path fs i = inl q -> R q src) ->
  forall ps ds h ds' h' es, elements fs pj src ft ps ds h l ds' h' es -> inside R h -> inside R h'.
Proof.
  induction l as [|p l IH]; intros Hi ps ds h ds' h' es H I.
  - apply elements_nil_inv in H. destruct H as (_ & -> & _). exact I.
  - apply elements_cons_inv in H. destruct H as (dp & h1 & ep & e2 & A & B & _).
    eapply (IH (fun i q Hq => Hi i q (or_intror Hq))); [exact B|]. inversion A; subst; try exact I.
    match goal with K : included _ _ _ _ _ _ _ _ |- _ => inversion K; subst end; try exact I; apply inside_snoc; try exact I;
      (eapply Hi; [left; reflexivity|assumption]).
Qed.
Theorem C58_in_order_partial : forall fs dirs pj p q vq c, canon_stable fs -> updated_in_order fs dirs pj ->
  reaches fs pj p q -> fget q (pj_files pj) = Some vq -> pf_ctx vq = Some c ->
  exists vp ac, fget p (pj_files pj) = Some vp /\ pf_ctx vp = Some ac
    /\ (forall l, In l (m_keys (ac_labels c)) -> In l (m_keys (ac_labels ac)))
    /\ (forall n, In n (m_keys (ac_flat c)) -> In n (m_keys (ac_flat ac))).
Proof.
  intros fs dirs pj p q vq c Hst U Hpq Hq Hctx. destruct (in_order_settled _ _ _ Hst U) as [Hr Hs].
  apply clos_rt_rt1n in Hpq. induction Hpq as [p|p y z Hpy Hyz IH].
  - exists vq, c. auto.
  - destruct (IH Hq) as (vy & cy & Ey & Ecy & IH1 & IH2). clear IH.
    destruct Hpy as (vp & f & i & Ev & Ef & Hi & Ei). pose proof (Hs p vp Ev) as Sp. unfold settled in Sp. rewrite Ef in Sp.
    destruct Sp as (ds & h & ac & An & Eac & _ & HL & HP). exists vp, ac. split; [exact Ev|]. split; [exact Eac|].
    assert (Hg : get_file fs pj y = Some vy).
    { unfold get_file. destruct (include_canon fs i y Ei) as [x Hx]. rewrite (Hst x y Hx). exact Ey. }
    assert (Hd : In (DInclude cy) ds).
    { inversion An as [? ? e0 vs rs An1 An2 An3]; subst. apply in_split in Hi. destruct Hi as (l1 & l2 & El). rewrite El in An1.
      apply elements_at in An1. destruct An1 as (ds1 & h1 & e1 & dp & h2 & ep & new & e2 & X1 & X2 & X3 & -> & ->).
      assert (Hin : forall i q, In (PDirective (AInclude i)) (fl_elements f) -> include_path fs i = inl q -> included_by fs (pj_files pj) q p)
        by (intros i' q' Ha Hb; exists vp, f, i'; auto).
      assert (I1 : inside (included_by fs (pj_files pj)) h1).
      { eapply (elements_inside _ fs pj p (pf_type vp) l1); [|exact X1|apply inside_nil]. intros i' q' Ha. apply Hin. rewrite El. apply in_or_app. auto. }
      apply in_or_app. left. apply in_or_app. right. inversion X2 as [| | | | |i0 ds0 h0 es0 Y1| | | |]; subst.
      inversion Y1 as [? X|p0 cy' X Y|p0 X Y Z|p0 f0 ? ? X Y Z T]; subst; [congruence| | |]; assert (p0 = y) as -> by congruence.
      - exfalso. apply simple_on_cycle in Y. revert Y. apply (inside_cycle _ (fun _ => True) (fun q _ => ranked_acyclic _ _ Hr q)); [|exact Logic.I]. apply inside_snoc; [exact I1|].
        apply (Hin i y); [rewrite El; apply in_or_app; right; left; reflexivity|exact Ei].
      - congruence.
      - assert (f0 = vy) as -> by congruence. rewrite Ecy. left. reflexivity. }
    split.
    + intros l Hl'. apply IH1 in Hl'. destruct (m_get_some_key str_eq_dec l _ Hl') as [x Hx]. apply m_get_in in Hx.
      destruct (last_of_exists (binds_label l) (binds_label_dec l) ds (DInclude cy) x Hd) as [y' Hy]; [constructor; exact Hx|].
      apply HL in Hy. eapply m_get_key, Hy.
    + intros n Hn. apply IH2 in Hn. destruct (m_get_some_key npath_eq_dec n _ Hn) as [x Hx]. apply m_get_in in Hx.
      destruct (last_of_exists (binds_path n) (binds_path_dec n) ds (DInclude cy) x Hd) as [y' Hy]; [constructor; exact Hx|].
      apply HP in Hy. eapply m_get_key, Hy.
Qed.
Print Assumptions C58_in_order_partial.

(** ** C64 for any order that takes included files first *)
Lemma first_idx fs files order : NoDup order -> (forall k, In k order <-> In k (keys files)) -> includes_first fs files order ->
  forall p q, stored_includes fs files p q -> (idx q order < idx p order)%nat.
Proof.
  intros N Hin H k q Hkq.
  assert (Hk : In k order) by (apply Hin; destruct Hkq as (v & f & i & Hv & _); eapply m_get_key, Hv).
  apply in_split in Hk. destruct Hk as (k1 & k2 & E). pose proof (H k1 k k2 q E Hkq) as Hq.
  apply in_split in Hq. destruct Hq as (a & b & ->). rewrite E in N |- *. rewrite <- app_assoc in N |- *. cbn [app] in N |- *. apply idx_lt. exact N.
Qed.
(** Missing for the full claim: the additions whose order is wrong, where it is false (C64_refuted). *)
Theorem C64_in_order_partial : forall fuel o ok fs p root text sv sv', served sv -> disk fs fuel -> canon_stable fs -> order_ok o -> shuffle ok ->
  valid_utf8 text = true -> fs_canon fs p = inl root -> in_order fuel o fs root text (file_type_of_path p) (sv_project sv) ->
  did_open fuel o ok fs (FileUri p) text sv = Done sv' ->
  forall u k v f pos r q sp, fs_canon fs u = inl k -> fget k (pj_files (sv_project sv')) = Some v -> pf_file v = Some f -> file_at f pos = Some (AtReference r) ->
  goto_definition fs (FileUri u) pos sv' = Done (Some (FileUri q, sp)) ->
  exists w n, fget q (pj_files (sv_project sv')) = Some w /\ origin n q (pf_text w) /\ sp = wt_span (nd_name n) /\ tok_at (pf_text w) q (wt_tok (nd_name n)).
Proof.
  intros fuel o ok fs p root text sv sv' Hs Hd Hst Ho Hk Hv Ec Hord E u k v f pos r q sp Hc Hg Hf Hr Hgo.
  assert (Hs' : served sv') by (eapply se_open; eassumption). destruct Hd as [Ha (l & Hfin & Hl)]. pose proof (served_inv _ Hs) as Hi. pose proof (served_inv _ Hs') as Hi'.
  destruct (si_tree _ Hi' k v f Hg Hf) as [_ (fs0 & pj0 & h & ac & es & _ & Hctx & _)].
  rewrite (goto_reference sv' fs u k v f pos r ac Hs' Hc Hg Hf Hr Hctx) in Hgo.
  destruct (get_referenced ac r) as [n|] eqn:En; cbn [option_map] in Hgo; [|discriminate]. injection Hgo as Eq Es.
  unfold did_open in E. cbn [to_file_path] in E.
  destruct (add_file_with_text fuel o fs p text (file_type_of_path p) (sv_project sv)) as [pj| |] eqn:Ea; cbn [obind] in E; try discriminate.
  apply publish_project in E. cbn [sv_project] in E. rewrite E in *.
  destruct (add_done_at _ _ _ _ _ _ _ _ _ _ Hfin Hl Ho Ec Hv (si_reached _ Hi) Ea) as (files' & order & Pf & L & Hcl & Hko & P & Hp' & _ & _ & A & S).
  specialize (Hord files' order Pf Hko).
  assert (No : NoDup order) by (eapply Permutation_NoDup; [apply Permutation_sym, P|apply L]).
  assert (Hin : forall x, In x order <-> In x (keys files')) by (intros x; split; apply Permutation_in; [exact P|apply Permutation_sym, P]).
  assert (Hcur : ctx_current (pj_files pj) ac).
  { eapply (ordered_current (o_an o) fs files' order pj); [apply Ho|exact Hst|exact No|exact Hin|exact Hcl|exact (first_idx fs files' order No Hin Hord)| |exact A|exact Hg|exact Hctx].
    intros x y X1 X2. pose proof (load_keeps _ _ _ _ _ _ _ Hv (reached_inv _ (si_reached _ Hi)) L) as [_ _ _ B]. exact (proj1 (B x y X1 X2)). }
  assert (Hn : current (pj_files pj) n).
  { apply referenced_in in En. destruct En as [[l' En]|[l' En]]; [exact (proj1 Hcur _ _ En)|exact (proj2 Hcur _ _ En)]. }
  destruct Hn as (q' & w & g & W1 & W2 & W3). destruct (si_tree _ Hi' q' w g W1 W2) as [(dirs & s & T1 & T2) _].
  assert (Hor : origin n q' (pf_text w)) by (exists dirs, g, s; auto). destruct (origin_tok _ _ _ Hor) as [T3 T4].
  assert (q' = q) as -> by congruence. exists w, n. auto.
Qed.
Print Assumptions C64_in_order_partial.

(** ** Cases *)
(** deciding [in_order] *)
Fixpoint firstb (fs : fsys) (files : list (fpath * pfile)) (seen order : list fpath) : bool :=
  match order with
  | [] => true
  | k :: r =>
    match fget k files with
    | Some v => forallb (fun q => if in_dec str_eq_dec q seen then true else false) (targets_of fs v)
    | None => true
    end && firstb fs files (seen ++ [k]) r
  end.
Definition in_orderb (fuel : nat) (o : oracle) (fs : fsys) (root : fpath) (text : str) (ft : file_type) (pj : project) : bool :=
  match parse_file fuel fs (pj_incl pj) root text ft (pj_files pj) with
  | Done files => match compute_key_order o fs files with Done order => firstb fs files [] order | _ => true end
  | _ => true
  end.
Lemma firstb_ok fs files : forall order seen, firstb fs files seen order = true ->
  forall k1 k k2 q, order = k1 ++ k :: k2 -> stored_includes fs files k q -> In q (seen ++ k1).
Proof.
  induction order as [|x order IH]; intros seen H k1 k k2 q E Hq; [destruct k1; discriminate|].
  cbn [firstb] in H. apply andb_prop in H. destruct H as [H1 H2]. destruct k1 as [|y k1]; cbn [app] in E; injection E as -> E.
  - destruct Hq as (v & f & i & Hv & Hf & Hi & Ei). change (m_get str_eq_dec k files) with (fget k files) in Hv. rewrite Hv in H1.
    rewrite forallb_forall in H1. assert (Hin : In q (targets_of fs v)).
    { unfold targets_of. rewrite Hf. apply resolved_in. exists i. auto. }
    specialize (H1 q Hin). rewrite app_nil_r. destruct (in_dec str_eq_dec q seen); [assumption|discriminate].
  - specialize (IH (seen ++ [y]) H2 k1 k k2 q E Hq). rewrite <- app_assoc in IH. exact IH.
Qed.
Lemma in_orderb_ok fuel o fs root text ft pj : in_orderb fuel o fs root text ft pj = true -> in_order fuel o fs root text ft pj.
Proof.
  intros H files order E1 E2. unfold in_orderb in H. rewrite E1, E2 in H. intros k1 k k2 q. apply (firstb_ok fs files order [] H).
Qed.
Lemma no_opened fs pj f : forallb (fun p => match p with PReferencedNode _ => false | _ => true end) (fl_elements f) = true -> unambiguous fs pj f [].
Proof.
  intros H l1 r l2 l E. rewrite E in H. rewrite forallb_app in H. apply andb_prop in H. destruct H as [_ H]. discriminate H.
Qed.
Definition plain_files (pj : project) : bool :=
  forallb (fun kv => match pf_file (snd kv) with
                     | Some f => forallb (fun p => match p with PReferencedNode _ => false | _ => true end) (fl_elements f)
                     | None => true end) (pj_files pj).
Lemma plain_unambiguous fs pj : plain_files pj = true -> unambiguous_files fs pj.
Proof.
  intros H k v f Hk Hf _. apply no_opened. unfold plain_files in H. rewrite forallb_forall in H. apply m_get_in in Hk.
  specialize (H _ Hk). cbn [snd] in H. rewrite Hf in H. exact H.
Qed.

(** a source that includes a file that includes a file; then another source *)
Definition text75 : str := bs "/dts-v1/; /include/ ""/c.dtsi"" / { q = <&l>; };".
Definition ex75 : list (fpath * str) := ex38 ++ [(bs "/z.dts", text75)].
Definition fs75 : fsys := mem_fs ex75.
Definition pj75 : project := unwrap (add_file_with_text 5 rev_oracle fs75 (bs "/a.dts") text38 DtSource project_new).
Definition pj75z (o : oracle) : project := unwrap (add_file_with_text 5 o fs75 (bs "/z.dts") text75 DtSource pj75).
Lemma fs75_stable : canon_stable fs75.
Proof.
  intros x p H. unfold fs75, mem_fs in *. cbn [fs_canon] in *. destruct (m_mem str_eq_dec x _) eqn:E; [|discriminate]. injection H as <-. rewrite E. reflexivity.
Qed.
Lemma pj75_in_order : updated_in_order fs75 [] pj75.
Proof.
  exists (m_keys ex75), 5%nat, rev_oracle, (bs "/a.dts"), (bs "/a.dts"), text38, DtSource, project_new.
  split; [apply (se_start fs75 [])|]. split; [apply mem_fs_finite|]. split; [cbn; lia|]. split; [apply rev_order_ok|].
  split; [vm_compute; reflexivity|]. split; [vm_compute; reflexivity|]. split; [vm_compute; reflexivity|].
  apply in_orderb_ok. vm_compute. reflexivity.
Qed.
Lemma pj75z_in_order : updated_in_order fs75 [] (pj75z rev_oracle).
Proof.
  exists (m_keys ex75), 5%nat, rev_oracle, (bs "/z.dts"), (bs "/z.dts"), text75, DtSource, pj75.
  split; [exact (updated_session _ _ _ (in_order_updated _ _ _ pj75_in_order))|]. split; [apply mem_fs_finite|]. split; [cbn; lia|]. split; [apply rev_order_ok|].
  split; [vm_compute; reflexivity|]. split; [vm_compute; reflexivity|]. split; [vm_compute; reflexivity|].
  apply in_orderb_ok. vm_compute. reflexivity.
Qed.
(** the includes of every file of a project *)
Definition edge_table (fs : fsys) (pj : project) : list (fpath * list fpath) := map (fun kv => (fst kv, targets_of fs (snd kv))) (pj_files pj).
Lemma edge_table_in fs pj p q : stored_includes fs (pj_files pj) p q -> exists l, In (p, l) (edge_table fs pj) /\ In q l.
Proof.
  intros (v & f & i & Hv & Hf & Hi & Ei). exists (targets_of fs v). split.
  - exact (in_map (fun kv => (fst kv, targets_of fs (snd kv))) _ _ (m_get_in str_eq_dec _ _ _ Hv)).
  - unfold targets_of. rewrite Hf. apply resolved_in. exists i. auto.
Qed.
Lemma edge_check fs pj p q : match fget p (pj_files pj) with Some v => existsb (str_eqb q) (targets_of fs v) | None => false end = true ->
  stored_includes fs (pj_files pj) p q.
Proof.
  intros E. unfold stored_includes. change (m_get str_eq_dec p (pj_files pj)) with (fget p (pj_files pj)).
  destruct (fget p (pj_files pj)) as [v|]; [|discriminate E]. apply existsb_exists in E. destruct E as (q' & E1 & E2).
  unfold str_eqb in E2. destruct (str_eq_dec q q') as [->|]; [|discriminate E2]. unfold targets_of in E1. destruct (pf_file v) as [f|] eqn:Ef; [|destruct E1].
  apply resolved_in in E1. destruct E1 as (i & Ei & Eq). exists v, f, i. auto.
Qed.
(** deciding whether a file has the same text in two projects *)
Definition same_textb (pj1 pj2 : project) (q : fpath) : bool :=
  match fget q (pj_files pj1), fget q (pj_files pj2) with
  | Some v, Some w => str_eqb (pf_text v) (pf_text w) && match pf_type v, pf_type w with DtSource, DtSource | DtSourceInclude, DtSourceInclude => true | _, _ => false end
  | _, _ => false
  end.
Lemma same_textb_ok pj1 pj2 q : same_textb pj1 pj2 q = true ->
  exists v w, fget q (pj_files pj1) = Some v /\ fget q (pj_files pj2) = Some w /\ pf_text v = pf_text w /\ pf_type v = pf_type w.
Proof.
  unfold same_textb. intros E. destruct (fget q (pj_files pj1)) as [v|]; [|discriminate E]. destruct (fget q (pj_files pj2)) as [w|]; [|discriminate E].
  exists v, w. split; [reflexivity|]. split; [reflexivity|]. apply andb_prop in E. destruct E as [E1 E2]. unfold str_eqb in E1.
  destruct (str_eq_dec (pf_text v) (pf_text w)) as [->|]; [|discriminate E1]. split; [reflexivity|].
  destruct (pf_type v), (pf_type w); try reflexivity; discriminate E2.
Qed.

(** what [/a.dts] includes in [pj75] *)
Lemma pj75_edges p q : stored_includes fs75 (pj_files pj75) p q ->
  (p = bs "/a.dts" /\ q = bs "/b.dtsi") \/ (p = bs "/b.dtsi" /\ q = bs "/c.dtsi").
Proof.
  intros H. apply edge_table_in in H. destruct H as (l & K & Kq).
  assert (T : edge_table fs75 pj75 = [(bs "/a.dts", [bs "/b.dtsi"]); (bs "/b.dtsi", [bs "/c.dtsi"]); (bs "/c.dtsi", [])]) by (vm_compute; reflexivity).
  rewrite T in K. clear T. destruct K as [K|[K|[K|[]]]]; injection K as <- <-; first [destruct Kq as [<-|[]]; auto|destruct Kq].
Qed.
Lemma pj75_reaches q : reaches fs75 pj75 (bs "/a.dts") q -> q = bs "/a.dts" \/ q = bs "/b.dtsi" \/ q = bs "/c.dtsi".
Proof.
  intros H. apply clos_rt_rtn1 in H. destruct H as [|y z H _]; [left; reflexivity|].
  destruct (pj75_edges y z H) as [[_ ->]|[_ ->]]; right; [left|right]; reflexivity.
Qed.
(** a chain of three files is analysed in order, and its inner file is not a leaf: C70_settled_partial does not cover it *)
Example C70_in_order_case : updated_in_order fs75 [] pj75 /\ ~ two_level fs75 (pj_files pj75) /\ length (pj_files pj75) = 3%nat.
Proof.
  split; [exact pj75_in_order|]. split; [|vm_compute; reflexivity]. intros [H _].
  refine (H (bs "/a.dts") (bs "/b.dtsi") (bs "/c.dtsi") _ _); apply edge_check; vm_compute; reflexivity.
Qed.
Lemma pj75_plain : plain_files pj75 = true.
Proof. vm_compute. reflexivity. Qed.
Lemma pj75_unambiguous k : unambiguous_from fs75 pj75 k.
Proof. intros q v f _ Hv Hf Ht. exact (plain_unambiguous fs75 pj75 pj75_plain q v f Hv Hf Ht). Qed.
Example C75_local_case : updated_in_order fs75 [] pj75 /\ updated_in_order fs75 [] (pj75z rev_oracle)
  /\ same_view fs75 pj75 (pj75z rev_oracle) (bs "/a.dts") /\ unambiguous_from fs75 pj75 (bs "/a.dts")
  /\ length (pj_files pj75) <> length (pj_files (pj75z rev_oracle)).
Proof.
  split; [exact pj75_in_order|]. split; [exact pj75z_in_order|]. split; [|split].
  - intros q Hq. apply pj75_reaches in Hq. apply same_textb_ok. destruct Hq as [->|[->| ->]]; vm_compute; reflexivity.
  - apply pj75_unambiguous.
  - vm_compute. discriminate.
Qed.
