(** C76: including a file and pasting its elements *)
From Verif Require Import Base Analysis Project AnalysisSpec GuardProofs AnalysisProofs PropsAnalysis PropsProject3 PropsHistory.

(** ** Definitions with the same meaning *)
Definition agree (a b : list def) : Prop :=
  (forall l x, label_means a l x <-> label_means b l x) /\ (forall p n, path_means a p n <-> path_means b p n).
Lemma agree_refl a : agree a a.
Proof. split; reflexivity. Qed.

Lemma last_of_app {D X} (binds : D -> X -> Prop) a b x :
  last_of binds (a ++ b) x <-> last_of binds b x \/ (last_of binds a x /\ forall d y, In d b -> ~ binds d y).
Proof.
  split.
  - intros (pre & d & post & E & H1 & H2). revert b E. induction a as [|z a IH] in pre |- *; intros b E.
    + left. exists pre, d, post. auto.
    + destruct pre as [|z' pre]; cbn [app] in E; injection E as -> E.
      * right. split; [exists [], d, a; split; [reflexivity|]; split; [exact H1|]|];
          intros d' y Hd'; apply H2; rewrite <- E; apply in_or_app; auto.
      * destruct (IH pre b E) as [K|[K1 K2]]; [left; exact K|right]. split; [|exact K2].
        destruct K1 as (p1 & e & q & -> & X1 & X2). exists (z' :: p1), e, q. auto.
  - intros [(pre & d & post & -> & H)|[(pre & d & post & -> & H1 & H2) H3]].
    + exists (a ++ pre), d, post. rewrite <- app_assoc. auto.
    + exists pre, d, (post ++ b). rewrite <- app_assoc. split; [reflexivity|]. split; [exact H1|].
      intros d' y K. apply in_app_or in K. destruct K as [K|K]; [exact (H2 d' y K)|exact (H3 d' y K)].
Qed.
Lemma last_none {D X} (binds : D -> X -> Prop) : (forall d, (exists y, binds d y) \/ (forall y, ~ binds d y)) ->
  forall b, (forall d y, In d b -> ~ binds d y) <-> (forall y, ~ last_of binds b y).
Proof.
  intros Dec b. split.
  - intros H y (pre & d & post & -> & K & _). apply (H d y); [|exact K]. apply in_or_app. right. left. reflexivity.
  - intros H d y Hd K. destruct (last_of_exists binds Dec b d y Hd K) as [z Z]. exact (H z Z).
Qed.
Lemma last_agree {D X} (binds : D -> X -> Prop) : (forall d, (exists y, binds d y) \/ (forall y, ~ binds d y)) -> forall a a' b b',
  (forall x, last_of binds a x <-> last_of binds a' x) -> (forall x, last_of binds b x <-> last_of binds b' x) ->
  forall x, last_of binds (a ++ b) x <-> last_of binds (a' ++ b') x.
Proof.
  intros Dec a a' b b' H1 H2 x. rewrite !last_of_app, H1, H2, (last_none binds Dec b), (last_none binds Dec b').
  split; (intros [H|[K1 K2]]; [left; exact H|right; split; [exact K1|]; intros y; specialize (K2 y); rewrite ?H2, <- ?H2 in *; tauto]).
Qed.
Lemma agree_app a a' b b' : agree a a' -> agree b b' -> agree (a ++ b) (a' ++ b').
Proof.
  intros [A1 A2] [B1 B2]. split; intros l x.
  - apply (last_agree (binds_label l) (binds_label_dec l)); [apply A1|apply B1].
  - apply (last_agree (binds_path l) (binds_path_dec l)); [apply A2|apply B2].
Qed.
(** the context of an included file stands for its definitions *)
Lemma agree_include b c : lookups b c -> agree [DInclude c] b.
Proof.
  intros (Ok & L & P). destruct Ok as [N1 N2]. split; intros l x.
  - rewrite <- L, (m_get_iff str_eq_dec _ _ _ N1). unfold label_means. split.
    + intros (pre & d & post & E & K & _). destruct pre as [|? [|]]; try discriminate. injection E as <- _. inversion K; subst. assumption.
    + intros K. exists [], (DInclude c), []. split; [reflexivity|]. split; [constructor; exact K|]. intros ? ? [].
  - rewrite <- P, (m_get_iff npath_eq_dec _ _ _ N2). unfold path_means. split.
    + intros (pre & d & post & E & K & _). destruct pre as [|? [|]]; try discriminate. injection E as <- _. inversion K; subst. assumption.
    + intros K. exists [], (DInclude c), []. split; [reflexivity|]. split; [constructor; exact K|]. intros ? ? [].
Qed.
Lemma opens_agree a b r p f : agree a b -> opens a r p f -> opens b r p f.
Proof.
  intros [_ H] K. inversion K; subst.
  - apply op_path with (n := n). apply H. assumption.
  - constructor. intros n X. apply H in X. match goal with K0 : forall n, ~ _ |- _ => exact (K0 n X) end.
  - apply op_label with (n := n); [|assumption]. apply H. assumption.
  - constructor. intros q n X. apply H in X. match goal with K0 : forall p n, _ -> _ |- _ => exact (K0 q n X) end.
Qed.
Lemma agree_sym a b : agree a b -> agree b a.
Proof. intros [H1 H2]. split; intros; symmetry; auto. Qed.
Lemma resolves_agree a b r : agree a b -> (resolves a r <-> resolves b r).
Proof. intros [H1 H2]. destruct r as [l|p]; cbn [resolves]; split; intros [x X]; exists x; (apply H1 || apply H2); exact X. Qed.

(** ** Elements that mean the same wherever they stand *)
Definition no_cycles (es : list diag) : Prop := of_kind CyclicDependencyError es = [].
Definition include_defs (fs : fsys) (pj : project) (i : include) : list def :=
  match include_path fs i with
  | inl q => match get_file fs pj q with Some v => match pf_ctx v with Some c => [DInclude c] | None => [] end | None => [] end
  | inr _ => []
  end.
Lemma included_defs fs pj src h i dp h' es : included fs pj src h i dp h' es -> no_cycles es ->
  dp = include_defs fs pj i /\ of_kind UnresolvedReference es = [].
Proof.
  intros H N. unfold include_defs. inversion H; subst.
  - match goal with K : include_path _ _ = _ |- _ => rewrite K end. auto.
  - discriminate N.
  - match goal with K : include_path _ _ = _ |- _ => rewrite K end. match goal with K : get_file _ _ _ = _ |- _ => rewrite K end. auto.
  - match goal with K : include_path _ _ = _ |- _ => rewrite K end. match goal with K : get_file _ _ _ = _ |- _ => rewrite K end.
    split; [reflexivity|]. match goal with K : _ \/ _ |- _ => destruct K as [[_ ->]|[_ ->]] end; reflexivity.
Qed.
(** neither an opened node, whose place depends on what comes before, nor the plugin directive *)
Definition inert (p : primary) : Prop :=
  match p with PReferencedNode _ => False | PDirective (APlugin _) => False | _ => True end.
Definition inert_defs (fs : fsys) (pj : project) (p : primary) : list def :=
  match p with
  | PRoot n => node_defs [] n
  | PDirective (AInclude i) => include_defs fs pj i
  | _ => []
  end.
Lemma compatible_unresolved l : of_kind UnresolvedReference (flat_map compatible_diags l) = [].
Proof. apply of_kind_none. intros d Hd. apply compatible_kind in Hd. congruence. Qed.
Lemma no_cycles_app a b : no_cycles (a ++ b) -> no_cycles a /\ no_cycles b.
Proof. unfold no_cycles. rewrite of_kind_app. apply app_eq_nil. Qed.
Lemma inert_elements fs pj src ft l : Forall inert l -> forall ps ds h ds' h' es, elements fs pj src ft ps ds h l ds' h' es -> no_cycles es ->
  ds' = ds ++ flat_map (inert_defs fs pj) l
  /\ forall d, In d (of_kind UnresolvedReference es) -> exists p r, In p l /\ opened_reference p = Some r /\ d = unresolved_diag r.
Proof.
  induction 1 as [|p l Hp _ IH]; intros ps ds h ds' h' es H N.
  - apply elements_nil_inv in H. destruct H as (-> & _ & ->). cbn [flat_map]. rewrite app_nil_r. split; [reflexivity|intros d []].
  - apply elements_cons_inv in H. destruct H as (dp & h1 & ep & e2 & A & B & ->). apply no_cycles_app in N. destruct N as [N1 N2].
    destruct (IH _ _ _ _ _ _ B N2) as [-> R]. cbn [flat_map]. rewrite app_assoc. split.
    + f_equal. f_equal. inversion A; subst; try contradiction; try reflexivity.
      match goal with K : included _ _ _ _ _ _ _ _ |- _ => apply (included_defs _ _ _ _ _ _ _ _ K N1) end.
    + intros d Hd. rewrite of_kind_app in Hd. apply in_app_or in Hd. destruct Hd as [Hd|Hd].
      * destruct (element_unresolved _ _ _ _ _ _ _ _ _ _ _ A) as [E|(r & Er & E)]; rewrite E in Hd; [destruct Hd|]. destruct Hd as [<-|[]].
        exists p, r. split; [left; reflexivity|auto].
      * destruct (R d Hd) as (p' & r & X & Y). exists p', r. split; [right; exact X|exact Y].
Qed.

(** ** The elements behind the include *)
Lemma elements_agree fs pj src1 src2 ft l : forall ps1 ps2 a1 a2 h1 h2 b1 b2 g1 g2 e1 e2,
  elements fs pj src1 ft ps1 a1 h1 l b1 g1 e1 -> elements fs pj src2 ft ps2 a2 h2 l b2 g2 e2 ->
  agree a1 a2 -> (has_plugin ps1 <-> has_plugin ps2) -> no_cycles e1 -> no_cycles e2 ->
  (forall l1 r l2 k, l = l1 ++ PReferencedNode r :: l2 -> wt_item (rn_reference r) = RefLabel k -> ft = DtSource ->
       forall ds' h' e', elements fs pj src1 ft ps1 a1 h1 l1 ds' h' e' ->
       forall p n q m, path_means ds' p n -> path_means ds' q m ->
         label_is (nd_label n) k -> label_is (nd_label m) k -> p = q) ->
  agree b1 b2 /\ of_kind UnresolvedReference e1 = of_kind UnresolvedReference e2.
Proof.
  induction l as [|p l IH]; intros ps1 ps2 a1 a2 h1 h2 b1 b2 g1 g2 e1 e2 H1 H2 Ha Hpl N1 N2 Hu.
  - apply elements_nil_inv in H1, H2. destruct H1 as (-> & _ & ->), H2 as (-> & _ & ->). auto.
  - apply elements_cons_inv in H1, H2.
    destruct H1 as (dp1 & k1 & ep1 & f1 & A1 & B1 & ->), H2 as (dp2 & k2 & ep2 & f2 & A2 & B2 & ->).
    apply no_cycles_app in N1, N2. destruct N1 as [N1 M1], N2 as [N2 M2].
    assert (Hb : blames ft ps1 <-> blames ft ps2) by (unfold blames; rewrite Hpl; reflexivity).
    assert (Bl : forall r fnd x y, blame ft ps1 r fnd x -> blame ft ps2 r fnd y -> x = y).
    { intros r fnd x y X Y. inversion X; subst; inversion Y; subst; auto; exfalso; tauto. }
    assert (K : agree dp1 dp2 /\ of_kind UnresolvedReference ep1 = of_kind UnresolvedReference ep2).
    { inversion A1; subst; inversion A2; subst; try contradiction; try (split; [apply agree_refl|reflexivity]).
      - split; [apply agree_refl|]. repeat match goal with K : header_diags _ _ _ |- _ => inversion K; subst; clear K end; reflexivity.
      - repeat match goal with K : included _ _ _ _ _ _ _ _ |- _ => apply included_defs in K; [|assumption]; destruct K as [-> ->] end.
        split; [apply agree_refl|reflexivity].
      - match goal with A : opens _ _ _ _ |- _ => apply (opens_agree _ _ _ _ _ Ha) in A end.
        match goal with A : opens _ _ _ _, B : opens _ _ _ _ |- _ => pose proof (opens_found _ _ _ _ _ _ A B) as <- end.
        split; [apply agree_refl|]. f_equal. eapply Bl; eassumption.
      - match goal with A : opens a1 _ ?p _, B : opens a2 _ ?q _ |- _ =>
            pose proof (opens_found _ _ _ _ _ _ (opens_agree _ _ _ _ _ Ha A) B) as <-; assert (p = q) as ->;
            [eapply opens_fun; [exact A|eapply opens_agree; [apply agree_sym; exact Ha|exact B]|]; intros k p' n q' m Er; eapply (Hu [] r l k eq_refl Er eq_refl); constructor|]
          end.
        split; [apply agree_refl|]. rewrite !of_kind_app, compatible_unresolved. f_equal. f_equal. eapply Bl; eassumption. }
    destruct K as [K1 K2].
    destruct (IH _ (ps2 ++ [p]) _ _ _ _ _ _ _ _ _ _ B1 B2 (agree_app _ _ _ _ Ha K1)) as [R1 R2]; try assumption.
    + unfold has_plugin in *. split; intros (t & Ht); apply in_app_or in Ht; destruct Ht as [Ht|Ht];
        try (exists t; apply in_or_app; right; exact Ht).
      * destruct (proj1 Hpl (ex_intro _ t Ht)) as [t' Ht']. exists t'. apply in_or_app. left. exact Ht'.
      * destruct (proj2 Hpl (ex_intro _ t Ht)) as [t' Ht']. exists t'. apply in_or_app. left. exact Ht'.
    + intros l1 r l2 k -> Er Et ds' h' e' Hl. eapply (Hu (p :: l1) r l2 k eq_refl Er Et). econstructor; eassumption.
    + split; [exact R1|]. rewrite !of_kind_app, K2, R2. reflexivity.
Qed.

Lemma references_app fs ps ds a : forall b es, reference_diags fs ps ds (a ++ b) es ->
  exists e1 e2, es = e1 ++ e2 /\ reference_diags fs ps ds a e1 /\ reference_diags fs ps ds b e2.
Proof.
  induction a as [|r a IH]; intros b es H; cbn [app] in H.
  - exists [], es. split; [reflexivity|]. split; [constructor|exact H].
  - inversion H as [|r0 l0 found e0 e1 K1 K2 K3]; subst. destruct (IH b e1 K3) as (x & y & -> & X & Y). exists (e0 ++ x), y.
    split; [apply app_assoc|]. split; [econstructor; eassumption|exact Y].
Qed.
Lemma references_agree ft ps1 ps2 a b l : agree a b -> (blames ft ps1 <-> blames ft ps2) -> forall e1 e2,
  reference_diags ft ps1 a l e1 -> reference_diags ft ps2 b l e2 -> e1 = e2.
Proof.
  intros Ha Hb. induction l as [|r l IH]; intros e1 e2 H1 H2; inversion H1; subst; inversion H2; subst; [reflexivity|].
  assert (found = found0) as <-.
  { pose proof (resolves_agree a b (wt_item r) Ha). destruct found, found0; auto; exfalso; intuition congruence. }
  f_equal; [|eapply IH; eassumption].
  repeat match goal with K : blame _ _ _ _ _ |- _ => inversion K; subst; clear K end; auto; exfalso; tauto.
Qed.
Lemma references_only ft ps ds l es : reference_diags ft ps ds l es -> forall d, In d es -> exists r, In r l /\ d = unresolved_diag r.
Proof.
  induction 1 as [|r l found es es' H1 H2 H3 IH]; intros d Hd; [destruct Hd|]. apply in_app_or in Hd. destruct Hd as [Hd|Hd].
  - inversion H2; subst; try destruct Hd as [<-|[]]; try destruct Hd. exists r. split; [left; reflexivity|reflexivity].
  - destruct (IH d Hd) as (r' & X & Y). exists r'. split; [right; exact X|exact Y].
Qed.

(** ** C76 *)
(** the references of some elements *)
Definition refers_in (l : list primary) (d : diag) : Prop :=
  exists r, d = unresolved_diag r /\ (In r (all_references l) \/ exists p, In p l /\ opened_reference p = Some r).

(** [f1] includes a file, [f2] has the elements of this file [fb] in the place of the include. Missing for the full claim: elements of
    the included file that open a node (C76_refuted) or declare a plugin, and labels on several nodes (C32). *)
Theorem C76_paste_partial : forall fs pj f1 f2 ft h1 h2 ac1 es1 ac2 es2 l1 i l2 q v fb ftb hb c eb, project_ok pj ->
  include_path fs i = inl q -> get_file fs pj q = Some v -> pf_ctx v = Some c -> analysed fs pj fb ftb hb c eb ->
  Forall inert (fl_elements fb) ->
  fl_elements f1 = l1 ++ PDirective (AInclude i) :: l2 -> fl_elements f2 = l1 ++ fl_elements fb ++ l2 ->
  analysed fs pj f1 ft h1 ac1 es1 -> analysed fs pj f2 ft h2 ac2 es2 ->
  no_cycles eb -> no_cycles es1 -> no_cycles es2 -> (ft = DtSource -> unambiguous fs pj f1 h1) ->
  (forall l, m_get str_eq_dec l (ac_labels ac1) = m_get str_eq_dec l (ac_labels ac2))
  /\ (forall r, get_referenced ac1 r = get_referenced ac2 r)
  /\ exists u1 u2 r1 r2 ub rb, of_kind UnresolvedReference es1 = u1 ++ u2 ++ r1 ++ r2
       /\ of_kind UnresolvedReference es2 = u1 ++ ub ++ u2 ++ r1 ++ rb ++ r2
       /\ Forall (refers_in (fl_elements fb)) (ub ++ rb).
Proof.
  intros fs pj f1 f2 ft h1 h2 ac1 es1 ac2 es2 l1 i l2 q v fb ftb hb c eb Hp Ei Eq Ec Hb Hin E1 E2 H1 H2 Nb N1 N2 Hu.
  apply (analysed_spec _ _ _ _ _ _ _ Hp) in Hb, H1, H2.
  destruct Hb as (db & gb & Ab & Ob & Lb & Pb), H1 as (d1 & g1 & A1 & _ & L1 & P1), H2 as (d2 & g2 & A2 & _ & L2 & P2).
  inversion Ab as [? ? xb vb rb Xb _ Rb]; subst. inversion A1 as [? ? x1 v1 r1 X1 V1 R1]; subst. inversion A2 as [? ? x2 v2 r2 X2 V2 R2]; subst.
  apply no_cycles_app in Nb, N1, N2. destruct Nb as [Nb _], N1 as [N1 _], N2 as [N2 _].
  destruct (inert_elements _ _ _ _ _ Hin _ _ _ _ _ _ Xb Nb) as [Db _]. cbn [app] in Db.
  assert (Lk : lookups db c) by (split; [exact Ob|split; assumption]).
  rewrite E1 in X1. rewrite E2 in X2.
  apply elements_at in X1. destruct X1 as (a1 & k1 & y1 & dp & k2 & ep & new & z1 & Y1 & Yi & Z1 & _ & ->).
  apply elements_app in X2. destruct X2 as (a2 & m1 & y2 & w2 & Y2 & W2 & ->).
  apply elements_app in W2. destruct W2 as (a3 & m2 & y3 & z2 & Y3 & Z2 & ->). cbn [app] in Y3, Z2.
  apply no_cycles_app in N1, N2. destruct N1 as [N1 M1], N2 as [N2 M2]. apply no_cycles_app in M1, M2. destruct M1 as [Mi M1], M2 as [M3 M2].
  destruct (elements_agree _ _ _ _ _ _ _ _ _ _ _ _ _ _ _ _ _ _ Y1 Y2 (agree_refl _)) as [Ga Gu]; try assumption; [reflexivity| |].
  { intros k1' r k2' k -> Er Et ds' h' e' Hl. subst ft. rewrite <- app_assoc in E1. cbn [app] in E1. exact (Hu eq_refl _ _ _ _ E1 Er _ _ _ Hl). }
  destruct (inert_elements _ _ _ _ _ Hin _ _ _ _ _ _ Y3 M3) as [-> Ub].
  inversion Yi as [| | | | |i0 ds0 h0 es0 Inc| | | |]; subst i0 ds0 h0 es0. destruct (included_defs _ _ _ _ _ _ _ _ Inc Mi) as [-> Ui].
  assert (Edp : include_defs fs pj i = [DInclude c]) by (unfold include_defs; rewrite Ei, Eq, Ec; reflexivity). rewrite Edp in Z1.
  assert (Gp : forall l, has_plugin (l1 ++ PDirective (AInclude i) :: l) <-> has_plugin (l1 ++ fl_elements fb ++ l)).
  { intros l. unfold has_plugin. assert (Hno : forall t, ~ In (PDirective (APlugin t)) (fl_elements fb)).
    { intros t Ht. rewrite Forall_forall in Hin. exact (Hin _ Ht). }
    split; intros (t & Ht); exists t; apply in_app_or in Ht; apply in_or_app; (destruct Ht as [Ht|Ht]; [left; exact Ht|right]).
    - destruct Ht as [Ht|Ht]; [discriminate Ht|]. apply in_or_app. right. exact Ht.
    - apply in_app_or in Ht. destruct Ht as [Ht|Ht]; [destruct (Hno t Ht)|right; exact Ht]. }
  destruct (elements_agree _ _ _ _ _ _ _ _ _ _ _ _ _ _ _ _ _ _ Z1 Z2) as [Gb Gv]; try assumption.
  { apply agree_app; [exact Ga|]. rewrite <- Db. apply agree_include, Lk. }
  { specialize (Gp []). rewrite app_nil_r in Gp. exact Gp. }
  { intros k1' r k2' k El Er Et ds' h' e' Hl. subst ft.
    assert (Q : fl_elements f1 = (l1 ++ PDirective (AInclude i) :: k1') ++ PReferencedNode r :: k2') by (rewrite E1, El, <- app_assoc; reflexivity).
    assert (T : exists h'' e'', elements fs pj (fl_source f1) DtSource [] [] h1 (l1 ++ PDirective (AInclude i) :: k1') ds' h'' e'').
    { exists h', (y1 ++ ep ++ e'). rewrite <- Edp in Hl.
      assert (G : forall la ps ds h dsa ha ea, elements fs pj (fl_source f1) DtSource ps ds h la dsa ha ea ->
        forall lb dsb hb' eb', elements fs pj (fl_source f1) DtSource (ps ++ la) dsa ha lb dsb hb' eb' ->
        elements fs pj (fl_source f1) DtSource ps ds h (la ++ lb) dsb hb' (ea ++ eb')).
      { clear. intros la ps ds h dsa ha ea K. induction K as [ps ds h|ps ds h p dp h1' ep l ds' h' es K1 K2 IH]; intros lb dsb hb' eb' KK.
        - rewrite app_nil_r in KK. exact KK.
        - cbn [app]. rewrite <- app_assoc. econstructor; [exact K1|]. apply IH. rewrite <- app_assoc. exact KK. }
      eapply G; [exact Y1|]. cbn [app]. econstructor; [exact Yi|exact Hl]. }
    destruct T as (h'' & e'' & T). exact (Hu eq_refl _ _ _ _ Q Er _ _ _ T). }
  assert (GL : forall l, m_get str_eq_dec l (ac_labels ac1) = m_get str_eq_dec l (ac_labels ac2)).
  { intros l. destruct (m_get str_eq_dec l (ac_labels ac1)) as [x|] eqn:X.
    - symmetry. apply L2, Gb, L1, X.
    - destruct (m_get str_eq_dec l (ac_labels ac2)) as [y|] eqn:Y; [|reflexivity]. apply L2, Gb, L1 in Y. congruence. }
  assert (GP : forall p, m_get npath_eq_dec p (ac_flat ac1) = m_get npath_eq_dec p (ac_flat ac2)).
  { intros l. destruct (m_get npath_eq_dec l (ac_flat ac1)) as [x|] eqn:X.
    - symmetry. apply P2, Gb, P1, X.
    - destruct (m_get npath_eq_dec l (ac_flat ac2)) as [y|] eqn:Y; [|reflexivity]. apply P2, Gb, P1 in Y. congruence. }
  split; [exact GL|]. split.
  { intros [l|p]; unfold get_referenced, get_node_by_label, get_node_by_path; cbn; rewrite ?GL, ?GP; reflexivity. }
  assert (R1' : reference_diags ft (fl_elements f1) d1 (all_references l1 ++ all_references l2) r1).
  { revert R1. rewrite E1 at 2. unfold all_references, all_properties. rewrite !flat_map_app. cbn [flat_map element_properties app]. rewrite ?flat_map_app. exact (fun x => x). }
  assert (R2' : reference_diags ft (fl_elements f2) d2 (all_references l1 ++ all_references (fl_elements fb) ++ all_references l2) r2).
  { revert R2. rewrite E2 at 2. unfold all_references, all_properties. rewrite !flat_map_app. exact (fun x => x). }
  apply references_app in R1', R2'. destruct R1' as (ra & rc & -> & Ra & Rc), R2' as (sa & sr & -> & Sa & Sr).
  apply references_app in Sr. destruct Sr as (sb & sc & -> & Sb & Sc).
  assert (Bl : blames ft (fl_elements f1) <-> blames ft (fl_elements f2)) by (unfold blames; rewrite E1, E2, Gp; reflexivity).
  rewrite <- (references_agree _ _ _ _ _ _ Gb Bl _ _ Ra Sa), <- (references_agree _ _ _ _ _ _ Gb Bl _ _ Rc Sc).
  assert (Vn : forall src ps vs, version_diags src ft ps vs -> of_kind UnresolvedReference vs = []).
  { intros src ps vs Hv. inversion Hv; reflexivity. }
  assert (Rn : forall ps ds l es, reference_diags ft ps ds l es -> of_kind UnresolvedReference es = es).
  { intros ps ds l es Hr. pose proof (references_only _ _ _ _ _ Hr) as Ro. clear Hr. induction es as [|d es IH]; [reflexivity|].
    cbn [of_kind filter]. destruct (Ro d (or_introl eq_refl)) as (r & _ & ->). cbn [unresolved_diag dg_kind]. destruct (error_code_eq_dec UnresolvedReference UnresolvedReference) as [_|F]; [|congruence]. f_equal. apply IH.
    intros d' Hd'. apply Ro. right. exact Hd'. }
  exists (of_kind UnresolvedReference y1), (of_kind UnresolvedReference z1), ra, rc, (of_kind UnresolvedReference y3), sb.
  rewrite !of_kind_app, Ui, (Vn _ _ _ V1), (Vn _ _ _ V2), (Rn _ _ _ _ Ra), (Rn _ _ _ _ Rc), (Rn _ _ _ _ Sb), <- Gu, <- Gv. cbn [app].
  split; [rewrite <- !app_assoc; reflexivity|]. split; [rewrite <- !app_assoc; reflexivity|].
  apply Forall_forall. intros d Hd. apply in_app_or in Hd. destruct Hd as [Hd|Hd].
  - destruct (Ub d Hd) as (p & r & K1 & K2 & ->). exists r. split; [reflexivity|]. right. exists p. auto.
  - destruct (references_only _ _ _ _ _ Sb d Hd) as (r & K1 & ->). exists r. split; [reflexivity|]. left. exact K1.
Qed.
Print Assumptions C76_paste_partial.

(** a project that holds an included file with the given context *)
Definition with_leaf (c : actx) : project :=
  mkProject [(bs "b.dtsi", mkPF [] [] None (Some c) DtSourceInclude [])] [] default_severities.
Lemma with_leaf_ok c : ctx_ok c -> project_ok (with_leaf c).
Proof. intros H p f d [E|[]] Hd. injection E as <- <-. cbn [pf_ctx] in Hd. congruence. Qed.
Lemma with_leaf_get c : get_file no_fs (with_leaf c) (bs "b.dtsi") = Some (mkPF [] [] None (Some c) DtSourceInclude []).
Proof.
  unfold get_file, with_leaf. cbn [pj_files no_fs fs_canon m_get]. destruct (str_eq_dec (bs "b.dtsi") (bs "b.dtsi")) as [_|F]; [reflexivity|congruence].
Qed.
Lemma leaf_analysed file c es a' : analyze_file o_id no_fs empty_project file DtSourceInclude analysis_new = Done ((c, es), a') -> ctx_ok c.
Proof.
  intros E. destruct (analysed_spec no_fs empty_project file DtSourceInclude [] c es empty_ok (run_analysed _ _ _ _ _ _ o_id_ok E)) as (? & ? & _ & K & _). exact K.
Qed.

(** the file opens a node that its includer defines: its contents are taken for contents of the root *)
Definition leaf76 : dts_file := tree_of (bs "&l { m { }; };").
Definition ex76 : dts_file := tree_of (bs "/dts-v1/; / { l: n { }; }; /include/ ""b.dtsi"" &{/n/m} { };").
(** the elements of [g] in the place of the element number [n] of [f] *)
Definition pasted (n : nat) (g f : dts_file) : dts_file := mkFile (firstn n (fl_elements f) ++ fl_elements g ++ skipn (S n) (fl_elements f)) (fl_source f).
Definition ctx76 (g : dts_file) : actx := fst (run_with o_id empty_project DtSourceInclude g).
Definition quiet (r : outcome ((actx * list diag) * analysis)) : bool :=
  match r with Done ((_, es), _) => match of_kind CyclicDependencyError es with [] => true | _ => false end | _ => false end.
Definition check_paste (n : nat) (g f : dts_file) : bool :=
  match analyze_file o_id no_fs empty_project g DtSourceInclude analysis_new with Done _ => true | _ => false end
  && quiet (analyze_file o_id no_fs (with_leaf (ctx76 g)) f DtSource analysis_new)
  && quiet (analyze_file o_id no_fs (with_leaf (ctx76 g)) (pasted n g f) DtSource analysis_new)
  && match nth_error (fl_elements f) n with
     | Some (PDirective (AInclude i)) => match include_path no_fs i with inl q => str_eqb q (bs "b.dtsi") | _ => false end
     | _ => false
     end.
Lemma check_paste_ok n g f : check_paste n g f = true ->
  (exists eb a', analyze_file o_id no_fs (with_leaf (ctx76 g)) g DtSourceInclude analysis_new = Done ((ctx76 g, eb), a') /\ no_cycles eb) ->
  let c := ctx76 g in
  exists v i q ac1 es1 ac2 es2 eb, project_ok (with_leaf c)
    /\ include_path no_fs i = inl q /\ get_file no_fs (with_leaf c) q = Some v /\ pf_ctx v = Some c /\ analysed no_fs (with_leaf c) g DtSourceInclude [] c eb
    /\ fl_elements f = firstn n (fl_elements f) ++ PDirective (AInclude i) :: skipn (S n) (fl_elements f)
    /\ analysed no_fs (with_leaf c) f DtSource [] ac1 es1 /\ analysed no_fs (with_leaf c) (pasted n g f) DtSource [] ac2 es2
    /\ no_cycles eb /\ no_cycles es1 /\ no_cycles es2
    /\ run_with o_id (with_leaf c) DtSource f = (ac1, es1) /\ run_with o_id (with_leaf c) DtSource (pasted n g f) = (ac2, es2).
Proof.
  intros H (eb & a' & Eg & Ng) c. unfold check_paste in H. apply andb_prop in H. destruct H as [H H4]. apply andb_prop in H. destruct H as [H H3].
  apply andb_prop in H. destruct H as [H1 H2]. fold c in H2, H3, Eg.
  assert (Ok : ctx_ok c).
  { unfold c, ctx76, run_with. destruct (analyze_file o_id no_fs empty_project g DtSourceInclude analysis_new) as [[[c0 e0] a0]| |] eqn:E; try discriminate.
    exact (leaf_analysed g c0 e0 a0 E). }
  destruct (nth_error (fl_elements f) n) as [p|] eqn:En; [|discriminate]. destruct p as [[]| | |]; try discriminate.
  destruct (include_path no_fs i) as [q|] eqn:Ei; [|discriminate]. unfold str_eqb in H4. destruct (str_eq_dec q (bs "b.dtsi")) as [->|]; [|discriminate].
  unfold run_with. unfold quiet in H2, H3.
  destruct (analyze_file o_id no_fs (with_leaf c) f DtSource analysis_new) as [[[ac1 es1] a1]| |] eqn:E1; try discriminate.
  destruct (analyze_file o_id no_fs (with_leaf c) (pasted n g f) DtSource analysis_new) as [[[ac2 es2] a2]| |] eqn:E2; try discriminate.
  exists (mkPF [] [] None (Some c) DtSourceInclude []), i, (bs "b.dtsi"), ac1, es1, ac2, es2, eb.
  split; [apply with_leaf_ok, Ok|]. split; [exact Ei|]. split; [apply with_leaf_get|]. split; [reflexivity|].
  split; [exact (run_analysed _ _ _ _ _ _ o_id_ok Eg)|]. split.
  { clear - En. revert n En. induction (fl_elements f) as [|x l IH]; intros [|n] En; cbn in *; try discriminate; [congruence|]. f_equal. apply IH, En. }
  split; [exact (run_analysed _ _ _ _ _ _ o_id_ok E1)|]. split; [exact (run_analysed _ _ _ _ _ _ o_id_ok E2)|].
  split; [exact Ng|]. split; [unfold no_cycles; destruct (of_kind CyclicDependencyError es1); [reflexivity|discriminate]|].
  split; [unfold no_cycles; destruct (of_kind CyclicDependencyError es2); [reflexivity|discriminate]|]. auto.
Qed.
Lemma path_only fs pj f h : forallb (fun p => match p with PReferencedNode r => match wt_item (rn_reference r) with RefLabel _ => false | _ => true end | _ => true end) (fl_elements f) = true ->
  unambiguous fs pj f h.
Proof.
  intros H l1 r l2 l E Er. rewrite E, forallb_app in H. apply andb_prop in H. destruct H as [_ H]. cbn [forallb] in H. rewrite Er in H. discriminate H.
Qed.

Theorem C76_refuted : exists fs pj f1 f2 ac1 es1 ac2 es2 l1 i l2 q v fb c eb, project_ok pj
  /\ include_path fs i = inl q /\ get_file fs pj q = Some v /\ pf_ctx v = Some c /\ analysed fs pj fb DtSourceInclude [] c eb
  /\ fl_elements f1 = l1 ++ PDirective (AInclude i) :: l2 /\ fl_elements f2 = l1 ++ fl_elements fb ++ l2
  /\ analysed fs pj f1 DtSource [] ac1 es1 /\ analysed fs pj f2 DtSource [] ac2 es2
  /\ no_cycles eb /\ no_cycles es1 /\ no_cycles es2 /\ unambiguous fs pj f1 []
  /\ length es1 = 1%nat /\ es2 = [] /\ exists r, get_referenced ac1 r = None /\ get_referenced ac2 r <> None.
Proof.
  destruct (check_paste_ok 2 leaf76 ex76) as (v & i & q & ac1 & es1 & ac2 & es2 & eb & H1 & H2 & H3 & H4 & H5 & H6 & H7 & H8 & H9 & H10 & H11 & R1 & R2).
  - vm_compute. reflexivity.
  - do 2 eexists. split; vm_compute; reflexivity.
  - exists no_fs, (with_leaf (ctx76 leaf76)), ex76, (pasted 2 leaf76 ex76), ac1, es1, ac2, es2, (firstn 2 (fl_elements ex76)), i, (skipn 3 (fl_elements ex76)), q, v, leaf76, (ctx76 leaf76), eb.
    split; [exact H1|]. split; [exact H2|]. split; [exact H3|]. split; [exact H4|]. split; [exact H5|]. split; [exact H6|]. split; [reflexivity|].
    split; [exact H7|]. split; [exact H8|]. split; [exact H9|]. split; [exact H10|]. split; [exact H11|].
    split; [apply path_only; vm_compute; reflexivity|].
    assert (X1 : length (snd (run_with o_id (with_leaf (ctx76 leaf76)) DtSource ex76)) = 1%nat) by (vm_compute; reflexivity).
    assert (X2 : snd (run_with o_id (with_leaf (ctx76 leaf76)) DtSource (pasted 2 leaf76 ex76)) = []) by (vm_compute; reflexivity).
    assert (X3 : get_referenced (fst (run_with o_id (with_leaf (ctx76 leaf76)) DtSource ex76)) (RefPath [mkNN (bs "n") None; mkNN (bs "m") None]) = None) by (vm_compute; reflexivity).
    assert (X4 : get_referenced (fst (run_with o_id (with_leaf (ctx76 leaf76)) DtSource (pasted 2 leaf76 ex76))) (RefPath [mkNN (bs "n") None; mkNN (bs "m") None]) <> None) by (vm_compute; discriminate).
    rewrite R1 in X1, X3. rewrite R2 in X2, X4. cbn [fst snd] in X1, X2, X3, X4.
    split; [exact X1|]. split; [exact X2|]. eexists. split; [exact X3|exact X4].
Qed.
Print Assumptions C76_refuted.

(** an included file with nodes, labels, a deletion and a reference that does not resolve *)
Definition leaf76b : dts_file := tree_of (bs "/ { l: a { x = <&u>; }; }; /delete-node/ &w;").
Definition ex76b : dts_file := tree_of (bs "/dts-v1/; / { a { }; }; /include/ ""b.dtsi"" &{/a} { y = <&l &k>; };").
Example C76_case : exists ac1 es1 ac2 es2 l1 i l2 q v eb,
  let c := ctx76 leaf76b in let pj := with_leaf c in project_ok pj
  /\ include_path no_fs i = inl q /\ get_file no_fs pj q = Some v /\ pf_ctx v = Some c /\ analysed no_fs pj leaf76b DtSourceInclude [] c eb
  /\ Forall inert (fl_elements leaf76b)
  /\ fl_elements ex76b = l1 ++ PDirective (AInclude i) :: l2
  /\ analysed no_fs pj ex76b DtSource [] ac1 es1 /\ analysed no_fs pj (pasted 2 leaf76b ex76b) DtSource [] ac2 es2
  /\ no_cycles eb /\ no_cycles es1 /\ no_cycles es2 /\ unambiguous no_fs pj ex76b []
  /\ length es1 = 1%nat /\ length es2 = 3%nat.
Proof.
  destruct (check_paste_ok 2 leaf76b ex76b) as (v & i & q & ac1 & es1 & ac2 & es2 & eb & H1 & H2 & H3 & H4 & H5 & H6 & H7 & H8 & H9 & H10 & H11 & R1 & R2).
  - vm_compute. reflexivity.
  - do 2 eexists. split; vm_compute; reflexivity.
  - exists ac1, es1, ac2, es2, (firstn 2 (fl_elements ex76b)), i, (skipn 3 (fl_elements ex76b)), q, v, eb. intros c pj.
    split; [exact H1|]. split; [exact H2|]. split; [exact H3|]. split; [exact H4|]. split; [exact H5|].
    split. { assert (E : forallb (fun p => match p with PReferencedNode _ => false | PDirective (APlugin _) => false | _ => true end) (fl_elements leaf76b) = true) by (vm_compute; reflexivity).
      rewrite forallb_forall in E. apply Forall_forall. intros p Hp. specialize (E p Hp). destruct p as [[]| | |]; try exact I; discriminate E. }
    split; [exact H6|]. split; [exact H7|]. split; [exact H8|]. split; [exact H9|]. split; [exact H10|]. split; [exact H11|].
    split; [apply path_only; vm_compute; reflexivity|].
    assert (X1 : length (snd (run_with o_id (with_leaf (ctx76 leaf76b)) DtSource ex76b)) = 1%nat) by (vm_compute; reflexivity).
    assert (X2 : length (snd (run_with o_id (with_leaf (ctx76 leaf76b)) DtSource (pasted 2 leaf76b ex76b))) = 3%nat) by (vm_compute; reflexivity).
    rewrite R1 in X1. rewrite R2 in X2. auto.
Qed.
