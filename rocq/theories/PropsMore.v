(** C77: adding definitions to a file *)
From Verif Require Import Base Analysis Project AnalysisSpec GuardProofs AnalysisProofs PropsAnalysis PropsProject3 PropsHistory PropsPaste.

(** everything that has a meaning after [a] has one after [b] *)
Definition more (a b : list def) : Prop :=
  (forall l, (exists x, label_means a l x) -> exists x, label_means b l x) /\ (forall p, (exists n, path_means a p n) -> exists n, path_means b p n).
Lemma more_refl a : more a a.
Proof. split; auto. Qed.
Lemma last_more {D X} (binds : D -> X -> Prop) : (forall d, (exists y, binds d y) \/ (forall y, ~ binds d y)) -> forall a a' b b',
  ((exists x, last_of binds a x) -> exists x, last_of binds a' x) -> ((exists x, last_of binds b x) -> exists x, last_of binds b' x) ->
  (exists x, last_of binds (a ++ b) x) -> exists x, last_of binds (a' ++ b') x.
Proof.
  intros Dec a a' b b' H1 H2 [x H]. assert (K : (exists x, last_of binds b' x) \/ (exists x, last_of binds a' x)).
  { apply last_of_app in H. destruct H as [H|[H _]]; [left; apply H2|right; apply H1]; exists x; exact H. }
  assert (E : exists d y, In d (a' ++ b') /\ binds d y).
  { destruct K as [[y (pre & d & post & -> & Y & _)]|[y (pre & d & post & -> & Y & _)]]; exists d, y; split; try exact Y;
      apply in_or_app; [right|left]; apply in_or_app; right; left; reflexivity. }
  destruct E as (d & y & E1 & E2). exact (last_of_exists binds Dec _ d y E1 E2).
Qed.
Lemma more_app a a' b b' : more a a' -> more b b' -> more (a ++ b) (a' ++ b').
Proof.
  intros [A1 A2] [B1 B2]. split; intros l.
  - apply (last_more (binds_label l) (binds_label_dec l)); [apply A1|apply B1].
  - apply (last_more (binds_path l) (binds_path_dec l)); [apply A2|apply B2].
Qed.
Lemma more_nil a : more [] a.
Proof. split; intros l [x (pre & d & post & E & _)]; destruct pre; discriminate E. Qed.
Lemma resolves_more a b r : more a b -> resolves a r -> resolves b r.
Proof. intros [H1 H2]. destruct r as [l|p]; cbn [resolves]; [apply H1|apply H2]. Qed.

(** no node is opened by its label *)
Definition no_label_opened (p : primary) : Prop :=
  match p with
  | PReferencedNode r => match wt_item (rn_reference r) with RefLabel _ => False | RefPath _ => True end
  | PDirective (ADeletedNode _ r) => match wt_item r with RefLabel _ => False | RefPath _ => True end
  | _ => True
  end.
Definition unresolved_in (es : list diag) (d : diag) : Prop := In d es /\ dg_kind d = UnresolvedReference.
Lemma unresolved_app a b d : unresolved_in (a ++ b) d <-> unresolved_in a d \/ unresolved_in b d.
Proof. unfold unresolved_in. rewrite in_app_iff. tauto. Qed.
Lemma compatible_no_unresolved l d : ~ unresolved_in (flat_map compatible_diags l) d.
Proof. intros [H K]. apply compatible_kind in H. congruence. Qed.

Lemma elements_more fs pj src1 src2 ft l : Forall no_label_opened l -> forall ps1 ps2 a1 a2 h1 h2 b1 b2 g1 g2 e1 e2,
  elements fs pj src1 ft ps1 a1 h1 l b1 g1 e1 -> elements fs pj src2 ft ps2 a2 h2 l b2 g2 e2 ->
  more a1 a2 -> (has_plugin ps1 -> has_plugin ps2) -> no_cycles e1 -> no_cycles e2 ->
  more b1 b2 /\ forall d, unresolved_in e2 d -> unresolved_in e1 d.
Proof.
  induction 1 as [|p l Hp _ IH]; intros ps1 ps2 a1 a2 h1 h2 b1 b2 g1 g2 e1 e2 H1 H2 Ha Hpl N1 N2.
  - apply elements_nil_inv in H1, H2. destruct H1 as (-> & _ & ->), H2 as (-> & _ & ->). auto.
  - apply elements_cons_inv in H1, H2.
    destruct H1 as (dp1 & k1 & ep1 & f1 & A1 & B1 & ->), H2 as (dp2 & k2 & ep2 & f2 & A2 & B2 & ->).
    apply no_cycles_app in N1, N2. destruct N1 as [N1 M1], N2 as [N2 M2].
    assert (Bl : forall r fa fb x y, (fa = true -> fb = true) -> blame ft ps1 r fa x -> blame ft ps2 r fb y -> forall d, unresolved_in y d -> unresolved_in x d).
    { intros r fa fb x y Hf X Y d Hd. inversion Y; subst; [destruct (proj1 Hd)|destruct (proj1 Hd)|].
      inversion X; subst; [discriminate (Hf eq_refl)| |exact Hd]. exfalso. unfold blames in *. tauto. }
    assert (Op : forall r qa qb fa fb, (match r with RefLabel _ => False | RefPath _ => True end) -> opens a1 r qa fa -> opens a2 r qb fb -> qa = qb /\ (fa = true -> fb = true)).
    { intros [k|q] qa qb fa fb Hr X Y; [destruct Hr|]. inversion X; subst; inversion Y; subst; auto; split; auto; try discriminate.
      intros _. exfalso. destruct (proj2 Ha qb) as [m Hm]; [eexists; eassumption|]. match goal with K : forall n, ~ _ |- _ => exact (K m Hm) end. }
    assert (K : more dp1 dp2 /\ forall d, unresolved_in ep2 d -> unresolved_in ep1 d).
    { inversion A1; subst; inversion A2; subst; try contradiction; try (split; [apply more_refl|intros d Hd; exact Hd]).
      - split; [apply more_refl|]. intros d [Hd Kd]. exfalso.
        repeat match goal with K : header_diags _ _ _ |- _ => inversion K; subst; clear K end; cbn [In] in Hd; intuition (subst; discriminate).
      - repeat match goal with K : included _ _ _ _ _ _ _ _ |- _ => apply included_defs in K; [|assumption]; destruct K as [-> K] end.
        split; [apply more_refl|]. intros d [Hd Kd]. exfalso.
        match goal with K : of_kind _ ep2 = [] |- _ => assert (X : In d (of_kind UnresolvedReference ep2));
          [apply filter_In; split; [exact Hd|rewrite Kd; reflexivity]|rewrite K in X; exact X] end.
      - cbn [no_label_opened] in Hp. match goal with A : opens a1 _ _ _, B : opens a2 _ _ _ |- _ => destruct (Op _ _ _ _ _ Hp A B) as [-> Hf] end.
        split; [apply more_refl|]. eapply Bl; eassumption.
      - cbn [no_label_opened] in Hp. match goal with A : opens a1 _ _ _, B : opens a2 _ _ _ |- _ => destruct (Op _ _ _ _ _ Hp A B) as [-> Hf] end.
        split; [apply more_refl|]. intros d Hd. apply unresolved_app in Hd. destruct Hd as [Hd|Hd]; [|destruct (compatible_no_unresolved _ _ Hd)].
        apply unresolved_app. left. eapply Bl; eassumption. }
    destruct K as [K1 K2].
    destruct (IH _ (ps2 ++ [p]) _ _ _ _ _ _ _ _ _ _ B1 B2 (more_app _ _ _ _ Ha K1)) as [R1 R2]; try assumption.
    + intros (t & Ht). apply in_app_or in Ht. destruct Ht as [Ht|Ht].
      * destruct (Hpl (ex_intro _ t Ht)) as [t' Ht']. exists t'. apply in_or_app. left. exact Ht'.
      * exists t. apply in_or_app. right. exact Ht.
    + split; [exact R1|]. intros d Hd. apply unresolved_app in Hd. apply unresolved_app. destruct Hd as [Hd|Hd]; [left; apply K2, Hd|right; apply R2, Hd].
Qed.

Lemma references_more ft ps1 ps2 a b l : more a b -> (has_plugin ps1 -> has_plugin ps2) -> forall e1 e2,
  reference_diags ft ps1 a l e1 -> reference_diags ft ps2 b l e2 -> forall d, In d e2 -> In d e1.
Proof.
  intros Ha Hb. induction l as [|r l IH]; intros e1 e2 H1 H2 d Hd; inversion H1; subst; inversion H2; subst; [exact Hd|].
  apply in_app_or in Hd. apply in_or_app. destruct Hd as [Hd|Hd]; [left|right; eapply IH; eassumption].
  assert (Hf : found = true -> found0 = true).
  { intros ->. match goal with K : found0 = true <-> _ |- _ => apply K end. apply (resolves_more a b _ Ha). match goal with K : true = true <-> _ |- _ => apply K end. reflexivity. }
  repeat match goal with K : blame _ _ _ _ _ |- _ => inversion K; subst; clear K end; try (destruct Hd; fail); try exact Hd; try discriminate (Hf eq_refl).
  exfalso. unfold blames in *. tauto.
Qed.

(** ** C77 *)
(** [f2] has the elements [new] besides those of [f1]. Missing for the full claim: nodes opened by a label (C77_refuted) and
    new elements that open nodes. *)
Theorem C77_additions_partial : forall fs pj f1 f2 ft h1 h2 ac1 es1 ac2 es2 l1 new l2, project_ok pj ->
  fl_elements f1 = l1 ++ l2 -> fl_elements f2 = l1 ++ new ++ l2 -> Forall no_label_opened (l1 ++ l2) -> Forall inert new ->
  analysed fs pj f1 ft h1 ac1 es1 -> analysed fs pj f2 ft h2 ac2 es2 -> no_cycles es1 -> no_cycles es2 ->
  (forall d, In d es2 -> dg_kind d = UnresolvedReference -> In d es1 \/ refers_in new d)
  /\ (forall p, get_node_by_path ac1 p <> None -> get_node_by_path ac2 p <> None)
  /\ (forall l, m_get str_eq_dec l (ac_labels ac1) <> None -> m_get str_eq_dec l (ac_labels ac2) <> None).
Proof.
  intros fs pj f1 f2 ft h1 h2 ac1 es1 ac2 es2 l1 new l2 Hp E1 E2 Hlo Hin H1 H2 N1 N2. apply Forall_app in Hlo. destruct Hlo as [Lo1 Lo2].
  apply (analysed_spec _ _ _ _ _ _ _ Hp) in H1, H2. destruct H1 as (d1 & g1 & A1 & _ & L1 & P1), H2 as (d2 & g2 & A2 & _ & L2 & P2).
  inversion A1 as [? ? x1 v1 r1 X1 V1 R1]; subst. inversion A2 as [? ? x2 v2 r2 X2 V2 R2]; subst.
  apply no_cycles_app in N1, N2. destruct N1 as [N1 _], N2 as [N2 _]. rewrite E1 in X1. rewrite E2 in X2.
  apply elements_app in X1. destruct X1 as (a1 & k1 & y1 & z1 & Y1 & Z1 & ->).
  apply elements_app in X2. destruct X2 as (a2 & m1 & y2 & w2 & Y2 & W2 & ->).
  apply elements_app in W2. destruct W2 as (a3 & m2 & y3 & z2 & Y3 & Z2 & ->). cbn [app] in Z1, Y3, Z2.
  apply no_cycles_app in N1, N2. destruct N1 as [N1 M1], N2 as [N2 M2]. apply no_cycles_app in M2. destruct M2 as [M3 M2].
  destruct (elements_more _ _ _ _ _ _ Lo1 _ _ _ _ _ _ _ _ _ _ _ _ Y1 Y2 (more_refl _)) as [Ga Gu]; try assumption; [exact (fun x => x)|].
  destruct (inert_elements _ _ _ _ _ Hin _ _ _ _ _ _ Y3 M3) as [-> Ub].
  assert (Gp : forall l, has_plugin (l1 ++ l) -> has_plugin (l1 ++ new ++ l)).
  { intros l (t & Ht). exists t. rewrite !in_app_iff in *. tauto. }
  destruct (elements_more _ _ _ _ _ _ Lo2 _ _ _ _ _ _ _ _ _ _ _ _ Z1 Z2) as [Gb Gv]; try assumption.
  { rewrite <- (app_nil_r a1). apply more_app; [exact Ga|apply more_nil]. }
  { specialize (Gp []). rewrite !app_nil_r in Gp. exact Gp. }
  assert (R1' : reference_diags ft (fl_elements f1) d1 (all_references l1 ++ all_references l2) r1).
  { revert R1. rewrite E1 at 2. unfold all_references, all_properties. rewrite !flat_map_app. exact (fun x => x). }
  assert (R2' : reference_diags ft (fl_elements f2) d2 (all_references l1 ++ all_references new ++ all_references l2) r2).
  { revert R2. rewrite E2 at 2. unfold all_references, all_properties. rewrite !flat_map_app. exact (fun x => x). }
  apply references_app in R1', R2'. destruct R1' as (ra & rc & -> & Ra & Rc), R2' as (sa & sr & -> & Sa & Sr).
  apply references_app in Sr. destruct Sr as (sb & sc & -> & Sb & Sc).
  assert (Bl : has_plugin (fl_elements f1) -> has_plugin (fl_elements f2)) by (rewrite E1, E2; apply Gp).
  split; [|split].
  - intros d Hd Kd.
    assert (Cases : unresolved_in y2 d \/ unresolved_in y3 d \/ unresolved_in z2 d \/ unresolved_in v2 d \/ In d sa \/ In d sb \/ In d sc).
    { unfold unresolved_in. rewrite !in_app_iff in Hd. tauto. }
    assert (Back : unresolved_in y1 d \/ unresolved_in z1 d \/ In d ra \/ In d rc -> In d ((y1 ++ z1) ++ v1 ++ ra ++ rc)).
    { unfold unresolved_in. rewrite !in_app_iff. tauto. }
    destruct Cases as [C|[C|[C|[C|[C|[C|C]]]]]].
    + left. apply Back. left. apply Gu, C.
    + right. destruct C as [C _]. destruct (Ub d) as (p & r & K1 & K2 & ->).
      { apply filter_In. split; [exact C|rewrite Kd; reflexivity]. }
      exists r. split; [reflexivity|]. right. exists p. auto.
    + left. apply Back. right. left. apply Gv, C.
    + exfalso. destruct C as [C _]. inversion V2; subst; [destruct C as [<-|[]]; discriminate Kd|destruct C].
    + left. apply Back. right. right. left. eapply references_more; [exact Gb|exact Bl|exact Ra|exact Sa|exact C].
    + right. destruct (references_only _ _ _ _ _ Sb d C) as (r & K1 & ->). exists r. split; [reflexivity|]. left. exact K1.
    + left. apply Back. right. right. right. eapply references_more; [exact Gb|exact Bl|exact Rc|exact Sc|exact C].
  - intros p H. unfold get_node_by_path in *.
    destruct (m_get npath_eq_dec p (ac_flat ac1)) as [n|] eqn:E; [|congruence]. apply P1 in E. destruct (proj2 Gb p (ex_intro _ n E)) as [m Hm].
    apply P2 in Hm. rewrite Hm. discriminate.
  - intros l H. destruct (m_get str_eq_dec l (ac_labels ac1)) as [n|] eqn:E; [|congruence]. apply L1 in E. destruct (proj1 Gb l (ex_intro _ n E)) as [m Hm].
    apply L2 in Hm. rewrite Hm. discriminate.
Qed.
Print Assumptions C77_additions_partial.

(** ** Cases *)
(** the elements of [g] before the element number [n] of [f] *)
Definition extended (n : nat) (g f : dts_file) : dts_file := mkFile (firstn n (fl_elements f) ++ fl_elements g ++ skipn n (fl_elements f)) (fl_source f).
Definition check_more (n : nat) (g f : dts_file) : bool :=
  quiet (analyze_file o_id no_fs empty_project f DtSource analysis_new) && quiet (analyze_file o_id no_fs empty_project (extended n g f) DtSource analysis_new).
Lemma check_more_ok n g f : check_more n g f = true -> exists ac1 es1 ac2 es2,
  fl_elements f = firstn n (fl_elements f) ++ skipn n (fl_elements f)
  /\ analysed no_fs empty_project f DtSource [] ac1 es1 /\ analysed no_fs empty_project (extended n g f) DtSource [] ac2 es2
  /\ no_cycles es1 /\ no_cycles es2
  /\ run_with o_id empty_project DtSource f = (ac1, es1) /\ run_with o_id empty_project DtSource (extended n g f) = (ac2, es2).
Proof.
  intros H. unfold check_more, quiet in H. apply andb_prop in H. destruct H as [H1 H2]. unfold run_with.
  destruct (analyze_file o_id no_fs empty_project f DtSource analysis_new) as [[[ac1 es1] a1]| |] eqn:E1; try discriminate.
  destruct (analyze_file o_id no_fs empty_project (extended n g f) DtSource analysis_new) as [[[ac2 es2] a2]| |] eqn:E2; try discriminate.
  exists ac1, es1, ac2, es2. split; [symmetry; apply firstn_skipn|].
  split; [exact (run_analysed _ _ _ _ _ _ o_id_ok E1)|]. split; [exact (run_analysed _ _ _ _ _ _ o_id_ok E2)|].
  split; [unfold no_cycles; destruct (of_kind CyclicDependencyError es1); [reflexivity|discriminate]|].
  split; [unfold no_cycles; destruct (of_kind CyclicDependencyError es2); [reflexivity|discriminate]|]. auto.
Qed.

(** a further root node between the definition of a labelled node and its opening: the label is lost and with it the place of the contents *)
Definition new77 : dts_file := tree_of (bs "/ { a { }; };").
Definition ex77 : dts_file := tree_of (bs "/dts-v1/; / { l: a { }; }; &l { b { }; }; / { p = &{/a/b}; };").
Lemma inert_check l : forallb (fun p => match p with PReferencedNode _ => false | PDirective (APlugin _) => false | _ => true end) l = true -> Forall inert l.
Proof. intros E. rewrite forallb_forall in E. apply Forall_forall. intros p Hp. specialize (E p Hp). destruct p as [[]| | |]; try exact I; discriminate E. Qed.
Lemma no_label_check l : forallb (fun p => match opened_reference p with Some r => match wt_item r with RefLabel _ => false | _ => true end | None => true end) l = true ->
  Forall no_label_opened l.
Proof.
  intros E. rewrite forallb_forall in E. apply Forall_forall. intros p Hp. specialize (E p Hp). destruct p as [[]| | |]; cbn in *; try exact I.
  - destruct (wt_item _); [discriminate|exact I].
  - destruct (wt_item _); [discriminate|exact I].
Qed.
Theorem C77_refuted : exists fs pj f1 f2 ac1 es1 ac2 es2 l1 new l2, project_ok pj
  /\ fl_elements f1 = l1 ++ l2 /\ fl_elements f2 = l1 ++ new ++ l2 /\ Forall inert new /\ all_references new = []
  /\ analysed fs pj f1 DtSource [] ac1 es1 /\ analysed fs pj f2 DtSource [] ac2 es2 /\ no_cycles es1 /\ no_cycles es2
  /\ es1 = [] /\ map dg_kind es2 = [UnresolvedReference; UnresolvedReference]
  /\ exists p, get_node_by_path ac1 p <> None /\ get_node_by_path ac2 p = None.
Proof.
  destruct (check_more_ok 2 new77 ex77) as (ac1 & es1 & ac2 & es2 & H1 & H2 & H3 & H4 & H5 & R1 & R2); [vm_compute; reflexivity|].
  exists no_fs, empty_project, ex77, (extended 2 new77 ex77), ac1, es1, ac2, es2, (firstn 2 (fl_elements ex77)), (fl_elements new77), (skipn 2 (fl_elements ex77)).
  split; [exact empty_ok|]. split; [exact H1|]. split; [reflexivity|]. split; [apply inert_check; vm_compute; reflexivity|]. split; [vm_compute; reflexivity|].
  split; [exact H2|]. split; [exact H3|]. split; [exact H4|]. split; [exact H5|].
  assert (X1 : snd (run_with o_id empty_project DtSource ex77) = []) by (vm_compute; reflexivity).
  assert (X2 : map dg_kind (snd (run_with o_id empty_project DtSource (extended 2 new77 ex77))) = [UnresolvedReference; UnresolvedReference]) by (vm_compute; reflexivity).
  assert (X3 : get_node_by_path (fst (run_with o_id empty_project DtSource ex77)) [mkNN (bs "a") None; mkNN (bs "b") None] <> None) by (vm_compute; discriminate).
  assert (X4 : get_node_by_path (fst (run_with o_id empty_project DtSource (extended 2 new77 ex77))) [mkNN (bs "a") None; mkNN (bs "b") None] = None) by (vm_compute; reflexivity).
  rewrite R1 in X1, X3. rewrite R2 in X2, X4. split; [exact X1|]. split; [exact X2|]. eexists. split; [exact X3|exact X4].
Qed.
Print Assumptions C77_refuted.

(** two references that do not resolve before, one of them resolved by the addition, and one that does not resolve in the new elements *)
Definition new77b : dts_file := tree_of (bs "/ { k: c { q = <&v>; }; };").
Definition ex77b : dts_file := tree_of (bs "/dts-v1/; / { l: a { }; }; &{/a} { b { }; }; / { p = &{/a/b}, &k, &w; };").
Example C77_case : exists ac1 es1 ac2 es2 l1 l2, project_ok empty_project
  /\ fl_elements ex77b = l1 ++ l2 /\ fl_elements (extended 2 new77b ex77b) = l1 ++ fl_elements new77b ++ l2
  /\ Forall no_label_opened (l1 ++ l2) /\ Forall inert (fl_elements new77b)
  /\ analysed no_fs empty_project ex77b DtSource [] ac1 es1 /\ analysed no_fs empty_project (extended 2 new77b ex77b) DtSource [] ac2 es2
  /\ no_cycles es1 /\ no_cycles es2 /\ length es1 = 2%nat /\ length es2 = 2%nat.
Proof.
  destruct (check_more_ok 2 new77b ex77b) as (ac1 & es1 & ac2 & es2 & H1 & H2 & H3 & H4 & H5 & R1 & R2); [vm_compute; reflexivity|].
  exists ac1, es1, ac2, es2, (firstn 2 (fl_elements ex77b)), (skipn 2 (fl_elements ex77b)).
  split; [exact empty_ok|]. split; [exact H1|]. split; [reflexivity|]. split; [apply no_label_check; vm_compute; reflexivity|].
  split; [apply inert_check; vm_compute; reflexivity|].
  split; [exact H2|]. split; [exact H3|]. split; [exact H4|]. split; [exact H5|].
  assert (X1 : length (snd (run_with o_id empty_project DtSource ex77b)) = 2%nat) by (vm_compute; reflexivity).
  assert (X2 : length (snd (run_with o_id empty_project DtSource (extended 2 new77b ex77b))) = 2%nat) by (vm_compute; reflexivity).
  rewrite R1 in X1. rewrite R2 in X2. auto.
Qed.
