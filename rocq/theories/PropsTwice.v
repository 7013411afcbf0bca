(** C126 Including a file again does no harm *)
From Verif Require Import Base Analysis Project AnalysisSpec GuardProofs AnalysisProofs PropsAnalysis PropsProject3 PropsHistory PropsPaste PropsRealise.
From Coq Require Import Lia List Relations.
Import ListNotations.

(** ** Histories with the same arrows *)
Definition same_arrows (h k : list (fpath * list fpath)) : Prop := forall x y, depends h x y <-> depends k x y.
Lemma depends_app (h k : list (fpath * list fpath)) x y : depends (h ++ k) x y <-> depends h x y \/ depends k x y.
Proof.
  unfold depends. split.
  - intros (ds & A & B). apply in_app_or in A. destruct A as [A|A]; [left|right]; exists ds; auto.
  - intros [(ds & A & B)|(ds & A & B)]; exists ds; (split; [apply in_or_app; auto|exact B]).
Qed.
Lemma arrows_app h k l : same_arrows h k -> same_arrows (h ++ l) (k ++ l).
Proof. intros H x y. rewrite !depends_app, (H x y). reflexivity. Qed.
Lemma arrows_again h e : same_arrows (h ++ [e]) ((h ++ [e]) ++ [e]).
Proof. intros x y. rewrite !depends_app. tauto. Qed.
Lemma arrows_sym h k : same_arrows h k -> same_arrows k h.
Proof. intros H x y. symmetry. apply H. Qed.
Lemma cycle_ext {V} (E F : V -> V -> Prop) p : (forall x y, E x y -> F x y) -> on_cycle E p -> on_cycle F p.
Proof.
  intros H. unfold on_cycle. assert (G : forall x y, clos_trans V E x y -> clos_trans V F x y); [|apply G].
  intros x y. induction 1 as [x y K|x y z _ IH1 _ IH2]; [apply t_step, H, K|exact (t_trans _ _ _ _ _ IH1 IH2)].
Qed.
Lemma chain_ext {V} (E F : V -> V -> Prop) l : (forall x y, E x y -> F x y) -> chain E l -> chain F l.
Proof.
  intros H. induction l as [|x l IH]; [exact (fun k => k)|]. destruct l as [|y l]; [exact (fun k => k)|]. cbn [chain] in *.
  intros [A B]. split; [exact (H _ _ A)|exact (IH B)].
Qed.
Lemma simple_ext {V} (E F : V -> V -> Prop) p c : (forall x y, E x y <-> F x y) -> simple_cycle E p c -> simple_cycle F p c.
Proof.
  intros H (mid & A & B & C & D). exists mid. split; [exact A|]. split; [apply (chain_ext E F); [apply H|exact B]|]. split; [exact C|].
  intros l1 a l2 b l3 Q K. apply (D l1 a l2 b l3 Q). apply H, K.
Qed.

(** elements before, as far as they matter to the elements behind *)
Definition same_before (ps qs : list primary) : Prop :=
  (has_plugin ps <-> has_plugin qs) /\ (has_header ps <-> has_header qs) /\ (has_content ps <-> has_content qs).
Lemma blame_same ft ps qs r f es : same_before ps qs -> blame ft ps r f es -> blame ft qs r f es.
Proof.
  intros (A & _ & _) H. inversion H; subst; constructor; unfold blames in *; rewrite <- A; assumption.
Qed.
Section Twice.
Context (fs : fsys) (pj : project) (src : fpath) (ft : file_type).

Lemma included_same h k i dp h' es : same_arrows h k -> included fs pj src h i dp h' es ->
  exists k', included fs pj src k i dp k' es /\ same_arrows h' k'.
Proof.
  intros A H. inversion H; subst.
  - exists k. split; [apply in_missing; assumption|exact A].
  - exists (k ++ [(p, [src])]). split; [|apply arrows_app, A]. eapply in_cyclic; [eassumption|]. eapply simple_ext; [|eassumption]. apply arrows_app, A.
  - exists (k ++ [(p, [src])]). split; [|apply arrows_app, A]. apply in_unknown; try assumption.
    intros K. match goal with N : ~ on_cycle _ _ |- _ => apply N end. revert K. apply cycle_ext. apply (arrows_app _ _ _ A).
  - exists (k ++ [(p, [src])]). split; [|apply arrows_app, A]. eapply in_file; try eassumption; [|reflexivity].
    intros K. match goal with N : ~ on_cycle _ _ |- _ => apply N end. revert K. apply cycle_ext. apply (arrows_app _ _ _ A).
Qed.

Lemma element_same ps qs a b h k p dp h' ep : same_before ps qs -> agree a b -> same_arrows h k -> element fs pj src ft ps a h p dp h' ep ->
  exists k', element fs pj src ft qs b k p dp k' ep /\ same_arrows h' k'.
Proof.
  intros S A K H. inversion H; subst; try (exists k; split; [constructor; fail|exact K]).
  - exists k. split; [|exact K]. constructor. destruct S as (_ & S1 & S2).
    match goal with X : header_diags _ _ _ |- _ => inversion X; subst end; constructor; rewrite <- ?S1, <- ?S2; assumption.
  - match goal with X : included _ _ _ _ _ _ _ _ |- _ => destruct (included_same _ _ _ _ _ _ K X) as (k' & X' & K') end.
    exists k'. split; [constructor; exact X'|exact K'].
  - exists k. split; [|exact K]. eapply el_delete; [eapply opens_agree; eassumption|eapply blame_same; eassumption].
  - exists k. split; [|exact K]. eapply el_opened; [reflexivity|eapply opens_agree; eassumption|eapply blame_same; eassumption].
  - exists k. split; [|exact K]. apply el_assumed. assumption.
Qed.
Lemma before_snoc ps qs p : same_before ps qs -> same_before (ps ++ [p]) (qs ++ [p]).
Proof.
  assert (X : forall Q : primary -> Prop, (forall l, (exists x, In x (l ++ [p]) /\ Q x) <-> (exists x, In x l /\ Q x) \/ Q p)).
  { intros Q l. split.
    - intros (x & I & K). apply in_app_or in I. destruct I as [I|[->|[]]]; [left; exists x|right]; auto.
    - intros [(x & I & K)|K]; [exists x|exists p]; (split; [apply in_or_app; cbn [In]; auto|exact K]). }
  intros (A & B & C). split; [|split].
  - pose proof (X (fun x => exists t, x = PDirective (APlugin t))) as Y. clear X. unfold has_plugin in *.
    assert (Z : forall l, (exists t, In (PDirective (APlugin t)) l) <-> (exists x, In x l /\ exists t, x = PDirective (APlugin t)))
      by (intros l; split; [intros (t & I); eauto|intros (x & I & t & ->); eauto]).
    rewrite !Z, !Y, <- !Z, A. reflexivity.
  - pose proof (X (fun x => exists t, x = PDirective (ADtsHeader t))) as Y. clear X. unfold has_header in *.
    assert (Z : forall l, (exists t, In (PDirective (ADtsHeader t)) l) <-> (exists x, In x l /\ exists t, x = PDirective (ADtsHeader t)))
      by (intros l; split; [intros (t & I); eauto|intros (x & I & t & ->); eauto]).
    rewrite !Z, !Y, <- !Z, B. reflexivity.
  - unfold has_content in *. rewrite !X, C. reflexivity.
Qed.
Lemma elements_same l : forall ps qs a b h k a' h' es, same_before ps qs -> agree a b -> same_arrows h k -> elements fs pj src ft ps a h l a' h' es ->
  exists b' k', elements fs pj src ft qs b k l b' k' es /\ agree a' b'.
Proof.
  induction l as [|p l IH]; intros ps qs a b h k a' h' es S A K H.
  - apply elements_nil_inv in H. destruct H as (-> & -> & ->). exists b, k. split; [constructor|exact A].
  - apply elements_cons_inv in H. destruct H as (dp & h1 & ep & e2 & H1 & H2 & ->).
    destruct (element_same _ _ _ _ _ _ _ _ _ _ S A K H1) as (k1 & H1' & K1).
    destruct (IH _ _ _ _ _ _ _ _ _ (before_snoc _ _ p S) (agree_app _ _ _ _ A (agree_refl dp)) K1 H2) as (b' & k' & H2' & A').
    exists b', k'. split; [econstructor; eassumption|exact A'].
Qed.

Lemma elements_join la : forall ps ds h dsa ha ea, elements fs pj src ft ps ds h la dsa ha ea ->
  forall lb dsb hb eb, elements fs pj src ft (ps ++ la) dsa ha lb dsb hb eb -> elements fs pj src ft ps ds h (la ++ lb) dsb hb (ea ++ eb).
Proof.
  intros ps ds h dsa ha ea K. induction K as [ps ds h|ps ds h p dp h1' ep l ds' h' es K1 K2 IH]; intros lb dsb hb eb KK.
  - rewrite app_nil_r in KK. exact KK.
  - cbn [app]. rewrite <- app_assoc. econstructor; [exact K1|]. apply IH. rewrite <- app_assoc. exact KK.
Qed.

(** ** The second include *)
(** the reports [e] and [e'] of the first and of the second *)
Definition reports (i : include) (e : list diag) : Prop :=
  (length e <= 1)%nat /\ Forall (fun d => dg_span d = include_span i /\ dg_source d = include_source i) e.
Lemma included_reports h i dp h' e : included fs pj src h i dp h' e -> reports i e.
Proof.
  intros H. inversion H; subst; try (split; [cbn [length]; lia|repeat constructor]).
  match goal with X : _ \/ _ |- _ => destruct X as [[_ ->]|[_ ->]] end; (split; [cbn [length]; lia|repeat constructor]).
Qed.
Lemma second_same h k i j dp h' e dq k' e' : include_path fs j = include_path fs i -> included fs pj src h i dp h' e ->
  same_arrows h' k -> included fs pj src k j dq k' e' -> dq = dp /\ map dg_kind e' = map dg_kind e /\ same_arrows h' k'.
Proof.
  intros E H A H'.
  assert (Q : forall p, include_path fs i = inl p -> h' = h ++ [(p, [src])] -> same_arrows h' (k ++ [(p, [src])])).
  { intros p _ Eh x y. rewrite depends_app, <- (A x y), Eh, depends_app. tauto. }
  inversion H; subst; inversion H'; subst;
    repeat match goal with X : include_path fs j = _ |- _ => rewrite E in X end;
    repeat match goal with X : include_path fs i = _, Y : include_path fs i = _ |- _ => rewrite X in Y; (discriminate Y || (injection Y as Y; subst)) end.
  - auto.
  - split; [reflexivity|]. split; [reflexivity|]. eapply Q; [eassumption|reflexivity].
  - exfalso. match goal with X : ~ on_cycle _ _ |- _ => apply X end. eapply cycle_ext; [|eapply AnalysisProofs.simple_on_cycle; eassumption].
    intros x y. apply (Q _ ltac:(eassumption) eq_refl).
  - exfalso. match goal with X : ~ on_cycle _ _ |- _ => apply X end. eapply cycle_ext; [|eapply AnalysisProofs.simple_on_cycle; eassumption].
    intros x y. apply (Q _ ltac:(eassumption) eq_refl).
  - exfalso. match goal with X : ~ on_cycle _ _ |- _ => apply X end. eapply cycle_ext; [|eapply AnalysisProofs.simple_on_cycle; eassumption].
    intros x y. apply (Q _ ltac:(eassumption) eq_refl).
  - split; [reflexivity|]. split; [reflexivity|]. eapply Q; [eassumption|reflexivity].
  - congruence.
  - exfalso. match goal with X : ~ on_cycle _ _ |- _ => apply X end. eapply cycle_ext; [|eapply AnalysisProofs.simple_on_cycle; eassumption].
    intros x y. apply (Q _ ltac:(eassumption) eq_refl).
  - congruence.
  - match goal with X : get_file _ _ _ = Some ?u, Y : get_file _ _ _ = Some ?v |- _ => rewrite X in Y; injection Y as <- end.
    split; [reflexivity|]. split; [|eapply Q; [eassumption|reflexivity]].
    match goal with X : _ \/ _, Y : _ \/ _ |- _ => destruct X as [[X1 ->]|[X1 ->]], Y as [[Y1 ->]|[Y1 ->]] end; try reflexivity;
      match goal with X : exists d, _, Y : forall d, ~ _ |- _ => destruct X as [d X]; destruct (Y d X) end.
Qed.
Lemma second_exists h k i j dp h' e : include_path fs j = include_path fs i -> included fs pj src h i dp h' e -> same_arrows h' k ->
  exists k' e', included fs pj src k j dp k' e'.
Proof.
  intros E H A.
  assert (Q : forall p, h' = h ++ [(p, [src])] -> forall x y, depends h' x y <-> depends (k ++ [(p, [src])]) x y).
  { intros p Eh x y. rewrite depends_app, <- (A x y), Eh, depends_app. tauto. }
  inversion H; subst.
  - eexists _, _. eapply in_missing. rewrite E. eassumption.
  - eexists _, _. eapply in_cyclic; [rewrite E; eassumption|]. eapply simple_ext; [|eassumption]. apply Q. reflexivity.
  - eexists _, _. eapply in_unknown; [rewrite E; eassumption| |eassumption].
    intros K. match goal with N : ~ on_cycle _ _ |- _ => apply N end. revert K. apply cycle_ext. intros x y. apply (Q _ eq_refl).
  - match goal with X : _ \/ _ |- _ => destruct X as [[Y0 _]|[Y0 _]] end; eexists _, _;
      (eapply in_file; [rewrite E; eassumption| |eassumption|reflexivity|first [left; split; [exact Y0|reflexivity]|right; split; [exact Y0|reflexivity]]]);
      intros K; match goal with N : ~ on_cycle _ _ |- _ => apply N end; revert K; apply cycle_ext; intros x y; apply (Q _ eq_refl).
Qed.

(** elements that define nothing and include nothing *)
Definition quiet_element (p : primary) : Prop :=
  match p with PDirective (AInclude _) => False | PDirective _ | PCStyleInclude _ => True | _ => False end.
Lemma quiet_elements m : Forall quiet_element m -> forall ps ds h ds' h' es, elements fs pj src ft ps ds h m ds' h' es -> ds' = ds /\ h' = h.
Proof.
  induction 1 as [|p m Q _ IH]; intros ps ds h ds' h' es H.
  - apply elements_nil_inv in H. tauto.
  - apply elements_cons_inv in H. destruct H as (dp & h1 & ep & e2 & A & B & ->). destruct (IH _ _ _ _ _ _ B) as [-> ->].
    inversion A; subst; try destruct Q; rewrite ?app_nil_r; auto.
Qed.
Lemma agree_double a d : agree (a ++ d) ((a ++ d) ++ d).
Proof.
  rewrite <- app_assoc. apply agree_app; [apply agree_refl|]. split; intros l x; unfold label_means, path_means; rewrite last_of_app; tauto.
Qed.
Lemma agree_trans a b c : agree a b -> agree b c -> agree a c.
Proof. intros [A1 A2] [B1 B2]. split; intros; [rewrite A1|rewrite A2]; auto. Qed.
Lemma before_include l j : same_before l (l ++ [PDirective (AInclude j)]).
Proof.
  split; [|split]; unfold has_plugin, has_header, has_content.
  - split; intros (t & I); exists t; [apply in_or_app; auto|]. apply in_app_or in I. destruct I as [I|[I|[]]]; [exact I|discriminate I].
  - split; intros (t & I); exists t; [apply in_or_app; auto|]. apply in_app_or in I. destruct I as [I|[I|[]]]; [exact I|discriminate I].
  - split; intros (t & I & K); exists t; (split; [|exact K]); [apply in_or_app; auto|]. apply in_app_or in I. destruct I as [I|[<-|[]]]; [exact I|discriminate K].
Qed.
Lemma before_sym ps qs : same_before ps qs -> same_before qs ps.
Proof. unfold same_before. tauto. Qed.
Lemma before_app l : forall ps qs, same_before ps qs -> same_before (ps ++ l) (qs ++ l).
Proof.
  induction l as [|p l IH]; intros ps qs S; [rewrite !app_nil_r; exact S|].
  specialize (IH _ _ (before_snoc _ _ p S)). rewrite <- !app_assoc in IH. exact IH.
Qed.
Lemma references_same ps qs a b l es : same_before ps qs -> agree a b -> reference_diags ft ps a l es -> reference_diags ft qs b l es.
Proof.
  intros S A H. induction H as [|r l found es es' H1 H2 _ IH]; [constructor|].
  econstructor; [|eapply blame_same; eassumption|exact IH]. rewrite H1. apply resolves_agree, A.
Qed.
Lemma version_same ps qs es : same_before ps qs -> version_diags src ft ps es -> version_diags src ft qs es.
Proof.
  intros (_ & S & _) H. destruct H as [E N|[E|E]]; [apply vd_missing; [exact E|tauto]|apply vd_fine; left; exact E|apply vd_fine; right; tauto].
Qed.

Context (l1 : list primary) (i : include) (m : list primary) (j : include) (l2 : list primary).
Context (Qm : Forall quiet_element m) (Ej : include_path fs j = include_path fs i).
Notation once := (l1 ++ PDirective (AInclude i) :: m ++ l2).
Notation twice := (l1 ++ PDirective (AInclude i) :: m ++ PDirective (AInclude j) :: l2).
Lemma once_twice : same_before once twice.
Proof.
  replace once with ((l1 ++ PDirective (AInclude i) :: m) ++ l2) by (rewrite <- app_assoc; reflexivity).
  replace twice with (((l1 ++ PDirective (AInclude i) :: m) ++ [PDirective (AInclude j)]) ++ l2) by (rewrite <- !app_assoc; reflexivity).
  apply before_app, before_include.
Qed.
Lemma once_twice_refs : all_references twice = all_references once.
Proof. unfold all_references, all_properties. rewrite !flat_map_app. cbn [flat_map element_properties app]. rewrite !flat_map_app. cbn [flat_map element_properties app]. rewrite ?flat_map_app. reflexivity. Qed.

Lemma twice_once h ds h' es : analysis_of fs pj src ft h twice ds h' es ->
  exists ds1 h1 x e z e' y, analysis_of fs pj src ft h once ds1 h1 (x ++ e ++ z ++ y) /\ agree ds ds1 /\ es = x ++ e ++ z ++ e' ++ y
    /\ reports i e /\ reports j e' /\ map dg_kind e' = map dg_kind e.
Proof.
  intros H. inversion H as [? ? x2 v2 r2 X V R]; subst. apply elements_at in X.
  destruct X as (a1 & k1 & y1 & dp & k2 & ep & new & z1 & Y1 & Yi & Z1 & _ & ->).
  apply elements_app in Z1. destruct Z1 as (a3 & k3 & y3 & z3 & Y3 & Z3 & ->). destruct (quiet_elements _ Qm _ _ _ _ _ _ Y3) as [-> ->].
  apply elements_cons_inv in Z3. destruct Z3 as (dq & k4 & eq & z4 & Yj & Z4 & ->).
  inversion Yi as [| | | | |i0 ds0 h0 es0 Inc| | | |]; subst i0 ds0 h0 es0. inversion Yj as [| | | | |i0 ds0 h0 es0 Jnc| | | |]; subst i0 ds0 h0 es0.
  destruct (second_same _ _ _ _ _ _ _ _ _ _ Ej Inc (fun x y => iff_refl _) Jnc) as (-> & Kd & Ar).
  destruct (elements_same l2 _ ((l1 ++ [PDirective (AInclude i)]) ++ m) _ (a1 ++ dp) _ k2 _ _ _ (before_sym _ _ (before_include _ _)) (agree_sym _ _ (agree_double a1 dp)) (arrows_sym _ _ Ar) Z4)
    as (b' & k' & Z4' & Ag).
  exists b', k', y1, ep, y3, eq, (z4 ++ v2 ++ r2). split.
  - replace (y1 ++ ep ++ y3 ++ z4 ++ v2 ++ r2) with ((y1 ++ ep ++ y3 ++ z4) ++ v2 ++ r2) by (rewrite <- !app_assoc; reflexivity).
    constructor.
    + eapply elements_join; [exact Y1|]. cbn [app]. econstructor; [exact Yi|]. eapply elements_join; [exact Y3|exact Z4'].
    + exact (version_same _ _ _ (before_sym _ _ once_twice) V).
    + rewrite <- once_twice_refs. exact (references_same _ _ _ _ _ _ (before_sym _ _ once_twice) Ag R).
  - split; [exact Ag|]. split; [rewrite <- !app_assoc; reflexivity|].
    split; [exact (included_reports _ _ _ _ _ Inc)|]. split; [exact (included_reports _ _ _ _ _ Jnc)|exact Kd].
Qed.
Lemma once_is_twice h ds h' es : analysis_of fs pj src ft h once ds h' es ->
  exists ds1 h1 x e z e' y, analysis_of fs pj src ft h twice ds1 h1 (x ++ e ++ z ++ e' ++ y) /\ agree ds ds1 /\ es = x ++ e ++ z ++ y
    /\ reports i e /\ reports j e' /\ map dg_kind e' = map dg_kind e.
Proof.
  intros H. inversion H as [? ? x2 v2 r2 X V R]; subst. apply elements_at in X.
  destruct X as (a1 & k1 & y1 & dp & k2 & ep & new & z1 & Y1 & Yi & Z1 & _ & ->).
  apply elements_app in Z1. destruct Z1 as (a3 & k3 & y3 & z4 & Y3 & Z4 & ->). destruct (quiet_elements _ Qm _ _ _ _ _ _ Y3) as [-> ->].
  inversion Yi as [| | | | |i0 ds0 h0 es0 Inc| | | |]; subst i0 ds0 h0 es0.
  destruct (second_exists _ _ _ _ _ _ _ Ej Inc (fun x y => iff_refl _)) as (k4 & eq & Jnc).
  destruct (second_same _ _ _ _ _ _ _ _ _ _ Ej Inc (fun x y => iff_refl _) Jnc) as (_ & Kd & Ar).
  destruct (elements_same l2 _ (((l1 ++ [PDirective (AInclude i)]) ++ m) ++ [PDirective (AInclude j)]) _ ((a1 ++ dp) ++ dp) _ k4 _ _ _ (before_include _ _) (agree_double a1 dp) Ar Z4)
    as (b' & k' & Z4' & Ag).
  exists b', k', y1, ep, y3, eq, (z4 ++ v2 ++ r2). split.
  - replace (y1 ++ ep ++ y3 ++ eq ++ z4 ++ v2 ++ r2) with ((y1 ++ ep ++ y3 ++ eq ++ z4) ++ v2 ++ r2) by (rewrite <- !app_assoc; reflexivity).
    constructor.
    + eapply elements_join; [exact Y1|]. cbn [app]. econstructor; [exact Yi|]. eapply elements_join; [exact Y3|]. econstructor; [constructor; exact Jnc|exact Z4'].
    + exact (version_same _ _ _ once_twice V).
    + rewrite once_twice_refs. exact (references_same _ _ _ _ _ _ once_twice Ag R).
  - split; [exact Ag|]. split; [rewrite <- !app_assoc; reflexivity|].
    split; [exact (included_reports _ _ _ _ _ Inc)|]. split; [exact (included_reports _ _ _ _ _ Jnc)|exact Kd].
Qed.
End Twice.

(** ** C126 *)
Definition same_lookups (a b : actx) : Prop :=
  (forall l, m_get str_eq_dec l (ac_labels a) = m_get str_eq_dec l (ac_labels b)) /\ (forall p, m_get npath_eq_dec p (ac_flat a) = m_get npath_eq_dec p (ac_flat b)).
Lemma analysed_from fs pj f g ft h ac es ds h' ds1 h1 es1 : project_ok pj -> analysed fs pj f ft h ac es ->
  analysis_of fs pj (fl_source f) ft h (fl_elements f) ds h' es ->
  (forall l x, m_get str_eq_dec l (ac_labels ac) = Some x <-> label_means ds l x) -> (forall p n, m_get npath_eq_dec p (ac_flat ac) = Some n <-> path_means ds p n) ->
  analysis_of fs pj (fl_source g) ft h (fl_elements g) ds1 h1 es1 -> agree ds ds1 ->
  exists ac1, analysed fs pj g ft h ac1 es1 /\ same_lookups ac1 ac.
Proof.
  intros Hp (_ & a & _ & _ & G & _) _ L P An [A1 A2].
  destruct (proj2 (C98_results_exact fs pj g ft h a es1 (fun l => m_get str_eq_dec l (ac_labels ac)) (fun p => m_get npath_eq_dec p (ac_flat ac)) Hp G))
    as (o & ac1 & a' & Ho & E & K1 & K2).
  - exists ds1, h1. split; [exact An|]. split; intros; [rewrite L; apply A1|rewrite P; apply A2].
  - exists ac1. split; [exists o, a, a'; auto|]. split; assumption.
Qed.
(** [f1] includes a file once, [f2] a second time behind elements [m] that define nothing. Over all iteration orders of the hash maps the two have the same results:
    the same things are behind all labels and paths, and the diagnostics of [f2] are those of [f1] and at most one at the second include, of the
    same kind as the one at the first. *)
Theorem C126_twice : forall fs pj f1 f2 ft h l1 i m j l2, project_ok pj -> fl_source f2 = fl_source f1 ->
  fl_elements f1 = l1 ++ PDirective (AInclude i) :: m ++ l2 ->
  fl_elements f2 = l1 ++ PDirective (AInclude i) :: m ++ PDirective (AInclude j) :: l2 ->
  Forall quiet_element m -> include_path fs j = include_path fs i ->
  (forall ac2 es2, analysed fs pj f2 ft h ac2 es2 ->
     exists ac1 x e z e' y, analysed fs pj f1 ft h ac1 (x ++ e ++ z ++ y) /\ es2 = x ++ e ++ z ++ e' ++ y /\ same_lookups ac1 ac2
       /\ reports i e /\ reports j e' /\ map dg_kind e' = map dg_kind e)
  /\ (forall ac1 es1, analysed fs pj f1 ft h ac1 es1 ->
     exists ac2 x e z e' y, analysed fs pj f2 ft h ac2 (x ++ e ++ z ++ e' ++ y) /\ es1 = x ++ e ++ z ++ y /\ same_lookups ac2 ac1
       /\ reports i e /\ reports j e' /\ map dg_kind e' = map dg_kind e).
Proof.
  intros fs pj f1 f2 ft h l1 i m j l2 Hp Es E1 E2 Q Ej. split.
  - intros ac2 es2 H. destruct (analysed_spec _ _ _ _ _ _ _ Hp H) as (ds & h' & An & _ & L & P). pose proof An as An0. rewrite E2, Es in An.
    destruct (twice_once _ _ _ _ _ _ _ _ _ Q Ej _ _ _ _ An) as (ds1 & h1 & x & e & z & e' & y & An1 & Ag & -> & R). rewrite <- E1 in An1.
    destruct (analysed_from _ _ _ f1 _ _ _ _ _ _ _ _ _ Hp H An0 L P An1 Ag) as (ac1 & K1 & K2). exists ac1, x, e, z, e', y. auto.
  - intros ac1 es1 H. destruct (analysed_spec _ _ _ _ _ _ _ Hp H) as (ds & h' & An & _ & L & P). pose proof An as An0. rewrite E1 in An.
    destruct (once_is_twice _ _ _ _ _ _ _ _ _ Q Ej _ _ _ _ An) as (ds1 & h1 & x & e & z & e' & y & An1 & Ag & -> & R). rewrite <- E2, <- Es in An1.
    destruct (analysed_from _ _ _ f2 _ _ _ _ _ _ _ _ _ Hp H An0 L P An1 Ag) as (ac2 & K1 & K2). exists ac2, x, e, z, e', y. auto.
Qed.
Print Assumptions C126_twice.

(** ** The conditions can be met *)
Definition text126 (again : str) : dts_file := tree_of (bs "/dts-v1/; /include/ ""b.dtsi"" /memreserve/ 1 2; " ++ again ++ bs " / { p = &l, &{/n}, &none; }; &l { q; };").
Definition one126 : dts_file := text126 (bs "                   ").
Definition two126 : dts_file := text126 (bs "/include/ ""b.dtsi"" ").
Definition leaf126 : dts_file := tree_of (bs "/ { l: n { compatible = <1>; }; };").
(** the included file with its diagnostics *)
Definition holding (r : actx * list diag) : project :=
  mkProject [(bs "b.dtsi", mkPF [] (snd r) None (Some (fst r)) DtSourceInclude [])] [] (fun _ => SevError).
Definition pj126 : project := holding (run_with o_id empty_project DtSourceInclude leaf126).
Lemma holding_ok r : ctx_ok (fst r) -> project_ok (holding r).
Proof. intros H p f c [E|[]] Hc. injection E as <- <-. cbn [pf_ctx] in Hc. congruence. Qed.
Lemma pj126_ok : project_ok pj126.
Proof.
  apply holding_ok. unfold run_with.
  destruct (analyze_file o_id no_fs empty_project leaf126 DtSourceInclude analysis_new) as [[[c es] a']| |] eqn:E; try (split; constructor).
  exact (leaf_analysed _ _ _ _ E).
Qed.
Example C126_case : exists l1 i m j l2 ac1 es1 ac2 es2, project_ok pj126 /\ fl_source two126 = fl_source one126
  /\ fl_elements one126 = l1 ++ PDirective (AInclude i) :: m ++ l2
  /\ fl_elements two126 = l1 ++ PDirective (AInclude i) :: m ++ PDirective (AInclude j) :: l2
  /\ Forall quiet_element m /\ include_path no_fs j = include_path no_fs i /\ length m = 1%nat
  /\ analysed no_fs pj126 one126 DtSource [] ac1 es1 /\ analysed no_fs pj126 two126 DtSource [] ac2 es2
  /\ map dg_kind es1 = [ErrorsInInclude; UnresolvedReference] /\ map dg_kind es2 = [ErrorsInInclude; ErrorsInInclude; UnresolvedReference].
Proof.
  assert (N1 : exists i m l2, fl_elements one126 = firstn 1 (fl_elements one126) ++ PDirective (AInclude i) :: [m] ++ l2
    /\ exists j, fl_elements two126 = firstn 1 (fl_elements one126) ++ PDirective (AInclude i) :: [m] ++ PDirective (AInclude j) :: l2
    /\ quiet_element m /\ include_path no_fs j = include_path no_fs i).
  { eexists _, _, _. split; [vm_compute; reflexivity|]. eexists. split; [vm_compute; reflexivity|]. split; [exact I|vm_compute; reflexivity]. }
  destruct N1 as (i & m & l2 & E1 & j & E2 & Q & Ej).
  assert (R1 : exists ac es a', analyze_file o_id no_fs pj126 one126 DtSource analysis_new = Done ((ac, es), a') /\ map dg_kind es = [ErrorsInInclude; UnresolvedReference])
    by (eexists _, _, _; split; vm_compute; reflexivity).
  assert (R2 : exists ac es a', analyze_file o_id no_fs pj126 two126 DtSource analysis_new = Done ((ac, es), a') /\ map dg_kind es = [ErrorsInInclude; ErrorsInInclude; UnresolvedReference])
    by (eexists _, _, _; split; vm_compute; reflexivity).
  destruct R1 as (ac1 & es1 & a1 & R1 & K1), R2 as (ac2 & es2 & a2 & R2 & K2).
  exists (firstn 1 (fl_elements one126)), i, [m], j, l2, ac1, es1, ac2, es2.
  split; [exact pj126_ok|]. split; [vm_compute; reflexivity|]. split; [exact E1|]. split; [exact E2|]. split; [constructor; [exact Q|constructor]|]. split; [exact Ej|].
  split; [reflexivity|]. split; [exact (run_analysed _ _ _ _ _ _ o_id_ok R1)|]. split; [exact (run_analysed _ _ _ _ _ _ o_id_ok R2)|]. auto.
Qed.
(** With definitions in between the second include matters: it takes a label back that was given to another node. *)
Example C126_between :
  let f again := tree_of (bs "/dts-v1/; /include/ ""b.dtsi"" / { l: other { }; }; " ++ again) in
  let c again := fst (run_with o_id pj126 DtSource (f again)) in
  m_get str_eq_dec (bs "l") (ac_labels (c [])) <> m_get str_eq_dec (bs "l") (ac_labels (c (bs "/include/ ""b.dtsi"""))).
Proof. vm_compute. discriminate. Qed.
