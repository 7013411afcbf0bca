(** The analysis against Meaning.v *)
From Verif Require Import Meaning AnalysisProofs PropsAnalysis PropsProject3 TreeProofs PropsHistory PropsOrder PropsLayout.

(** ** Definitions and what is written *)
Lemma node_defs_eq path n : node_defs path n = DNode path n :: items_defs path (pl_items (nd_payload n)).
Proof. destruct n as [l nm [its e] o]. reflexivity. Qed.
Lemma items_defs_node path its n d : In (INode n) its -> In d (node_defs (path ++ [wt_item (nd_name n)]) n) -> In d (items_defs path its).
Proof.
  unfold items_defs. induction its as [|i its IH]; intros H Hd; [destruct H|]. destruct H as [->|H].
  - cbn [items_defs_of]. apply in_or_app. left. exact Hd.
  - destruct i; cbn [items_defs_of]; [right|apply in_or_app; right| |]; apply IH; assumption.
Qed.
Lemma items_defs_property path its p : In (IProperty p) its -> In (DProperty p) (items_defs path its).
Proof.
  unfold items_defs. induction its as [|i its IH]; intros H; [destruct H|]. destruct H as [->|H].
  - left. reflexivity.
  - destruct i; cbn [items_defs_of]; [right|apply in_or_app; right| |]; apply IH; assumption.
Qed.
Lemma lies_defs its p n : lies its p n -> forall path, In (DNode (path ++ p) n) (items_defs path its).
Proof.
  induction 1 as [its n H|its n p m H _ IH]; intros path; eapply items_defs_node; try exact H; rewrite node_defs_eq.
  - left. reflexivity.
  - right. specialize (IH (path ++ [wt_item (nd_name n)])). rewrite <- app_assoc in IH. exact IH.
Qed.
Lemma bears_defs its p : bears its p -> forall path, In (DProperty p) (items_defs path its).
Proof.
  induction 1 as [its p H|its n p H _ IH]; intros path.
  - apply items_defs_property, H.
  - eapply items_defs_node; [exact H|]. rewrite node_defs_eq. right. apply IH.
Qed.
(** what a definition inside items stands for *)
Definition from_items (its : list item) (path : npath) (d : def) : Prop :=
  match d with
  | DNode p n => exists q, p = path ++ q /\ lies its q n
  | DProperty p => bears its p
  | DInclude _ => False
  end.
Lemma from_deeper its n path d : In (INode n) its -> from_items (pl_items (nd_payload n)) (path ++ [wt_item (nd_name n)]) d -> from_items its path d.
Proof.
  intros Hn. destruct d as [p m|p|c]; cbn [from_items].
  - intros (q & -> & H). exists (wt_item (nd_name n) :: q). split; [rewrite <- app_assoc; reflexivity|]. apply li_deep; assumption.
  - intros H. eapply be_deep; eassumption.
  - auto.
Qed.
Lemma node_defs_from n : forall path d, In d (node_defs path n) -> d = DNode path n \/ from_items (pl_items (nd_payload n)) path d.
Proof.
  apply (node_rect' (fun n => forall path d, In d (node_defs path n) -> d = DNode path n \/ from_items (pl_items (nd_payload n)) path d)
    (fun i => forall n, i = INode n -> forall path d, In d (node_defs path n) -> d = DNode path n \/ from_items (pl_items (nd_payload n)) path d)); clear n.
  - intros l nm its e o IH path d H. cbn [node_defs] in H. destruct H as [<-|H]; [left; reflexivity|]. right. cbn [nd_payload pl_items].
    assert (G : forall its', (forall i, In i its' -> In i its) -> In d (items_defs_of node_defs path its') -> from_items its path d).
    { rewrite Forall_forall in IH. induction its' as [|i its' IHi]; intros Hs Hd; [destruct Hd|].
      assert (Hi : In i its) by (apply Hs; left; reflexivity).
      assert (Hs' : forall j, In j its' -> In j its) by (intros j Hj; apply Hs; right; exact Hj).
      destruct i as [p|m|t x|t x]; cbn [items_defs_of] in Hd; try exact (IHi Hs' Hd).
      - destruct Hd as [<-|Hd]; [apply be_here, Hi|exact (IHi Hs' Hd)].
      - apply in_app_or in Hd. destruct Hd as [Hd|Hd]; [|exact (IHi Hs' Hd)].
        destruct (IH _ Hi m eq_refl _ _ Hd) as [->|K]; [exists [wt_item (nd_name m)]; split; [reflexivity|apply li_here, Hi]|].
        exact (from_deeper _ _ _ _ Hi K). }
    apply (G its); auto.
  - discriminate.
  - intros n IH m E. injection E as <-. exact IH.
  - discriminate.
  - discriminate.
Qed.
Lemma items_defs_from its path d : In d (items_defs path its) -> from_items its path d.
Proof.
  unfold items_defs. intros H.
  assert (G : forall its', (forall i, In i its' -> In i its) -> In d (items_defs_of node_defs path its') -> from_items its path d).
  { induction its' as [|i its' IHi]; intros Hs Hd; [destruct Hd|].
    assert (Hi : In i its) by (apply Hs; left; reflexivity).
    assert (Hs' : forall j, In j its' -> In j its) by (intros j Hj; apply Hs; right; exact Hj).
    destruct i as [p|m|t x|t x]; cbn [items_defs_of] in Hd; try exact (IHi Hs' Hd).
    - destruct Hd as [<-|Hd]; [apply be_here, Hi|exact (IHi Hs' Hd)].
    - apply in_app_or in Hd. destruct Hd as [Hd|Hd]; [|exact (IHi Hs' Hd)].
      destruct (node_defs_from m _ _ Hd) as [->|K]; [exists [wt_item (nd_name m)]; split; [reflexivity|apply li_here, Hi]|].
      exact (from_deeper _ _ _ _ Hi K). }
  apply (G its); auto.
Qed.
Lemma element_properties_bears e q : In q (element_properties e) <-> bears (element_items e) q.
Proof.
  assert (G : forall its path, In q (flat_map def_properties (items_defs path its)) <-> bears its q).
  { intros its path. rewrite in_flat_map. split.
    - intros (d & Hd & Hq). destruct d as [p n|p|c]; cbn [def_properties In] in Hq; try contradiction. destruct Hq as [<-|[]].
      exact (items_defs_from _ _ _ Hd).
    - intros H. exists (DProperty q). split; [apply bears_defs, H|left; reflexivity]. }
  destruct e as [a|n|r|s]; cbn [element_properties element_items].
  - split; [intros []|intros H; inversion H as [? ? K|? ? ? K]; destruct K].
  - rewrite node_defs_eq. cbn [flat_map def_properties app]. apply G.
  - apply G.
  - split; [intros []|intros H; inversion H as [? ? K|? ? ? K]; destruct K].
Qed.

Lemma source_dec (ft : file_type) : ft = DtSource \/ ft <> DtSource.
Proof. destruct ft; auto; right; discriminate. Qed.

Section World.
  Context (leads : include -> fpath -> Prop) (world : fpath -> file_type -> list primary -> Prop).
  Notation declared := (declared leads world).
  Notation target := (target leads world).
  Notation mentions := (mentions leads world).

  Lemma declared_app ft a b p n : declared ft a p n -> declared ft (a ++ b) p n.
  Proof.
    intros H. inversion H; subst.
    - apply de_root, in_or_app. left. assumption.
    - eapply de_below; [apply in_or_app; left; eassumption|assumption].
    - rewrite <- app_assoc. cbn [app]. eapply de_opened; eassumption.
    - eapply de_included; [apply in_or_app; left; eassumption|eassumption|eassumption|assumption].
  Qed.
  Lemma mentions_app a b l : mentions a l -> mentions (a ++ b) l.
  Proof.
    intros H. inversion H; subst.
    - eapply me_root; [apply in_or_app; left; eassumption|assumption].
    - eapply me_node; [apply in_or_app; left; eassumption|eassumption|assumption].
    - eapply me_property; [apply in_or_app; left; eassumption|eassumption|assumption].
    - eapply me_included; [apply in_or_app; left; eassumption|eassumption|eassumption|assumption].
  Qed.

  (** a context holds nothing but what the file says *)
  Definition describes (c : actx) (ft : file_type) (els : list primary) : Prop :=
    (forall p n, In (p, n) (ac_flat c) -> declared ft els p n) /\ (forall l x, In (l, x) (ac_labels c) -> mentions els l).
  Definition def_ok (ft : file_type) (ps : list primary) (d : def) : Prop :=
    match d with
    | DNode p n => declared ft ps p n /\ (forall l, label_is (nd_label n) l -> mentions ps l)
    | DProperty q => forall l, label_is (pr_label q) l -> mentions ps l
    | DInclude c => (forall p n, In (p, n) (ac_flat c) -> declared ft ps p n) /\ (forall l x, In (l, x) (ac_labels c) -> mentions ps l)
    end.
  Lemma def_ok_app ft a b d : def_ok ft a d -> def_ok ft (a ++ b) d.
  Proof.
    destruct d as [p n|q|c]; cbn [def_ok].
    - intros [H1 H2]. split; [apply declared_app, H1|intros l Hl; apply mentions_app, H2, Hl].
    - intros H l Hl. apply mentions_app, H, Hl.
    - intros [H1 H2]. split; [intros p n H; apply declared_app, H1, H|intros l x H; eapply mentions_app, H2, H].
  Qed.
  Lemma path_declared ft ps ds p n : Forall (def_ok ft ps) ds -> path_means ds p n -> declared ft ps p n.
  Proof.
    intros F (pre & d & post & -> & B & _). apply Forall_app in F. destruct F as [_ F]. inversion F as [|? ? D _]; subst.
    inversion B; subst; cbn [def_ok] in D; [exact (proj1 D)|]. apply (proj1 D). assumption.
  Qed.
  Lemma label_mentioned ft ps ds l x : Forall (def_ok ft ps) ds -> label_means ds l x -> mentions ps l.
  Proof.
    intros F (pre & d & post & -> & B & _). apply Forall_app in F. destruct F as [_ F]. inversion F as [|? ? D _]; subst.
    inversion B; subst; cbn [def_ok] in D; [apply (proj2 D); assumption|apply D; assumption|]. eapply (proj2 D). eassumption.
  Qed.
  (** a lookup in the result is a declaration *)
  Lemma lookups_describe ft ps ds c : Forall (def_ok ft ps) ds -> lookups ds c -> describes c ft ps.
  Proof.
    intros F ([N1 N2] & HL & HP). split.
    - intros p n H. apply (path_declared ft ps ds); [exact F|]. apply HP, m_in_get; assumption.
    - intros l x H. eapply label_mentioned; [exact F|]. apply HL, m_in_get; eassumption.
  Qed.

  Lemma substance_iff a : Forall (fun e => ~ substance e) a <-> ~ has_content a.
  Proof.
    assert (G : forall e, substance e <-> after_header e = true).
    { intros e. split; [intros []; reflexivity|]. destruct e as [[]| | |]; intros H; try discriminate H; constructor. }
    rewrite Forall_forall. split.
    - intros H (e & He & Hs). apply (H e He), G, Hs.
    - intros H e He Hs. apply H. exists e. split; [exact He|apply G, Hs].
  Qed.
  Lemma refers_iff q r : refers q r <-> In r (property_refs q).
  Proof.
    unfold property_refs. rewrite in_flat_map. split.
    - intros [H|a cs b H1 H2]; [exists (PVReference r)|exists (PVCells a cs b)]; (split; [assumption|]); cbn [value_refs]; [left; reflexivity|].
      apply in_flat_map. exists (CReference r). split; [exact H2|left; reflexivity].
    - intros (v & Hv & H). destruct v as [s|a cs b|r'|a ss b]; cbn [value_refs] in H; try destruct H as [H|[]]; try destruct H.
      + apply in_flat_map in H. destruct H as (c & Hc & H). destruct c as [n|r'|]; try destruct H as [H|[]]; try destruct H. eapply re_cell; eassumption.
      + apply re_value. exact Hv.
  Qed.
  Lemma string_iff v : (exists s, v = PVString s) <-> is_string v = true.
  Proof. destruct v as [s| | |]; split; try (intros (s' & E); discriminate E); try discriminate; eauto. Qed.

  (** ** Soundness: a silent analysis of a file *)
  Section Sound.
    Context (fs : fsys) (pj : project) (src : fpath) (scope : include -> Prop).
    Hypothesis Hleads : forall i k, include_path fs i = inl k -> leads i k.
    (** what is known of the included files when the file is analysed *)
    Hypothesis Hctx : forall i k f c, scope i -> include_path fs i = inl k -> get_file fs pj k = Some f -> pf_ctx f = Some c ->
      exists ft' els, world k ft' els /\ describes c ft' els.

    Lemma items_ok (ft : file_type) a e its q : element_items e = its ->
      (forall p n, lies its p n -> declared ft (a ++ [e]) (q ++ p) n) -> Forall (def_ok ft (a ++ [e])) (items_defs q its).
    Proof.
      intros He Hd. apply Forall_forall. intros d Hin. pose proof (items_defs_from _ _ _ Hin) as K. subst its.
      assert (Hi : In e (a ++ [e])) by (apply in_or_app; right; left; reflexivity).
      destruct d as [p n|r|c]; cbn [from_items def_ok] in *.
      - destruct K as (p' & -> & K). split; [apply Hd, K|]. intros l Hl. eapply me_node; [exact Hi|exact K|exact Hl].
      - intros l Hl. eapply me_property; [exact Hi|exact K|exact Hl].
      - destruct K.
    Qed.
    Lemma blame_found (ft : file_type) ps (r : wtok reference) found es : blame ft ps r found es -> es = [] -> found = true \/ ~ blames ft ps.
    Proof. intros H E. inversion H; subst; auto. discriminate. Qed.
    Lemma not_blames (ft : file_type) ps : ~ blames ft ps <-> unjudged ft ps.
    Proof.
      unfold blames, unjudged. split.
      - intros H. destruct (source_dec ft) as [E|E]; [right|left; exact E].
        destruct (existsb (fun p => match p with PDirective (APlugin _) => true | _ => false end) ps) eqn:X.
        + apply existsb_exists in X. destruct X as (p & Hp & X). destruct p as [[]| | |]; try discriminate X. eexists. exact Hp.
        + exfalso. apply H. split; [exact E|]. intros (t & Ht). assert (Y : existsb (fun p => match p with PDirective (APlugin _) => true | _ => false end) ps = true); [|congruence].
          apply existsb_exists. exists (PDirective (APlugin t)). auto.
      - intros [H|H] [B1 B2]; contradiction.
    Qed.
    Lemma opens_target (ft : file_type) a ds r p found : Forall (def_ok ft a) ds -> opens ds r p found -> found = true \/ unjudged ft a -> target ft a r p.
    Proof.
      intros F O H. inversion O; subst.
      - eapply ta_path, path_declared; eassumption.
      - destruct H as [H|H]; [discriminate|]. apply ta_unknown_path, H.
      - eapply ta_label; [eapply path_declared; eassumption|assumption].
      - destruct H as [H|H]; [discriminate|]. apply ta_unknown, H.
    Qed.

    Lemma element_sound (ft : file_type) a ds h e dp h' es : (forall i, e = PDirective (AInclude i) -> scope i) ->
      element fs pj src ft a ds h e dp h' es -> es = [] -> Forall (def_ok ft a) ds -> Forall (def_ok ft (a ++ [e])) dp.
    Proof.
      intros Hs H E F. inversion H; subst; try constructor.
      - (* include *) match goal with K : included _ _ _ _ _ _ _ _ |- _ => inversion K as [e0 X|p0 cy X Y|p0 X Y Z|p0 f0 ds0 es0 X Y Z T U]; subst; try constructor end.
        destruct (pf_ctx f0) as [c|] eqn:Ec; [|constructor]. constructor; [|constructor].
        destruct (Hctx _ _ _ _ (Hs i eq_refl) X Z Ec) as (ft' & els & W & D1 & D2).
        assert (Hi : In (PDirective (AInclude i)) (a ++ [PDirective (AInclude i)])) by (apply in_or_app; right; left; reflexivity).
        cbn [def_ok]. split.
        + intros p n Hp. eapply de_included; [exact Hi|apply Hleads, X|exact W|apply D1, Hp].
        + intros l x Hl. eapply me_included; [exact Hi|apply Hleads, X|exact W|eapply D2, Hl].
      - (* root *) rewrite node_defs_eq. assert (Hi : In (PRoot n) (a ++ [PRoot n])) by (apply in_or_app; right; left; reflexivity).
        constructor.
        + cbn [def_ok]. split; [apply de_root, Hi|]. intros l Hl. eapply me_root; [exact Hi|exact Hl].
        + apply items_ok; [reflexivity|]. intros p m Hp. cbn [app]. eapply de_below; [exact Hi|exact Hp].
      - (* opened *) match goal with K : _ ++ _ = [] |- _ => apply app_eq_nil in K; destruct K as [E _] end. apply items_ok; [reflexivity|]. intros q n Hq.
        apply de_opened; [|exact Hq]. eapply opens_target; [exact F|eassumption|].
        match goal with B : blame _ _ _ _ _ |- _ => destruct (blame_found _ _ _ _ _ B E) as [Hf|Hf]; [left; exact Hf|right; apply not_blames, Hf] end.
      - (* assumed *) apply items_ok; [reflexivity|]. intros q n Hq. apply (de_opened leads world ft a r [] []); [|exact Hq]. apply ta_unknown. left. assumption.
    Qed.
    Lemma elements_sound (ft : file_type) l : forall a ds h ds' h' es, (forall i, In (PDirective (AInclude i)) l -> scope i) ->
      elements fs pj src ft a ds h l ds' h' es -> es = [] -> Forall (def_ok ft a) ds -> Forall (def_ok ft (a ++ l)) ds'.
    Proof.
      induction l as [|e l IH]; intros a ds h ds' h' es Hs H E F.
      - apply elements_nil_inv in H. destruct H as (-> & _). rewrite app_nil_r. exact F.
      - apply elements_cons_inv in H. destruct H as (dp & h1 & ep & e2 & A & B & ->). apply app_eq_nil in E. destruct E as [E1 E2].
        replace (a ++ e :: l) with ((a ++ [e]) ++ l) by (rewrite <- app_assoc; reflexivity). eapply IH; [intros i Hi; apply Hs; right; exact Hi|exact B|exact E2|].
        apply Forall_app. split; [|eapply element_sound; [intros i ->; apply Hs; left; reflexivity|eassumption..]]. eapply Forall_impl; [|exact F]. intros d. apply def_ok_app.
    Qed.
    Lemma references_sound (ft : file_type) ps ds l rs : reference_diags ft ps ds l rs -> rs = [] -> blames ft ps -> forall r, In r l -> resolves ds (wt_item r).
    Proof.
      induction 1 as [|r l found es es' K1 K2 K3 IH]; intros E B x Hx; [destruct Hx|]. apply app_eq_nil in E. destruct E as [E1 E2].
      destruct Hx as [<-|Hx]; [|exact (IH E2 B x Hx)]. apply K1. destruct (blame_found _ _ _ _ _ K2 E1) as [Hf|Hf]; [exact Hf|contradiction].
    Qed.
    Lemma element_compatible (ft : file_type) a ds h e dp h' es : element fs pj src ft a ds h e dp h' es -> es = [] ->
      flat_map compatible_diags (element_properties e) = [].
    Proof.
      intros H E. inversion H; subst; try reflexivity; try assumption.
      match goal with K : _ ++ _ = [] |- _ => apply app_eq_nil in K; exact (proj2 K) end.
    Qed.
    Lemma file_sound (ft : file_type) h ps ds h' : analysis_of fs pj src ft h ps ds h' [] ->
      (forall i, In (PDirective (AInclude i)) ps -> scope i) -> (forall i, In (PDirective (AInclude i)) ps -> exists k ft' els, leads i k /\ world k ft' els) ->
      Forall (def_ok ft ps) ds /\ correct leads world ft ps.
    Proof.
      intros H Hs Hinc. inversion H as [ds0 h0 es vs rs H1 H2 H3]; subst. match goal with K : _ ++ _ = [] |- _ => apply app_eq_nil in K; destruct K as [-> E] end. apply app_eq_nil in E. destruct E as [-> ->].
      pose proof (elements_sound _ _ _ _ _ _ _ _ Hs H1 eq_refl (Forall_nil _)) as F. cbn [app] in F. split; [exact F|]. constructor.
      - intros Hft. inversion H2 as [|[K|K]]; subst; [contradiction|exact K].
      - intros a t b El. rewrite El in H1. apply elements_at in H1. destruct H1 as (ds1 & h1 & e1 & dp & h2 & ep & new & e2 & X1 & X2 & X3 & _ & E).
        symmetry in E. apply app_eq_nil in E. destruct E as [_ E]. apply app_eq_nil in E. destruct E as [-> _].
        inversion X2; subst. match goal with K : header_diags _ _ _ |- _ => inversion K; subst end. rewrite substance_iff. auto.
      - intros a e b r El Hr Hj. rewrite El in H1. apply elements_at in H1. destruct H1 as (ds1 & h1 & e1 & dp & h2 & ep & new & e2 & X1 & X2 & X3 & _ & E).
        symmetry in E. apply app_eq_nil in E. destruct E as [-> E]. apply app_eq_nil in E. destruct E as [-> _].
        pose proof (elements_sound _ _ _ _ _ _ _ _ (fun i Hi => Hs i ltac:(rewrite El; apply in_or_app; left; exact Hi)) X1 eq_refl (Forall_nil _)) as Fa. cbn [app] in Fa.
        inversion X2; subst; cbn [handle] in Hr; try discriminate Hr.
        + injection Hr as <-. match goal with B : blame _ _ _ _ _, O : opens _ _ _ _ |- _ => destruct (blame_found _ _ _ _ _ B eq_refl) as [Hf|Hf]; [exists p; eapply opens_target; [exact Fa|exact O|left; exact Hf]|] end.
          destruct Hj. apply not_blames, Hf.
        + injection Hr as <-. match goal with K : _ ++ _ = [] |- _ => apply app_eq_nil in K; destruct K as [E0 _] end.
          match goal with B : blame _ _ _ _ _, O : opens _ _ _ _ |- _ => destruct (blame_found _ _ _ _ _ B E0) as [Hf|Hf]; [exists p; eapply opens_target; [exact Fa|exact O|left; exact Hf]|] end.
          destruct Hj. apply not_blames, Hf.
        + injection Hr as <-. destruct Hj. left. assumption.
      - intros Hj e q r He Hq Hr.
        assert (B : blames ft ps).
        { split; [destruct (source_dec ft) as [X|X]; [exact X|destruct Hj; left; exact X]|]. intros X. apply Hj. right. exact X. }
        assert (Hin : In r (all_references ps)).
        { unfold all_references, all_properties. apply in_flat_map. exists q. split; [|apply refers_iff, Hr]. apply in_flat_map. exists e. split; [exact He|].
          apply element_properties_bears, Hq. }
        pose proof (references_sound _ _ _ _ _ H3 eq_refl B r Hin) as R. unfold named. destruct (wt_item r) as [l|p]; cbn [resolves] in R.
        + destruct R as [x R]. eapply label_mentioned; eassumption.
        + destruct R as [n R]. exists n. eapply path_declared; eassumption.
      - intros e q v He Hq Hn Hv. apply in_split in He. destruct He as (a & b & El). rewrite El in H1. apply elements_at in H1.
        destruct H1 as (ds1 & h1 & e1 & dp & h2 & ep & new & e2 & X1 & X2 & X3 & _ & E).
        symmetry in E. apply app_eq_nil in E. destruct E as [-> E]. apply app_eq_nil in E. destruct E as [-> _].
        apply element_properties_bears in Hq.
        assert (K : flat_map compatible_diags (element_properties e) = []).
        { eapply element_compatible; [exact X2|reflexivity]. }
        apply string_iff. destruct (is_string v) eqn:Es; [reflexivity|exfalso].
        assert (Kx : In (non_string_diag v) (flat_map compatible_diags (element_properties e))).
        { apply in_flat_map. exists q. split; [exact Hq|]. unfold compatible_diags. rewrite Hn. destruct (str_eq_dec (bs "compatible") (bs "compatible")) as [_|X]; [|congruence].
          apply in_map, filter_In. split; [exact Hv|]. rewrite Es. reflexivity. }
        rewrite K in Kx. destruct Kx.
      - exact Hinc.
    Qed.
  End Sound.

  (** ** Completeness: the analysis of a correct file is silent *)
  Lemma declared_snoc ft a e p n : declared ft (a ++ [e]) p n -> declared ft a p n
    \/ (exists m, e = PRoot m /\ (p = [] /\ n = m \/ lies (pl_items (nd_payload m)) p n))
    \/ (exists r q p', e = PReferencedNode r /\ p = q ++ p' /\ target ft a (wt_item (rn_reference r)) q /\ lies (pl_items (rn_payload r)) p' n)
    \/ (exists i k ft' els, e = PDirective (AInclude i) /\ leads i k /\ world k ft' els /\ declared ft' els p n).
  Proof.
    intros H. inversion H as [ft0 ps n0 K|ft0 ps n0 p0 m K L|ft0 a0 r b q p' m T L|ft0 ps i k ft' els p0 m K L W D]; subst.
    - apply in_app_or in K. destruct K as [K|[->|[]]]; [left; apply de_root, K|right; left; exists n; auto].
    - apply in_app_or in K. destruct K as [K|[->|[]]]; [left; eapply de_below; eassumption|right; left; exists n0; auto].
    - destruct b as [|x b _] using rev_ind.
      + match goal with E : _ ++ [_] = a ++ [e] |- _ => apply app_inj_tail in E; destruct E as [-> <-] end. right. right. left. exists r, q, p'. auto.
      + match goal with E : a0 ++ _ :: b ++ [x] = a ++ [e] |- _ => rewrite app_comm_cons, app_assoc in E; apply app_inj_tail in E; destruct E as [<- _] end.
        left. apply de_opened; assumption.
    - apply in_app_or in K. destruct K as [K|[->|[]]]; [left; eapply de_included; eassumption|]. right. right. right. exists i, k, ft', els. auto.
  Qed.
  Lemma mentions_snoc a e l : mentions (a ++ [e]) l -> mentions a l
    \/ (exists m, e = PRoot m /\ label_is (nd_label m) l)
    \/ (exists p n, lies (element_items e) p n /\ label_is (nd_label n) l)
    \/ (exists q, bears (element_items e) q /\ label_is (pr_label q) l)
    \/ (exists i k ft' els, e = PDirective (AInclude i) /\ leads i k /\ world k ft' els /\ mentions els l).
  Proof.
    intros H. inversion H as [ps n l0 K L|ps e0 p n l0 K L M|ps e0 q l0 K L M|ps i k ft els l0 K L W M]; subst;
      apply in_app_or in K; destruct K as [K|[->|[]]]; eauto 7.
    - left. eapply me_root; eassumption.
    - left. eapply me_node; eassumption.
    - left. eapply me_property; eassumption.
    - left. eapply me_included; eassumption.
    - do 4 right. exists i, k, ft, els. auto.
  Qed.

  (** what is declared is bound *)
  Definition bound (ft : file_type) (ps : list primary) (ds : list def) : Prop :=
    (forall p n, declared ft ps p n -> exists d m, In d ds /\ binds_path p d m)
    /\ (forall l, mentions ps l -> exists d x, In d ds /\ binds_label l d x).
  Definition covers (c : actx) (ft : file_type) (els : list primary) : Prop :=
    (forall p n, declared ft els p n -> exists m, In (p, m) (ac_flat c)) /\ (forall l, mentions els l -> exists x, In (l, x) (ac_labels c)).
  (** a label stays with one node, and the node keeps it where it is written again *)
  Definition clear_labels (ft : file_type) (ps : list primary) : Prop :=
    (forall l p n q m, declared ft ps p n -> label_is (nd_label n) l -> declared ft ps q m -> label_is (nd_label m) l -> p = q)
    /\ (forall l p n m, declared ft ps p n -> label_is (nd_label n) l -> declared ft ps p m -> label_is (nd_label m) l).
  (** references are judged, or nothing is opened *)
  Definition tame (ft : file_type) (ps : list primary) : Prop :=
    ~ unjudged ft ps \/ forall r, ~ In (PReferencedNode r) ps.

  Lemma bound_path ft ps ds p n : bound ft ps ds -> declared ft ps p n -> exists m, path_means ds p m.
  Proof. intros [H _] D. destruct (H _ _ D) as (d & m & Hd & Hb). exact (last_of_exists _ (binds_path_dec p) ds d m Hd Hb). Qed.
  Lemma bound_label ft ps ds l : bound ft ps ds -> mentions ps l -> exists x, label_means ds l x.
  Proof. intros [_ H] D. destruct (H _ D) as (d & x & Hd & Hb). exact (last_of_exists _ (binds_label_dec l) ds d x Hd Hb). Qed.
  Lemma bound_covers ft ps ds c : bound ft ps ds -> lookups ds c -> covers c ft ps.
  Proof.
    intros B (_ & HL & HP). split.
    - intros p n H. destruct (bound_path _ _ _ _ _ B H) as [m Hm]. exists m. eapply m_get_in, HP, Hm.
    - intros l H. destruct (bound_label _ _ _ _ B H) as [x Hx]. exists x. eapply m_get_in, HL, Hx.
  Qed.
  Lemma unjudged_app ft a b : unjudged ft a -> unjudged ft (a ++ b).
  Proof. intros [H|(t & H)]; [left; exact H|right; exists t; apply in_or_app; left; exact H]. Qed.

  (** a list in two parts; a name of its own keeps the equation out of substitutions *)
  Definition parts {A} (l a b : list A) : Prop := l = a ++ b.
  Section Complete.
    Context (fs : fsys) (pj : project) (src : fpath) (ft : file_type) (full : list primary) (E : fpath -> fpath -> Prop).
    Hypothesis Hleads : forall i k, include_path fs i = inl k <-> leads i k.
    Hypothesis Hcorrect : correct leads world ft full.
    Hypothesis Hclear : clear_labels ft full.
    Hypothesis Htame : tame ft full.
    Hypothesis Hfiles : forall i k ft' els, In (PDirective (AInclude i)) full -> leads i k -> world k ft' els ->
      exists f c, get_file fs pj k = Some f /\ pf_ctx f = Some c /\ (forall d, ~ error_diag pj f d) /\ covers c ft' els.
    Hypothesis Hctx : forall i k f c, In (PDirective (AInclude i)) full -> include_path fs i = inl k -> get_file fs pj k = Some f -> pf_ctx f = Some c ->
      exists ft' els, world k ft' els /\ describes c ft' els.
    Hypothesis Hacyclic : forall q, ~ on_cycle E q.
    Hypothesis Hedges : forall i k, In (PDirective (AInclude i)) full -> include_path fs i = inl k -> E k src.

    Lemma opens_found a b ds r p found q : parts full a b -> Forall (def_ok ft a) ds -> bound ft a ds -> target ft a r q -> ~ unjudged ft a ->
      opens ds r p found -> found = true /\ p = q.
    Proof.
      intros Ef F B T J O. inversion T as [f0 a0 p0 n D|f0 a0 l p0 n D L|f0 a0 r0 U|f0 a0 p0 U]; subst; try contradiction.
      - destruct (bound_path _ _ _ _ _ B D) as [m Hm]. inversion O; subst; [auto|]. match goal with K : forall n, ~ _ |- _ => destruct (K m Hm) end.
      - destruct Hclear as [C1 C2]. inversion O as [|? K|l' p' n' P L'|l' K]; subst.
        + split; [reflexivity|]. apply (C1 l p n' q n); try assumption; rewrite Ef; apply declared_app; [|exact D]. eapply path_declared; eassumption.
        + exfalso. destruct (bound_path _ _ _ _ _ B D) as [m Hm]. apply (K q m Hm). apply (C2 l q n m); try assumption; rewrite Ef; apply declared_app; [exact D|].
          eapply path_declared; eassumption.
    Qed.
    Lemma compatible_fine e : In e full -> flat_map compatible_diags (element_properties e) = [].
    Proof.
      intros He. assert (G : forall q, In q (element_properties e) -> compatible_diags q = []).
      { intros q Hq. apply element_properties_bears in Hq. unfold compatible_diags. destruct (str_eq_dec (wt_item (pr_name q)) (bs "compatible")) as [En|]; [|reflexivity].
        assert (K : forall v, In v (pr_values q) -> is_string v = true) by (intros v Hv; apply string_iff; eapply (co_compatible _ _ _ _ Hcorrect); eassumption).
        induction (pr_values q) as [|v vs IH]; [reflexivity|]. cbn [filter]. rewrite (K v) by (left; reflexivity). cbn [negb]. apply IH. intros w Hw. apply K. right. exact Hw. }
      induction (element_properties e) as [|q l IH]; [reflexivity|]. cbn [flat_map]. rewrite G by (left; reflexivity). apply IH. intros x Hx. apply G. right. exact Hx.
    Qed.
    Lemma blame_fine a r found es : found = true \/ ~ blames ft a -> blame ft a r found es -> es = [].
    Proof. intros H B. inversion B; subst; try reflexivity. destruct H as [H|H]; [discriminate|contradiction]. Qed.

    Lemma element_silent a b ds h e dp h' es : parts full a (e :: b) -> Forall (def_ok ft a) ds -> bound ft a ds -> inside E h ->
      element fs pj src ft a ds h e dp h' es -> es = [] /\ inside E h'.
    Proof.
      intros Ef F B I H. assert (He : In e full) by (rewrite Ef; apply in_or_app; right; left; reflexivity).
      assert (Hopen : forall r p found es, handle e = Some (wt_item r) -> opens ds (wt_item r) p found -> blame ft a r found es -> es = []).
      { intros r p found es' Hr O Bl. eapply blame_fine; [|exact Bl].
        destruct (source_dec ft) as [S|S]; [|right; intros [K _]; contradiction].
        assert (D : unjudged ft a \/ ~ unjudged ft a).
        { destruct (existsb (fun p => match p with PDirective (APlugin _) => true | _ => false end) a) eqn:X.
          - left. right. apply existsb_exists in X. destruct X as (x & Hx & X). destruct x as [[]| | |]; try discriminate X. eexists. exact Hx.
          - right. intros [K|(t & Ht)]; [contradiction|]. assert (Y : existsb (fun p => match p with PDirective (APlugin _) => true | _ => false end) a = true); [|congruence].
            apply existsb_exists. exists (PDirective (APlugin t)). auto. }
        destruct D as [D|D]; [right; apply not_blames, D|left].
        destruct (co_opened _ _ _ _ Hcorrect a e b _ Ef Hr D) as [q T]. exact (proj1 (opens_found a (e :: b) ds _ p found q Ef F B T D O)). }
      pose proof (compatible_fine e He) as Hcomp.
      inversion H; subst; try (split; [|exact I]); try reflexivity.
      - destruct (co_first _ _ _ _ Hcorrect _ _ _ Ef) as [K1 K2]. rewrite substance_iff in K2. match goal with K : header_diags _ _ _ |- _ => inversion K; subst end; try contradiction. reflexivity.
      - destruct (co_includes _ _ _ _ Hcorrect i He) as (k & ft' & els & L & W). destruct (Hfiles i k ft' els He L W) as (f & c & G & Ec & Hn & _).
        apply Hleads in L. pose proof (Hedges i k He L) as Ek.
        match goal with K : included _ _ _ _ _ _ _ _ |- _ => inversion K as [e0 X|p0 cy X Y|p0 X Y Z|p0 f0 ds0 es0 X Y Z T U]; subst end;
          [congruence| | |]; assert (p0 = k) as -> by congruence.
        + exfalso. apply simple_on_cycle in Y. revert Y. apply (inside_cycle E (fun _ => True) (fun q _ => Hacyclic q)); [|exact Logic.I]. apply inside_snoc; assumption.
        + congruence.
        + assert (f0 = f) as -> by congruence. split; [|apply inside_snoc; assumption]. destruct U as [[(d & Hd) _]|[_ U]]; [destruct (Hn d Hd)|exact U].
      - eapply Hopen; try eassumption. reflexivity.
      - exact Hcomp.
      - match goal with K : blame _ _ _ _ _ |- _ => rewrite (Hopen _ _ _ _ eq_refl ltac:(eassumption) K) end. exact Hcomp.
      - exact Hcomp.
    Qed.
    Lemma element_bound a b ds h e dp h' es : parts full a (e :: b) -> Forall (def_ok ft a) ds -> bound ft a ds ->
      element fs pj src ft a ds h e dp h' es -> (forall p, In (PDirective (AInclude p)) [e] -> exists k f c, include_path fs p = inl k /\ get_file fs pj k = Some f /\ pf_ctx f = Some c /\ dp = [DInclude c]) ->
      bound ft (a ++ [e]) (ds ++ dp).
    Proof.
      intros Ef F B H Hi. assert (He : In e full) by (rewrite Ef; apply in_or_app; right; left; reflexivity).
      assert (Hinc : forall i k ft' els, e = PDirective (AInclude i) -> leads i k -> world k ft' els -> exists c, In (DInclude c) dp /\ covers c ft' els).
      { intros i k ft' els -> L W. destruct (Hfiles i k ft' els He L W) as (f & c & G & Ec & _ & C). destruct (Hi i (or_introl eq_refl)) as (k' & f' & c' & X1 & X2 & X3 & ->).
        apply Hleads in L. assert (k' = k) as -> by congruence. assert (f' = f) as -> by congruence. assert (c' = c) as -> by congruence.
        exists c. split; [left; reflexivity|exact C]. }
      split.
      - intros p n D. apply declared_snoc in D. destruct D as [D|[(m & -> & D)|[(r & q & p' & -> & -> & T & L)|(i & k & ft' & els & -> & L & W & D)]]].
        + destruct (proj1 B _ _ D) as (d & m & Hd & Hb). exists d, m. split; [apply in_or_app; left; exact Hd|exact Hb].
        + inversion H; subst. exists (DNode p n), n. split; [|constructor]. apply in_or_app. right. rewrite node_defs_eq.
          destruct D as [[-> ->]|D]; [left; reflexivity|right; apply (lies_defs _ _ _ D [])].
        + assert (J : ~ unjudged ft a).
          { destruct Htame as [J|J]; [|destruct (J r He)]. intros K. apply J. rewrite Ef. apply unjudged_app, K. }
          assert (Ho : exists p0 found, opens ds (wt_item (rn_reference r)) p0 found /\ dp = items_defs p0 (pl_items (rn_payload r))).
          { inversion H; [eauto|destruct J; left; assumption]. }
          destruct Ho as (p0 & found & O & ->). destruct (opens_found a (PReferencedNode r :: b) ds _ _ _ _ Ef F B T J O) as [_ ->].
          exists (DNode (q ++ p') n), n. split; [|constructor]. apply in_or_app. right. apply lies_defs, L.
        + destruct (Hinc i k ft' els eq_refl L W) as (c & Hc & [C _]). destruct (C _ _ D) as [m Hm]. exists (DInclude c), m.
          split; [apply in_or_app; right; exact Hc|constructor; exact Hm].
      - intros l M. apply mentions_snoc in M. destruct M as [M|[(m & -> & M)|[(p & n & L & M)|[(q & L & M)|(i & k & ft' & els & -> & L & W & M)]]]].
        + destruct (proj2 B _ M) as (d & x & Hd & Hb). exists d, x. split; [apply in_or_app; left; exact Hd|exact Hb].
        + inversion H; subst. exists (DNode [] m), (LNode m). split; [|constructor; exact M]. apply in_or_app. right. rewrite node_defs_eq. left. reflexivity.
        + assert (G : exists p', In (DNode p' n) dp).
          { inversion H; subst; cbn [element_items] in L; try (inversion L as [? ? K|? ? ? ? K]; destruct K; fail).
            - exists ([] ++ p). rewrite node_defs_eq. right. apply lies_defs, L.
            - eexists. apply lies_defs, L.
            - eexists. apply lies_defs, L. }
          destruct G as [p' G]. exists (DNode p' n), (LNode n). split; [apply in_or_app; right; exact G|constructor; exact M].
        + assert (G : In (DProperty q) dp).
          { inversion H; subst; cbn [element_items] in L; try (inversion L as [? ? K|? ? ? K]; destruct K; fail).
            - rewrite node_defs_eq. right. apply bears_defs, L.
            - apply bears_defs, L.
            - apply bears_defs, L. }
          exists (DProperty q), (LProperty q). split; [apply in_or_app; right; exact G|constructor; exact M].
        + destruct (Hinc i k ft' els eq_refl L W) as (c & Hc & [_ C]). destruct (C _ M) as [x Hx]. exists (DInclude c), x.
          split; [apply in_or_app; right; exact Hc|constructor; exact Hx].
    Qed.

    Lemma element_dp a ds h e dp h' es : In e full -> inside E h -> element fs pj src ft a ds h e dp h' es ->
      forall p, In (PDirective (AInclude p)) [e] -> exists k f c, include_path fs p = inl k /\ get_file fs pj k = Some f /\ pf_ctx f = Some c /\ dp = [DInclude c].
    Proof.
      intros He I H i [->|[]]. destruct (co_includes _ _ _ _ Hcorrect i He) as (k & ft' & els & L & W). destruct (Hfiles i k ft' els He L W) as (f & c & G & Ec & _).
      apply Hleads in L. pose proof (Hedges i k He L) as Ek.
      assert (K : included fs pj src h i dp h' es) by (inversion H; assumption).
      exists k, f, c. split; [exact L|]. split; [exact G|]. split; [exact Ec|].
      inversion K as [e0 X|p0 cy X Y|p0 X Y Z|p0 f0 ds0 es0 X Y Z T U]; [congruence| | |]; assert (E0 : p0 = k) by congruence.
      - exfalso. subst p0. apply simple_on_cycle in Y. revert Y. apply (inside_cycle E (fun _ => True) (fun q _ => Hacyclic q)); [|exact Logic.I]. apply inside_snoc; assumption.
      - congruence.
      - subst p0. assert (E1 : f0 = f) by congruence. subst f0. rewrite T, Ec. reflexivity.
    Qed.
    Lemma elements_silent l : forall a ds h ds' h' es, parts full a l -> Forall (def_ok ft a) ds -> bound ft a ds -> inside E h ->
      elements fs pj src ft a ds h l ds' h' es -> es = [] /\ Forall (def_ok ft full) ds' /\ bound ft full ds'.
    Proof.
      induction l as [|e l IH]; intros a ds h ds' h' es Ef F B I H.
      - apply elements_nil_inv in H. destruct H as (-> & _ & ->). unfold parts in Ef. rewrite app_nil_r in Ef. rewrite Ef. auto.
      - apply elements_cons_inv in H. destruct H as (dp & h1 & ep & er & He & Hl & ->).
        destruct (element_silent a l ds h e dp h1 ep Ef F B I He) as [-> I1].
        assert (Hin : In e full) by (rewrite Ef; apply in_or_app; right; left; reflexivity).
        pose proof (element_bound a l ds h e dp h1 [] Ef F B He (element_dp a ds h e dp h1 [] Hin I He)) as B1.
        destruct (IH (a ++ [e]) (ds ++ dp) h1 ds' h' er) as (-> & X & Y); auto.
        + unfold parts. rewrite <- app_assoc. exact Ef.
        + apply Forall_app. split; [|exact (element_sound fs pj src (fun i => In (PDirective (AInclude i)) full) (fun i k => proj1 (Hleads i k)) Hctx ft a ds h e dp h1 [] (fun i Ei => eq_ind e (fun x => In x full) Hin _ Ei) He eq_refl F)].
          eapply Forall_impl; [|exact F]. intros d. apply def_ok_app.
    Qed.
    Lemma references_silent ds l es : bound ft full ds -> (forall r, In r l -> ~ unjudged ft full -> named leads world ft full (wt_item r)) ->
      reference_diags ft full ds l es -> es = [].
    Proof.
      intros B Hn H. induction H as [|r l found es es' K1 K2 K3 IH]; [reflexivity|].
      rewrite IH by (intros x Hx; apply Hn; right; exact Hx). rewrite app_nil_r.
      inversion K2 as [|K4|K4]; [reflexivity|reflexivity|]. subst. assert (J : ~ unjudged ft full) by (intros [J|J]; destruct K4; contradiction).
      specialize (Hn r (or_introl eq_refl) J). exfalso. assert (X : false = true); [|discriminate X]. apply K1. unfold named in Hn. destruct (wt_item r) as [x|x]; cbn [resolves].
      - exact (bound_label _ _ _ _ B Hn).
      - destruct Hn as [n Hn]. exact (bound_path _ _ _ _ _ B Hn).
    Qed.
    Lemma file_silent ds h' es : analysis_of fs pj src ft [] full ds h' es -> es = [] /\ Forall (def_ok ft full) ds /\ bound ft full ds.
    Proof.
      intros H. inversion H as [ds0 h0 es1 vs rs H1 H2 H3]; subst ds0 h0.
      destruct (elements_silent full [] [] [] ds h' es1 eq_refl (Forall_nil _)) as (-> & F & B); [split| |exact H1|].
      - intros p n D. exfalso. inversion D; match goal with K : In _ [] |- _ => destruct K | K : _ ++ _ :: _ = [] |- _ => destruct (app_cons_not_nil _ _ _ (eq_sym K)) end.
      - intros l M. exfalso. inversion M; match goal with K : In _ [] |- _ => destruct K end.
      - intros a b K. destruct K as (ps & K & _). destruct K.
      - split; [|split; [exact F|exact B]]. cbn [app].
        assert (Hv : vs = []).
        { inversion H2 as [X Y|X]; [|reflexivity]. destruct Y. apply (co_header _ _ _ _ Hcorrect X). }
        rewrite Hv. cbn [app]. apply (references_silent ds (all_references full) rs B); [|exact H3].
        intros r Hr J. unfold all_references, all_properties in Hr. apply in_flat_map in Hr. destruct Hr as (q & Hq & Hr). apply in_flat_map in Hq. destruct Hq as (e & He & Hq).
        eapply (co_named _ _ _ _ Hcorrect J); [exact He|apply element_properties_bears, Hq|apply refers_iff, Hr].
    Qed.
  End Complete.
End World.
