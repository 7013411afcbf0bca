(** Property theorems on exact diagnostics: C13, C14, C15, C18 *)
From Verif Require Import Parser LexSpec ReaderProofs Utf8 LexerProofs LexerProofs2 LexerProofs3 ParserBase ParserSafe ParserSafe2
  Grammar NameProofs TokParser ParserSim GrammarComplete GrammarSound ParserReport TreeSpec TreeProofs PropsParser PropsGrammar.
From Verif Require Import ParserSafe.

Lemma relex_ok text src p : valid_utf8 text = true -> Forall tok_ok (relex text src p).
Proof.
  intros Hv. unfold relex. assert (G : forall t a, text = a ++ t -> Forall tok_ok (relex_go src a t p)).
  { induction t as [|c t IH]; intros a Ha; cbn [relex_go]; destruct (pos_leb (pos_after a) p && pos_leb p (pos_after a)) eqn:E.
    1,3: (match goal with |- context [lex_all (mkLexer (mkReader ?t _) _ _ _)] =>
        destruct (lexed_total src NameExpected a t) as [toks H];
        unfold lex_all; cbn [lx_rd rd_rest];
        rewrite (lex_all_complete src NameExpected a t toks H);
          [eapply lexed_ok; [exact H|rewrite <- Ha; exact Hv]|reflexivity|rewrite <- Ha; exact Hv|lia] end).
    - constructor.
    - apply IH. rewrite Ha, <- app_assoc. reflexivity. }
  apply (G text []). reflexivity.
Qed.

Definition looks_same (d d' : diag) : Prop :=
  dg_kind d = dg_kind d' /\ dg_span d = dg_span d' /\ dg_source d = dg_source d'.
Lemma filter_sim ds ds' : Forall2 diag_sim ds ds' -> Forall2 looks_same (filter reported ds) (filter reported ds').
Proof.
  induction 1 as [|d d' ds ds' (H1 & H2 & H3 & H4) _ IH]; [constructor|]. cbn [filter].
  assert (E : reported d = reported d') by (unfold reported; rewrite H1; reflexivity). rewrite <- E.
  destruct (reported d) eqn:Er; [|exact IH]. constructor; [|exact IH].
  split; [exact H1|]. split; [|exact H2]. unfold reported in Er.
  destruct H4 as [H|[H|H]]; [rewrite H in Er; discriminate|rewrite H in Er; discriminate|exact H].
Qed.
Lemma site_report_same src x ds ds' : Forall2 looks_same ds ds' -> site_report src x ds' -> site_report src x ds.
Proof.
  intros Hs H. destruct H; repeat match goal with
    | H : Forall2 looks_same _ [] |- _ => inversion H; subst; clear H
    | H : Forall2 looks_same _ [_] |- _ => inversion H as [|y z ? ? (L1 & L2 & L3) Hn]; subst; clear H; inversion Hn; subst; clear Hn
    | H : on_token _ _ _ |- _ => destruct H as (K1 & K2 & K3)
    end.
  - eapply sr_number; eassumption.
  - eapply sr_bad_number; eauto. repeat split; congruence.
  - eapply sr_bytes; eassumption.
  - eapply sr_odd_bytes; eauto. repeat split; congruence.
  - eapply sr_bad_bytes; eauto. repeat split; congruence.
  - apply sr_no_bytes. assumption.
  - apply sr_late; congruence.
Qed.
Lemma report_same src st ds' : report src st ds' -> forall ds, Forall2 looks_same ds ds' -> report src st ds.
Proof.
  induction 1 as [|x l d d2 Hx _ IH]; intros ds Hs.
  - inversion Hs; subst. constructor.
  - apply Forall2_app_inv_r in Hs. destruct Hs as (d1 & d3 & H1 & H3 & ->). constructor; [|auto].
    eapply site_report_same; eassumption.
Qed.

(** The common theorem. [file_sites] lists the numbers, byte strings and misplaced properties of the
    tree in source order, [site_report] says which diagnostics each must have. *)
Theorem reports_exact : forall incl text src f ds,
  valid_utf8 text = true -> parses incl text src f ds -> report src (file_sites f) (filter reported ds).
Proof.
  intros incl text src f ds Hv (s & E & <-). destruct (tokenize_total text src Hv) as [toks Ht].
  pose proof (parse_sim incl text src toks Hv Ht) as H. rewrite E in H. unfold t_parse in H.
  apply (tokenize_iff text src toks Hv) in Ht.
  assert (Ho : Forall tok_ok toks) by (eapply lexed_ok; [exact Ht|exact Hv]).
  pose proof (says_file src incl (relex text src) (fun p => relex_ok text src p Hv) (S (S (length text))) toks Ho []) as G.
  destruct (t_p_file src incl (relex text src) _ (mkTS toks [])) as [f' st|d st|]; try contradiction.
  destruct H as [<- Hd], G as (new & E' & _ & R). cbn [app] in E'. rewrite <- E' in R.
  eapply report_same; [exact R|]. apply filter_sim. exact Hd.
Qed.
Print Assumptions reports_exact.

(** ** What it says about single numbers *)
Lemma report_in src st ds x : report src st ds -> In x st -> exists d, site_report src x d /\ incl d ds.
Proof.
  induction 1 as [|y l d ds Hy _ IH]; intros [].
  - subst y. exists d. split; [exact Hy|]. apply incl_appl, incl_refl.
  - destruct (IH H) as (d' & H1 & H2). exists d'. split; [exact H1|]. apply incl_appr, H2.
Qed.
Lemma report_inv src st ds d : report src st ds -> In d ds -> exists x, In x st /\ exists l, site_report src x l /\ In d l.
Proof.
  induction 1 as [|y l d' ds Hy _ IH]; intros Hin; [destruct Hin|]. apply in_app_iff in Hin. destruct Hin as [Hin|Hin].
  - exists y. split; [left; reflexivity|]. eauto.
  - destruct (IH Hin) as (x & H1 & H2). exists x. split; [right; exact H1|exact H2].
Qed.

(** the numbers in cells and the memory reservations of a tree *)
Definition value_cells (v : prop_value) : list cell := match v with PVCells _ cs _ => cs | _ => [] end.
Fixpoint node_properties (n : node) : list property :=
  match n with
  | mkNode _ _ (mkPayload its _) _ =>
    flat_map (fun i => match i with IProperty p => [p] | INode m => node_properties m | _ => [] end) its
  end.
Definition items_properties (its : list item) : list property :=
  flat_map (fun i => match i with IProperty p => [p] | INode m => node_properties m | _ => [] end) its.
Definition primary_properties (p : primary) : list property :=
  match p with
  | PRoot n => node_properties n
  | PReferencedNode r => items_properties (pl_items (rn_payload r))
  | _ => []
  end.
(** all properties, at any depth *)
Definition file_properties (f : dts_file) : list property := flat_map primary_properties (fl_elements f).
Definition cell_of (f : dts_file) (w : wtok N) : Prop :=
  exists p v, In p (file_properties f) /\ In v (pr_values p) /\ In (CNumber w) (value_cells v).
Definition bytes_of (f : dts_file) (w : wtok str) : Prop :=
  exists p v a l b, In p (file_properties f) /\ In v (pr_values p) /\ v = PVBytes a l b /\ In w l.
Definition memreserve_of (f : dts_file) (w : wtok N) : Prop :=
  exists a l, In (PDirective (AMemreserve a l)) (fl_elements f) /\ (w = a \/ w = l).

(** ** Membership *)
Lemma in_items_properties p its : In p (items_properties its) <->
  In (IProperty p) its \/ exists n, In (INode n) its /\ In p (node_properties n).
Proof.
  unfold items_properties. rewrite in_flat_map. split.
  - intros ([q|n|t n|t n] & H1 & H2); try destruct H2; [left|contradiction|right; eauto]. subst. exact H1.
  - intros [H|(n & H1 & H2)]; [exists (IProperty p)|exists (INode n)]; split; cbn; auto.
Qed.
Definition node_values_sites (n : node) : Prop := forall x, (forall p, x <> SLate p) ->
  (In x (node_sites n) <-> exists p v, In p (node_properties n) /\ In v (pr_values p) /\ In x (value_sites v)).
Lemma items_sites_in its : Forall (fun i => match i with INode n => node_values_sites n | _ => True end) its ->
  forall seen x, (forall p, x <> SLate p) ->
  (In x (items_sites seen its) <->
   exists p v, In p (items_properties its) /\ In v (pr_values p) /\ In x (value_sites v)).
Proof.
  unfold items_sites, items_properties. induction 1 as [|i its Hi _ IH]; intros seen x Hx; cbn [items_sites_of flat_map].
  - split; [intros []|intros (p & v & [] & _)].
  - assert (G : forall P Q : Prop, (P <-> exists v, exists p, In p (match i with IProperty p => [p] | INode m => node_properties m | _ => [] end)
                 /\ In v (pr_values p) /\ In x (value_sites v)) ->
               (Q <-> exists p v, In p (flat_map (fun i => match i with IProperty p => [p] | INode m => node_properties m | _ => [] end) its)
                 /\ In v (pr_values p) /\ In x (value_sites v)) ->
               (P \/ Q <-> exists p v, In p ((match i with IProperty p => [p] | INode m => node_properties m | _ => [] end) ++
                 flat_map (fun i => match i with IProperty p => [p] | INode m => node_properties m | _ => [] end) its)
                 /\ In v (pr_values p) /\ In x (value_sites v))).
    { intros P Q HP HQ. rewrite HP, HQ. split.
      - intros [(v & p & H1 & H2)|(p & v & H1 & H2)]; exists p, v; split; auto; apply in_app_iff; auto.
      - intros (p & v & H1 & H2). apply in_app_iff in H1. destruct H1; [left|right]; eauto. }
    destruct i as [p|n|t n|t n].
    + rewrite in_app_iff. apply G; [|apply IH; exact Hx]. unfold property_sites. rewrite in_app_iff, in_flat_map. split.
      * intros [(v & H1 & H2)|H]; [exists v, p; cbn; auto|]. destruct seen; [|destruct H]. destruct H as [H|[]].
        exfalso. eapply Hx. symmetry. exact H.
      * intros (v & q & [<-|[]] & H). left. exists v. exact H.
    + rewrite in_app_iff. apply G; [|apply IH; exact Hx]. rewrite (Hi x Hx). split; intros (a & b & H); exists b, a; exact H.
    + rewrite IH by exact Hx. reflexivity.
    + rewrite IH by exact Hx. reflexivity.
Qed.
Lemma all_nodes_values n : node_values_sites n.
Proof.
  apply (node_rect' node_values_sites (fun i => match i with INode n => node_values_sites n | _ => True end)); auto.
  intros l nm its e o H x Hx. cbn [node_sites node_properties]. apply (items_sites_in its H false x Hx).
Qed.
Lemma items_sites_all its seen x : (forall p, x <> SLate p) ->
  (In x (items_sites seen its) <->
   exists p v, In p (items_properties its) /\ In v (pr_values p) /\ In x (value_sites v)).
Proof.
  apply items_sites_in. apply Forall_forall. intros [p|n|t n|t n] _; auto. apply all_nodes_values.
Qed.
Lemma file_sites_in f x : (forall p, x <> SLate p) ->
  (In x (file_sites f) <->
     (exists p v, In p (file_properties f) /\ In v (pr_values p) /\ In x (value_sites v))
     \/ (exists w, memreserve_of f w /\ x = SNumber (2 ^ 64) w)).
Proof.
  intros Hx. unfold file_sites, file_properties, memreserve_of. rewrite in_flat_map. split.
  - intros (e & He & H). destruct e as [d|n|r|s]; cbn [primary_sites] in H; try (destruct H; fail).
    + destruct d as [t|t|a l|i|t r|t r]; try (destruct H; fail). right. destruct H as [<-|[<-|[]]].
      * exists a. split; [|reflexivity]. exists a, l. auto.
      * exists l. split; [|reflexivity]. exists a, l. auto.
    + left. apply (all_nodes_values n x Hx) in H. destruct H as (p & v & H1 & H2). exists p, v. split; [|exact H2].
      apply in_flat_map. exists (PRoot n). auto.
    + left. apply (items_sites_all _ _ _ Hx) in H. destruct H as (p & v & H1 & H2). exists p, v. split; [|exact H2].
      apply in_flat_map. exists (PReferencedNode r). auto.
  - intros [(p & v & H1 & H2)|(w & (a & l & H1 & H2) & ->)].
    + apply in_flat_map in H1. destruct H1 as (e & He & H1). exists e. split; [exact He|].
      destruct e as [d|n|r|s]; cbn [primary_properties primary_sites] in *; try (destruct H1; fail).
      * apply (all_nodes_values n x Hx). eauto.
      * apply items_sites_all; [exact Hx|]. eauto.
    + exists (PDirective (AMemreserve a l)). split; [exact H1|]. cbn. destruct H2; subst; auto.
Qed.
Lemma cell_site f w : cell_of f w <-> In (SNumber (2 ^ 32) w) (file_sites f).
Proof.
  rewrite file_sites_in by discriminate. unfold cell_of. split.
  - intros (p & v & H1 & H2 & H3). left. exists p, v. repeat split; auto. destruct v; try (destruct H3; fail).
    cbn [value_sites value_cells] in *. apply in_flat_map. exists (CNumber w). split; [assumption|left; reflexivity].
  - intros [(p & v & H1 & H2 & H3)|(w' & _ & E)]; [|discriminate]. exists p, v. repeat split; auto.
    destruct v as [s|a cs b|r|a ss b]; cbn [value_sites value_cells] in *; try (destruct H3; fail).
    + apply in_flat_map in H3. destruct H3 as (c & Hc & H3). destruct c; cbn [cell_sites] in H3; try (destruct H3; fail); destruct H3 as [E|[]]. injection E as ->. exact Hc.
    + apply in_map_iff in H3. destruct H3 as (y & E & _). discriminate.
Qed.
Lemma memreserve_site f w : memreserve_of f w <-> In (SNumber (2 ^ 64) w) (file_sites f).
Proof.
  rewrite file_sites_in by discriminate. split.
  - intros H. right. eauto.
  - intros [(p & v & H1 & H2 & H3)|(w' & H & E)]; [|injection E as ->; exact H]. exfalso.
    destruct v as [s|a cs b|r|a ss b]; cbn [value_sites] in H3; try (destruct H3; fail).
    + apply in_flat_map in H3. destruct H3 as (c & Hc & H3). destruct c; cbn [cell_sites] in H3; try (destruct H3; fail); destruct H3 as [E|[]]. discriminate.
    + apply in_map_iff in H3. destruct H3 as (y & E & _). discriminate.
Qed.
Lemma bytes_site f w : bytes_of f w <-> In (SBytes w) (file_sites f).
Proof.
  rewrite file_sites_in by discriminate. unfold bytes_of. split.
  - intros (p & v & a & l & b & H1 & H2 & -> & H3). left. exists p, (PVBytes a l b). repeat split; auto.
    cbn [value_sites]. apply in_map, H3.
  - intros [(p & v & H1 & H2 & H3)|(w' & _ & E)]; [|discriminate]. exists p, v.
    destruct v as [s|a cs b|r|a ss b]; cbn [value_sites] in H3; try (destruct H3; fail).
    + apply in_flat_map in H3. destruct H3 as (c & Hc & H3). destruct c; cbn [cell_sites] in H3; try (destruct H3; fail); destruct H3 as [E|[]]. discriminate.
    + apply in_map_iff in H3. destruct H3 as (y & E & Hy). injection E as ->. exists a, ss, b. auto.
Qed.

(** ** Different sites have different tokens *)
Inductive sub {A} : list A -> list A -> Prop :=
| sub_nil : sub [] []
| sub_skip x l l' : sub l l' -> sub l (x :: l')
| sub_keep x l l' : sub l l' -> sub (x :: l) (x :: l').
Lemma sub_nil_l {A} (l : list A) : sub [] l.
Proof. induction l; constructor; assumption. Qed.
Lemma sub_refl {A} (l : list A) : sub l l.
Proof. induction l; constructor; assumption. Qed.
Lemma sub_app {A} (a a' b b' : list A) : sub a a' -> sub b b' -> sub (a ++ b) (a' ++ b').
Proof. induction 1; intros H'; cbn [app]; [exact H'|apply sub_skip; auto|apply sub_keep; auto]. Qed.
Lemma sub_app_r {A} (a b c : list A) : sub a b -> sub a (c ++ b).
Proof. intros H. apply (sub_app [] c a b); [apply sub_nil_l|exact H]. Qed.
Lemma sub_app_l {A} (a b c : list A) : sub a b -> sub a (b ++ c).
Proof. intros H. rewrite <- (app_nil_r a). apply sub_app; [exact H|apply sub_nil_l]. Qed.
Lemma sub_seq l l' : sub l l' -> forall lo hi, seq lo l' hi -> seq lo l hi.
Proof.
  induction 1 as [|x l l' _ IH|x l l' _ IH]; intros lo hi H; [exact H| |].
  - destruct H as (H1 & H2 & H3). eapply seq_lo; [|apply IH; exact H3].
    eapply pos_le_trans; [exact H1|]. apply pos_lt_le, H2.
  - destruct H as (H1 & H2 & H3). cbn [seq]. auto.
Qed.
Definition site_toks (x : site) : list token :=
  match x with SNumber _ w => [wt_tok w] | SBytes w => [wt_tok w] | SLate _ => [] end.
Lemma sub_cells cs : sub (flat_map site_toks (flat_map cell_sites cs)) (flat_map cell_toks cs).
Proof.
  induction cs as [|c cs IH]; [constructor|]. cbn [flat_map]. rewrite flat_map_app. apply sub_app; [|exact IH].
  destruct c; cbn; [apply sub_refl|apply sub_nil_l|apply sub_refl].
Qed.
Lemma sub_value v : sub (flat_map site_toks (value_sites v)) (value_toks v).
Proof.
  destruct v as [s|a cs b|r|a ss b]; cbn [value_sites value_toks]; try (apply sub_nil_l).
  - apply sub_app_r, sub_app_l, sub_cells.
  - apply sub_app_r, sub_app_l. induction ss as [|w ss IH]; [constructor|]. cbn. apply sub_keep, IH.
Qed.
Lemma sub_values vs : sub (flat_map site_toks (flat_map value_sites vs)) (flat_map value_toks vs).
Proof.
  induction vs as [|v vs IH]; [constructor|]. cbn [flat_map]. rewrite flat_map_app. apply sub_app; [apply sub_value|exact IH].
Qed.
Lemma sub_prop seen p : sub (flat_map site_toks (property_sites seen p)) (prop_toks p).
Proof.
  unfold property_sites, prop_toks. rewrite flat_map_app.
  assert (E : flat_map site_toks (if seen then [SLate p] else []) = []) by (destruct seen; reflexivity).
  rewrite E, app_nil_r. apply sub_app_r, sub_app_r.
  destruct (tk_kind (pr_end p)); try (apply sub_app_l, sub_values). apply sub_app_r, sub_values.
Qed.
Definition node_sub (n : node) : Prop := sub (flat_map site_toks (node_sites n)) (node_toks n).
Lemma sub_items its : Forall (fun i => match i with INode n => node_sub n | _ => True end) its ->
  forall seen, sub (flat_map site_toks (items_sites seen its)) (flat_map item_toks its).
Proof.
  unfold items_sites. induction 1 as [|i its Hi _ IH]; intros seen; [constructor|]. cbn [items_sites_of flat_map].
  destruct i as [p|n|t n|t n].
  - rewrite flat_map_app. apply sub_app; [apply sub_prop|apply IH].
  - rewrite flat_map_app. apply sub_app; [exact Hi|apply IH].
  - apply sub_app_r, IH.
  - apply sub_app_r, IH.
Qed.
Lemma sub_node n : node_sub n.
Proof.
  apply (node_rect' node_sub (fun i => match i with INode n => node_sub n | _ => True end)); auto.
  intros l nm its e o H. unfold node_sub. cbn [node_sites node_toks payload_toks].
  apply sub_app_r, sub_app_r, sub_app_r, sub_app_l, (sub_items its H).
Qed.
Lemma sub_primary p : sub (flat_map site_toks (primary_sites p)) (primary_toks p).
Proof.
  destruct p as [d|n|r|s]; cbn [primary_sites primary_toks]; try (apply sub_nil_l).
  - destruct d; try (apply sub_nil_l). apply sub_refl.
  - apply sub_node.
  - destruct r as [w [its e]]. cbn. apply sub_skip, sub_app_l, sub_items. apply Forall_forall.
    intros [p|n|t n|t n] _; auto. apply sub_node.
Qed.
Lemma sub_file f : sub (flat_map site_toks (file_sites f)) (file_toks f).
Proof.
  unfold file_sites, file_toks. induction (fl_elements f) as [|p ps IH]; [constructor|]. cbn [flat_map].
  rewrite flat_map_app. apply sub_app; [apply sub_primary|exact IH].
Qed.
Lemma seq_spans l : forall lo hi, seq lo l hi -> NoDup (map tk_span l) /\ Forall (fun t => pos_le lo (tk_start t)) l.
Proof.
  induction l as [|t l IH]; intros lo hi H; [repeat constructor|]. destruct H as (H1 & H2 & H3).
  destruct (IH _ _ H3) as [Hn Hf]. cbn [map]. split.
  - constructor; [|exact Hn]. intros Hin. apply in_map_iff in Hin. destruct Hin as (u & E & Hu).
    rewrite Forall_forall in Hf. specialize (Hf u Hu). unfold tk_start, tk_end in *. rewrite E in Hf.
    eapply pos_lt_irrefl, pos_lt_le_trans; eassumption.
  - constructor; [exact H1|]. eapply Forall_impl; [|exact Hf]. cbn beta. intros u Hu.
    eapply pos_le_trans; [exact H1|]. eapply pos_le_trans; [apply pos_lt_le, H2|exact Hu].
Qed.

(** the integer and byte-string diagnostics on a token *)
Definition span_eq_dec (a b : span) : {a = b} + {a <> b}.
Proof. repeat decide equality. Defined.
Definition int_diag_on (t : token) (d : diag) : bool :=
  match dg_kind d with
  | IntError | OddNumberOfBytestringElements => if span_eq_dec (dg_span d) (tk_span t) then true else false
  | _ => false
  end.
Definition int_diags (ds : list diag) (t : token) : list diag := filter (int_diag_on t) ds.

Lemma filter_filter {A} (p q : A -> bool) l : (forall x, p x = true -> q x = true) -> filter p (filter q l) = filter p l.
Proof.
  intros H. induction l as [|x l IH]; [reflexivity|]. cbn [filter]. destruct (q x) eqn:Q; cbn [filter].
  - rewrite IH. reflexivity.
  - destruct (p x) eqn:P; [rewrite (H x P) in Q; discriminate|exact IH].
Qed.
Lemma site_int src x d t : site_report src x d -> In t (site_toks x) -> filter (int_diag_on t) d = d.
Proof.
  intros H Ht. destruct H; cbn [site_toks In wt_tok] in Ht; try contradiction; destruct Ht as [<-|[]]; try reflexivity;
    match goal with H : on_token _ _ _ |- _ => destruct H as (K1 & K2 & _) end;
    cbn [filter]; unfold int_diag_on; rewrite K1, K2; destruct (span_eq_dec _ _); congruence.
Qed.
Lemma site_other src x d t : site_report src x d -> ~ In (tk_span t) (map tk_span (site_toks x)) -> filter (int_diag_on t) d = [].
Proof.
  intros H Ht. destruct H; cbn [site_toks map In wt_tok] in Ht; try reflexivity; cbn [filter]; unfold int_diag_on;
    try (match goal with H : on_token _ _ _ |- _ => destruct H as (K1 & K2 & _) end;
         rewrite K1, K2; destruct (span_eq_dec _ _) as [E|E]; [exfalso; apply Ht; left; exact E|reflexivity]).
  rewrite H. reflexivity.
Qed.
Lemma NoDup_app_inv {A} (a b : list A) : NoDup (a ++ b) -> NoDup a /\ NoDup b /\ forall x, In x a -> ~ In x b.
Proof.
  induction a as [|x a IH]; cbn [app]; intros H; [split; [constructor|split; [exact H|intros y []]]|].
  inversion H as [|? ? Hx Hn]; subst. destruct (IH Hn) as (H1 & H2 & H3). rewrite in_app_iff in Hx.
  split; [constructor; tauto|]. split; [exact H2|]. intros y [<-|Hy]; [tauto|auto].
Qed.
Lemma report_at src st ds x t : report src st ds -> NoDup (map tk_span (flat_map site_toks st)) ->
  In x st -> site_toks x = [t] -> site_report src x (int_diags ds t).
Proof.
  unfold int_diags. induction 1 as [|y l d ds Hy Hr IH]; intros Hn Hin Ht; [destruct Hin|].
  cbn [flat_map] in Hn. rewrite map_app in Hn. rewrite filter_app. apply NoDup_app_inv in Hn. destruct Hn as (Hn1 & Hn2 & Hn3).
  destruct Hin as [->|Hin].
  - rewrite (site_int _ _ _ t Hy) by (rewrite Ht; left; reflexivity).
    assert (E : filter (int_diag_on t) ds = []); [|rewrite E, app_nil_r; exact Hy].
    assert (Ho : ~ In (tk_span t) (map tk_span (flat_map site_toks l))).
    { apply Hn3. rewrite Ht. left. reflexivity. }
    clear - Hr Ho. induction Hr as [|z l d ds Hz _ IH]; [reflexivity|]. cbn [flat_map] in Ho.
    rewrite map_app, in_app_iff in Ho. rewrite filter_app, IH by tauto. rewrite (site_other _ _ _ _ Hz) by tauto. reflexivity.
  - rewrite (site_other _ _ _ t Hy); [apply IH; assumption|]. intros Hc. apply (Hn3 _ Hc).
    apply in_map. apply in_flat_map. exists x. split; [exact Hin|]. rewrite Ht. left. reflexivity.
Qed.

Lemma sites_exact incl text src f ds x t : valid_utf8 text = true -> parses incl text src f ds ->
  In x (file_sites f) -> site_toks x = [t] -> site_report src x (int_diags ds t).
Proof.
  intros Hv Hp Hx Ht. pose proof (reports_exact _ _ _ _ _ Hv Hp) as R.
  assert (E : int_diags ds t = int_diags (filter reported ds) t).
  { unfold int_diags. symmetry. apply filter_filter. intros d. unfold int_diag_on, reported. destruct (dg_kind d); congruence. }
  rewrite E. eapply report_at; [exact R| |exact Hx|exact Ht].
  destruct Hp as (s & Hp & _). destruct (tree_tokens _ _ _ _ _ Hv Hp) as (p & _ & Hs & _).
  eapply seq_spans. eapply sub_seq; [apply sub_file|exact Hs].
Qed.

(** ** C13, C14 *)
(** the number token [t] stands for [n]; the diagnostics on it are [ds] *)
Definition number_exact (bound : N) (t : token) (n : N) (ds : list diag) : Prop :=
  exists s, is (UnparsedNumber s) t
    /\ ((literal s n /\ n < bound /\ ds = [])
        \/ ((forall m, literal s m -> bound <= m) /\ n = 0 /\ exists d, ds = [d] /\ on_token IntError t d)).
Lemma number_exact_of src b w ds : site_report src (SNumber b w) ds -> number_exact b (wt_tok w) (wt_item w) ds.
Proof.
  intros H. unfold number_exact. inversion H; subst; cbn [wt_tok wt_item]; exists s; split; auto.
  right. repeat split; auto. exists d. auto.
Qed.

Theorem C13_cells_exact : forall incl text src f ds w,
  valid_utf8 text = true -> parses incl text src f ds -> cell_of f w ->
  number_exact (2 ^ 32) (wt_tok w) (wt_item w) (int_diags ds (wt_tok w)).
Proof.
  intros incl text src f ds w Hv Hp Hw. apply cell_site in Hw. eapply number_exact_of, sites_exact; eauto.
Qed.
Print Assumptions C13_cells_exact.

Theorem C14_memreserve_exact : forall incl text src f ds w,
  valid_utf8 text = true -> parses incl text src f ds -> memreserve_of f w ->
  number_exact (2 ^ 64) (wt_tok w) (wt_item w) (int_diags ds (wt_tok w)).
Proof.
  intros incl text src f ds w Hv Hp Hw. apply memreserve_site in Hw. eapply number_exact_of, sites_exact; eauto.
Qed.
Print Assumptions C14_memreserve_exact.

(** no integer diagnostic is about anything else *)
Theorem C13_no_other_diagnostics : forall incl text src f ds d,
  valid_utf8 text = true -> parses incl text src f ds -> In d ds -> dg_kind d = IntError ->
  (exists w, (cell_of f w \/ memreserve_of f w) /\ on_token IntError (wt_tok w) d)
  \/ (exists w, bytes_of f w /\ on_token IntError (wt_tok w) d).
Proof.
  intros incl text src f ds d Hv Hp Hin Hk. pose proof (reports_exact _ _ _ _ _ Hv Hp) as R.
  destruct (report_inv _ _ _ d R) as (x & Hx & l & Hr & Hd).
  { apply filter_In. split; [exact Hin|]. unfold reported. rewrite Hk. reflexivity. }
  destruct Hr; cbn [In] in Hd; try contradiction; destruct Hd as [->|[]].
  - left. exists (mkWT 0 t). split; [|assumption].
    pose proof (proj1 (file_sites_in f (SNumber b (mkWT 0 t)) (fun p E => ltac:(discriminate E))) Hx) as [(p & v & G1 & G2 & G3)|(w & G1 & G2)].
    + left. exists p, v. repeat split; auto. destruct v as [s'|a cs b'|r|a ss b']; cbn [value_sites value_cells] in *; try (destruct G3; fail).
      * apply in_flat_map in G3. destruct G3 as (c & Hc & G3). destruct c; cbn [cell_sites] in G3; try (destruct G3; fail).
        destruct G3 as [E|[]]. injection E as E1 E2. subst. exact Hc.
      * apply in_map_iff in G3. destruct G3 as (y & E & _). discriminate.
    + right. injection G2 as E1 E2. subst. exact G1.
  - match goal with H : on_token _ _ d |- _ => destruct H as (K & _) end. congruence.
  - right. exists (mkWT [] t). split; [apply bytes_site; exact Hx|assumption].
  - congruence.
Qed.
Print Assumptions C13_no_other_diagnostics.

Example C13_example : exists f ds, parses [] (bs "/ { a = <0x10 010 4294967295 4294967296 08 0>; };") [] f ds
  /\ map (fun x => match x with SNumber b w => Some (b, wt_item w) | _ => None end) (file_sites f)
     = map (fun n => Some (4294967296, n)) [16; 8; 4294967295; 0; 0; 0]
  /\ map (fun d => (dg_kind d, pos_char (span_start (dg_span d)))) ds = [(IntError, 29); (IntError, 40)].
Proof. eexists _, _. split; [eexists; split; [vm_compute; reflexivity|reflexivity]|]. split; reflexivity. Qed.
Example C14_example : exists f ds, parses [] (bs "/memreserve/ 0xffffffffffffffff 18446744073709551616;") [] f ds
  /\ map (fun x => match x with SNumber b w => Some (b, wt_item w) | _ => None end) (file_sites f)
     = [Some (18446744073709551616, 18446744073709551615); Some (18446744073709551616, 0)]
  /\ map (fun d => (dg_kind d, pos_char (span_start (dg_span d)))) ds = [(IntError, 32)].
Proof. eexists _, _. split; [eexists; split; [vm_compute; reflexivity|reflexivity]|]. split; reflexivity. Qed.

(** ** C15 *)
(** pairs of hexadecimal digits, and nothing else *)
Inductive hex_bytes : str -> str -> Prop :=
| hb_nil : hex_bytes [] []
| hb_pair c d x y s b : digit_value c x -> x < 16 -> digit_value d y -> y < 16 -> hex_bytes s b ->
    hex_bytes (c :: d :: s) (16 * x + y :: b).
Lemma hex_bytes_iff (s : str) b : ~ In cPlus s -> (hex_bytes s b <-> byte_text s b).
Proof.
  intros Hs. split.
  - intros H. induction H; constructor; auto. apply IHhex_bytes. intros Hi. apply Hs. right. right. exact Hi.
  - intros H. induction H as [|c d x y s b H1 H2 H3 H4 _ IH|d y s b H1 H2 _ IH].
    + constructor.
    + constructor; auto. apply IH. intros Hi. apply Hs. right. right. exact Hi.
    + exfalso. apply Hs. left. reflexivity.
Qed.

(** C15. The full statement, [bytes_exact] for every element, is false: "+c" is taken for the byte 0x0c. *)
Theorem C15_plus_refuted : exists text f w s,
  valid_utf8 text = true /\ parses [] text [] f [] /\ bytes_of f w /\ element_text (wt_tok w) s
  /\ wt_item w <> [] /\ forall b, ~ hex_bytes s b.
Proof.
  exists (bs "/ { a = [ab+c]; };").
  destruct (parse_text [] (bs "/ { a = [ab+c]; };") []) as [f s| | |] eqn:E; vm_compute in E; try discriminate.
  injection E as Ef Es. subst f.
  eexists _, (mkWT [171; 12] (mkToken (Ident (bs "ab+c")) (mkSpan (mkPos 0 9) (mkPos 0 13)) [])), (bs "ab+c").
  split; [reflexivity|]. split; [exists s; split; [vm_compute; rewrite <- Es; reflexivity|rewrite <- Es; reflexivity]|].
  split; [|split; [right; reflexivity|split; [discriminate|]]].
  - apply bytes_site. vm_compute. left. reflexivity.
  - intros b H. inversion H; subst. match goal with H : hex_bytes [_; _] _ |- _ => inversion H; subst end.
    match goal with H : digit_value 43 _ |- _ => revert H end. unfold digit_value. lia.
Qed.
Print Assumptions C15_plus_refuted.

Definition bytes_exact (t : token) (b : str) (ds : list diag) : Prop :=
  (exists s, element_text t s /\
     ((hex_bytes s b /\ ds = [])
      \/ ((forall b', ~ hex_bytes s b') /\ b = [] /\
          exists d, ds = [d] /\ on_token (if Nat.even (length s) then IntError else OddNumberOfBytestringElements) t d)))
  \/ ((forall s, ~ element_text t s) /\ b = [] /\ ds = []).
Lemma hex_bytes_even s b : hex_bytes s b -> Nat.even (length s) = true.
Proof. induction 1; auto. Qed.
(** What holds: it is so for every element without a plus sign. (An element that is neither a number
    nor a name has a diagnostic of kind Expected.) *)
Theorem C15_bytes_exact_partial : forall incl text src f ds w,
  valid_utf8 text = true -> parses incl text src f ds -> bytes_of f w ->
  (forall s, element_text (wt_tok w) s -> ~ In cPlus s) ->
  bytes_exact (wt_tok w) (wt_item w) (int_diags ds (wt_tok w)).
Proof.
  intros incl text src f ds w Hv Hp Hw Hn. apply bytes_site in Hw.
  assert (R : site_report src (SBytes w) (int_diags ds (wt_tok w))) by (eapply sites_exact; eauto).
  unfold bytes_exact. inversion R as [| |t s b He Hb E1 E2|t s d He Ho Hd E1 E2|t s d He Ho Hb Hd E1 E2|t Hs E1 E2|]; subst;
    cbn [wt_tok wt_item] in *.
  - left. exists s. split; [exact He|]. left. split; [apply hex_bytes_iff; auto|symmetry; exact E2].
  - left. exists s. split; [exact He|]. right. unfold Nat.odd in Ho. destruct (Nat.even (length s)) eqn:Ee; [discriminate|].
    split; [intros b' Hb'; apply hex_bytes_even in Hb'; congruence|]. split; [reflexivity|]. exists d. auto.
  - left. exists s. split; [exact He|]. right. rewrite Ho.
    split; [intros b' Hb'; apply hex_bytes_iff in Hb'; [eapply Hb; exact Hb'|auto]|]. split; [reflexivity|]. exists d. auto.
  - right. auto.
Qed.
Print Assumptions C15_bytes_exact_partial.
Example C15_example : exists f ds, parses [] (bs "/ { a = [0a FF abc zz]; };") [] f ds
  /\ map (fun x => match x with SBytes w => wt_item w | _ => [0] end) (file_sites f) = [[10]; [255]; []; []]
  /\ map dg_kind ds = [OddNumberOfBytestringElements; IntError].
Proof. eexists _, _. split; [eexists; split; [vm_compute; reflexivity|reflexivity]|]. split; reflexivity. Qed.

(** ** C18 *)
(** the properties of a list of items that follow a node, those of sub-nodes included, in source order *)
Section Late.
  Variable node_late : node -> list property.
  Fixpoint items_late_of (seen : bool) (its : list item) : list property :=
    match its with
    | [] => []
    | IProperty p :: r => (if seen then [p] else []) ++ items_late_of seen r
    | INode n :: r => node_late n ++ items_late_of true r
    | _ :: r => items_late_of seen r
    end.
End Late.
Fixpoint node_late (n : node) : list property :=
  match n with mkNode _ _ (mkPayload its _) _ => items_late_of node_late false its end.
Definition primary_late (p : primary) : list property :=
  match p with
  | PRoot n => node_late n
  | PReferencedNode r => items_late_of node_late false (pl_items (rn_payload r))
  | _ => []
  end.
Definition late_properties (f : dts_file) : list property := flat_map primary_late (fl_elements f).

Definition site_late (x : site) : list property := match x with SLate p => [p] | _ => [] end.
Lemma value_not_late v : flat_map site_late (value_sites v) = [].
Proof.
  destruct v as [s|a cs b|r|a ss b]; cbn [value_sites]; try reflexivity.
  - induction cs as [|c cs IH]; [reflexivity|]. cbn [flat_map]. rewrite flat_map_app, IH. destruct c; reflexivity.
  - induction ss as [|w ss IH]; [reflexivity|exact IH].
Qed.
Lemma property_late seen p : flat_map site_late (property_sites seen p) = if seen then [p] else [].
Proof.
  unfold property_sites. rewrite flat_map_app.
  assert (E : flat_map site_late (flat_map value_sites (pr_values p)) = []).
  { induction (pr_values p) as [|v vs IH]; [reflexivity|]. cbn [flat_map]. rewrite flat_map_app, IH, value_not_late. reflexivity. }
  rewrite E. destruct seen; reflexivity.
Qed.
Lemma items_late its : Forall (fun i => match i with INode n => flat_map site_late (node_sites n) = node_late n | _ => True end) its ->
  forall seen, flat_map site_late (items_sites seen its) = items_late_of node_late seen its.
Proof.
  unfold items_sites. induction 1 as [|i its Hi _ IH]; intros seen; [reflexivity|].
  destruct i as [p|n|t n|t n]; cbn [items_sites_of items_late_of]; rewrite ?flat_map_app, ?IH, ?property_late, ?Hi; reflexivity.
Qed.
Lemma node_late_eq n : flat_map site_late (node_sites n) = node_late n.
Proof.
  apply (node_rect' (fun n => flat_map site_late (node_sites n) = node_late n)
    (fun i => match i with INode n => flat_map site_late (node_sites n) = node_late n | _ => True end)); auto.
  intros l nm its e o H. cbn [node_sites node_late]. apply (items_late its H).
Qed.
Lemma file_late f : flat_map site_late (file_sites f) = late_properties f.
Proof.
  unfold file_sites, late_properties. induction (fl_elements f) as [|p ps IH]; [reflexivity|]. cbn [flat_map].
  rewrite flat_map_app, IH. f_equal. destruct p as [d|n|r|s]; cbn [primary_sites primary_late]; try reflexivity.
  - destruct d; reflexivity.
  - apply node_late_eq.
  - apply items_late. apply Forall_forall. intros [q|n|t n|t n] _; auto. apply node_late_eq.
Qed.

Definition is_late (d : diag) : bool := match dg_kind d with PropertyAfterNode => true | _ => false end.
Lemma report_late src st ds : report src st ds ->
  map (fun d => (dg_span d, dg_source d)) (filter is_late ds) = map (fun p => (prop_span p, src)) (flat_map site_late st).
Proof.
  induction 1 as [|x l d ds Hx _ IH]; [reflexivity|]. cbn [flat_map]. rewrite filter_app, !map_app, IH. f_equal.
  destruct Hx; cbn [filter site_late]; try reflexivity; unfold is_late;
    try match goal with H : on_token _ _ _ |- _ => destruct H as (K & _); rewrite K; reflexivity end.
  rewrite H. cbn. rewrite H0, H1. reflexivity.
Qed.

Theorem C18_property_after_node : forall incl text src f ds,
  valid_utf8 text = true -> parses incl text src f ds ->
  map (fun d => (dg_span d, dg_source d)) (filter is_late ds) = map (fun p => (prop_span p, src)) (late_properties f).
Proof.
  intros incl text src f ds Hv Hp. pose proof (reports_exact _ _ _ _ _ Hv Hp) as R.
  rewrite <- file_late, <- (report_late src _ _ R). rewrite filter_filter; [reflexivity|].
  intros d. unfold is_late, reported. destruct (dg_kind d); congruence.
Qed.
Print Assumptions C18_property_after_node.
Example C18_example : exists f ds, parses [] (bs "/ { a; n { b; }; c; m { k { }; d; }; e = <1>; };") [] f ds
  /\ map (fun p => wt_item (pr_name p)) (late_properties f) = [bs "c"; bs "d"; bs "e"]
  /\ map (fun d => (dg_kind d, pos_char (span_start (dg_span d)))) ds
     = [(PropertyAfterNode, 17); (PropertyAfterNode, 31); (PropertyAfterNode, 37)].
Proof. eexists _, _. split; [eexists; split; [vm_compute; reflexivity|reflexivity]|]. split; reflexivity. Qed.
