(** The analysis of a file meets AnalysisSpec.v *)
From Verif Require Export AnalysisSpec.
From Verif Require Import TreeProofs.
From Coq Require Export Permutation Relations.Relation_Operators.

(** ** Last bindings *)
Lemma last_of_nil {D X} (binds : D -> X -> Prop) x : ~ last_of binds [] x.
Proof. intros (pre & d & post & E & _). destruct pre; discriminate. Qed.
Lemma last_of_snoc {D X} (binds : D -> X -> Prop) l d x :
  last_of binds (l ++ [d]) x <-> binds d x \/ (last_of binds l x /\ forall y, ~ binds d y).
Proof.
  split.
  - intros (pre & d0 & post & E & H1 & H2). destruct post as [|q post _] using rev_ind.
    + apply app_inj_tail in E. destruct E as [-> ->]. left. exact H1.
    + rewrite app_comm_cons, app_assoc in E. apply app_inj_tail in E. destruct E as [-> ->].
      right. split.
      * exists pre, d0, post. repeat split; auto. intros d' y Hd. apply H2, in_or_app. left. exact Hd.
      * intros y. apply H2, in_or_app. right. left. reflexivity.
  - intros [H|[(pre & d0 & post & -> & H1 & H2) H3]].
    + exists l, d, []. repeat split; auto.
    + exists pre, d0, (post ++ [d]). repeat split; auto.
      * rewrite <- app_assoc. reflexivity.
      * intros d' y Hd. apply in_app_or in Hd. destruct Hd as [Hd|[<-|[]]]; [exact (H2 d' y Hd)|apply H3].
Qed.

(** ** Maps *)
Section Maps.
  Context {K V : Type} (eq_dec : forall a b : K, {a = b} + {a <> b}).
  Lemma m_in_get k v (m : list (K * V)) : NoDup (map fst m) -> In (k, v) m -> m_get eq_dec k m = Some v.
  Proof.
    induction m as [|[k' v'] m IH]; [intros _ []|]. cbn [map fst m_get]. intros Hn [H|H].
    - injection H as -> ->. destruct (eq_dec k k); congruence.
    - inversion Hn as [|a b Ha Hb]; subst. destruct (eq_dec k k') as [->|E]; [|exact (IH Hb H)].
      exfalso. apply Ha. apply (in_map fst) in H. exact H.
  Qed.
  Lemma m_get_iff k v (m : list (K * V)) : NoDup (map fst m) -> (m_get eq_dec k m = Some v <-> In (k, v) m).
  Proof. intros H. split; [apply m_get_in|apply m_in_get, H]. Qed.
  Lemma m_get_extend k (m' : list (K * V)) : NoDup (map fst m') -> forall m,
    m_get eq_dec k (m_extend eq_dec m m')
    = match m_get eq_dec k m' with Some v => Some v | None => m_get eq_dec k m end.
  Proof.
    unfold m_extend. induction m' as [|[k' v'] m' IH]; intros Hn m; [reflexivity|].
    cbn [map fst] in Hn. inversion Hn as [|a b Ha Hb]; subst.
    cbn [fold_left fst snd]. rewrite (IH Hb). cbn [m_get]. destruct (eq_dec k k') as [->|E].
    - replace (m_get eq_dec k' m') with (@None V); [apply m_get_insert_eq|].
      symmetry. apply m_get_none. exact Ha.
    - rewrite m_get_insert_neq by exact E. reflexivity.
  Qed.
  Lemma m_nodup_extend (m' m : list (K * V)) : NoDup (map fst m) -> NoDup (map fst (m_extend eq_dec m m')).
  Proof.
    unfold m_extend. revert m. induction m' as [|[k' v'] m' IH]; intros m H; [exact H|].
    cbn [fold_left]. apply IH. apply (m_nodup_insert eq_dec). exact H.
  Qed.
  Lemma m_mem_get k (m : list (K * V)) : m_mem eq_dec k m = true <-> exists v, m_get eq_dec k m = Some v.
  Proof.
    unfold m_mem. destruct (m_get eq_dec k m) as [v|]; split; eauto; [discriminate|].
    intros [v H]. discriminate.
  Qed.
End Maps.

(** ** Steps *)
Definition def_step (c : fctx) (d : def) : fctx :=
  match d with
  | DNode p n => define_node n p c
  | DProperty p => analyze_property p c
  | DInclude ac => set_labels (m_extend str_eq_dec (fc_labels c) (ac_labels ac))
                     (set_flat (m_extend npath_eq_dec (fc_flat c) (ac_flat ac)) c)
  end.

Lemma payload_steps its e path c :
  Forall (fun i => forall path c, analyze_item i path c = fold_left def_step (items_defs path [i]) c) its ->
  analyze_payload (mkPayload its e) path c = fold_left def_step (items_defs path its) c.
Proof.
  cbn [analyze_payload]. intros H. revert c. induction H as [|i its Hi _ IH]; intros c; [reflexivity|].
  rewrite IH, Hi. rewrite <- fold_left_app. f_equal.
  destruct i as [p|n|t n|t n]; cbn [items_defs items_defs_of]; auto.
  rewrite app_nil_r. reflexivity.
Qed.
Lemma steps_all :
  (forall n path c, analyze_node n path c = fold_left def_step (node_defs path n) c)
  /\ (forall i path c, analyze_item i path c = fold_left def_step (items_defs path [i]) c).
Proof.
  set (P := fun n => forall path c, analyze_node n path c = fold_left def_step (node_defs path n) c).
  set (Pi := fun i => forall path c, analyze_item i path c = fold_left def_step (items_defs path [i]) c).
  assert (Hn : forall l nm its e o, Forall Pi its -> P (mkNode l nm (mkPayload its e) o)).
  { intros l nm its e o H path c. cbn [node_defs fold_left def_step].
    change (analyze_node (mkNode l nm (mkPayload its e) o) path c)
      with (analyze_payload (mkPayload its e) path (define_node (mkNode l nm (mkPayload its e) o) path c)).
    rewrite payload_steps by exact H. reflexivity. }
  assert (Hp : forall p, Pi (IProperty p)) by (intros p path c; reflexivity).
  assert (Hi : forall n, P n -> Pi (INode n)).
  { intros n H path c. cbn [items_defs items_defs_of]. rewrite app_nil_r. apply H. }
  assert (Hd1 : forall t n, Pi (IDeletedNode t n)) by (intros t n path c; reflexivity).
  assert (Hd2 : forall t n, Pi (IDeletedProperty t n)) by (intros t n path c; reflexivity).
  split; [exact (node_rect' P Pi Hn Hp Hi Hd1 Hd2)|exact (item_rect' P Pi Hn Hp Hi Hd1 Hd2)].
Qed.
Lemma payload_all pl path c :
  analyze_payload pl path c = fold_left def_step (items_defs path (pl_items pl)) c.
Proof.
  destruct pl as [its e]. apply payload_steps. apply Forall_forall. intros i _. apply steps_all.
Qed.

Definition flags (c : fctx) := (fc_type c, fc_plugin c, fc_first_non_include c, fc_header c).
Definition tables (c : fctx) := (fc_labels c, fc_flat c).
(** what a step adds besides the tables *)
Definition grows (c c' : fctx) (es : list diag) (rs : list (wtok reference)) : Prop :=
  fc_diags c' = fc_diags c ++ es /\ fc_unres c' = fc_unres c ++ rs /\ flags c' = flags c.
Lemma grows_refl c : grows c c [] [].
Proof. unfold grows. rewrite !app_nil_r. auto. Qed.
Lemma grows_trans c1 c2 c3 e1 e2 r1 r2 :
  grows c1 c2 e1 r1 -> grows c2 c3 e2 r2 -> grows c1 c3 (e1 ++ e2) (r1 ++ r2).
Proof.
  intros (A1 & A2 & A3) (B1 & B2 & B3). repeat split.
  - rewrite B1, A1, app_assoc. reflexivity.
  - rewrite B2, A2, app_assoc. reflexivity.
  - congruence.
Qed.
Lemma grows_fold {A} (f : fctx -> A -> fctx) (de : A -> list diag) (re : A -> list (wtok reference)) :
  (forall c x, grows c (f c x) (de x) (re x)) ->
  forall l c, grows c (fold_left f l c) (flat_map de l) (flat_map re l).
Proof.
  intros H. induction l as [|x l IH]; intros c; [apply grows_refl|]. cbn [fold_left flat_map].
  eapply grows_trans; [apply H|apply IH].
Qed.
Lemma grows_tables_fold {A} (f : fctx -> A -> fctx) :
  (forall c x, tables (f c x) = tables c) -> forall l c, tables (fold_left f l c) = tables c.
Proof. intros H. induction l as [|x l IH]; intros c; [reflexivity|]. cbn [fold_left]. rewrite IH. apply H. Qed.
Lemma flat_map_nil {A B} (l : list A) : flat_map (fun _ => @nil B) l = [].
Proof. induction l; auto. Qed.

Lemma value_grows c v : grows c (analyze_value v c) [] (value_refs v) /\ tables (analyze_value v c) = tables c.
Proof.
  destruct v as [s|a cs b|r|a l b]; cbn [analyze_value value_refs]; try (split; [apply grows_refl|reflexivity]).
  - assert (G : forall c x, grows c (analyze_cell x c) [] (cell_refs x)).
    { intros c' [n|r|]; cbn; unfold grows; cbn; rewrite ?app_nil_r; auto. }
    assert (T : forall c x, tables (analyze_cell x c) = tables c) by (intros c' [n|r|]; reflexivity).
    split.
    + pose proof (grows_fold (fun c x => analyze_cell x c) (fun _ => []) cell_refs G cs c) as H.
      rewrite flat_map_nil in H. exact H.
    + apply (grows_tables_fold (fun c x => analyze_cell x c)), T.
  - split; [|reflexivity]. unfold grows. cbn. rewrite app_nil_r. auto.
Qed.

Lemma compatible_grows c vs :
  grows c (check_is_string_list vs c) (map non_string_diag (filter (fun v => negb (is_string v)) vs)) []
  /\ tables (check_is_string_list vs c) = tables c.
Proof.
  unfold check_is_string_list. split.
  - match goal with |- grows _ (fold_left ?f _ _) _ _ =>
      assert (G : forall c v, grows c (f c v) (if is_string v then [] else [non_string_diag v]) [])
    end.
    2:{ pose proof (grows_fold _ _ (fun _ => []) G vs c) as H. rewrite flat_map_nil in H.
        replace (map non_string_diag (filter (fun v => negb (is_string v)) vs))
          with (flat_map (fun v => if is_string v then [] else [non_string_diag v]) vs); [exact H|].
        clear. induction vs as [|v vs IH]; [reflexivity|]. cbn [flat_map filter].
        destruct (is_string v); cbn [negb map app]; rewrite IH; reflexivity. }
    intros c' v. cbv beta. destruct v; cbn; unfold grows; cbn; rewrite ?app_nil_r; auto.
  - apply grows_tables_fold. intros c' v. destruct v; reflexivity.
Qed.

Lemma str_eqb_if a b {A} (x y : A) : (if str_eqb a b then x else y) = (if str_eq_dec a b then x else y).
Proof. unfold str_eqb. destruct (str_eq_dec a b); reflexivity. Qed.

Definition label_insert (o : option (wtok str)) (x : labeled) (m : list (str * labeled)) :=
  match o with Some l => m_insert str_eq_dec (wt_item l) x m | None => m end.

Lemma property_grows c p :
  grows c (analyze_property p c) (compatible_diags p) (property_refs p)
  /\ tables (analyze_property p c) = (label_insert (pr_label p) (LProperty p) (fc_labels c), fc_flat c).
Proof.
  unfold analyze_property.
  set (c1 := match pr_label p with Some _ => _ | None => c end).
  assert (G1 : grows c c1 [] []).
  { unfold c1. destruct (pr_label p); [unfold grows; cbn; rewrite !app_nil_r; auto|apply grows_refl]. }
  assert (T1 : tables c1 = (label_insert (pr_label p) (LProperty p) (fc_labels c), fc_flat c)).
  { unfold c1. destruct (pr_label p); reflexivity. }
  set (c2 := fold_left (fun c v => analyze_value v c) (pr_values p) c1).
  assert (G2 : grows c1 c2 [] (property_refs p)).
  { pose proof (grows_fold (fun c v => analyze_value v c) (fun _ => []) value_refs
      (fun c v => proj1 (value_grows c v)) (pr_values p) c1) as H. rewrite flat_map_nil in H. exact H. }
  assert (T2 : tables c2 = tables c1).
  { apply (grows_tables_fold (fun c v => analyze_value v c)). intros c' v. apply value_grows. }
  pose proof (grows_trans _ _ _ _ _ _ _ G1 G2) as G. cbn [app] in G.
  rewrite str_eqb_if. unfold compatible_diags. destruct (str_eq_dec _ _).
  - destruct (compatible_grows c2 (pr_values p)) as [G3 T3]. split.
    + pose proof (grows_trans _ _ _ _ _ _ _ G G3) as H. rewrite app_nil_r in H. exact H.
    + congruence.
  - split; [exact G|congruence].
Qed.

Lemma step_grows c d : grows c (def_step c d) (flat_map compatible_diags (def_properties d))
  (flat_map property_refs (def_properties d)).
Proof.
  destruct d as [p n|p|ac]; cbn [def_step def_properties flat_map]; rewrite ?app_nil_r.
  - unfold define_node. destruct (nd_label n); unfold grows; cbn; rewrite !app_nil_r; auto.
  - apply property_grows.
  - unfold grows; cbn; rewrite !app_nil_r; auto.
Qed.
Lemma flat_map_flat_map {A B C} (f : B -> list C) (g : A -> list B) l :
  flat_map f (flat_map g l) = flat_map (fun x => flat_map f (g x)) l.
Proof. induction l as [|x l IH]; [reflexivity|]. cbn [flat_map]. rewrite flat_map_app, IH. reflexivity. Qed.
Lemma steps_grow c ds : grows c (fold_left def_step ds c)
  (flat_map compatible_diags (flat_map def_properties ds))
  (flat_map property_refs (flat_map def_properties ds)).
Proof. rewrite !flat_map_flat_map. apply grows_fold. intros c' d. apply step_grows. Qed.

(** the properties of items do not depend on the path *)
Lemma properties_path :
  (forall n p q, flat_map def_properties (node_defs p n) = flat_map def_properties (node_defs q n))
  /\ (forall i p q, flat_map def_properties (items_defs p [i]) = flat_map def_properties (items_defs q [i])).
Proof.
  set (P := fun n => forall p q, flat_map def_properties (node_defs p n) = flat_map def_properties (node_defs q n)).
  set (Pi := fun i => forall p q, flat_map def_properties (items_defs p [i]) = flat_map def_properties (items_defs q [i])).
  assert (Hn : forall l nm its e o, Forall Pi its -> P (mkNode l nm (mkPayload its e) o)).
  { intros l nm its e o H p q. cbn [node_defs flat_map def_properties app].
    change (items_defs_of node_defs) with items_defs. induction H as [|i its Hi _ IH]; [reflexivity|].
    assert (S : forall p, items_defs p (i :: its) = items_defs p [i] ++ items_defs p its).
    { intros r. destruct i; cbn [items_defs items_defs_of]; auto. rewrite app_nil_r. reflexivity. }
    rewrite !S, !flat_map_app, (Hi p q), IH. reflexivity. }
  assert (Hp : forall p, Pi (IProperty p)) by (intros x p q; reflexivity).
  assert (Hi : forall n, P n -> Pi (INode n)).
  { intros n H p q. cbn [items_defs items_defs_of]. rewrite !app_nil_r. apply H. }
  assert (Hd1 : forall t n, Pi (IDeletedNode t n)) by (intros t n p q; reflexivity).
  assert (Hd2 : forall t n, Pi (IDeletedProperty t n)) by (intros t n p q; reflexivity).
  split; [exact (node_rect' P Pi Hn Hp Hi Hd1 Hd2)|exact (item_rect' P Pi Hn Hp Hi Hd1 Hd2)].
Qed.
Lemma items_cons i its p : items_defs p (i :: its) = items_defs p [i] ++ items_defs p its.
Proof. destruct i; cbn [items_defs items_defs_of]; auto. rewrite app_nil_r. reflexivity. Qed.
Lemma items_path its p q : flat_map def_properties (items_defs p its) = flat_map def_properties (items_defs q its).
Proof.
  induction its as [|i its IH]; [reflexivity|]. rewrite !(items_cons i its), !flat_map_app, IH. f_equal.
  apply properties_path.
Qed.

(** ** The tables *)
Definition rep (ds : list def) (c : fctx) : Prop :=
  NoDup (map fst (fc_labels c)) /\ NoDup (map fst (fc_flat c))
  /\ (forall l x, m_get str_eq_dec l (fc_labels c) = Some x <-> label_means ds l x)
  /\ (forall p n, m_get npath_eq_dec p (fc_flat c) = Some n <-> path_means ds p n).
Definition def_ok (d : def) : Prop := match d with DInclude c => ctx_ok c | _ => True end.

Lemma label_is_inj o l w : o = Some w -> label_is o l -> l = wt_item w.
Proof. intros -> (w' & E & <-). congruence. Qed.
Lemma insert_means (ds : list def) (d : def) o y (m : list (str * labeled)) :
  (forall l x, m_get str_eq_dec l m = Some x <-> label_means ds l x) ->
  (forall l x, binds_label l d x <-> label_is o l /\ x = y) ->
  forall l x, m_get str_eq_dec l (label_insert o y m) = Some x <-> label_means (ds ++ [d]) l x.
Proof.
  intros H Hb l x. unfold label_means. rewrite last_of_snoc.
  fold (label_means ds l x). rewrite <- H. destruct o as [w|]; cbn [label_insert].
  - destruct (str_eq_dec l (wt_item w)) as [->|E].
    + rewrite m_get_insert_eq. rewrite Hb. split.
      * intros F. injection F as <-. left. split; [|reflexivity]. exists w. auto.
      * intros [[_ ->]|[_ F]]; [reflexivity|]. exfalso. apply (F y), Hb. split; [exists w; auto|reflexivity].
    + rewrite m_get_insert_neq by exact E. split.
      * intros F. right. split; [exact F|]. intros z Hz. apply Hb in Hz. destruct Hz as [Hz _].
        apply (label_is_inj _ _ w) in Hz; [contradiction|reflexivity].
      * intros [F|[F _]]; [|exact F]. apply Hb in F. destruct F as [F _].
        apply (label_is_inj _ _ w) in F; [contradiction|reflexivity].
  - split; [intros F; right; split; [exact F|]|].
    + intros z Hz. apply Hb in Hz. destruct Hz as [(w & F1 & _) _]. discriminate.
    + intros [F|[F _]]; [|exact F]. apply Hb in F. destruct F as [(w & F1 & _) _]. discriminate.
Qed.

Lemma nodup_label_insert o y m : NoDup (map fst m) -> NoDup (map fst (label_insert o y m)).
Proof. destruct o; [apply (m_nodup_insert str_eq_dec)|auto]. Qed.

Lemma no_path_means ds d p n : (forall y, ~ binds_path p d y) -> (path_means (ds ++ [d]) p n <-> path_means ds p n).
Proof.
  intros H. unfold path_means. rewrite last_of_snoc. split; [|tauto].
  intros [F|[F _]]; [|exact F]. exfalso. exact (H n F).
Qed.

Lemma rep_step ds c d : rep ds c -> def_ok d -> rep (ds ++ [d]) (def_step c d).
Proof.
  intros (N1 & N2 & HL & HP) Hok. destruct d as [p n|p|ac]; cbn [def_step].
  - assert (E1 : fc_labels (define_node n p c) = label_insert (nd_label n) (LNode n) (fc_labels c)).
    { unfold define_node. destruct (nd_label n); reflexivity. }
    assert (E2 : fc_flat (define_node n p c) = m_insert npath_eq_dec p n (fc_flat c)).
    { unfold define_node. destruct (nd_label n); reflexivity. }
    unfold rep. rewrite E1, E2. repeat split.
    + apply nodup_label_insert, N1.
    + apply (m_nodup_insert npath_eq_dec), N2.
    + apply insert_means; [exact HL|]. intros l' x'. split.
      * intros F. inversion F; subst. auto.
      * intros [F ->]. constructor. exact F.
    + apply insert_means; [exact HL|]. intros l' x'. split.
      * intros F. inversion F; subst. auto.
      * intros [F ->]. constructor. exact F.
    + intros F. unfold path_means. apply last_of_snoc. destruct (npath_eq_dec p0 p) as [->|E].
      * rewrite m_get_insert_eq in F. injection F as <-. left. constructor.
      * rewrite m_get_insert_neq in F by exact E. right. split; [apply HP, F|].
        intros y Hy. inversion Hy; subst. contradiction.
    + intros F. unfold path_means in F. apply last_of_snoc in F. destruct (npath_eq_dec p0 p) as [->|E].
      * rewrite m_get_insert_eq. destruct F as [F|[_ F]]; [inversion F; reflexivity|].
        exfalso. apply (F n). constructor.
      * rewrite m_get_insert_neq by exact E. destruct F as [F|[F _]]; [|apply HP, F].
        inversion F; subst. contradiction.
  - destruct (property_grows c p) as [_ T]. unfold tables in T. injection T as E1 E2.
    unfold rep. rewrite E1, E2. split; [apply nodup_label_insert, N1|]. split; [exact N2|]. split.
    + apply insert_means; [exact HL|]. intros l' x'. split.
      * intros F. inversion F; subst. auto.
      * intros [F ->]. constructor. exact F.
    + intros q n. rewrite HP, no_path_means; [reflexivity|]. intros y Hy. inversion Hy.
  - destruct Hok as [O1 O2]. unfold rep. cbn [fc_labels fc_flat set_labels set_flat].
    split; [apply m_nodup_extend, N1|]. split; [apply m_nodup_extend, N2|]. split.
    + intros l x. rewrite m_get_extend by exact O1. unfold label_means. rewrite last_of_snoc.
      fold (label_means ds l x). rewrite <- HL. destruct (m_get str_eq_dec l (ac_labels ac)) as [v|] eqn:E.
      * apply m_get_in in E. split; [intros F; injection F as <-; left; constructor; exact E|].
        intros [F|[_ F]].
        -- inversion F; subst. f_equal. apply (m_in_get str_eq_dec) in E; [|exact O1].
           apply (m_in_get str_eq_dec) in H0; [congruence|exact O1].
        -- exfalso. apply (F v). constructor. exact E.
      * split.
        -- intros F. right. split; [exact F|]. intros y Hy. inversion Hy; subst.
           apply (m_in_get str_eq_dec) in H0; [congruence|exact O1].
        -- intros [F|[F _]]; [|exact F]. inversion F; subst.
           apply (m_in_get str_eq_dec) in H0; [congruence|exact O1].
    + intros l x. rewrite m_get_extend by exact O2. unfold path_means. rewrite last_of_snoc.
      fold (path_means ds l x). rewrite <- HP. destruct (m_get npath_eq_dec l (ac_flat ac)) as [v|] eqn:E.
      * apply m_get_in in E. split; [intros F; injection F as <-; left; constructor; exact E|].
        intros [F|[_ F]].
        -- inversion F; subst. f_equal. apply (m_in_get npath_eq_dec) in E; [|exact O2].
           apply (m_in_get npath_eq_dec) in H0; [congruence|exact O2].
        -- exfalso. apply (F v). constructor. exact E.
      * split.
        -- intros F. right. split; [exact F|]. intros y Hy. inversion Hy; subst.
           apply (m_in_get npath_eq_dec) in H0; [congruence|exact O2].
        -- intros [F|[F _]]; [|exact F]. inversion F; subst.
           apply (m_in_get npath_eq_dec) in H0; [congruence|exact O2].
Qed.
Lemma rep_steps ds' : forall ds c, rep ds c -> Forall def_ok ds' -> rep (ds ++ ds') (fold_left def_step ds' c).
Proof.
  induction ds' as [|d ds' IH]; intros ds c H Hok; [rewrite app_nil_r; exact H|].
  inversion Hok; subst. cbn [fold_left]. replace (ds ++ d :: ds') with ((ds ++ [d]) ++ ds')
    by (rewrite <- app_assoc; reflexivity). apply IH; [|assumption]. apply rep_step; assumption.
Qed.
Lemma rep_same ds c c' : tables c' = tables c -> rep ds c -> rep ds c'.
Proof. intros E. injection E as E1 E2. unfold rep. rewrite E1, E2. auto. Qed.

(** the definitions of trees are always fine *)
Lemma defs_ok : (forall n p, Forall def_ok (node_defs p n)) /\ (forall i p, Forall def_ok (items_defs p [i])).
Proof.
  set (P := fun n => forall p, Forall def_ok (node_defs p n)).
  set (Pi := fun i => forall p, Forall def_ok (items_defs p [i])).
  assert (Hn : forall l nm its e o, Forall Pi its -> P (mkNode l nm (mkPayload its e) o)).
  { intros l nm its e o H p. cbn [node_defs]. constructor; [exact I|].
    change (items_defs_of node_defs) with items_defs. induction H as [|i its Hi _ IH]; [constructor|].
    rewrite items_cons. apply Forall_app. auto. }
  assert (Hp : forall p, Pi (IProperty p)) by (intros x p; repeat constructor).
  assert (Hi : forall n, P n -> Pi (INode n)).
  { intros n H p. cbn [items_defs items_defs_of]. rewrite app_nil_r. apply H. }
  assert (Hd1 : forall t n, Pi (IDeletedNode t n)) by (intros t n p; constructor).
  assert (Hd2 : forall t n, Pi (IDeletedProperty t n)) by (intros t n p; constructor).
  split; [exact (node_rect' P Pi Hn Hp Hi Hd1 Hd2)|exact (item_rect' P Pi Hn Hp Hi Hd1 Hd2)].
Qed.
Lemma items_ok its p : Forall def_ok (items_defs p its).
Proof.
  induction its as [|i its IH]; [constructor|]. rewrite items_cons. apply Forall_app. split; [apply defs_ok|exact IH].
Qed.

(** ** Top-level elements *)
Definition oracle_ok (o : an_oracle) : Prop :=
  (forall t n s, Permutation (o_guard o t n s) s) /\ (forall t m, Permutation (o_flat o t m) m).

Section Elements.
  Context (o : an_oracle) (fs : fsys) (pj : project) (file : dts_file) (ft : file_type).
  Hypothesis Ho : oracle_ok o.
  Hypothesis Hpj : project_ok pj.
  Notation src := (fl_source file).

  Definition flags_ok (ps : list primary) (c : fctx) : Prop :=
    fc_type c = ft
    /\ (fc_plugin c = true <-> has_plugin ps \/ ft = DtSourceOverlay)
    /\ (fc_first_non_include c = true <-> has_content ps)
    /\ (fc_header c = true <-> has_header ps).

  Lemma type_eqb a b : file_type_eqb a b = true <-> a = b.
  Proof. destruct a, b; cbn; split; congruence. Qed.

  Lemma blame_spec ps c r : flags_ok ps c -> exists es, blame ft ps r false es
    /\ grows c (unresolved_error r c) es [] /\ tables (unresolved_error r c) = tables c.
  Proof.
    intros (F1 & F2 & _ & _). unfold unresolved_error. rewrite F1.
    destruct (file_type_eqb ft DtSource) eqn:Et; cbn [andb].
    - apply type_eqb in Et. destruct (fc_plugin c) eqn:Ep; cbn [negb].
      + exists []. split; [|split; [apply grows_refl|reflexivity]]. apply bl_silent. intros [_ H]. apply H.
        assert (H2 : has_plugin ps \/ ft = DtSourceOverlay) by (apply F2; reflexivity).
        destruct H2 as [H2|H2]; [exact H2|congruence].
      + eexists. split; [apply bl_report; split; [exact Et|]|split; [|reflexivity]].
        * intros H. assert (E : false = true) by (apply F2; left; exact H). discriminate.
        * unfold grows. cbn. rewrite app_nil_r. auto.
    - exists []. split; [|split; [apply grows_refl|reflexivity]]. apply bl_silent. intros [H _].
      apply type_eqb in H. congruence.
  Qed.

  Lemma has_label_spec l n : has_label l n = true <-> label_is (nd_label n) l.
  Proof.
    unfold has_label, label_is. destruct (nd_label n) as [w|].
    - unfold str_eqb. destruct (str_eq_dec (wt_item w) l) as [E|E].
      + split; eauto.
      + split; [discriminate|]. intros (w' & F & E'). congruence.
    - split; [discriminate|]. intros (w' & F & _). discriminate.
  Qed.
  Lemma find_label_some l m p : find_label l m = Some p -> exists n, In (p, n) m /\ label_is (nd_label n) l.
  Proof.
    induction m as [|[q n] m IH]; [discriminate|]. cbn [find_label]. destruct (has_label l n) eqn:E.
    - intros F. injection F as ->. exists n. split; [left; reflexivity|apply has_label_spec, E].
    - intros F. destruct (IH F) as (n' & H1 & H2). exists n'. split; [right; exact H1|exact H2].
  Qed.
  Lemma find_label_none l m p n : find_label l m = None -> In (p, n) m -> ~ label_is (nd_label n) l.
  Proof.
    induction m as [|[q n'] m IH]; [intros _ []|]. cbn [find_label]. destruct (has_label l n') eqn:E; [discriminate|].
    intros F [H|H]; [|exact (IH F H)]. injection H as -> ->. intros H. apply has_label_spec in H. congruence.
  Qed.

  Lemma resolve_spec ps ds h r a c : flags_ok ps c -> rep ds c -> an_guard a = guard_after str_eq_dec h ->
    exists p a' c' found es, resolve_reference o r a c = (p, (a', c'))
      /\ opens ds (wt_item r) p found /\ blame ft ps r found es
      /\ grows c c' es [] /\ tables c' = tables c /\ an_guard a' = guard_after str_eq_dec h.
  Proof.
    intros F R G. destruct R as (N1 & N2 & HL & HP). unfold resolve_reference. destruct (blame_spec ps c r F) as (es & B1 & B2 & B3).
    destruct (wt_item r) as [l|p].
    - destruct (find_label l (o_flat o (an_tick a) (fc_flat c))) as [p|] eqn:E.
      + exists p, (tick a), c, true, []. split; [reflexivity|].
        apply find_label_some in E. destruct E as (n & H1 & H2).
        apply (Permutation_in _ (proj2 Ho _ _)) in H1. apply (m_in_get npath_eq_dec) in H1; [|exact N2].
        split; [eapply op_label; [apply HP; exact H1|exact H2]|]. split; [constructor|].
        split; [apply grows_refl|]. auto.
      + exists [], (tick a), (unresolved_error r c), false, es. split; [reflexivity|].
        split; [|auto]. apply op_no_label. intros p n H. apply HP, m_get_in in H.
        eapply find_label_none; [exact E|]. eapply Permutation_in; [apply Permutation_sym, (proj2 Ho)|exact H].
    - destruct (m_mem npath_eq_dec p (fc_flat c)) eqn:E.
      + exists p, a, c, true, []. split; [reflexivity|]. apply m_mem_get in E. destruct E as [n E].
        split; [eapply op_path, HP, E|]. split; [constructor|]. split; [apply grows_refl|]. auto.
      + exists p, a, (unresolved_error r c), false, es. split; [reflexivity|]. split; [|auto].
        apply op_no_path. intros n H. apply HP in H.
        assert (m_mem npath_eq_dec p (fc_flat c) = true) by (apply m_mem_get; eauto). congruence.
  Qed.

  Lemma severity_eqb_spec a b : severity_eqb a b = true <-> a = b.
  Proof. destruct a, b; cbn; split; congruence. Qed.
  Lemma has_errors_spec f : has_errors (pj_sev pj) f = true <-> exists d, error_diag pj f d.
  Proof.
    unfold has_errors. rewrite existsb_exists. unfold error_diag, diag_severity.
    split; intros (d & H1 & H2); exists d; (split; [exact H1|]); apply severity_eqb_spec, H2.
  Qed.

  Lemma simple_on_cycle {V} (E : V -> V -> Prop) p c : simple_cycle E p c -> on_cycle E p.
  Proof.
    intros (mid & -> & H & _). exact (chain_trans E p mid p H).
  Qed.

  Lemma get_file_ok p f ac : get_file fs pj p = Some f -> pf_ctx f = Some ac -> ctx_ok ac.
  Proof.
    unfold get_file. destruct (fs_canon fs p) as [q|]; [|discriminate]. intros H. apply m_get_in in H. apply (Hpj q), H.
  Qed.

  Lemma include_spec ds h i a c : rep ds c -> an_guard a = guard_after str_eq_dec h ->
    exists a' c' dp h' es, analyze_include o fs pj file i a c = Done (a', c')
      /\ included fs pj src h i dp h' es
      /\ grows c c' es [] /\ rep (ds ++ dp) c' /\ an_guard a' = guard_after str_eq_dec h'.
  Proof.
    intros R G. unfold analyze_include. destruct (include_path fs i) as [p|e] eqn:Ep.
    2:{ do 5 eexists. split; [reflexivity|]. split; [apply in_missing, Ep|]. split; [|split; [rewrite app_nil_r; exact R|exact G]].
        unfold grows. cbn. rewrite app_nil_r. auto. }
    destruct (guard_add_spec str_eq_dec (o_guard o (an_tick a)) (proj1 Ho _) h p [src]) as (r & E & Hr).
    rewrite G, E. cbn [obind]. destruct r as [cycle|].
    - do 5 eexists. split; [reflexivity|]. split; [eapply in_cyclic; [exact Ep|exact Hr]|].
      split; [|split; [rewrite app_nil_r; exact R|reflexivity]].
      unfold grows. cbn. rewrite app_nil_r. auto.
    - destruct (get_file fs pj p) as [f|] eqn:Ef.
      2:{ do 5 eexists. split; [reflexivity|]. split; [eapply in_unknown; [exact Ep|exact Hr|exact Ef]|].
          split; [apply grows_refl|split; [rewrite app_nil_r; exact R|reflexivity]]. }
      set (c1 := if has_errors (pj_sev pj) f then _ else c).
      assert (H1 : exists es, ((exists d, error_diag pj f d) /\ es = [mkDiag ErrorsInInclude (include_span i) (include_source i)
                                             (bs "Included file contains errors")]
       \/ (forall d, ~ error_diag pj f d) /\ es = []) /\ grows c c1 es [] /\ tables c1 = tables c).
      { unfold c1. destruct (has_errors (pj_sev pj) f) eqn:Eh.
        - eexists. split; [left; split; [apply has_errors_spec, Eh|reflexivity]|]. split; [|reflexivity].
          unfold grows. cbn. rewrite app_nil_r. auto.
        - exists []. split; [right; split; [|reflexivity]|split; [apply grows_refl|reflexivity]].
          intros d Hd. assert (has_errors (pj_sev pj) f = true) by (apply has_errors_spec; eauto). congruence. }
      destruct H1 as (es & He & Hg & Ht). destruct (pf_ctx f) as [ac|] eqn:Ec.
      + do 5 eexists. split; [reflexivity|]. split.
        { eapply in_file; [exact Ep|exact Hr|exact Ef|reflexivity|exact He]. }
        rewrite Ec. split; [|split; [|reflexivity]].
        * pose proof (grows_trans _ _ _ _ _ _ _ Hg (step_grows c1 (DInclude ac))) as K.
          cbn [def_properties flat_map] in K. rewrite !app_nil_r in K. exact K.
        * apply (rep_step ds c1 (DInclude ac)); [exact (rep_same ds c c1 Ht R)|]. eapply get_file_ok; eassumption.
      + do 5 eexists. split; [reflexivity|]. split.
        { eapply in_file; [exact Ep|exact Hr|exact Ef|reflexivity|exact He]. }
        rewrite Ec, app_nil_r. split; [exact Hg|]. split; [exact (rep_same ds c c1 Ht R)|reflexivity].
  Qed.

  Lemma has_header_snoc ps p : has_header (ps ++ [p]) <-> has_header ps \/ exists t, p = PDirective (ADtsHeader t).
  Proof.
    unfold has_header. split.
    - intros (t & H). apply in_app_or in H. destruct H as [H|[H|[]]]; eauto.
    - intros [[t H]|[t ->]]; exists t; apply in_or_app; [left; exact H|right; left; reflexivity].
  Qed.
  Lemma has_plugin_snoc ps p : has_plugin (ps ++ [p]) <-> has_plugin ps \/ exists t, p = PDirective (APlugin t).
  Proof.
    unfold has_plugin. split.
    - intros (t & H). apply in_app_or in H. destruct H as [H|[H|[]]]; eauto.
    - intros [[t H]|[t ->]]; exists t; apply in_or_app; [left; exact H|right; left; reflexivity].
  Qed.
  Lemma has_content_snoc ps p : has_content (ps ++ [p]) <-> has_content ps \/ after_header p = true.
  Proof.
    unfold has_content. split.
    - intros (t & H & E). apply in_app_or in H. destruct H as [H|[<-|[]]]; eauto.
    - intros [(t & H & E)|E]; [exists t|exists p]; (split; [apply in_or_app|exact E]); [left; exact H|right; left; reflexivity].
  Qed.

  (** how an element changes the flags *)
  Lemma flags_snoc ps p c c' : flags_ok ps c ->
    fc_type c' = fc_type c ->
    (fc_plugin c' = match p with PDirective (APlugin _) => true | _ => fc_plugin c end) ->
    (fc_first_non_include c' = after_header p || fc_first_non_include c) ->
    (fc_header c' = match p with PDirective (ADtsHeader _) => true | _ => fc_header c end) ->
    flags_ok (ps ++ [p]) c'.
  Proof.
    intros (F1 & F2 & F3 & F4) E1 E2 E3 E4. unfold flags_ok.
    rewrite has_header_snoc, has_plugin_snoc, has_content_snoc, <- F3, E3, <- F4, E1, E2, E4.
    split; [exact F1|]. split; [|split].
    - assert (Hp : (exists t, p = PDirective (APlugin t)) \/ ~ exists t, p = PDirective (APlugin t)).
      { destruct p as [[]| | |]; try (right; intros [? ?]; discriminate). left. eauto. }
      destruct Hp as [[t ->]|Hp]; [split; eauto|].
      replace (match p with PDirective (APlugin _) => true | _ => fc_plugin c end) with (fc_plugin c)
        by (destruct p as [[]| | |]; auto; exfalso; apply Hp; eauto). rewrite F2. tauto.
    - rewrite orb_true_iff. tauto.
    - destruct p as [[]| | |]; (split; [intros H; first [left; exact H|right; eauto]|
        intros [H|[? H]]; try exact H; try discriminate; reflexivity]).
  Qed.

  Definition same_flags (c c' : fctx) := flags c' = flags c.
  Lemma flags_eqs c c' : flags c' = flags c -> fc_type c' = fc_type c /\ fc_plugin c' = fc_plugin c
    /\ fc_first_non_include c' = fc_first_non_include c /\ fc_header c' = fc_header c.
  Proof. intros E. injection E. auto. Qed.

  Lemma element_refs p : flat_map property_refs (element_properties p) = all_references [p].
  Proof. unfold all_references, all_properties. cbn [flat_map]. rewrite app_nil_r. reflexivity. Qed.

  (** the part of [grows] without the flags *)
  Definition adds (c c' : fctx) es rs := fc_diags c' = fc_diags c ++ es /\ fc_unres c' = fc_unres c ++ rs.

  Lemma primary_spec ps ds h p a c : flags_ok ps c -> rep ds c -> an_guard a = guard_after str_eq_dec h ->
    exists a' c' dp h' es, analyze_primary o fs pj file p a c = Done (a', c')
      /\ element fs pj src ft ps ds h p dp h' es
      /\ adds c c' es (all_references [p]) /\ rep (ds ++ dp) c' /\ flags_ok (ps ++ [p]) c'
      /\ an_guard a' = guard_after str_eq_dec h'.
  Proof.
    intros F R G. pose proof F as (F1 & F2 & F3 & F4).
    destruct p as [[t|t|x l|i|t r|t r]|n|r|s]; cbn [analyze_primary].
    - (* header *)
      assert (H : exists es, header_diags ps t es /\ adds c (set_header (if fc_header c then
        add_diag (diag_from_token t DuplicateDirective (bs "Duplicate dts-v1 version header")) c
        else if fc_first_non_include c then add_diag (diag_from_token t MisplacedDtsHeader
                    (bs "dts-v1 header must be placed on top of the file")) c else c)) es []).
      { destruct (fc_header c) eqn:Eh.
        - eexists. split; [apply hd_duplicate, F4; reflexivity|]. unfold adds. cbn. rewrite app_nil_r. auto.
        - assert (Nh : ~ has_header ps) by (intros H; apply F4 in H; discriminate).
          destruct (fc_first_non_include c) eqn:Ef.
          + eexists. split; [apply hd_misplaced; [exact Nh|apply F3; reflexivity]|]. unfold adds. cbn. rewrite app_nil_r. auto.
          + eexists. split; [apply hd_fine; [exact Nh|intros H; apply F3 in H; discriminate]|].
            unfold adds. cbn. rewrite !app_nil_r. auto. }
      destruct H as (es & H1 & H2). do 5 eexists. split; [reflexivity|]. split; [constructor; exact H1|].
      split; [exact H2|]. split; [rewrite app_nil_r; eapply rep_same; [|exact R]; destruct (fc_header c), (fc_first_non_include c); reflexivity|].
      split; [|exact G]. eapply flags_snoc; [exact F| | | |]; destruct (fc_header c), (fc_first_non_include c) eqn:E; cbn; auto.
    - (* plugin *)
      do 5 eexists. split; [reflexivity|]. split; [constructor|]. split; [unfold adds; cbn; rewrite !app_nil_r; auto|].
      split; [rewrite app_nil_r; eapply rep_same; [|exact R]; reflexivity|]. split; [|exact G].
      eapply flags_snoc; [exact F| | | |]; reflexivity.
    - do 5 eexists. split; [reflexivity|]. split; [constructor|]. split; [unfold adds; cbn; rewrite !app_nil_r; auto|].
      split; [rewrite app_nil_r; eapply rep_same; [|exact R]; reflexivity|]. split; [|exact G].
      eapply flags_snoc; [exact F| | | |]; reflexivity.
    - destruct (include_spec ds h i a c R G) as (a' & c' & dp & h' & es & E & H1 & (H2 & H3 & H4) & H5 & H6).
      exists a', c', dp, h', es. split; [exact E|]. split; [constructor; exact H1|]. split; [split; assumption|].
      split; [exact H5|]. split; [|exact H6]. apply flags_eqs in H4. destruct H4 as (K1 & K2 & K3 & K4).
      eapply flags_snoc; [exact F| | | |]; assumption.
    - destruct (resolve_spec ps ds h r a c F R G) as (p & a' & c' & found & es & E & H1 & H2 & (H3 & H4 & H5) & H6 & H7).
      rewrite E. cbn [snd]. exists a', c', [], h, es. split; [reflexivity|]. split; [econstructor; eassumption|].
      split; [split; assumption|]. split; [rewrite app_nil_r; eapply rep_same; eassumption|]. split; [|exact H7].
      apply flags_eqs in H5. destruct H5 as (K1 & K2 & K3 & K4). eapply flags_snoc; [exact F| | | |]; assumption.
    - do 5 eexists. split; [reflexivity|]. split; [constructor|]. split; [unfold adds; cbn; rewrite !app_nil_r; auto|].
      split; [rewrite app_nil_r; eapply rep_same; [|exact R]; reflexivity|]. split; [|exact G].
      eapply flags_snoc; [exact F| | | |]; reflexivity.
    - (* root *)
      rewrite (proj1 steps_all). destruct (steps_grow c (node_defs [] n)) as (H1 & H2 & H3).
      do 5 eexists. split; [reflexivity|]. split; [constructor|]. split.
      { rewrite <- element_refs. split; [exact H1|exact H2]. }
      split.
      { eapply rep_same; [|apply rep_steps; [exact R|apply defs_ok]]. reflexivity. }
      split; [|exact G]. apply flags_eqs in H3. destruct H3 as (K1 & K2 & K3 & K4).
      eapply flags_snoc; [exact F| | | |]; cbn; auto.
    - (* reference node *)
      unfold analyze_referenced_node. rewrite F1. destruct (file_type_eqb ft DtSource) eqn:Et.
      + apply type_eqb in Et.
        destruct (resolve_spec ps ds h (rn_reference r) a c F R G) as (p & a' & c1 & found & es & E & H1 & H2 & (H3 & H4 & H5) & H6 & H7).
        rewrite E. rewrite payload_all. destruct (steps_grow c1 (items_defs p (pl_items (rn_payload r)))) as (S1 & S2 & S3).
        do 5 eexists. split; [reflexivity|]. split; [eapply el_opened; eassumption|]. split.
        { rewrite <- element_refs. cbn [element_properties]. split; cbn [fc_diags fc_unres set_first_non_include].
          - rewrite S1, H3, <- app_assoc, (items_path _ p []). reflexivity.
          - rewrite S2, H4, app_nil_r, (items_path _ p []). reflexivity. }
        split.
        { eapply rep_same; [|apply rep_steps; [exact (rep_same _ _ _ H6 R)|apply items_ok]]. reflexivity. }
        split; [|exact H7]. rewrite H5 in S3. apply flags_eqs in S3. destruct S3 as (K1 & K2 & K3 & K4).
        eapply flags_snoc; [exact F| | | |]; cbn; auto.
      + assert (Et' : ft <> DtSource) by (intros H; apply type_eqb in H; congruence).
        rewrite payload_all. destruct (steps_grow c (items_defs [] (pl_items (rn_payload r)))) as (S1 & S2 & S3).
        do 5 eexists. split; [reflexivity|]. split; [eapply el_assumed; exact Et'|]. split.
        { rewrite <- element_refs. split; [exact S1|exact S2]. }
        split.
        { eapply rep_same; [|apply rep_steps; [exact R|apply items_ok]]. reflexivity. }
        split; [|exact G]. apply flags_eqs in S3. destruct S3 as (K1 & K2 & K3 & K4).
        eapply flags_snoc; [exact F| | | |]; cbn; auto.
    - do 5 eexists. split; [reflexivity|]. split; [constructor|]. split; [unfold adds; cbn; rewrite !app_nil_r; auto|].
      split; [rewrite app_nil_r; exact R|]. split; [|exact G].
      eapply flags_snoc; [exact F| | | |]; reflexivity.
  Qed.

  Lemma primaries_spec l : forall ps ds h a c, flags_ok ps c -> rep ds c -> an_guard a = guard_after str_eq_dec h ->
    exists a' c' ds' h' es, analyze_primaries o fs pj file l a c = Done (a', c')
      /\ elements fs pj src ft ps ds h l ds' h' es
      /\ adds c c' es (all_references l) /\ rep ds' c' /\ flags_ok (ps ++ l) c'
      /\ an_guard a' = guard_after str_eq_dec h'.
  Proof.
    induction l as [|p l IH]; intros ps ds h a c F R G.
    - exists a, c, ds, h, []. split; [reflexivity|]. split; [constructor|]. split; [unfold adds; cbn; rewrite !app_nil_r; auto|].
      rewrite app_nil_r. auto.
    - destruct (primary_spec ps ds h p a c F R G) as (a1 & c1 & dp & h1 & ep & E & H1 & (H2 & H3) & H4 & H5 & H6).
      destruct (IH _ _ _ _ _ H5 H4 H6) as (a' & c' & ds' & h' & es & E' & K1 & (K2 & K3) & K4 & K5 & K6).
      exists a', c', ds', h', (ep ++ es). cbn [analyze_primaries]. rewrite E. cbn [obind]. split; [exact E'|].
      split; [econstructor; eassumption|]. split.
      { split; [rewrite K2, H2, app_assoc; reflexivity|]. rewrite K3, H3, <- app_assoc. f_equal.
        unfold all_references, all_properties. cbn [flat_map]. rewrite app_nil_r, flat_map_app. reflexivity. }
      split; [exact K4|]. split; [|exact K6]. rewrite <- app_assoc in K5. exact K5.
  Qed.

  Lemma references_spec ps ds l : forall c, flags_ok ps c -> rep ds c ->
    exists rs, reference_diags ft ps ds l rs /\ fc_diags (fold_left resolve_one l c) = fc_diags c ++ rs
      /\ tables (fold_left resolve_one l c) = tables c.
  Proof.
    induction l as [|r l IH]; intros c F R.
    - exists []. split; [constructor|]. rewrite app_nil_r. auto.
    - assert (H : exists found es, (found = true <-> resolves ds (wt_item r)) /\ blame ft ps r found es
        /\ grows c (resolve_one c r) es [] /\ tables (resolve_one c r) = tables c).
      { destruct (blame_spec ps c r F) as (es & B1 & B2 & B3). destruct R as (N1 & N2 & HL & HP).
        unfold resolve_one. destruct (wt_item r) as [k|p]; cbn [resolves].
        - destruct (m_mem str_eq_dec k (fc_labels c)) eqn:E.
          + exists true, []. split; [|split; [constructor|split; [apply grows_refl|reflexivity]]].
            split; [|auto]. intros _. apply m_mem_get in E. destruct E as [v E]. exists v. apply HL, E.
          + exists false, es. split; [|auto]. split; [discriminate|]. intros [v Hv]. apply HL in Hv.
            rewrite <- E. apply m_mem_get. eauto.
        - destruct (m_mem npath_eq_dec p (fc_flat c)) eqn:E.
          + exists true, []. split; [|split; [constructor|split; [apply grows_refl|reflexivity]]].
            split; [|auto]. intros _. apply m_mem_get in E. destruct E as [v E]. exists v. apply HP, E.
          + exists false, es. split; [|auto]. split; [discriminate|]. intros [v Hv]. apply HP in Hv.
            rewrite <- E. apply m_mem_get. eauto. }
      destruct H as (found & es & H1 & H2 & (H3 & H4 & H5) & H6).
      destruct (IH (resolve_one c r)) as (rs & K1 & K2 & K3).
      { apply flags_eqs in H5. destruct H5 as (E1 & E2 & E3 & E4). unfold flags_ok. rewrite E1, E2, E3, E4. exact F. }
      { exact (rep_same _ _ _ H6 R). }
      exists (es ++ rs). split; [econstructor; eassumption|]. cbn [fold_left]. split; [|congruence].
      rewrite K2, H3, app_assoc. reflexivity.
  Qed.

  Lemma flags_new : flags_ok [] (fctx_new ft).
  Proof.
    unfold flags_ok, fctx_new. cbn. split; [reflexivity|]. split; [|split].
    - rewrite type_eqb. split; [auto|]. intros [[t []]|H]; exact H.
    - split; [discriminate|]. intros (p & [] & _).
    - split; [discriminate|]. intros (p & []).
  Qed.
  Lemma rep_new t : rep [] (fctx_new t).
  Proof.
    unfold rep. cbn. split; [constructor|]. split; [constructor|]. split; intros; (split; [discriminate|]);
      intros H; exfalso; eapply last_of_nil, H.
  Qed.
  (** after the elements *)
  Lemma finish_spec a a' c ds es : analyze_primaries o fs pj file (fl_elements file) a (fctx_new ft) = Done (a', c) ->
    adds (fctx_new ft) c es (all_references (fl_elements file)) -> rep ds c -> flags_ok (fl_elements file) c ->
    exists ac vs rs, analyze_file o fs pj file ft a = Done ((ac, es ++ vs ++ rs), a')
      /\ version_diags src ft (fl_elements file) vs /\ reference_diags ft (fl_elements file) ds (all_references (fl_elements file)) rs
      /\ ctx_ok ac
      /\ (forall l x, m_get str_eq_dec l (ac_labels ac) = Some x <-> label_means ds l x)
      /\ (forall p n, m_get npath_eq_dec p (ac_flat ac) = Some n <-> path_means ds p n).
  Proof.
    intros E (H2 & H3) H4 H5. cbn in H2, H3.
    assert (V : exists vs, version_diags src ft (fl_elements file) vs /\ fc_diags (check_header file c) = fc_diags c ++ vs
      /\ tables (check_header file c) = tables c /\ flags (check_header file c) = flags c
      /\ fc_unres (check_header file c) = fc_unres c).
    { destruct H5 as (F1 & F2 & F3 & F4). unfold check_header. rewrite F1. destruct (fc_header c) eqn:Eh; cbn [negb andb].
      - exists []. split; [apply vd_fine; right; apply F4; reflexivity|]. rewrite app_nil_r. auto.
      - destruct (file_type_eqb ft DtSource) eqn:Et.
        + eexists. split; [apply vd_missing; [apply type_eqb, Et|]|].
          * intros H. apply F4 in H. discriminate.
          * cbn. auto.
        + exists []. split; [apply vd_fine; left; intros H; apply type_eqb in H; congruence|]. rewrite app_nil_r. auto. }
    destruct V as (vs & V1 & V2 & V3 & V4 & V5).
    destruct (references_spec (fl_elements file) ds (all_references (fl_elements file)) (check_header file c)) as (rs & K1 & K2 & K3).
    { apply flags_eqs in V4. destruct V4 as (E1 & E2 & E3 & E4). unfold flags_ok. rewrite E1, E2, E3, E4. exact H5. }
    { exact (rep_same _ _ _ V3 H4). }
    unfold analyze_file. rewrite E. cbn [obind]. unfold resolve_references. rewrite V5, H3.
    do 3 eexists. split; [rewrite K2, V2, H2, <- app_assoc; reflexivity|]. split; [exact V1|]. split; [exact K1|].
    assert (T := eq_trans K3 V3). injection T as T1 T2. cbn [ac_labels ac_flat]. rewrite T1, T2.
    destruct H4 as (N1 & N2 & HL & HP). split; [split; assumption|]. split; [exact HL|exact HP].
  Qed.

  (** the analysis of a file: its diagnostics and tables are those of the specification *)
  Lemma file_spec h a : an_guard a = guard_after str_eq_dec h ->
    exists ac es a' ds h', analyze_file o fs pj file ft a = Done ((ac, es), a')
      /\ analysis_of fs pj src ft h (fl_elements file) ds h' es
      /\ ctx_ok ac
      /\ (forall l x, m_get str_eq_dec l (ac_labels ac) = Some x <-> label_means ds l x)
      /\ (forall p n, m_get npath_eq_dec p (ac_flat ac) = Some n <-> path_means ds p n)
      /\ an_guard a' = guard_after str_eq_dec h'.
  Proof.
    intros G. pose proof flags_new as F0. pose proof (rep_new ft) as R0.
    destruct (primaries_spec (fl_elements file) [] [] h a (fctx_new ft) F0 R0 G)
      as (a' & c & ds & h' & es & E & H1 & H2 & H4 & H5 & H6).
    destruct (finish_spec a a' c ds es E H2 H4 H5) as (ac & vs & rs & K1 & K2 & K3 & K4 & K5 & K6).
    exists ac, (es ++ vs ++ rs), a', ds, h'. split; [exact K1|]. split; [econstructor; eassumption|]. auto.
  Qed.
End Elements.
