(** Labels nobody refers to left out: analysis and projects *)
From Verif Require Import Lexer LexerProofs2 LexerProofs3 Parser Project Visitor Server Session AnalysisSpec AnalysisProofs TreeProofs PropsParser CrLfProject Unlabel.
From Coq Require Import Lia List.
Import ListNotations.

Section Drop.
Context (drop : str -> bool).
Notation un_label := (un_label drop).
Notation un_property := (un_property drop).
Notation un_item := (un_item drop).
Notation un_node := (un_node drop).
Notation un_payload := (un_payload drop).
Notation un_primary := (un_primary drop).
Notation un_file := (un_file drop).

Definition un_labeled (x : labeled) : labeled :=
  match x with LNode n => LNode (un_node n) | LProperty p => LProperty (un_property p) end.
Definition un_labels (m : list (str * labeled)) : list (str * labeled) :=
  map (fun kv => (fst kv, un_labeled (snd kv))) (filter (fun kv => negb (drop (fst kv))) m).
Definition un_flat (m : list (npath * node)) : list (npath * node) := map (fun kv => (fst kv, un_node (snd kv))) m.
Definition un_actx (c : actx) : actx := mkActx (un_labels (ac_labels c)) (un_flat (ac_flat c)).

(** ** Tables *)
Lemma filter_all {A} (f : A -> bool) l : (forall x, In x l -> f x = true) -> filter f l = l.
Proof.
  induction l as [|x l IH]; intros H; [reflexivity|]. cbn [filter]. rewrite (H x (or_introl eq_refl)), IH; [reflexivity|].
  intros y Y. apply H. right. exact Y.
Qed.
Lemma map_get {K V} (eq_dec : forall a b : K, {a = b} + {a <> b}) (f : V -> V) k m :
  m_get eq_dec k (map (fun kv => (fst kv, f (snd kv))) m) = option_map f (m_get eq_dec k m).
Proof. induction m as [|[k' v] m IH]; [reflexivity|]. cbn [map m_get fst snd]. destruct (eq_dec k k'); [reflexivity|exact IH]. Qed.
Lemma map_remove {K V} (eq_dec : forall a b : K, {a = b} + {a <> b}) (f : V -> V) k m :
  map (fun kv => (fst kv, f (snd kv))) (m_remove eq_dec k m) = m_remove eq_dec k (map (fun kv => (fst kv, f (snd kv))) m).
Proof.
  unfold m_remove. induction m as [|[k' v] m IH]; [reflexivity|]. cbn [map filter fst snd].
  destruct (eq_dec k k'); cbn [map fst snd]; rewrite IH; reflexivity.
Qed.
Lemma flat_insert p n m : un_flat (m_insert npath_eq_dec p n m) = m_insert npath_eq_dec p (un_node n) (un_flat m).
Proof. unfold un_flat, m_insert. cbn [map fst snd]. rewrite (map_remove npath_eq_dec un_node). reflexivity. Qed.
Lemma flat_extend m' : forall m, un_flat (m_extend npath_eq_dec m m') = m_extend npath_eq_dec (un_flat m) (un_flat m').
Proof.
  unfold m_extend. induction m' as [|[p n] m' IH]; intros m; [reflexivity|]. cbn [un_flat map fold_left fst snd].
  rewrite IH, flat_insert. reflexivity.
Qed.
Lemma filter_remove k (m : list (str * labeled)) :
  filter (fun kv => negb (drop (fst kv))) (m_remove str_eq_dec k m) = m_remove str_eq_dec k (filter (fun kv => negb (drop (fst kv))) m).
Proof.
  unfold m_remove. induction m as [|[k' v] m IH]; [reflexivity|]. cbn [filter fst].
  destruct (str_eq_dec k k') as [->|E]; destruct (drop k') eqn:D; cbn [filter fst negb]; rewrite ?D; cbn [negb];
    try destruct (str_eq_dec k' k'); try destruct (str_eq_dec k k'); try congruence; rewrite ?IH; reflexivity.
Qed.
Lemma labels_remove k m : un_labels (m_remove str_eq_dec k m) = m_remove str_eq_dec k (un_labels m).
Proof. unfold un_labels. rewrite filter_remove, (map_remove str_eq_dec un_labeled). reflexivity. Qed.
Lemma labels_insert k x m :
  un_labels (m_insert str_eq_dec k x m) = if drop k then un_labels m else m_insert str_eq_dec k (un_labeled x) (un_labels m).
Proof.
  unfold m_insert. destruct (drop k) eqn:D.
  - unfold un_labels at 1. cbn [filter fst]. rewrite D. cbn [negb].
    change (un_labels (m_remove str_eq_dec k m) = un_labels m). rewrite labels_remove.
    unfold m_remove. apply filter_all. intros [k' v] H. unfold un_labels in H. apply in_map_iff in H. destruct H as ([k2 v2] & E & H).
    apply filter_In in H. destruct H as [_ H]. cbn [fst snd] in *. injection E as <- _.
    destruct (str_eq_dec k k2) as [<-|]; [rewrite D in H; discriminate|reflexivity].
  - unfold un_labels at 1. cbn [filter fst]. rewrite D. cbn [negb map fst snd]. f_equal. apply labels_remove.
Qed.
Lemma labels_extend m' : forall m, un_labels (m_extend str_eq_dec m m') = m_extend str_eq_dec (un_labels m) (un_labels m').
Proof.
  unfold m_extend. induction m' as [|[k x] m' IH]; intros m; [reflexivity|].
  cbn [fold_left fst snd]. rewrite IH, labels_insert.
  change (un_labels ((k, x) :: m')) with (map (fun kv => (fst kv, un_labeled (snd kv))) (filter (fun kv => negb (drop (fst kv))) ((k, x) :: m'))).
  cbn [filter fst]. destruct (drop k); cbn [negb map fst snd fold_left]; reflexivity.
Qed.
Lemma labels_get l m : drop l = false -> m_get str_eq_dec l (un_labels m) = option_map un_labeled (m_get str_eq_dec l m).
Proof.
  intros D. unfold un_labels. rewrite (map_get str_eq_dec un_labeled). f_equal.
  induction m as [|[k x] m IH]; [reflexivity|]. cbn [filter fst m_get]. destruct (drop k) eqn:E; cbn [negb].
  - destruct (str_eq_dec l k) as [->|]; [congruence|exact IH].
  - cbn [m_get]. destruct (str_eq_dec l k); [reflexivity|exact IH].
Qed.
Lemma labels_mem l m : drop l = false -> m_mem str_eq_dec l (un_labels m) = m_mem str_eq_dec l m.
Proof. intros D. unfold m_mem. rewrite (labels_get _ _ D). destruct (m_get str_eq_dec l m); reflexivity. Qed.
Lemma flat_get p m : m_get npath_eq_dec p (un_flat m) = option_map un_node (m_get npath_eq_dec p m).
Proof. apply (map_get npath_eq_dec un_node). Qed.
Lemma flat_mem p m : m_mem npath_eq_dec p (un_flat m) = m_mem npath_eq_dec p m.
Proof. unfold m_mem. rewrite flat_get. destruct (m_get npath_eq_dec p m); reflexivity. Qed.

(** ** References *)
(** the reference does not name a label that is left out *)
Definition ref_kept (r : reference) : Prop := match r with RefLabel l => drop l = false | RefPath _ => True end.
Definition wref_kept (w : wtok reference) : Prop := ref_kept (wt_item w).
(** the references of a top-level element *)
Definition primary_refs (p : primary) : list (wtok reference) :=
  match p with
  | PDirective (ADeletedNode _ r) | PDirective (AOmitIfNoRef _ r) => [r]
  | PReferencedNode r => [rn_reference r]
  | _ => []
  end ++ flat_map property_refs (element_properties p).
Definition unreferenced (f : dts_file) : Prop := Forall wref_kept (flat_map primary_refs (fl_elements f)).

Lemma un_nd_label n : nd_label (un_node n) = un_label (nd_label n).
Proof. destruct n as [? ? [] ?]. reflexivity. Qed.
Lemma un_nd_name n : nd_name (un_node n) = nd_name n.
Proof. destruct n as [? ? [] ?]. reflexivity. Qed.
Lemma has_label_un l n : drop l = false -> has_label l (un_node n) = has_label l n.
Proof.
  intros D. unfold has_label. rewrite un_nd_label. destruct (nd_label n) as [w|]; [|reflexivity]. cbn [Unlabel.un_label].
  destruct (drop (wt_item w)) eqn:E; [|reflexivity]. symmetry. unfold str_eqb. destruct (str_eq_dec (wt_item w) l); [congruence|reflexivity].
Qed.
Lemma find_label_un l m : drop l = false -> find_label l (un_flat m) = find_label l m.
Proof.
  intros D. induction m as [|[p n] m IH]; [reflexivity|]. cbn [un_flat map find_label fst snd].
  rewrite (has_label_un _ _ D). destruct (has_label l n); [reflexivity|exact IH].
Qed.
Lemma referenced_un c r : ref_kept r -> get_referenced (un_actx c) r = option_map un_node (get_referenced c r).
Proof.
  destruct r as [l|p]; intros K; cbn [get_referenced].
  - unfold get_node_by_label. cbn [un_actx ac_labels]. rewrite (labels_get _ _ K).
    destruct (m_get str_eq_dec l (ac_labels c)) as [[n|q]|]; reflexivity.
  - apply flat_get.
Qed.

(** ** Definitions *)
Definition un_def (d : def) : def :=
  match d with DNode p n => DNode p (un_node n) | DProperty p => DProperty (un_property p) | DInclude c => DInclude (un_actx c) end.
Lemma node_defs_un n : forall p, node_defs p (un_node n) = map un_def (node_defs p n).
Proof.
  apply (node_rect' (fun n => forall p, node_defs p (un_node n) = map un_def (node_defs p n))
    (fun i => forall p, items_defs p [un_item i] = map un_def (items_defs p [i]))); try (intros; reflexivity).
  - intros l nm its e o IH p. cbn [node_defs].
    change (un_node (mkNode l nm (mkPayload its e) o)) with (mkNode (un_label l) nm (mkPayload (map un_item its) e) o).
    cbn [node_defs map un_def]. f_equal. clear - IH. fold items_defs in *. induction IH as [|i its Hd _ IHl]; [reflexivity|].
    specialize (Hd p). unfold items_defs in *. cbn [map]. destruct i as [q|n|t w|t w]; cbn [Unlabel.un_item items_defs_of map] in *; try exact IHl.
    + f_equal. exact IHl.
    + rewrite map_app, IHl. f_equal. rewrite !app_nil_r in Hd. exact Hd.
  - intros n0 IH p. unfold items_defs. cbn [Unlabel.un_item items_defs_of]. rewrite !app_nil_r. destruct n0. apply IH.
Qed.
Lemma items_defs_un p its : items_defs p (map un_item its) = map un_def (items_defs p its).
Proof.
  unfold items_defs. induction its as [|i its IH]; [reflexivity|]. cbn [map]. destruct i as [q|n|t w|t w]; cbn [Unlabel.un_item items_defs_of map]; try exact IH.
  - f_equal. exact IH.
  - rewrite map_app, IH. f_equal. destruct n. apply (node_defs_un (mkNode _ _ _ _)).
Qed.
Lemma un_items p : pl_items (un_payload p) = map un_item (pl_items p).
Proof. destruct p. reflexivity. Qed.

(** ** Contexts *)
Record like (c c' : fctx) : Prop := mkLike {
  lk_diags : fc_diags c' = fc_diags c;
  lk_unres : fc_unres c' = fc_unres c;
  lk_kept : Forall wref_kept (fc_unres c);
  lk_flags : flags c' = flags c;
  lk_labels : fc_labels c' = un_labels (fc_labels c);
  lk_flat : fc_flat c' = un_flat (fc_flat c)
}.
Lemma like_grows c c' d d' es rs : like c c' -> grows c d es rs -> grows c' d' es rs -> Forall wref_kept rs ->
  fc_labels d' = un_labels (fc_labels d) -> fc_flat d' = un_flat (fc_flat d) -> like d d'.
Proof.
  intros [A B C D _ _] (G1 & G2 & G3) (H1 & H2 & H3) K L M. constructor; try assumption; try congruence.
  rewrite G2. apply Forall_app. split; assumption.
Qed.

Lemma like_step c c' d : like c c' -> Forall wref_kept (flat_map property_refs (def_properties d)) ->
  like (def_step c d) (def_step c' (un_def d)).
Proof.
  intros L K. pose proof (step_grows c d) as G. pose proof (step_grows c' (un_def d)) as G'.
  assert (E : flat_map compatible_diags (def_properties (un_def d)) = flat_map compatible_diags (def_properties d)
    /\ flat_map property_refs (def_properties (un_def d)) = flat_map property_refs (def_properties d)).
  { destruct d as [p n|p|x]; split; reflexivity. }
  destruct E as [E1 E2]. rewrite E1, E2 in G'. eapply like_grows; [exact L|exact G|exact G'|exact K| |].
  - destruct d as [p n|p|x]; cbn [def_step un_def].
    + unfold define_node. rewrite un_nd_label. destruct (nd_label n) as [w|]; cbn [Unlabel.un_label]; [|cbn; apply L].
      cbn [fc_labels set_flat set_labels]. rewrite labels_insert, <- (lk_labels _ _ L). destruct (drop (wt_item w)); reflexivity.
    + pose proof (proj2 (property_grows c p)) as T. pose proof (proj2 (property_grows c' (un_property p))) as T'.
      unfold tables in T, T'. injection T as T _. injection T' as T' _. rewrite T, T'. cbn [Unlabel.un_property pr_label]. unfold label_insert.
      destruct (pr_label p) as [w|]; cbn [Unlabel.un_label]; [|apply L]. rewrite labels_insert, (lk_labels _ _ L).
      destruct (drop (wt_item w)); reflexivity.
    + cbn [fc_labels set_labels]. rewrite labels_extend, (lk_labels _ _ L). reflexivity.
  - destruct d as [p n|p|x]; cbn [def_step un_def].
    + unfold define_node. rewrite un_nd_label.
      assert (X : forall y z : fctx, fc_flat y = fc_flat c -> fc_flat z = fc_flat c' ->
        fc_flat (set_flat (m_insert npath_eq_dec p (un_node n) (fc_flat z)) z) = un_flat (fc_flat (set_flat (m_insert npath_eq_dec p n (fc_flat y)) y))).
      { intros y z Y Z. cbn [fc_flat set_flat]. rewrite flat_insert, Y, Z, (lk_flat _ _ L). reflexivity. }
      apply X.
      * destruct (nd_label n); reflexivity.
      * destruct (un_label (nd_label n)); reflexivity.
    + pose proof (proj2 (property_grows c p)) as T. pose proof (proj2 (property_grows c' (un_property p))) as T'.
      unfold tables in T, T'. injection T as _ T. injection T' as _ T'. rewrite T, T'. apply L.
    + cbn [fc_flat set_flat set_labels]. rewrite flat_extend, (lk_flat _ _ L). reflexivity.
Qed.
Lemma like_steps ds : forall c c', like c c' -> Forall wref_kept (flat_map property_refs (flat_map def_properties ds)) ->
  like (fold_left def_step ds c) (fold_left def_step (map un_def ds) c').
Proof.
  induction ds as [|d ds IH]; intros c c' L K; [exact L|]. cbn [flat_map] in K. rewrite flat_map_app in K. apply Forall_app in K.
  cbn [map fold_left]. apply IH; [|apply K]. apply like_step; [exact L|apply K].
Qed.
Lemma like_diag c c' d : like c c' -> like (add_diag d c) (add_diag d c').
Proof. intros [A B C D E F]. constructor; cbn [add_diag fc_diags fc_unres fc_labels fc_flat]; try assumption; try congruence. Qed.
Lemma like_fields c c' : like c c' -> fc_type c' = fc_type c /\ fc_plugin c' = fc_plugin c
  /\ fc_first_non_include c' = fc_first_non_include c /\ fc_header c' = fc_header c.
Proof. intros L. pose proof (lk_flags _ _ L) as H. unfold flags in H. injection H as A B C D. auto. Qed.
Lemma like_unresolved c c' r : like c c' -> like (unresolved_error r c) (unresolved_error r c').
Proof.
  intros L. unfold unresolved_error. destruct (like_fields _ _ L) as (-> & -> & _). destruct (_ && _); [apply like_diag|]; exact L.
Qed.
Lemma like_set (f : fctx -> fctx) c c' : (forall x, fc_diags (f x) = fc_diags x /\ fc_unres (f x) = fc_unres x /\ fc_labels (f x) = fc_labels x /\ fc_flat (f x) = fc_flat x) ->
  flags (f c') = flags (f c) -> like c c' -> like (f c) (f c').
Proof.
  intros H E [A B C D G K]. destruct (H c) as (P & Q & R & S), (H c') as (P' & Q' & R' & S').
  constructor; try congruence.
Qed.
Lemma like_header c c' : like c c' -> like (set_header c) (set_header c').
Proof. intros L. apply like_set; [auto| |exact L]. destruct (like_fields _ _ L) as (A & B & C & D). unfold flags. cbn. congruence. Qed.
Lemma like_plugin c c' : like c c' -> like (set_plugin c) (set_plugin c').
Proof. intros L. apply like_set; [auto| |exact L]. destruct (like_fields _ _ L) as (A & B & C & D). unfold flags. cbn. congruence. Qed.
Lemma like_first c c' : like c c' -> like (set_first_non_include c) (set_first_non_include c').
Proof. intros L. apply like_set; [auto| |exact L]. destruct (like_fields _ _ L) as (A & B & C & D). unfold flags. cbn. congruence. Qed.

(** the order in which the nodes are searched depends on their paths only *)
Definition by_path (o : an_oracle) : Prop :=
  forall k (f : node -> node) m, o_flat o k (map (fun kv => (fst kv, f (snd kv))) m) = map (fun kv => (fst kv, f (snd kv))) (o_flat o k m).

Lemma like_resolve o r a c c' : by_path o -> like c c' -> wref_kept r ->
  fst (resolve_reference o r a c') = fst (resolve_reference o r a c)
  /\ fst (snd (resolve_reference o r a c')) = fst (snd (resolve_reference o r a c))
  /\ like (snd (snd (resolve_reference o r a c))) (snd (snd (resolve_reference o r a c'))).
Proof.
  intros B L K. unfold resolve_reference. unfold wref_kept in K. destruct (wt_item r) as [l|p]; cbn [ref_kept] in K.
  - rewrite (lk_flat _ _ L). unfold un_flat at 1 2 3. rewrite (B _ un_node). fold (un_flat (o_flat o (an_tick a) (fc_flat c))).
    rewrite (find_label_un _ _ K). destruct (find_label l _); cbn [fst snd]; split; auto. split; [reflexivity|]. apply like_unresolved, L.
  - cbn [fst snd]. split; [reflexivity|]. split; [reflexivity|]. rewrite (lk_flat _ _ L), flat_mem.
    destruct (m_mem npath_eq_dec p (fc_flat c)); [exact L|apply like_unresolved, L].
Qed.
Lemma like_payload pl path c c' : like c c' -> Forall wref_kept (flat_map property_refs (flat_map def_properties (items_defs path (pl_items pl)))) ->
  like (analyze_payload pl path c) (analyze_payload (un_payload pl) path c').
Proof. intros L K. rewrite !payload_all, un_items, items_defs_un. apply like_steps; assumption. Qed.

(** ** Projects *)
Record pf_like (f f' : pfile) : Prop := mkPfLike {
  pk_pdiags : pf_pdiags f' = pf_pdiags f;
  pk_adiags : pf_adiags f' = pf_adiags f;
  pk_file : pf_file f' = option_map un_file (pf_file f);
  pk_kept : forall file, pf_file f = Some file -> unreferenced file;
  pk_ctx : pf_ctx f' = option_map un_actx (pf_ctx f);
  pk_type : pf_type f' = pf_type f
}.
Notation alike := (Forall2 (entry_alike pf_like)).

Lemma alike_get l l' p : alike l l' ->
  match m_get str_eq_dec p l, m_get str_eq_dec p l' with
  | Some f, Some f' => pf_like f f'
  | None, None => True
  | _, _ => False
  end.
Proof.
  induction 1 as [|[k v] [k' v'] l l' [E S] _ IH]; [exact I|]. cbn [fst snd] in E, S. subst k'.
  cbn [m_get]. destruct (str_eq_dec p k); [exact S|exact IH].
Qed.
Lemma alike_mem l l' p : alike l l' -> m_mem str_eq_dec p l' = m_mem str_eq_dec p l.
Proof.
  intros H. pose proof (alike_get _ _ p H) as G. unfold m_mem.
  destruct (m_get str_eq_dec p l), (m_get str_eq_dec p l'); auto; contradiction.
Qed.
Lemma alike_remove l l' p : alike l l' -> alike (m_remove str_eq_dec p l) (m_remove str_eq_dec p l').
Proof.
  induction 1 as [|[k v] [k' v'] l l' [E S] _ IH]; [constructor|]. cbn [fst snd] in E, S. subst k'.
  unfold m_remove in *. cbn [filter fst]. destruct (str_eq_dec p k); [exact IH|].
  constructor; [split; [reflexivity|exact S]|exact IH].
Qed.
Lemma alike_insert l l' p f f' : alike l l' -> pf_like f f' ->
  alike (m_insert str_eq_dec p f l) (m_insert str_eq_dec p f' l').
Proof.
  intros H S. unfold m_insert. constructor; [split; [reflexivity|exact S]|]. apply alike_remove, H.
Qed.
Lemma alike_update l l' k v v' : alike l l' -> pf_like v v' ->
  alike (m_update k v l) (m_update k v' l').
Proof.
  intros H S. unfold m_update. induction H as [|[x w] [x' w'] l l' [E T] _ IH]; [constructor|].
  cbn [fst snd] in E, T. subst x'. cbn [map fst]. constructor; [|exact IH].
  destruct (str_eq_dec k x); split; cbn; auto.
Qed.
Definition like_project (pj pj' : project) : Prop :=
  alike (pj_files pj) (pj_files pj') /\ pj_incl pj' = pj_incl pj /\ pj_sev pj' = pj_sev pj.

(** [t'] is [t] without the labels; or it is [t], which does not have them; and nothing in [t] refers to them *)
Inductive without (t t' : list N) : Prop :=
| wo_cut : parses_cleanly t -> valid_utf8 t' = true ->
    (forall src toks, tokenize t src = Done toks -> tokenize t' src = Done (filter (stays drop) toks)) ->
    (forall incl src f s, parse_text incl t src = ROk f s -> unreferenced f) -> without t t'
| wo_same : t' = t -> (forall incl src f s, parse_text incl t src = ROk f s -> un_file f = f /\ unreferenced f) -> without t t'.

Lemma without_parse t t' incl src : without t t' -> valid_utf8 t = true ->
  match parse_text incl t src, parse_text incl t' src with
  | ROk f s, ROk f' s' => f' = un_file f /\ ps_diags s' = ps_diags s /\ unreferenced f
  | RErr d _, RErr d' _ => d' = d
  | _, _ => False
  end.
Proof.
  intros W V. destruct W as [P V' T U | -> U].
  - destruct (P incl src) as (f & s & E & D). destruct (tokenize_total t src V) as [toks Tk].
    destruct (un_parse drop incl src t t' toks f s V V' Tk (T _ _ Tk) E D) as (s' & E' & D').
    rewrite E, E'. split; [reflexivity|]. split; [congruence|exact (U _ _ _ _ E)].
  - destruct (C09_parse_total incl t src V) as [(f & s & E) | (d & s & E)]; rewrite E; [|reflexivity].
    destruct (U _ _ _ _ E) as [E1 E2]. split; [congruence|]. split; [reflexivity|exact E2].
Qed.

Lemma includes_un f : includes_of (un_file f) = includes_of f.
Proof.
  unfold includes_of, Unlabel.un_file. cbn [fl_elements]. induction (fl_elements f) as [|p l IH]; [reflexivity|].
  cbn [map fold_right]. rewrite IH. destruct p as [[]| | |]; reflexivity.
Qed.

(** two disks: the same names, the same errors, and texts without the labels *)
Definition disk_without (fs fs' : fsys) : Prop :=
  (forall p, fs_canon fs' p = fs_canon fs p)
  /\ forall p, match read_to_string fs p, read_to_string fs' p with
               | inl t, inl t' => without t t'
               | inr e, inr e' => e' = e
               | _, _ => False
               end.

Section Disks.
Context (fs fs' : fsys) (SD : disk_without fs fs').

Lemma u_canon p : fs_canon fs' p = fs_canon fs p.
Proof. apply SD. Qed.
Lemma u_include i : include_path fs' i = include_path fs i.
Proof.
  unfold include_path.
  assert (G : forall ds n, resolve_in fs' ds n = resolve_in fs ds n).
  { induction ds as [|d ds IH]; intros n; [reflexivity|]. cbn [resolve_in]. rewrite u_canon, IH. reflexivity. }
  rewrite G, u_canon. reflexivity.
Qed.

Lemma parse_like fl incl : forall name t t' ft l l',
  without t t' -> valid_utf8 t = true -> alike l l' ->
  orel alike (parse_file fl fs incl name t ft l) (parse_file fl fs' incl name t' ft l').
Proof.
  induction fl as [|fl IH]; intros name t t' ft l l' W V H; cbn [parse_file]; [exact I|].
  pose proof (without_parse _ _ (include_dirs incl name) name W V) as P.
  destruct (parse_text (include_dirs incl name) t name) as [f s|d s| |],
    (parse_text (include_dirs incl name) t' name) as [f' s'|d' s'| |]; try contradiction.
  - destruct P as (-> & Ps & U). rewrite includes_un.
    eapply orel_bind with (R := fun x y => fst y = fst x /\ alike (snd x) (snd y)).
    + rewrite Ps. generalize (ps_diags s) as ds.
      assert (H1 : alike (m_insert str_eq_dec name pf_default l) (m_insert str_eq_dec name pf_default l')).
      { apply alike_insert; [exact H|]. constructor; try reflexivity. discriminate. }
      revert H1. generalize (m_insert str_eq_dec name pf_default l) as c.
      generalize (m_insert str_eq_dec name pf_default l') as c'.
      induction (includes_of f) as [|i js IHi]; intros c' c H1 ds; [cbn; auto|].
      rewrite u_include. destruct (include_path fs i) as [p|e]; [|apply IHi, H1].
      rewrite (alike_mem _ _ p H1). destruct (m_mem str_eq_dec p c); [apply IHi, H1|].
      pose proof (proj2 SD p) as Rd.
      destruct (read_to_string fs p) as [t1|e1] eqn:R1, (read_to_string fs' p) as [t2|e2] eqn:R2;
        try contradiction.
      * eapply orel_bind.
        -- apply IH; [exact Rd|exact (read_valid _ _ _ R1)|exact H1].
        -- intros a a' Ha. apply IHi, Ha.
      * subst e2. apply IHi, H1.
    + intros [ds c] [ds' c'] [E Hc]. cbn [fst snd] in E, Hc. subst ds'. cbn [orel].
      apply alike_insert; [exact Hc|]. constructor; try reflexivity. intros file Ef. injection Ef as <-. exact U.
  - subst d'. cbn [orel]. apply alike_insert; [exact H|]. constructor; try reflexivity. discriminate.
Qed.

Lemma like_includer l l' : alike l l' -> includer_map fs' l' = includer_map fs l.
Proof.
  unfold includer_map. generalize (@nil (fpath * list fpath)) as m. intros m H. revert m.
  induction H as [|[k v] [k' v'] l l' [E S] _ IH]; intros m; [reflexivity|].
  cbn [fst snd] in E, S. subst k'. cbn [fold_left fst snd].
  rewrite (pk_file _ _ S).
  assert (R : forall f, resolved_includes fs' (un_file f) = resolved_includes fs f).
  { intros f. unfold resolved_includes. rewrite includes_un. induction (includes_of f) as [|i js IHi]; [reflexivity|].
    cbn [fold_right]. rewrite u_include, IHi. reflexivity. }
  destruct (pf_file v) as [f|]; cbn [option_map]; [rewrite R|]; apply IH.
Qed.
Lemma like_order o l l' : by_name (o_files o) -> alike l l' ->
  compute_key_order o fs' l' = compute_key_order o fs l.
Proof.
  intros B H. unfold compute_key_order. apply B in H.
  rewrite (like_includer _ _ H), (alike_keys _ _ _ H). reflexivity.
Qed.
Lemma like_get pj pj' p : like_project pj pj' ->
  match get_file fs pj p, get_file fs' pj' p with
  | Some f, Some f' => pf_like f f'
  | None, None => True
  | _, _ => False
  end.
Proof.
  intros (H & _ & _). unfold get_file. rewrite u_canon.
  destruct (fs_canon fs p); [apply alike_get, H|exact I].
Qed.

(** ** The analysis of a file *)
Definition state_like (x y : analysis * fctx) : Prop := fst y = fst x /\ like (snd x) (snd y).
Lemma like_analyze_include o pj pj' file file' i a c c' : like_project pj pj' -> fl_source file' = fl_source file -> like c c' ->
  orel state_like (analyze_include o fs pj file i a c) (analyze_include o fs' pj' file' i a c').
Proof.
  intros H Es L. unfold analyze_include. rewrite u_include, Es.
  destruct (include_path fs i) as [p|e]; [|split; [reflexivity|]; apply like_diag, L].
  destruct (guard_add str_eq_dec (o_guard o (an_tick a)) p [fl_source file] (an_guard a)) as [[r g]| |];
    cbn [obind orel]; auto.
  destruct r as [cy|]; [split; [reflexivity|]; apply like_diag, L|].
  pose proof (like_get _ _ p H) as G.
  destruct (get_file fs pj p) as [f|], (get_file fs' pj' p) as [f'|]; try contradiction; [|split; [reflexivity|exact L]].
  assert (X : has_errors (pj_sev pj') f' = has_errors (pj_sev pj) f).
  { unfold has_errors, pf_diags. rewrite (pk_pdiags _ _ G), (pk_adiags _ _ G), (proj2 (proj2 H)). reflexivity. }
  rewrite X, (pk_ctx _ _ G).
  assert (M : like (if has_errors (pj_sev pj) f then add_diag (diag_new (include_span i) (include_source i) ErrorsInInclude (bs "Included file contains errors")) c else c)
    (if has_errors (pj_sev pj) f then add_diag (diag_new (include_span i) (include_source i) ErrorsInInclude (bs "Included file contains errors")) c' else c')).
  { destruct (has_errors (pj_sev pj) f); [apply like_diag|]; exact L. }
  destruct (pf_ctx f) as [ac|]; cbn [option_map]; (split; [reflexivity|]); [|exact M].
  apply (like_step _ _ (DInclude ac) M). constructor.
Qed.

Lemma like_primary o pj pj' file file' p a c c' : by_path o -> like_project pj pj' -> fl_source file' = fl_source file -> like c c' ->
  Forall wref_kept (primary_refs p) ->
  orel state_like (analyze_primary o fs pj file p a c) (analyze_primary o fs' pj' file' (un_primary p) a c').
Proof.
  intros B H Es L K. unfold primary_refs in K. apply Forall_app in K. destruct K as [K K2].
  destruct p as [[t|t|x y|i|t r|t r]|n|r|s]; cbn [Unlabel.un_primary analyze_primary].
  - split; [reflexivity|]. destruct (like_fields _ _ L) as (_ & _ & -> & ->). cbn [snd].
    apply like_header. destruct (fc_header c); [apply like_diag, L|]. destruct (fc_first_non_include c); [apply like_diag|]; exact L.
  - split; [reflexivity|]. apply like_plugin, like_first, L.
  - split; [reflexivity|]. apply like_first, L.
  - apply like_analyze_include; assumption.
  - inversion K as [|? ? K1 _]; subst. destruct (like_resolve o r a c c' B L K1) as (_ & E2 & E3). split; [exact E2|exact E3].
  - split; [reflexivity|]. apply like_first, L.
  - split; [reflexivity|]. cbn [snd]. apply like_first. rewrite !(proj1 steps_all), node_defs_un. apply like_steps; [exact L|exact K2].
  - inversion K as [|? ? K1 _]; subst. cbn [element_properties] in K2.
    unfold analyze_referenced_node. destruct (like_fields _ _ L) as (-> & _). destruct (file_type_eqb (fc_type c) DtSource).
    + destruct (like_resolve o (rn_reference r) a c c' B L K1) as (E1 & E2 & E3). cbn [rn_reference rn_payload].
      destruct (resolve_reference o (rn_reference r) a c) as [p [a1 c1]], (resolve_reference o (rn_reference r) a c') as [p' [a1' c1']].
      cbn [fst snd] in *. subst p' a1'. split; [reflexivity|]. cbn [snd]. apply like_first, like_payload; [exact E3|].
      rewrite (items_path _ p []). exact K2.
    + cbn [rn_payload]. split; [reflexivity|]. cbn [snd]. apply like_first, like_payload; assumption.
  - split; [reflexivity|exact L].
Qed.

Lemma like_analyze_file o pj pj' file ft a : by_path o -> like_project pj pj' -> unreferenced file ->
  orel (fun x y => fst (fst y) = un_actx (fst (fst x)) /\ snd (fst y) = snd (fst x) /\ snd y = snd x)
    (analyze_file o fs pj file ft a) (analyze_file o fs' pj' (un_file file) ft a).
Proof.
  intros B H U. unfold analyze_file.
  assert (Es : fl_source (un_file file) = fl_source file) by reflexivity.
  assert (G : forall ps a c c', Forall wref_kept (flat_map primary_refs ps) -> like c c' ->
    orel state_like (analyze_primaries o fs pj file ps a c) (analyze_primaries o fs' pj' (un_file file) (map un_primary ps) a c')).
  { induction ps as [|p ps IH]; intros b c c' K L; cbn [analyze_primaries map]; [split; [reflexivity|exact L]|].
    cbn [flat_map] in K. apply Forall_app in K. eapply orel_bind; [apply (like_primary o pj pj' file (un_file file)); try assumption; apply K|].
    intros [x1 x2] [y1 y2] [E1 E2]. cbn [fst snd] in *. subst y1. apply IH; [apply K|exact E2]. }
  eapply orel_bind.
  - apply G; [exact U|]. constructor; try reflexivity. constructor.
  - intros [x c] [y c'] [E L]. cbn [fst snd] in *. subst y. cbn [orel].
    assert (L2 : like (check_header file c) (check_header (un_file file) c')).
    { unfold check_header. destruct (like_fields _ _ L) as (-> & _ & _ & ->). destruct (_ && _); [apply (like_diag _ _ _ L)|exact L]. }
    assert (R : forall rs d d', Forall wref_kept rs -> like d d' -> like (fold_left resolve_one rs d) (fold_left resolve_one rs d')).
    { induction rs as [|r rs IH]; intros d d' K M; [exact M|]. inversion K as [|? ? K1 K3]; subst. cbn [fold_left]. apply IH; [exact K3|].
      unfold resolve_one. unfold wref_kept in K1. destruct (wt_item r) as [l|p]; cbn [ref_kept] in K1.
      - rewrite (lk_labels _ _ M), (labels_mem _ _ K1). destruct (m_mem str_eq_dec l (fc_labels d)); [exact M|apply like_unresolved, M].
      - rewrite (lk_flat _ _ M), flat_mem. destruct (m_mem npath_eq_dec p (fc_flat d)); [exact M|apply like_unresolved, M]. }
    unfold resolve_references. rewrite (lk_unres _ _ L2).
    pose proof (R _ _ _ (lk_kept _ _ L2) L2) as M. cbn [fst snd]. split; [|split; [apply (lk_diags _ _ M)|reflexivity]].
    unfold un_actx. cbn [ac_labels ac_flat]. rewrite (lk_labels _ _ M), (lk_flat _ _ M). reflexivity.
Qed.

Lemma like_analyze_keys o keys : by_path o -> forall a pj pj', like_project pj pj' ->
  orel like_project (analyze_keys o fs keys a pj) (analyze_keys o fs' keys a pj').
Proof.
  intros B. induction keys as [|k keys IH]; intros a pj pj' H; cbn [analyze_keys]; [exact H|].
  pose proof (alike_get _ _ k (proj1 H)) as G.
  destruct (m_get str_eq_dec k (pj_files pj)) as [f|], (m_get str_eq_dec k (pj_files pj')) as [f'|];
    try contradiction; [|exact I].
  rewrite (pk_file _ _ G), (pk_type _ _ G).
  destruct (pf_file f) as [file|] eqn:Ef; cbn [option_map]; [|apply IH, H].
  eapply orel_bind; [apply like_analyze_file; [exact B|exact H|exact (pk_kept _ _ G _ Ef)]|].
  intros [[ac es] a1] [[ac' es'] a1'] (E1 & E2 & E3). cbn [fst snd] in *. subst ac' es' a1'.
  apply IH. destruct H as (H1 & H2 & H3). split; [|split; assumption].
  cbn [pj_files set_files]. apply alike_update; [exact H1|].
  unfold store_result. constructor; cbn [pf_pdiags pf_adiags pf_file pf_ctx pf_type fst snd]; try apply G; reflexivity.
Qed.
End Disks.
End Drop.
