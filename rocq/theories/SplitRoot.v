(** Root blocks taken apart: analysis and projects *)
From Verif Require Import Lexer Parser LexSpec Grammar Utf8 Project Visitor Server Session AnalysisSpec AnalysisProofs Forgiving PropsForgiving PropsParser TreeProofs CrLfProject PropsCrLf.
From Coq Require Import Lia List Permutation.
Import ListNotations.

(** [splits a b]: some root blocks of [a] are two root blocks of [b] *)
Definition root_name (t : token) : wtok node_name := mkWT (mkNN (bs "/") None) t.
Inductive splits : list primary -> list primary -> Prop :=
| sp_nil : splits [] []
| sp_same p a b : splits a b -> splits (p :: a) (p :: b)
| sp_cut t t' xs ys e e' a b : splits a b ->
    splits (PRoot (mkNode None (root_name t) (mkPayload (xs ++ ys) e) None) :: a)
      (PRoot (mkNode None (root_name t) (mkPayload xs e') None) :: PRoot (mkNode None (root_name t') (mkPayload ys e) None) :: b).
Definition file_splits (f f' : dts_file) : Prop := splits (fl_elements f) (fl_elements f') /\ fl_source f' = fl_source f.
Definition bare_root (p : primary) : Prop := match p with PRoot n => nd_label n = None /\ wt_item (nd_name n) = mkNN (bs "/") None | _ => True end.
Definition bare (f : dts_file) : Prop := Forall bare_root (fl_elements f).

Lemma parse_bare incl t src f s : valid_utf8 t = true -> parse_text incl t src = ROk f s -> bare f.
Proof.
  intros V E. destruct (C105_tree_derived incl t src f (ps_diags s) V) as (_ & rs & (toks & _ & K) & _); [exists s; auto|].
  unfold bare. induction K as [|l p l' r ps r' K _ IH]; constructor; [|exact IH]. destruct K; cbn; auto.
Qed.

(** ** The table of nodes without the root *)
Definition inner (kv : npath * node) : bool := match fst kv with [] => false | _ => true end.
Definition rest (m : list (npath * node)) : list (npath * node) := filter inner m.
Definition bare_table (m : list (npath * node)) : Prop := Forall (fun kv => fst kv = [] -> nd_label (snd kv) = None /\ wt_item (nd_name (snd kv)) = mkNN (bs "/") None) m.
Lemma rest_remove p m : rest (m_remove npath_eq_dec p m) = m_remove npath_eq_dec p (rest m).
Proof.
  unfold rest, m_remove. induction m as [|kv m IH]; [reflexivity|]. cbn [filter].
  destruct (npath_eq_dec p (fst kv)) as [E|E], (inner kv) eqn:I; cbn [filter]; rewrite ?I, IH; destruct (npath_eq_dec p (fst kv)); try reflexivity; contradiction.
Qed.
Lemma remove_nil m : m_remove npath_eq_dec [] (rest m) = rest m.
Proof.
  unfold rest, m_remove. induction m as [|kv m IH]; [reflexivity|]. cbn [filter]. destruct (inner kv) eqn:I; [|exact IH]. cbn [filter].
  unfold inner in I. destruct (npath_eq_dec [] (fst kv)) as [E|E]; [rewrite <- E in I; discriminate|]. rewrite IH. reflexivity.
Qed.
Lemma rest_insert p n m : p <> [] -> rest (m_insert npath_eq_dec p n m) = m_insert npath_eq_dec p n (rest m).
Proof.
  intros N. unfold m_insert. cbn [rest filter]. destruct p as [|x p]; [contradiction|]. cbn. f_equal. apply rest_remove.
Qed.
Lemma rest_root n m : rest (m_insert npath_eq_dec [] n m) = rest m.
Proof. unfold m_insert. cbn. fold (rest (m_remove npath_eq_dec [] m)). rewrite rest_remove. apply remove_nil. Qed.
Lemma extend_cons p n m' (m : list (npath * node)) : m_extend npath_eq_dec m ((p, n) :: m') = m_extend npath_eq_dec (m_insert npath_eq_dec p n m) m'.
Proof. reflexivity. Qed.
Lemma rest_extend m' : forall m, rest (m_extend npath_eq_dec m m') = m_extend npath_eq_dec (rest m) (rest m').
Proof.
  induction m' as [|[p n] m' IH]; intros m; [reflexivity|]. rewrite extend_cons, IH. destruct p as [|x p].
  - change (rest (([], n) :: m')) with (rest m'). rewrite rest_root. reflexivity.
  - change (rest ((x :: p, n) :: m')) with ((x :: p, n) :: rest m'). rewrite extend_cons, rest_insert by discriminate. reflexivity.
Qed.
Lemma rest_get p m : p <> [] -> m_get npath_eq_dec p (rest m) = m_get npath_eq_dec p m.
Proof.
  intros N. induction m as [|[q n] m IH]; [reflexivity|]. cbn [rest filter]. destruct q as [|x q].
  - cbn [inner fst m_get]. fold (rest m). destruct (npath_eq_dec p []); [contradiction|exact IH].
  - cbn [inner fst m_get]. fold (rest m). destruct (npath_eq_dec p (x :: q)); [reflexivity|exact IH].
Qed.
Lemma find_rest l m : bare_table m -> find_label l (rest m) = find_label l m.
Proof.
  induction 1 as [|[p n] m H _ IH]; [reflexivity|]. cbn [rest filter find_label]. destruct p as [|x p]; cbn [inner fst].
  - fold (rest m). rewrite IH. unfold has_label. cbn [fst snd] in H. rewrite (proj1 (H eq_refl)). reflexivity.
  - cbn [find_label]. fold (rest m). rewrite IH. reflexivity.
Qed.
Lemma mem_insert p q n (m : list (npath * node)) : m_mem npath_eq_dec p (m_insert npath_eq_dec q n m) = (if npath_eq_dec p q then true else m_mem npath_eq_dec p m).
Proof.
  unfold m_mem. destruct (npath_eq_dec p q) as [->|N]; [rewrite GuardProofs.m_get_insert_eq; reflexivity|].
  rewrite GuardProofs.m_get_insert_neq by exact N. reflexivity.
Qed.
Lemma mem_extend p m' : forall m : list (npath * node), m_mem npath_eq_dec p (m_extend npath_eq_dec m m') = m_mem npath_eq_dec p m' || m_mem npath_eq_dec p m.
Proof.
  induction m' as [|[q n] m' IH]; intros m; [reflexivity|]. rewrite extend_cons, IH, mem_insert.
  assert (E : m_mem npath_eq_dec p ((q, n) :: m') = if npath_eq_dec p q then true else m_mem npath_eq_dec p m').
  { unfold m_mem. cbn [m_get]. destruct (npath_eq_dec p q); reflexivity. }
  rewrite E. destruct (npath_eq_dec p q); [destruct (m_mem npath_eq_dec p m'); reflexivity|reflexivity].
Qed.
Lemma bare_insert p n m : bare_table m -> (p = [] -> nd_label n = None /\ wt_item (nd_name n) = mkNN (bs "/") None) -> bare_table (m_insert npath_eq_dec p n m).
Proof.
  intros H K. constructor; [exact K|]. unfold m_remove. apply Forall_forall. intros kv I. apply filter_In in I. exact (proj1 (Forall_forall _ _) H kv (proj1 I)).
Qed.
Lemma bare_extend m' : bare_table m' -> forall m, bare_table m -> bare_table (m_extend npath_eq_dec m m').
Proof.
  induction 1 as [|[p n] m' H _ IH]; intros m K; [exact K|]. rewrite extend_cons. apply IH, bare_insert; assumption.
Qed.

(** ** Contexts *)
Record near (c c' : fctx) : Prop := mkNear {
  nr_diags : fc_diags c' = fc_diags c;
  nr_unres : fc_unres c' = fc_unres c;
  nr_labels : fc_labels c' = fc_labels c;
  nr_rest : rest (fc_flat c') = rest (fc_flat c);
  nr_root : m_mem npath_eq_dec [] (fc_flat c') = m_mem npath_eq_dec [] (fc_flat c);
  nr_bare : bare_table (fc_flat c);
  nr_bare' : bare_table (fc_flat c')
}.
Definition near_actx (x x' : actx) : Prop :=
  ac_labels x' = ac_labels x /\ rest (ac_flat x') = rest (ac_flat x) /\ m_mem npath_eq_dec [] (ac_flat x') = m_mem npath_eq_dec [] (ac_flat x)
  /\ bare_table (ac_flat x) /\ bare_table (ac_flat x').
Lemma near_get c c' p : near c c' -> m_mem npath_eq_dec p (fc_flat c') = m_mem npath_eq_dec p (fc_flat c).
Proof.
  intros H. destruct p as [|x p]; [apply H|]. unfold m_mem. rewrite <- (rest_get (x :: p) (fc_flat c')), <- (rest_get (x :: p) (fc_flat c)) by discriminate.
  rewrite (nr_rest _ _ H). reflexivity.
Qed.

(** steps that do not touch the root *)
Definition no_root (d : def) : Prop := match d with DNode p _ => p <> [] | DProperty _ => True | DInclude _ => False end.
Lemma node_no_root n : forall p, p <> [] -> Forall no_root (node_defs p n).
Proof.
  apply (node_rect' (fun n => forall p, p <> [] -> Forall no_root (node_defs p n)) (fun i => forall p, Forall no_root (items_defs p [i])));
    try (intros; repeat constructor; fail).
  - intros l nm its e o IH p N. constructor; [exact N|]. fold items_defs. clear - IH. induction IH as [|i its Hd _ IHl]; [constructor|].
    specialize (Hd p). unfold items_defs in *. destruct i as [q|n|t w|t w]; cbn [items_defs_of] in *; try exact IHl.
    + constructor; [exact I|exact IHl].
    + rewrite app_nil_r in Hd. apply Forall_app. split; assumption.
  - intros n0 IH p. unfold items_defs. cbn [items_defs_of]. rewrite app_nil_r. apply IH. destruct p; discriminate.
Qed.
Lemma items_no_root p its : Forall no_root (items_defs p its).
Proof.
  unfold items_defs. induction its as [|i its IH]; [constructor|]. destruct i as [q|n|t w|t w]; cbn [items_defs_of]; try exact IH.
  - constructor; [exact I|exact IH].
  - apply Forall_app. split; [apply node_no_root; destruct p; discriminate|exact IH].
Qed.
Lemma items_defs_app p a b : items_defs p (a ++ b) = items_defs p a ++ items_defs p b.
Proof.
  unfold items_defs. induction a as [|i a IH]; [reflexivity|]. destruct i as [q|n|t w|t w]; cbn [app items_defs_of]; rewrite ?IH; [reflexivity|apply app_assoc|reflexivity..].
Qed.
Lemma near_grows c c' d d' es rs : near c c' -> grows c d es rs -> grows c' d' es rs ->
  fc_labels d' = fc_labels d -> rest (fc_flat d') = rest (fc_flat d) -> m_mem npath_eq_dec [] (fc_flat d') = m_mem npath_eq_dec [] (fc_flat d) ->
  bare_table (fc_flat d) -> bare_table (fc_flat d') -> near d d'.
Proof. intros [A B _ _ _ _ _] (G1 & G2 & _) (H1 & H2 & _) L M N P Q. constructor; try assumption; congruence. Qed.
Lemma define_flat n p c : fc_flat (define_node n p c) = m_insert npath_eq_dec p n (fc_flat c).
Proof. unfold define_node. destruct (nd_label n); reflexivity. Qed.
Lemma near_step c c' d : near c c' -> no_root d -> near (def_step c d) (def_step c' d).
Proof.
  intros L N. eapply near_grows; [exact L|apply step_grows|apply step_grows|..]; destruct d as [p n|p|x]; try contradiction; cbn [def_step no_root] in *;
    rewrite ?define_flat.
  1: unfold define_node; destruct (nd_label n) as [w|]; cbn [fc_labels set_flat set_labels]; rewrite (nr_labels _ _ L); reflexivity.
  2: rewrite !rest_insert by exact N; rewrite (nr_rest _ _ L); reflexivity.
  3: rewrite !mem_insert, (nr_root _ _ L); reflexivity.
  4: apply bare_insert; [apply L|contradiction].
  5: apply bare_insert; [apply L|contradiction].
  all: pose proof (proj2 (property_grows c p)) as T; pose proof (proj2 (property_grows c' p)) as T'; unfold tables in T, T';
    injection T as T1 T2; injection T' as T1' T2'; rewrite ?T1, ?T1', ?T2, ?T2', ?(nr_labels _ _ L); try reflexivity; apply L.
Qed.
Lemma near_steps ds : Forall no_root ds -> forall c c', near c c' -> near (fold_left def_step ds c) (fold_left def_step ds c').
Proof. induction 1 as [|d ds H _ IH]; intros c c' L; [exact L|]. apply IH, near_step; assumption. Qed.
Lemma near_include c c' x x' : near c c' -> near_actx x x' -> near (def_step c (DInclude x)) (def_step c' (DInclude x')).
Proof.
  intros [A B C D E F G] (X1 & X2 & X3 & X4 & X5). constructor; cbn [def_step fc_diags fc_unres fc_labels fc_flat set_labels set_flat]; try assumption.
  - congruence.
  - rewrite !rest_extend. congruence.
  - rewrite !mem_extend. congruence.
  - apply bare_extend; assumption.
  - apply bare_extend; assumption.
Qed.
(** the root itself, whatever its contents *)
Definition bare_node (n : node) : Prop := nd_label n = None /\ wt_item (nd_name n) = mkNN (bs "/") None.
Lemma define_bare n p c : bare_node n -> define_node n p c = set_flat (m_insert npath_eq_dec p n (fc_flat c)) c.
Proof. intros [H _]. unfold define_node. rewrite H. reflexivity. Qed.
Lemma near_root n n' c c' : near c c' -> bare_node n -> bare_node n' -> near (define_node n [] c) (define_node n' [] c').
Proof.
  intros [A B C D E F G] H H'. rewrite !define_bare by assumption. constructor; cbn [fc_diags fc_unres fc_labels fc_flat set_flat]; try assumption.
  - rewrite !rest_root. exact D.
  - rewrite !mem_insert. reflexivity.
  - apply bare_insert; auto.
  - apply bare_insert; auto.
Qed.
Lemma near_again n' c c' : near c c' -> bare_node n' -> m_mem npath_eq_dec [] (fc_flat c) = true -> near c (define_node n' [] c').
Proof.
  intros [A B C D E F G] H' M. rewrite define_bare by assumption. constructor; cbn [fc_diags fc_unres fc_labels fc_flat set_flat]; try assumption.
  - rewrite rest_root. exact D.
  - rewrite mem_insert, M. reflexivity.
  - apply bare_insert; auto.
Qed.
Lemma near_set (f : fctx -> fctx) c c' : (forall x, fc_diags (f x) = fc_diags x /\ fc_unres (f x) = fc_unres x /\ tables (f x) = tables x) ->
  near c c' -> near c (f c').
Proof.
  intros H [A B C D E F G]. destruct (H c') as (P & Q & R). unfold tables in R. injection R as R1 R2. constructor; rewrite ?P, ?Q, ?R1, ?R2; assumption.
Qed.
Lemma near_set_left (f : fctx -> fctx) c c' : (forall x, fc_diags (f x) = fc_diags x /\ fc_unres (f x) = fc_unres x /\ tables (f x) = tables x) ->
  near c c' -> near (f c) c'.
Proof.
  intros H [A B C D E F G]. destruct (H c) as (P & Q & R). unfold tables in R. injection R as R1 R2. constructor; rewrite ?P, ?Q, ?R1, ?R2; assumption.
Qed.
Lemma steps_flags ds : forall c, flags (fold_left def_step ds c) = flags c.
Proof. induction ds as [|d ds IH]; intros c; [reflexivity|]. cbn [fold_left]. rewrite IH. apply (step_grows c d). Qed.
Lemma define_flags n p c : flags (define_node n p c) = flags c.
Proof. unfold define_node. destruct (nd_label n); reflexivity. Qed.
Lemma steps_mem ds : Forall no_root ds -> forall c, m_mem npath_eq_dec [] (fc_flat c) = true -> m_mem npath_eq_dec [] (fc_flat (fold_left def_step ds c)) = true.
Proof.
  induction 1 as [|d ds H _ IH]; intros c M; [exact M|]. cbn [fold_left]. apply IH. destruct d as [p n|p|x]; cbn [def_step no_root] in *; [| |contradiction].
  - rewrite define_flat, mem_insert, M. destruct (npath_eq_dec [] p); reflexivity.
  - pose proof (proj2 (property_grows c p)) as T. unfold tables in T. injection T as _ T. rewrite T. exact M.
Qed.

Definition near2 (c c' : fctx) : Prop := near c c' /\ flags c' = flags c.
Lemma analyze_root n c : analyze_node n [] c = fold_left def_step (items_defs [] (pl_items (nd_payload n))) (define_node n [] c).
Proof. rewrite (proj1 steps_all). destruct n as [l nm [its e] o]. reflexivity. Qed.
Lemma cut_root t t' xs ys e e' c c' : near2 c c' ->
  near2 (set_first_non_include (analyze_node (mkNode None (root_name t) (mkPayload (xs ++ ys) e) None) [] c))
    (set_first_non_include (analyze_node (mkNode None (root_name t') (mkPayload ys e) None) []
      (set_first_non_include (analyze_node (mkNode None (root_name t) (mkPayload xs e') None) [] c')))).
Proof.
  intros [L F]. rewrite !analyze_root. cbn [nd_payload pl_items]. rewrite items_defs_app, fold_left_app.
  assert (S : forall x, fc_diags (set_first_non_include x) = fc_diags x /\ fc_unres (set_first_non_include x) = fc_unres x /\ tables (set_first_non_include x) = tables x) by (intros; auto).
  split.
  - apply near_set_left; [exact S|]. apply near_set; [exact S|]. apply near_steps; [apply items_no_root|]. apply near_again; [|split; reflexivity|].
    + apply near_set; [exact S|]. apply near_steps; [apply items_no_root|]. apply near_root; [exact L|split; reflexivity..].
    + apply steps_mem; [apply items_no_root|]. rewrite define_flat, mem_insert. reflexivity.
  - assert (X : forall x y, flags y = flags x -> flags (set_first_non_include y) = flags (set_first_non_include x)).
    { intros x y H. unfold flags in *. injection H as A B C D. cbn. congruence. }
    assert (Y : forall x, flags (set_first_non_include (set_first_non_include x)) = flags (set_first_non_include x)) by reflexivity.
    transitivity (flags (set_first_non_include (set_first_non_include c'))).
    + apply X. rewrite steps_flags, define_flags. apply X. rewrite steps_flags, define_flags. reflexivity.
    + rewrite Y. apply X. rewrite !steps_flags, define_flags. exact F.
Qed.
(** ** Whole files *)
Lemma splits_bare a b : splits a b -> Forall bare_root a -> Forall bare_root b.
Proof.
  induction 1 as [|p a b _ IH|t t' xs ys e e' a b _ IH]; intros H; [constructor|..]; inversion H; subst.
  - constructor; auto.
  - constructor; [split; reflexivity|]. constructor; [split; reflexivity|auto].
Qed.
Lemma includes_splits f f' : file_splits f f' -> includes_of f' = includes_of f.
Proof.
  intros [H _]. unfold includes_of. induction H as [|p a b _ IH|t t' xs ys e e' a b _ IH]; cbn [fold_right as_include]; rewrite ?IH; reflexivity.
Qed.
Definition items_at (c : position) (l : list item) : option item_at_cursor := find_map (nitem_at c) l.
Lemma payload_items c its e : payload_at c (mkPayload its e) = items_at c its.
Proof. cbn [payload_at]. unfold items_at. induction its as [|i its IH]; [reflexivity|]. cbn [find_map]. rewrite <- IH. reflexivity. Qed.
Lemma find_app {A B} (f : A -> option B) a b : find_map f (a ++ b) = match find_map f a with Some x => Some x | None => find_map f b end.
Proof. induction a as [|x a IH]; [reflexivity|]. cbn [app find_map]. destruct (f x); [reflexivity|exact IH]. Qed.
Lemma root_at c t its e o : primary_at c (PRoot (mkNode None t (mkPayload its e) o)) = items_at c its.
Proof. cbn [primary_at node_at label_at]. apply payload_items. Qed.
Lemma at_splits f f' c : file_splits f f' -> file_at f' c = file_at f c.
Proof.
  intros [H _]. unfold file_at. induction H as [|p a b _ IH|t t' xs ys e e' a b _ IH]; [reflexivity|cbn [find_map]; rewrite IH; reflexivity|].
  cbn [find_map]. rewrite !root_at, IH. unfold items_at. rewrite find_app.
  destruct (find_map (nitem_at c) xs); [reflexivity|]. destruct (find_map (nitem_at c) ys); reflexivity.
Qed.

(** an outline in which the entries of root blocks are replaced by what they contain *)
Definition opened (s : symbol) : list symbol :=
  if str_eqb (sy_name s) (bs "/") then match sy_children s with Some l => l | None => [] end else [s].
Lemma payload_symbols_items its e : payload_symbols (mkPayload its e) = map item_symbol its.
Proof. cbn [payload_symbols]. induction its as [|i its IH]; [reflexivity|]. cbn [map]. rewrite <- IH. reflexivity. Qed.
Lemma opened_root t its e : opened (node_symbol (mkNode None (root_name t) (mkPayload its e) None)) = map item_symbol its.
Proof. rewrite <- (payload_symbols_items its e). reflexivity. Qed.
Lemma symbols_splits f f' : file_splits f f' -> flat_map opened (file_symbols f') = flat_map opened (file_symbols f).
Proof.
  intros [H _]. unfold file_symbols. induction H as [|p a b _ IH|t t' xs ys e e' a b _ IH]; [reflexivity|..].
  - cbn [Server.filter_map]. destruct (primary_symbol p); [|exact IH]. cbn [flat_map]. rewrite IH. reflexivity.
  - cbn [Server.filter_map primary_symbol flat_map]. rewrite !opened_root, IH, map_app, app_assoc. reflexivity.
Qed.

(** [t'] parses like [t], but for root blocks taken apart: same diagnostics, or the same error *)
Definition apart (t t' : list N) : Prop := valid_utf8 t = true /\ forall incl src,
  match parse_text incl t src, parse_text incl t' src with
  | ROk f s, ROk f' s' => file_splits f f' /\ ps_diags s' = ps_diags s
  | RErr d _, RErr d' _ => d' = d
  | _, _ => False
  end.
Definition disk_apart (fs fs' : fsys) : Prop :=
  (forall p, fs_canon fs' p = fs_canon fs p)
  /\ forall p, match read_to_string fs p, read_to_string fs' p with
               | inl t, inl t' => apart t t'
               | inr e, inr e' => e' = e
               | _, _ => False
               end.
(** the search for a label visits the nodes other than the root in the same order *)
Definition by_rest (o : an_oracle) : Prop := forall k m m', rest m' = rest m -> rest (o_flat o k m') = rest (o_flat o k m).

Definition of_split (x y : option dts_file) : Prop :=
  match x, y with Some f, Some f' => file_splits f f' /\ bare f | None, None => True | _, _ => False end.
Definition of_actx (x y : option actx) : Prop :=
  match x, y with Some c, Some c' => near_actx c c' | None, None => True | _, _ => False end.
Record pf_like (f f' : pfile) : Prop := mkPfLike {
  pk_pdiags : pf_pdiags f' = pf_pdiags f;
  pk_adiags : pf_adiags f' = pf_adiags f;
  pk_file : of_split (pf_file f) (pf_file f');
  pk_ctx : of_actx (pf_ctx f) (pf_ctx f');
  pk_type : pf_type f' = pf_type f
}.
Notation alike := (Forall2 (entry_alike pf_like)).

Lemma alike_get l l' p : alike l l' ->
  match m_get str_eq_dec p l, m_get str_eq_dec p l' with
  | Some f, Some f' => pf_like f f'
  | None, None => True
  | _, _ => False
  end.
Proof.
  induction 1 as [|[k v] [k' v'] l l' [E S] _ IH]; [exact I|]. cbn [fst snd] in E, S. subst k'.
  cbn [m_get]. destruct (str_eq_dec p k); [exact S|exact IH].
Qed.
Lemma alike_mem l l' p : alike l l' -> m_mem str_eq_dec p l' = m_mem str_eq_dec p l.
Proof.
  intros H. pose proof (alike_get _ _ p H) as G. unfold m_mem.
  destruct (m_get str_eq_dec p l), (m_get str_eq_dec p l'); auto; contradiction.
Qed.
Lemma alike_remove l l' p : alike l l' -> alike (m_remove str_eq_dec p l) (m_remove str_eq_dec p l').
Proof.
  induction 1 as [|[k v] [k' v'] l l' [E S] _ IH]; [constructor|]. cbn [fst snd] in E, S. subst k'.
  unfold m_remove in *. cbn [filter fst]. destruct (str_eq_dec p k); [exact IH|].
  constructor; [split; [reflexivity|exact S]|exact IH].
Qed.
Lemma alike_insert l l' p f f' : alike l l' -> pf_like f f' ->
  alike (m_insert str_eq_dec p f l) (m_insert str_eq_dec p f' l').
Proof.
  intros H S. unfold m_insert. constructor; [split; [reflexivity|exact S]|]. apply alike_remove, H.
Qed.
Lemma alike_update l l' k v v' : alike l l' -> pf_like v v' ->
  alike (m_update k v l) (m_update k v' l').
Proof.
  intros H S. unfold m_update. induction H as [|[x w] [x' w'] l l' [E T] _ IH]; [constructor|].
  cbn [fst snd] in E, T. subst x'. cbn [map fst]. constructor; [|exact IH].
  destruct (str_eq_dec k x); split; cbn; auto.
Qed.
Definition like_project (pj pj' : project) : Prop :=
  alike (pj_files pj) (pj_files pj') /\ pj_incl pj' = pj_incl pj /\ pj_sev pj' = pj_sev pj.



Lemma near2_diag c c' d : near2 c c' -> near2 (add_diag d c) (add_diag d c').
Proof. intros [[A B C D E F G] H]. split; [|exact H]. constructor; cbn [add_diag fc_diags fc_unres fc_labels fc_flat]; try assumption; congruence. Qed.
Lemma near2_fields c c' : near2 c c' -> fc_type c' = fc_type c /\ fc_plugin c' = fc_plugin c
  /\ fc_first_non_include c' = fc_first_non_include c /\ fc_header c' = fc_header c.
Proof. intros [_ H]. unfold flags in H. injection H as A B C D. auto. Qed.
Lemma near2_unresolved c c' r : near2 c c' -> near2 (unresolved_error r c) (unresolved_error r c').
Proof.
  intros L. unfold unresolved_error. destruct (near2_fields _ _ L) as (-> & -> & _). destruct (_ && _); [apply near2_diag|]; exact L.
Qed.
Lemma near2_set (f : fctx -> fctx) c c' : (forall x, fc_diags (f x) = fc_diags x /\ fc_unres (f x) = fc_unres x /\ tables (f x) = tables x) ->
  flags (f c') = flags (f c) -> near2 c c' -> near2 (f c) (f c').
Proof. intros H E [L _]. split; [|exact E]. apply near_set; [exact H|]. apply near_set_left; [exact H|exact L]. Qed.
Lemma near2_header c c' : near2 c c' -> near2 (set_header c) (set_header c').
Proof. intros L. apply near2_set; [auto| |exact L]. destruct (near2_fields _ _ L) as (A & B & C & D). unfold flags. cbn. congruence. Qed.
Lemma near2_plugin c c' : near2 c c' -> near2 (set_plugin c) (set_plugin c').
Proof. intros L. apply near2_set; [auto| |exact L]. destruct (near2_fields _ _ L) as (A & B & C & D). unfold flags. cbn. congruence. Qed.
Lemma near2_first c c' : near2 c c' -> near2 (set_first_non_include c) (set_first_non_include c').
Proof. intros L. apply near2_set; [auto| |exact L]. destruct (near2_fields _ _ L) as (A & B & C & D). unfold flags. cbn. congruence. Qed.
Lemma near2_payload pl path c c' : near2 c c' -> near2 (analyze_payload pl path c) (analyze_payload pl path c').
Proof.
  intros [L F]. rewrite !payload_all. split; [apply near_steps; [apply items_no_root|exact L]|]. rewrite !steps_flags. exact F.
Qed.
Lemma near2_root n c c' : bare_node n -> near2 c c' -> near2 (analyze_node n [] c) (analyze_node n [] c').
Proof.
  intros B [L F]. rewrite !analyze_root. split.
  - apply near_steps; [apply items_no_root|]. apply near_root; assumption.
  - rewrite !steps_flags, !define_flags. exact F.
Qed.
Lemma near2_resolve o r a c c' : oracle_ok o -> by_rest o -> near2 c c' ->
  fst (resolve_reference o r a c') = fst (resolve_reference o r a c)
  /\ fst (snd (resolve_reference o r a c')) = fst (snd (resolve_reference o r a c))
  /\ near2 (snd (snd (resolve_reference o r a c))) (snd (snd (resolve_reference o r a c'))).
Proof.
  intros [_ P] B L. unfold resolve_reference. destruct (wt_item r) as [l|p].
  - assert (Bt : forall m, bare_table m -> bare_table (o_flat o (an_tick a) m)).
    { intros m H. unfold bare_table. rewrite (P (an_tick a) m). exact H. }
    assert (E : find_label l (o_flat o (an_tick a) (fc_flat c')) = find_label l (o_flat o (an_tick a) (fc_flat c))).
    { rewrite <- (find_rest l _ (Bt _ (nr_bare' _ _ (proj1 L)))), <- (find_rest l _ (Bt _ (nr_bare _ _ (proj1 L)))).
      rewrite (B (an_tick a) _ _ (nr_rest _ _ (proj1 L))). reflexivity. }
    rewrite E. destruct (find_label l (o_flat o (an_tick a) (fc_flat c))); cbn [fst snd]; split; auto. split; [reflexivity|]. apply near2_unresolved, L.
  - cbn [fst snd]. split; [reflexivity|]. split; [reflexivity|]. rewrite (near_get _ _ p (proj1 L)).
    destruct (m_mem npath_eq_dec p (fc_flat c)); [exact L|apply near2_unresolved, L].
Qed.

Section Disks.
Context (fs fs' : fsys) (SD : disk_apart fs fs').
Lemma u_canon p : fs_canon fs' p = fs_canon fs p.
Proof. apply SD. Qed.
Lemma u_include i : include_path fs' i = include_path fs i.
Proof.
  unfold include_path.
  assert (G : forall ds n, resolve_in fs' ds n = resolve_in fs ds n).
  { induction ds as [|d ds IH]; intros n; [reflexivity|]. cbn [resolve_in]. rewrite u_canon, IH. reflexivity. }
  rewrite G, u_canon. reflexivity.
Qed.

Lemma parse_like fl incl : forall name t t' ft l l',
  apart t t' -> alike l l' ->
  orel alike (parse_file fl fs incl name t ft l) (parse_file fl fs' incl name t' ft l').
Proof.
  induction fl as [|fl IH]; intros name t t' ft l l' W H; cbn [parse_file]; [exact I|].
  destruct W as [V W]. pose proof (W (include_dirs incl name) name) as P.
  pose proof (parse_bare (include_dirs incl name) t name) as PB.
  destruct (parse_text (include_dirs incl name) t name) as [f s|d s| |],
    (parse_text (include_dirs incl name) t' name) as [f' s'|d' s'| |]; try contradiction.
  - destruct P as (Pf & Ps). rewrite (includes_splits _ _ Pf).
    eapply orel_bind with (R := fun x y => fst y = fst x /\ alike (snd x) (snd y)).
    + rewrite Ps. generalize (ps_diags s) as ds.
      assert (H1 : alike (m_insert str_eq_dec name pf_default l) (m_insert str_eq_dec name pf_default l')).
      { apply alike_insert; [exact H|]. constructor; try reflexivity; exact I. }
      revert H1. generalize (m_insert str_eq_dec name pf_default l) as c.
      generalize (m_insert str_eq_dec name pf_default l') as c'.
      induction (includes_of f) as [|i js IHi]; intros c' c H1 ds; [cbn; auto|].
      rewrite u_include. destruct (include_path fs i) as [p|e]; [|apply IHi, H1].
      rewrite (alike_mem _ _ p H1). destruct (m_mem str_eq_dec p c); [apply IHi, H1|].
      pose proof (proj2 SD p) as Rd.
      destruct (read_to_string fs p) as [t1|e1] eqn:R1, (read_to_string fs' p) as [t2|e2] eqn:R2;
        try contradiction.
      * eapply orel_bind.
        -- apply IH; [exact Rd|exact H1].
        -- intros a a' Ha. apply IHi, Ha.
      * subst e2. apply IHi, H1.
    + intros [ds c] [ds' c'] [E Hc]. cbn [fst snd] in E, Hc. subst ds'. cbn [orel].
      apply alike_insert; [exact Hc|]. constructor; try reflexivity. split; [exact Pf|exact (PB _ _ V eq_refl)].
  - subst d'. cbn [orel]. apply alike_insert; [exact H|]. constructor; try reflexivity; exact I.
Qed.

Lemma like_includer l l' : alike l l' -> includer_map fs' l' = includer_map fs l.
Proof.
  unfold includer_map. generalize (@nil (fpath * list fpath)) as m. intros m H. revert m.
  induction H as [|[k v] [k' v'] l l' [E S] _ IH]; intros m; [reflexivity|].
  cbn [fst snd] in E, S. subst k'. cbn [fold_left fst snd].
  pose proof (pk_file _ _ S) as F. destruct (pf_file v) as [f|], (pf_file v') as [f'|]; cbn [of_split] in F; try contradiction; [|apply IH].
  assert (R : resolved_includes fs' f' = resolved_includes fs f).
  { unfold resolved_includes. rewrite (includes_splits _ _ (proj1 F)). induction (includes_of f) as [|i js IHi]; [reflexivity|].
    cbn [fold_right]. rewrite u_include, IHi. reflexivity. }
  rewrite R. apply IH.
Qed.
Lemma like_order o l l' : by_name (o_files o) -> alike l l' ->
  compute_key_order o fs' l' = compute_key_order o fs l.
Proof.
  intros B H. unfold compute_key_order. apply B in H.
  rewrite (like_includer _ _ H), (alike_keys _ _ _ H). reflexivity.
Qed.
Lemma like_get pj pj' p : like_project pj pj' ->
  match get_file fs pj p, get_file fs' pj' p with
  | Some f, Some f' => pf_like f f'
  | None, None => True
  | _, _ => False
  end.
Proof.
  intros (H & _ & _). unfold get_file. rewrite u_canon.
  destruct (fs_canon fs p); [apply alike_get, H|exact I].
Qed.



(** ** The analysis of a file *)
Definition state_like (x y : analysis * fctx) : Prop := fst y = fst x /\ near2 (snd x) (snd y).
Lemma near_analyze_include o pj pj' file file' i a c c' : like_project pj pj' -> fl_source file' = fl_source file -> near2 c c' ->
  orel state_like (analyze_include o fs pj file i a c) (analyze_include o fs' pj' file' i a c').
Proof.
  intros H Es L. unfold analyze_include. rewrite u_include, Es.
  destruct (include_path fs i) as [p|e]; [|split; [reflexivity|]; apply near2_diag, L].
  destruct (guard_add str_eq_dec (o_guard o (an_tick a)) p [fl_source file] (an_guard a)) as [[r g]| |];
    cbn [obind orel]; auto.
  destruct r as [cy|]; [split; [reflexivity|]; apply near2_diag, L|].
  pose proof (like_get _ _ p H) as G.
  destruct (get_file fs pj p) as [f|], (get_file fs' pj' p) as [f'|]; try contradiction; [|split; [reflexivity|exact L]].
  assert (X : has_errors (pj_sev pj') f' = has_errors (pj_sev pj) f).
  { unfold has_errors, pf_diags. rewrite (pk_pdiags _ _ G), (pk_adiags _ _ G), (proj2 (proj2 H)). reflexivity. }
  rewrite X. pose proof (pk_ctx _ _ G) as Gc.
  assert (M : near2 (if has_errors (pj_sev pj) f then add_diag (diag_new (include_span i) (include_source i) ErrorsInInclude (bs "Included file contains errors")) c else c)
    (if has_errors (pj_sev pj) f then add_diag (diag_new (include_span i) (include_source i) ErrorsInInclude (bs "Included file contains errors")) c' else c')).
  { destruct (has_errors (pj_sev pj) f); [apply near2_diag|]; exact L. }
  destruct (pf_ctx f) as [ac|], (pf_ctx f') as [ac'|]; cbn [of_actx] in Gc; try contradiction; (split; [reflexivity|]); [|exact M].
  destruct M as [M1 M2]. split; [exact (near_include _ _ ac ac' M1 Gc)|exact M2].
Qed.

Lemma near_primary o pj pj' file file' p a c c' : oracle_ok o -> by_rest o -> like_project pj pj' -> fl_source file' = fl_source file -> near2 c c' ->
  bare_root p -> orel state_like (analyze_primary o fs pj file p a c) (analyze_primary o fs' pj' file' p a c').
Proof.
  intros Bo Br H Es L K. destruct p as [[t|t|x y|i|t r|t r]|n|r|s]; cbn [analyze_primary].
  - split; [reflexivity|]. destruct (near2_fields _ _ L) as (_ & _ & -> & ->). cbn [snd].
    apply near2_header. destruct (fc_header c); [apply near2_diag, L|]. destruct (fc_first_non_include c); [apply near2_diag|]; exact L.
  - split; [reflexivity|]. apply near2_plugin, near2_first, L.
  - split; [reflexivity|]. apply near2_first, L.
  - apply near_analyze_include; assumption.
  - destruct (near2_resolve o r a c c' Bo Br L) as (_ & E2 & E3). split; [exact E2|exact E3].
  - split; [reflexivity|]. apply near2_first, L.
  - split; [reflexivity|]. cbn [snd]. apply near2_first, near2_root; [exact K|exact L].
  - unfold analyze_referenced_node. destruct (near2_fields _ _ L) as (-> & _). destruct (file_type_eqb (fc_type c) DtSource).
    + destruct (near2_resolve o (rn_reference r) a c c' Bo Br L) as (E1 & E2 & E3).
      destruct (resolve_reference o (rn_reference r) a c) as [p [a1 c1]], (resolve_reference o (rn_reference r) a c') as [p' [a1' c1']].
      cbn [fst snd] in *. subst p' a1'. split; [reflexivity|]. cbn [snd]. apply near2_first, near2_payload, E3.
    + split; [reflexivity|]. cbn [snd]. apply near2_first, near2_payload, L.
  - split; [reflexivity|exact L].
Qed.

Lemma near_analyze_file o pj pj' file file' ft a : oracle_ok o -> by_rest o -> like_project pj pj' -> file_splits file file' -> bare file ->
  orel (fun x y => near_actx (fst (fst x)) (fst (fst y)) /\ snd (fst y) = snd (fst x) /\ snd y = snd x)
    (analyze_file o fs pj file ft a) (analyze_file o fs' pj' file' ft a).
Proof.
  intros Bo Br H [Sp Es] U. unfold analyze_file.
  assert (G : forall a c c', near2 c c' ->
    orel state_like (analyze_primaries o fs pj file (fl_elements file) a c) (analyze_primaries o fs' pj' file' (fl_elements file') a c')).
  { unfold bare in U. revert U. induction Sp as [|p ps qs _ IH|t t' xs ys e e' ps qs _ IH]; intros U b c c' L; cbn [analyze_primaries].
    - split; [reflexivity|exact L].
    - inversion U; subst. eapply orel_bind; [apply (near_primary o pj pj' file file'); assumption|].
      intros [x1 x2] [y1 y2] [E1 E2]. cbn [fst snd] in *. subst y1. apply IH; assumption.
    - inversion U; subst. cbn [analyze_primary obind]. apply IH; [assumption|]. apply cut_root, L. }
  eapply orel_bind.
  - apply G. split; [|reflexivity]. constructor; try reflexivity; constructor.
  - intros [x c] [y c'] [E L]. cbn [fst snd] in *. subst y. cbn [orel].
    assert (L2 : near2 (check_header file c) (check_header file' c')).
    { unfold check_header. rewrite Es. destruct (near2_fields _ _ L) as (-> & _ & _ & ->). destruct (_ && _); [apply (near2_diag _ _ _ L)|exact L]. }
    assert (R : forall rs d d', near2 d d' -> near2 (fold_left resolve_one rs d) (fold_left resolve_one rs d')).
    { induction rs as [|r rs IH]; intros d d' M; [exact M|]. cbn [fold_left]. apply IH.
      unfold resolve_one. destruct (wt_item r) as [l|p].
      - rewrite (nr_labels _ _ (proj1 M)). destruct (m_mem str_eq_dec l (fc_labels d)); [exact M|apply near2_unresolved, M].
      - rewrite (near_get _ _ p (proj1 M)). destruct (m_mem npath_eq_dec p (fc_flat d)); [exact M|apply near2_unresolved, M]. }
    unfold resolve_references. rewrite (nr_unres _ _ (proj1 L2)).
    pose proof (R (fc_unres (check_header file c)) _ _ L2) as [M _]. cbn [fst snd]. split; [|split; [apply (nr_diags _ _ M)|reflexivity]].
    unfold near_actx. cbn [ac_labels ac_flat]. split; [apply M|]. split; [apply M|]. split; [apply M|]. split; apply M.
Qed.

Lemma near_analyze_keys o keys : oracle_ok o -> by_rest o -> forall a pj pj', like_project pj pj' ->
  orel like_project (analyze_keys o fs keys a pj) (analyze_keys o fs' keys a pj').
Proof.
  intros Bo Br. induction keys as [|k keys IH]; intros a pj pj' H; cbn [analyze_keys]; [exact H|].
  pose proof (alike_get _ _ k (proj1 H)) as G.
  destruct (m_get str_eq_dec k (pj_files pj)) as [f|], (m_get str_eq_dec k (pj_files pj')) as [f'|];
    try contradiction; [|exact I].
  rewrite (pk_type _ _ G). pose proof (pk_file _ _ G) as F.
  destruct (pf_file f) as [file|] eqn:Ef, (pf_file f') as [file'|] eqn:Ef'; cbn [of_split] in F; try contradiction; [|apply IH, H].
  eapply orel_bind; [apply near_analyze_file; [exact Bo|exact Br|exact H|apply F|apply F]|].
  intros [[ac es] a1] [[ac' es'] a1'] (E1 & E2 & E3). cbn [fst snd] in *. subst es' a1'.
  apply IH. destruct H as (H1 & H2 & H3). split; [|split; assumption].
  cbn [pj_files set_files]. apply alike_update; [exact H1|].
  unfold store_result. constructor; cbn [pf_pdiags pf_adiags pf_file pf_ctx pf_type fst snd]; try apply G; try reflexivity; exact E1.
Qed.
Lemma like_add_text fuel o name t t' ft pj pj' : by_name (o_files o) -> oracle_ok (o_an o) -> by_rest (o_an o) ->
  apart t t' -> like_project pj pj' ->
  orel like_project (add_file_with_text fuel o fs name t ft pj) (add_file_with_text fuel o fs' name t' ft pj').
Proof.
  intros B Bo Br W (H1 & H2 & H3). unfold add_file_with_text. rewrite u_canon, H2.
  destruct (fs_canon fs name) as [p|e]; [|exact I].
  eapply orel_bind; [apply parse_like; eassumption|]. intros l l' Hl.
  eapply orel_bind; [apply orel_eq; apply (like_order o _ _ B Hl)|]. intros ks ks' <-.
  apply near_analyze_keys; [exact Bo|exact Br|]. split; [exact Hl|]. split; assumption.
Qed.
Lemma like_add fuel o name pj pj' : by_name (o_files o) -> oracle_ok (o_an o) -> by_rest (o_an o) -> like_project pj pj' ->
  orel (fun x y => match x, y with
                   | inl e, inl e' => e' = e
                   | inr a, inr b => like_project a b
                   | _, _ => False
                   end)
    (add_file fuel o fs name pj) (add_file fuel o fs' name pj').
Proof.
  intros B Bo Br H. unfold add_file. rewrite u_canon. destruct (fs_canon fs name) as [p|e]; [|reflexivity].
  pose proof (proj2 SD p) as Rd.
  destruct (read_to_string fs p) as [t1|e1] eqn:R1, (read_to_string fs' p) as [t2|e2] eqn:R2;
    try contradiction; [|exact Rd].
  eapply orel_bind; [apply like_add_text; try eassumption|].
  intros a a' Ha. exact Ha.
Qed.
Lemma like_include_paths ps pj pj' : like_project pj pj' ->
  like_project (set_include_paths fs ps pj) (set_include_paths fs' ps pj').
Proof.
  intros (H1 & H2 & H3). split; [exact H1|]. split; [|exact H3]. cbn.
  apply map_ext. intros p. rewrite u_canon. reflexivity.
Qed.

(** ** The server *)
Definition like_server (sv sv' : server) : Prop :=
  like_project (sv_project sv) (sv_project sv') /\ sv_sent sv' = sv_sent sv.
Definition note_apart (n n' : note) : Prop :=
  match n, n' with
  | NInitialize d, NInitialize d' | NConfigure d, NConfigure d' => d' = d
  | NOpen u t, NOpen u' t' => u' = u /\ apart t t'
  | NChange u ts, NChange u' ts' => u' = u /\ Forall2 (apart) ts ts'
  | NClose u, NClose u' => u' = u
  | _, _ => False
  end.
Lemma like_diagnostics pj pj' p : like_project pj pj' ->
  get_diagnostics fs' pj' p = get_diagnostics fs pj p.
Proof.
  intros H. pose proof (like_get _ _ p H) as G. unfold get_diagnostics.
  destruct (get_file fs pj p) as [f|], (get_file fs' pj' p) as [f'|]; try contradiction; [|reflexivity].
  unfold pf_diags. rewrite (pk_pdiags _ _ G), (pk_adiags _ _ G). reflexivity.
Qed.
Lemma like_publish ok sv sv' : like_server sv sv' ->
  orel like_server (publish ok fs sv) (publish ok fs' sv').
Proof.
  intros [H E]. unfold publish. rewrite (alike_keys _ _ _ (proj1 H)), E.
  assert (G : forall l, publish_all fs' (sv_project sv') l = publish_all fs (sv_project sv) l).
  { induction l as [|f l IH]; [reflexivity|]. cbn [publish_all].
    rewrite IH, (like_diagnostics _ _ f H). reflexivity. }
  rewrite G. destruct (publish_all fs (sv_project sv) _) as [ps| |]; cbn [obind orel]; auto.
  split; [exact H|reflexivity].
Qed.
Lemma like_remove p pj pj' : like_project pj pj' ->
  like_project (remove_file fs p pj) (remove_file fs' p pj').
Proof.
  intros H. unfold remove_file. rewrite u_canon. destruct (fs_canon fs p); [|exact H].
  destruct H as (H1 & H2 & H3). split; [|split; assumption]. apply alike_remove, H1.
Qed.
Lemma like_handle fuel o ok n n' sv sv' : by_name (o_files o) -> oracle_ok (o_an o) -> by_rest (o_an o) -> note_apart n n' -> like_server sv sv' ->
  orel like_server (handle fuel o ok fs n sv) (handle fuel o ok fs' n' sv').
Proof.
  intros B Bo Br N [H E].
  assert (C : forall d, like_server (mkServer (set_include_paths fs d (sv_project sv)) (sv_sent sv))
                          (mkServer (set_include_paths fs' d (sv_project sv')) (sv_sent sv'))).
  { intros d. split; [apply like_include_paths; assumption|exact E]. }
  assert (T : forall u t t', apart t t' ->
    orel like_server (did_open fuel o ok fs u t sv) (did_open fuel o ok fs' u t' sv')).
  { intros u t t' F. unfold did_open. destruct (to_file_path u) as [p|]; [|split; assumption].
    eapply orel_bind; [apply like_add_text; eassumption|]. intros a a' Ha.
    apply like_publish. split; assumption. }
  destruct n as [d|d|u t|u ts|u], n' as [d'|d'|u' t'|u' ts'|u']; cbn [note_apart] in N; try contradiction;
    cbn [handle].
  - subst d'. apply C.
  - subst d'. apply like_publish, C.
  - destruct N as [-> F]. apply T; assumption.
  - destruct N as [-> F]. unfold did_change. destruct F as [|t t' ts ts' F _].
    + destruct (to_file_path u); [exact I|]. split; assumption.
    + apply (T u t t'); assumption.
  - subst u'. cbn [orel]. unfold did_close. destruct (to_file_path u); [|split; assumption].
    split; [apply like_remove, H|exact E].
Qed.



(** where a reference to something else than the root leads *)
Lemma near_referenced x x' r : near_actx x x' -> r <> RefPath [] -> get_referenced x' r = get_referenced x r.
Proof.
  intros (A & B & _) N. destruct r as [l|p]; cbn [get_referenced].
  - unfold get_node_by_label. rewrite A. reflexivity.
  - unfold get_node_by_path. rewrite <- (rest_get p (ac_flat x')), <- (rest_get p (ac_flat x)), B; [reflexivity|intros ->; apply N; reflexivity..].
Qed.
Lemma get_bare p m n : bare_table m -> p = [] -> m_get npath_eq_dec p m = Some n -> wt_item (nd_name n) = mkNN (bs "/") None.
Proof.
  intros H -> E. induction H as [|[q k] m K _ IH]; [discriminate E|]. cbn [m_get] in E.
  destruct (npath_eq_dec [] q) as [<-|]; [|exact (IH E)]. injection E as <-. exact (proj2 (K eq_refl)).
Qed.
Lemma near_hover x x' r : near_actx x x' ->
  option_map (fun n => nn_name (wt_item (nd_name n))) (get_referenced x' r) = option_map (fun n => nn_name (wt_item (nd_name n))) (get_referenced x r).
Proof.
  intros H. assert (D : r = RefPath [] \/ r <> RefPath []).
  { destruct r as [l|[|q p]]; [right; discriminate|left; reflexivity|right; discriminate]. }
  destruct D as [->|N]; [|rewrite (near_referenced _ _ _ H N); reflexivity].
  destruct H as (_ & _ & M & B & B'). cbn [get_referenced]. unfold get_node_by_path. unfold m_mem in M.
  pose proof (fun n => get_bare [] (ac_flat x) n B eq_refl) as P. pose proof (fun n => get_bare [] (ac_flat x') n B' eq_refl) as P'.
  destruct (m_get npath_eq_dec [] (ac_flat x)) as [n|], (m_get npath_eq_dec [] (ac_flat x')) as [n'|]; try discriminate M; [|reflexivity].
  cbn [option_map]. rewrite (P _ eq_refl), (P' _ eq_refl). reflexivity.
Qed.
(** the cursor is not on a reference to the root node *)
Definition not_on_root (g : fsys) (u : uri) (c : position) (sv : server) : Prop :=
  forall p, to_file_path u = Some p -> find_at_pos g (sv_project sv) p c <> Some (AtReference (RefPath [])).
Lemma like_answers sv sv' u c : like_server sv sv' ->
  (not_on_root fs u c sv -> goto_definition fs' u c sv' = goto_definition fs u c sv) /\ hover fs' u c sv' = hover fs u c sv
  /\ option_map (flat_map opened) (document_symbol fs' u sv') = option_map (flat_map opened) (document_symbol fs u sv).
Proof.
  intros [H _]. unfold goto_definition, hover, document_symbol, not_on_root. destruct (to_file_path u) as [p|]; [|auto].
  pose proof (like_get _ _ p H) as G.
  assert (X : find_at_pos fs' (sv_project sv') p c = find_at_pos fs (sv_project sv) p c).
  { unfold find_at_pos. destruct (get_file fs (sv_project sv) p) as [f|], (get_file fs' (sv_project sv') p) as [f'|]; try contradiction; [|reflexivity].
    pose proof (pk_file _ _ G) as F. destruct (pf_file f) as [file|], (pf_file f') as [file'|]; cbn [of_split] in F; try contradiction; [|reflexivity].
    apply at_splits, F. }
  assert (A : of_actx (get_analysis fs (sv_project sv) p) (get_analysis fs' (sv_project sv') p)).
  { unfold get_analysis. destruct (get_file fs (sv_project sv) p) as [f|], (get_file fs' (sv_project sv') p) as [f'|]; try contradiction; [|exact I].
    apply (pk_ctx _ _ G). }
  assert (R : option_map (flat_map opened) (option_map file_symbols (get_root fs' (sv_project sv') p)) = option_map (flat_map opened) (option_map file_symbols (get_root fs (sv_project sv) p))).
  { unfold get_root. destruct (get_file fs (sv_project sv) p) as [f|], (get_file fs' (sv_project sv') p) as [f'|]; try contradiction; [|reflexivity].
    pose proof (pk_file _ _ G) as F. destruct (pf_file f) as [file|], (pf_file f') as [file'|]; cbn [of_split] in F; try contradiction; [|reflexivity].
    cbn [option_map]. rewrite (symbols_splits _ _ (proj1 F)). reflexivity. }
  rewrite X. unfold get_node_position, document_reference.
  destruct (find_at_pos fs (sv_project sv) p c) as [[r|l|i]|] eqn:Q; rewrite ?u_include; auto.
  destruct (get_analysis fs (sv_project sv) p) as [x|], (get_analysis fs' (sv_project sv') p) as [x'|]; cbn [of_actx] in A; try contradiction; [|auto].
  split; [|split; [|exact R]].
  - intros N. assert (Nr : r <> RefPath []) by (intros ->; exact (N p eq_refl Q)). rewrite (near_referenced _ _ _ A Nr). reflexivity.
  - pose proof (near_hover _ _ r A) as K. destruct (get_referenced x r) as [n|], (get_referenced x' r) as [n'|]; try discriminate K; [|reflexivity].
    cbn [option_map] in *. congruence.
Qed.
End Disks.
