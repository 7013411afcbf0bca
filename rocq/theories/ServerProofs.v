(** What the server knows: histories of notifications, invariants of the project behind it *)
From Verif Require Import Parser Server LexSpec ReaderProofs ParserBase ParserSafe ParserSafe2 TreeProofs PropsParser AnalysisProofs PropsAnalysis.
From Verif Require Import ProjectSpec ProjectProofs ProjectProofs2 ProjectHistory PropsProject Tests.
From Coq Require Import Permutation.

(** ** Nodes of a tree *)
Fixpoint node_nodes (n : node) : list node :=
  match n with
  | mkNode _ _ (mkPayload its _) _ => n :: flat_map (fun i => match i with INode m => node_nodes m | _ => [] end) its
  end.
Definition items_nodes (its : list item) : list node := flat_map (fun i => match i with INode m => node_nodes m | _ => [] end) its.
Definition file_nodes (f : dts_file) : list node :=
  flat_map (fun p => match p with PRoot n => node_nodes n | PReferencedNode r => items_nodes (pl_items (rn_payload r)) | _ => [] end)
    (fl_elements f).

(** [origin n q text]: [n] is a node of the tree of [text], a text of the file [q] *)
Definition origin (n : node) (q : fpath) (text : str) : Prop :=
  exists dirs f s, valid_utf8 text = true /\ parse_text dirs text q = ROk f s /\ In n (file_nodes f).

Lemma payload_item_toks its e i t : In i its -> In t (item_toks i) -> In t (payload_toks (mkPayload its e)).
Proof.
  intros H1 H2. cbn [payload_toks]. apply in_or_app. left. apply in_flat_map. exists i. split; assumption.
Qed.
Lemma name_tok n : forall m, In m (node_nodes n) -> In (wt_tok (nd_name m)) (node_toks n).
Proof.
  apply (node_rect' (fun n => forall m, In m (node_nodes n) -> In (wt_tok (nd_name m)) (node_toks n))
                    (fun i => forall m, In m (match i with INode x => node_nodes x | _ => [] end) -> In (wt_tok (nd_name m)) (item_toks i))); clear n.
  - intros l nm its e o IH m H. cbn [node_nodes] in H. destruct H as [<-|H].
    + cbn [node_toks nd_name]. apply in_or_app. right. apply in_or_app. right. left. reflexivity.
    + apply in_flat_map in H. destruct H as (i & Hi & H). rewrite Forall_forall in IH. specialize (IH i Hi m H).
      change (node_toks (mkNode l nm (mkPayload its e) o)) with (match o with Some t => [t] | None => [] end ++ opt_tok l ++ [wt_tok nm] ++ payload_toks (mkPayload its e)).
      apply in_or_app. right. apply in_or_app. right. right. eapply payload_item_toks; eassumption.
  - intros p m [].
  - intros n IH m H. apply IH, H.
  - intros t n m [].
  - intros t n m [].
Qed.
Lemma file_name_tok f n : In n (file_nodes f) -> In (wt_tok (nd_name n)) (file_toks f).
Proof.
  intros H. apply in_flat_map in H. destruct H as (p & Hp & H). apply in_flat_map. exists p. split; [exact Hp|].
  destruct p as [d|m|[r [its e]]|x]; try destruct H.
  - apply name_tok, H.
  - cbn [rn_payload pl_items] in H. unfold items_nodes in H. apply in_flat_map in H. destruct H as (i & Hi & H). cbn [primary_toks]. right.
    eapply payload_item_toks; [exact Hi|]. destruct i as [p|m|t m|t m]; try destruct H. apply name_tok, H.
Qed.
(** the name of a node of a file is written in its text, at the span of its token *)
Lemma origin_tok n q text : origin n q text -> tok_at text q (wt_tok (nd_name n)) /\ wt_source (nd_name n) = q.
Proof.
  intros (dirs & f & s & Hv & E & Hn). destruct (tree_tokens _ _ _ _ _ Hv E) as (p & _ & _ & H). rewrite Forall_forall in H.
  specialize (H _ (file_name_tok _ _ Hn)). split; [exact H|]. destruct H as (m & a & u & rest & _ & _ & K).
  unfold wt_source. rewrite K. reflexivity.
Qed.

(** ** Definitions and nodes *)
Lemma items_defs_nodes its : forall path p n, In (DNode p n) (items_defs_of node_defs path its) ->
  Forall (fun i => forall m path p n, i = INode m -> In (DNode p n) (node_defs path m) -> In n (node_nodes m)) its ->
  In n (items_nodes its).
Proof.
  induction its as [|i its IH]; intros path p n H F; [destruct H|]. inversion F as [|? ? F1 F2]; subst. unfold items_nodes. cbn [flat_map]. fold (items_nodes its).
  destruct i as [q|m|t m|t m]; cbn [items_defs_of] in H.
  - destruct H as [H|H]; [discriminate|]. eapply IH; eassumption.
  - apply in_app_or in H. apply in_or_app. destruct H as [H|H]; [left; eapply F1; [reflexivity|exact H]|right; eapply IH; eassumption].
  - eapply IH; eassumption.
  - eapply IH; eassumption.
Qed.
Lemma node_defs_nodes m : forall path p n, In (DNode p n) (node_defs path m) -> In n (node_nodes m).
Proof.
  apply (node_rect' (fun m => forall path p n, In (DNode p n) (node_defs path m) -> In n (node_nodes m))
                    (fun i => forall m path p n, i = INode m -> In (DNode p n) (node_defs path m) -> In n (node_nodes m))); clear m.
  - intros l nm its e o IH path p n H. cbn [node_defs node_nodes] in *. destruct H as [H|H]; [left; congruence|].
    right. eapply items_defs_nodes; eassumption.
  - discriminate.
  - intros m IH m' path p n E. injection E as <-. apply IH.
  - discriminate.
  - discriminate.
Qed.
Lemma all_items_defs its path p n : In (DNode p n) (items_defs path its) -> In n (items_nodes its).
Proof.
  intros H. eapply items_defs_nodes; [exact H|]. apply Forall_forall. intros i _ m path' p' n' _. apply node_defs_nodes.
Qed.
Lemma node_no_include c m : forall path, ~ In (DInclude c) (node_defs path m).
Proof.
  apply (node_rect' (fun m => forall path, ~ In (DInclude c) (node_defs path m)) (fun i => forall m path, i = INode m -> ~ In (DInclude c) (node_defs path m))).
  - intros l nm its e o IH path [H|H]; [discriminate|]. revert path H. induction IH as [|i its H1 H2 IH2]; intros path H; [destruct H|].
    destruct i as [q|x|t x|t x]; cbn [items_defs_of] in H.
    + destruct H as [H|H]; [discriminate|]. exact (IH2 _ H).
    + apply in_app_or in H. destruct H as [H|H]; [exact (H1 x _ eq_refl H)|exact (IH2 _ H)].
    + exact (IH2 _ H).
    + exact (IH2 _ H).
  - discriminate.
  - intros x IH y path E. injection E as <-. apply IH.
  - discriminate.
  - discriminate.
Qed.
Lemma items_no_include c its path : ~ In (DInclude c) (items_defs path its).
Proof.
  unfold items_defs. induction its as [|i its IH]; [intros []|]. destruct i as [q|x|t x|t x]; cbn [items_defs_of].
  - intros [H|H]; [discriminate|]. exact (IH H).
  - intros H. apply in_app_or in H. destruct H as [H|H]; [eapply node_no_include, H|exact (IH H)].
  - exact IH.
  - exact IH.
Qed.
(** where the definitions of a file come from *)
Definition primary_nodes (p : primary) : list node :=
  match p with PRoot n => node_nodes n | PReferencedNode r => items_nodes (pl_items (rn_payload r)) | _ => [] end.
Definition def_from (fs : fsys) (pj : project) (l : list primary) (d : def) : Prop :=
  match d with
  | DNode _ n => In n (flat_map primary_nodes l)
  | DProperty _ => True
  | DInclude c => exists i q v, In (PDirective (AInclude i)) l /\ include_path fs i = inl q /\ get_file fs pj q = Some v /\ pf_ctx v = Some c
  end.
Lemma elements_from fs pj src ft l : forall ps ds h ds' h' es, elements fs pj src ft ps ds h l ds' h' es ->
  forall d, In d ds' -> In d ds \/ def_from fs pj l d.
Proof.
  induction l as [|p l IH]; intros ps ds h ds' h' es H d Hd.
  - apply elements_nil_inv in H. destruct H as (-> & _). left. exact Hd.
  - apply elements_cons_inv in H. destruct H as (dp & h1 & ep & e2 & H7 & H8 & ->). destruct (IH _ _ _ _ _ _ H8 d Hd) as [K|K].
    + apply in_app_or in K. destruct K as [K|K]; [left; exact K|right].
      assert (G : match d with DNode _ n => In n (primary_nodes p) | _ => def_from fs pj (p :: l) d end).
      { inversion H7; subst; try destruct K.
        - match goal with H : included _ _ _ _ _ _ _ _ |- _ => inversion H; subst; try destruct K end.
          destruct (pf_ctx f) as [c|] eqn:Ec; [|destruct K]. destruct K as [<-|[]]. exists i, p, f. split; [left; reflexivity|]. split; [assumption|]. split; assumption.
        - destruct d as [q m| |c]; [eapply node_defs_nodes, K|exact I|]. exfalso. eapply node_no_include, K.
        - destruct d as [q m| |c]; [eapply all_items_defs, K|exact I|]. exfalso. eapply items_no_include, K.
        - destruct d as [q m| |c]; [eapply all_items_defs, K|exact I|]. exfalso. eapply items_no_include, K. }
      destruct d; try exact G. cbn [def_from flat_map]. apply in_or_app. left. exact G.
    + right. destruct d as [q m| |c]; [|exact I|].
      * cbn [def_from flat_map]. apply in_or_app. right. exact K.
      * destruct K as (i & q & v & K1 & K2). exists i, q, v. split; [right; exact K1|exact K2].
Qed.

(** ** Canonical paths are absolute *)
Definition absolute (p : fpath) : Prop := exists r, p = 47 :: r.
Definition canon_absolute (fs : fsys) : Prop := forall x p, fs_canon fs x = inl p -> absolute p.
Lemma from_absolute p : absolute p -> from_file_path p = Some (FileUri p).
Proof. intros [r ->]. reflexivity. Qed.
Lemma resolve_canon fs dirs name p : resolve_in fs dirs name = Some p -> exists x, fs_canon fs x = inl p.
Proof.
  induction dirs as [|d dirs IH]; cbn [resolve_in]; [discriminate|]. destruct (fs_canon fs (path_join d name)) as [q|e] eqn:E; [|exact IH].
  intros H. injection H as <-. exists (path_join d name). exact E.
Qed.
Lemma include_canon fs i p : include_path fs i = inl p -> exists x, fs_canon fs x = inl p.
Proof.
  unfold include_path. destruct (resolve_in fs (in_paths i) (wt_item (in_file_name i))) as [q|] eqn:E.
  - intros H. injection H as <-. eapply resolve_canon, E.
  - intros H. eexists. exact H.
Qed.

(** ** The invariant *)
(** a node known to an analysis stands in a text of a file with an absolute path *)
Definition known (n : node) : Prop := exists q text, absolute q /\ origin n q text.
Definition ctx_known (c : actx) : Prop :=
  (forall l n, In (l, LNode n) (ac_labels c) -> known n) /\ (forall p n, In (p, n) (ac_flat c) -> known n).
Record server_inv (pj : project) : Prop := {
  si_reached : reached pj;
  si_absolute : forall k, In k (keys (pj_files pj)) -> absolute k;
  si_ctx : forall k v c, fget k (pj_files pj) = Some v -> pf_ctx v = Some c -> ctx_known c;
  (** the tree of a file is that of its text, and a file is analysed if it has a tree *)
  si_tree : forall k v f, fget k (pj_files pj) = Some v -> pf_file v = Some f ->
     (exists dirs s, valid_utf8 (pf_text v) = true /\ parse_text dirs (pf_text v) k = ROk f s)
     /\ (exists fs pj0 h ac es, project_ok pj0 /\ pf_ctx v = Some ac /\ analysed fs pj0 f (pf_type v) h ac es)
}.

Lemma file_nodes_eq f : file_nodes f = flat_map primary_nodes (fl_elements f).
Proof. reflexivity. Qed.
Lemma get_file_key fs pj q v : get_file fs pj q = Some v -> exists k, fget k (pj_files pj) = Some v.
Proof. unfold get_file. destruct (fs_canon fs q) as [k|e]; [|discriminate]. intros H. exists k. exact H. Qed.
Lemma analysed_known fs pj f ft h ac es : project_ok pj -> analysed fs pj f ft h ac es ->
  (forall k v c, fget k (pj_files pj) = Some v -> pf_ctx v = Some c -> ctx_known c) ->
  (forall n, In n (file_nodes f) -> known n) -> ctx_known ac.
Proof.
  intros Hp Ha Hc Hn. apply (analysed_spec _ _ _ _ _ _ _ Hp) in Ha. destruct Ha as (ds & h' & A & [N1 N2] & HL & HP).
  inversion A as [ds2 h2 es1 vs rs El _ _]; subst. pose proof (elements_from _ _ _ _ _ _ _ _ _ _ _ El) as F.
  assert (G : forall d, In d ds -> def_from fs pj (fl_elements f) d) by (intros d Hd; destruct (F d Hd) as [[]|K]; exact K).
  split.
  - intros l n H. apply (m_in_get str_eq_dec) in H; [|exact N1]. apply HL in H. destruct H as (pre & d & post & -> & B & _).
    assert (Hd : In d (pre ++ d :: post)) by (apply in_or_app; right; left; reflexivity). specialize (G d Hd).
    inversion B; subst; cbn [def_from] in G.
    + apply Hn. exact G.
    + destruct G as (i & q & v & _ & _ & G1 & G2). apply get_file_key in G1. destruct G1 as [k G1]. destruct (Hc _ _ _ G1 G2) as [K _]. eapply K. eassumption.
  - intros p n H. apply (m_in_get npath_eq_dec) in H; [|exact N2]. apply HP in H. destruct H as (pre & d & post & -> & B & _).
    assert (Hd : In d (pre ++ d :: post)) by (apply in_or_app; right; left; reflexivity). specialize (G d Hd).
    inversion B; subst; cbn [def_from] in G.
    + apply Hn. exact G.
    + destruct G as (i & q & v & _ & _ & G1 & G2). apply get_file_key in G1. destruct G1 as [k G1]. destruct (Hc _ _ _ G1 G2) as [_ K]. eapply K. eassumption.
Qed.

Lemma loaded_absolute fs incl root text present k : canon_absolute fs -> absolute root -> loaded fs incl root text present k -> absolute k.
Proof.
  intros Hc Hr H. destruct H as [|p q _ (t & f & s & i & _ & _ & _ & E) _ _]; [exact Hr|].
  apply include_canon in E. destruct E as [x E]. exact (Hc _ _ E).
Qed.

Lemma new_server_inv : server_inv project_new.
Proof. constructor; cbn; [constructor|intros k []|discriminate|discriminate]. Qed.
Lemma dirs_server_inv fs ps pj : server_inv pj -> server_inv (set_include_paths fs ps pj).
Proof. intros [A B C D]. constructor; [apply re_dirs, A|exact B|exact C|exact D]. Qed.
Lemma remove_server_inv fs p pj : server_inv pj -> server_inv (remove_file fs p pj).
Proof.
  intros [A B C D]. constructor; [apply re_remove, A| | |]; (destruct (fs_canon fs p) as [q|e] eqn:E; [|unfold remove_file; rewrite E; assumption]).
  - intros k Hk. destruct (m_get_some_key str_eq_dec _ _ Hk) as [v Hv]. rewrite (remove_get fs p q pj E) in Hv. destruct (str_eq_dec k q); [discriminate|].
    apply B. eapply m_get_key, Hv.
  - intros k v c. rewrite (remove_get fs p q pj E). destruct (str_eq_dec k q); [discriminate|]. apply C.
  - intros k v f. rewrite (remove_get fs p q pj E). destruct (str_eq_dec k q); [discriminate|]. apply D.
Qed.

Lemma add_server_inv fs u fuel o name text ft pj pj' : canon_absolute fs -> finite_fs fs u -> (length u < fuel)%nat -> order_ok o ->
  valid_utf8 text = true -> server_inv pj -> add_file_with_text fuel o fs name text ft pj = Done pj' -> server_inv pj'.
Proof.
  intros Ha Hf Hl Ho Hv [A B C D] E.
  destruct (fs_canon fs name) as [root|e] eqn:Ec; [|unfold add_file_with_text in E; rewrite Ec in E; discriminate].
  destruct (add_done fs u fuel o name root text ft pj pj' Hf Hl Ho Ec Hv A E) as (files' & order & L & Hcl & Hk & P & Hp' & _ & _ & An & S).
  assert (R : reached pj') by (eapply re_add; eassumption).
  pose proof (load_cases _ _ _ _ _ _ _ Hv L) as K.
  assert (T : forall k v f, fget k files' = Some v -> pf_file v = Some f -> exists dirs s, valid_utf8 (pf_text v) = true /\ parse_text dirs (pf_text v) k = ROk f s).
  { intros k v f H1 H2. destruct (K k v H1) as [[_ H]|(_ & t & ft' & Ht & _ & St)].
    - destruct (D k v f H H2) as [X _]. exact X.
    - destruct St as (S1 & _ & _ & _ & [(g & s & S2 & S3 & _)|(d & s & _ & S3 & _)]); [|congruence].
      rewrite S1. assert (g = f) as -> by congruence. exists (include_dirs (pj_incl pj) k), s. split; assumption. }
  assert (Abs : forall k, In k (keys files') -> absolute k).
  { intros k H. apply (li_keys _ _ _ _ _ _ _ L) in H. destruct H as [H|H]; [apply B, H|]. eapply loaded_absolute; [exact Ha|exact (Ha _ _ Ec)|exact H]. }
  assert (C1 : forall k v c, fget k files' = Some v -> pf_ctx v = Some c -> ctx_known c).
  { intros k v c H1 H2. destruct (K k v H1) as [[_ H]|(_ & t & ft' & _ & _ & (_ & _ & S1 & _))]; [eapply C; eassumption|congruence]. }
  destruct An as (A1 & A2 & A3 & A4).
  assert (Hkeys : forall k, In k (keys (pj_files pj')) <-> In k (keys files')) by (intros k; rewrite A1; reflexivity).
  (* the contexts of the files of a prefix of the order are known *)
  assert (G : forall k1 k2, order = k1 ++ k2 -> forall k v c, In k k1 -> fget k (pj_files pj') = Some v -> pf_ctx v = Some c -> ctx_known c).
  { intros k1. induction k1 as [|k k1 IH] using rev_ind; intros k2 Eo q v c Hq H1 H2; [destruct Hq|].
    rewrite <- app_assoc in Eo. cbn [app] in Eo. apply in_app_or in Hq. destruct Hq as [Hq|[<-|[]]]; [eapply IH; eassumption|].
    specialize (S k). rewrite H1 in S. destruct (fget k files') as [w|] eqn:Ew; [|contradiction]. destruct (pf_file w) as [f|] eqn:Ef.
    - destruct (A4 k1 k k2 w f Eo Ew Ef) as (pjk & a & a' & ac & es & X1 & X2 & X3 & X4 & X5 & X6 & X7 & X8).
      rewrite H1 in X1. injection X1 as ->. cbn [store_result pf_ctx fst] in H2. injection H2 as <-.
      eapply analysed_known; [exact X5|exists (o_an o), a, a'; split; [apply Ho|split; [exact X2|exact X3]]| |].
      + intros x y z Y1 Y2. destruct (in_dec str_eq_dec x k1) as [Hx|Hx].
        * rewrite (X7 x Hx) in Y1. eapply IH; eassumption.
        * rewrite (X8 x Hx) in Y1. eapply C1; eassumption.
      + intros n Hn. destruct (T k w f Ew Ef) as (dirs & s & T1 & T2). exists k, (pf_text w). split; [apply Abs; eapply m_get_key, Ew|].
        exists dirs, f, s. auto.
    - rewrite (A3 k w Ew Ef) in H1. injection H1 as ->. eapply C1; eassumption. }
  constructor; [exact R| | |].
  - intros k H. apply Abs, Hkeys, H.
  - intros k v c H1 H2. assert (Hin : In k order). { eapply Permutation_in; [apply Permutation_sym, P|]. apply Hkeys. eapply m_get_key, H1. }
    eapply (G order []); [rewrite app_nil_r; reflexivity|exact Hin|exact H1|exact H2].
  - intros k v f H1 H2. assert (Hin : In k order). { eapply Permutation_in; [apply Permutation_sym, P|]. apply Hkeys. eapply m_get_key, H1. }
    specialize (S k). rewrite H1 in S. destruct (fget k files') as [w|] eqn:Ew; [|contradiction]. destruct S as (_ & S1 & S2 & S3). rewrite S1 in H2. rewrite S3.
    split; [eapply T; eassumption|]. apply in_split in Hin. destruct Hin as (k1 & k2 & Eo).
    destruct (A4 k1 k k2 w f Eo Ew H2) as (pjk & a & a' & ac & es & X1 & X2 & X3 & X4 & X5 & _). rewrite H1 in X1. injection X1 as ->.
    exists fs, pjk, ([] ++ deps_of fs files' k1), ac, es. split; [exact X5|]. split; [reflexivity|]. exists (o_an o), a, a'. split; [apply Ho|]. split; [exact X2|].
    rewrite S2. exact X3.
Qed.

(** ** Histories of notifications, handled one after the other *)
Definition shuffle (ok : list fpath -> list fpath) : Prop := forall l, Permutation (ok l) l.
(** the file system may change between the notifications; the files known to it are finitely many and canonical paths are absolute *)
Definition disk (fs : fsys) (fuel : nat) : Prop := canon_absolute fs /\ exists u, finite_fs fs u /\ (length u < fuel)%nat.
Inductive served : server -> Prop :=
| se_new : served server_new
| se_initialize fs dirs sv : served sv -> served (initialize fs dirs sv)
| se_configure ok fs dirs sv sv' : served sv -> shuffle ok -> did_change_configuration ok fs dirs sv = Done sv' -> served sv'
| se_open fuel o ok fs u text sv sv' : served sv -> disk fs fuel -> order_ok o -> shuffle ok -> valid_utf8 text = true ->
    did_open fuel o ok fs u text sv = Done sv' -> served sv'
| se_change fuel o ok fs u texts sv sv' : served sv -> disk fs fuel -> order_ok o -> shuffle ok -> Forall (fun t => valid_utf8 t = true) texts ->
    did_change fuel o ok fs u texts sv = Done sv' -> served sv'
| se_close fs u sv : served sv -> served (did_close fs u sv).

Lemma publish_project ok fs sv sv' : publish ok fs sv = Done sv' -> sv_project sv' = sv_project sv.
Proof. unfold publish. destruct (publish_all _ _ _) as [ps| |]; cbn [obind]; [|discriminate|discriminate]. intros H. injection H as <-. reflexivity. Qed.
Lemma served_inv sv : served sv -> server_inv (sv_project sv).
Proof.
  induction 1 as [|fs dirs sv H IH|ok fs dirs sv sv' H IH Hk E|fuel o ok fs u text sv sv' H IH [Ha (l & Hf & Hl)] Ho Hk Hv E|fuel o ok fs u texts sv sv' H IH [Ha (l & Hf & Hl)] Ho Hk Hv E|fs u sv H IH].
  - apply new_server_inv.
  - apply dirs_server_inv, IH.
  - apply publish_project in E. rewrite E. apply dirs_server_inv, IH.
  - unfold did_open in E. destruct (to_file_path u) as [p|]; [|injection E as <-; exact IH].
    destruct (add_file_with_text fuel o fs p text (file_type_of_path p) (sv_project sv)) as [pj| |] eqn:Ea; cbn [obind] in E; try discriminate.
    apply publish_project in E. rewrite E. eapply add_server_inv; eassumption.
  - unfold did_change in E. destruct (to_file_path u) as [p|]; [|injection E as <-; exact IH]. destruct texts as [|text texts]; [discriminate|].
    destruct (add_file_with_text fuel o fs p text (file_type_of_path p) (sv_project sv)) as [pj| |] eqn:Ea; cbn [obind] in E; try discriminate.
    apply publish_project in E. rewrite E. inversion Hv; subst. eapply add_server_inv; eassumption.
  - unfold did_close. destruct (to_file_path u); [|exact IH]. apply remove_server_inv, IH.
Qed.
