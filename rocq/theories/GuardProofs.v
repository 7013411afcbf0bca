(** The import guard reports exactly the cycles of the accumulated dependency graph *)
From Verif Require Import ImportGuard.
From Coq Require Import Permutation Relations.Relation_Operators.

Section AssocLemmas.
  Context {K V : Type} (eq_dec : forall a b : K, {a = b} + {a <> b}).

  Lemma m_get_in k v (m : list (K * V)) : m_get eq_dec k m = Some v -> In (k, v) m.
  Proof.
    induction m as [|[k' v'] m IH]; [discriminate|]. cbn [m_get].
    destruct (eq_dec k k') as [->|E]; [intros H; injection H as ->; left; reflexivity|].
    intros H. right. apply IH, H.
  Qed.
  Lemma m_get_none k (m : list (K * V)) : m_get eq_dec k m = None <-> ~ In k (m_keys m).
  Proof.
    induction m as [|[k' v'] m IH]; [cbn; tauto|]. cbn [m_get m_keys map fst].
    destruct (eq_dec k k') as [->|E].
    - split; [discriminate|]. intros H. exfalso. apply H. left. reflexivity.
    - rewrite IH. split; [intros H [H1|H1]; [congruence|contradiction]|].
      intros H H1. apply H. right. exact H1.
  Qed.
  Lemma m_get_some_key k (m : list (K * V)) : In k (m_keys m) -> exists v, m_get eq_dec k m = Some v.
  Proof.
    intros H. destruct (m_get eq_dec k m) eqn:E; [eauto|]. apply m_get_none in E. contradiction.
  Qed.
  Lemma m_get_key k v (m : list (K * V)) : m_get eq_dec k m = Some v -> In k (m_keys m).
  Proof. intros H. apply m_get_in in H. apply (in_map fst) in H. exact H. Qed.
  Lemma m_mem_spec k (m : list (K * V)) : m_mem eq_dec k m = true <-> In k (m_keys m).
  Proof.
    unfold m_mem. destruct (m_get eq_dec k m) eqn:E.
    - split; [intros _; eapply m_get_key; exact E|reflexivity].
    - apply m_get_none in E. split; [discriminate|contradiction].
  Qed.
  Lemma m_get_remove_eq k (m : list (K * V)) : m_get eq_dec k (m_remove eq_dec k m) = None.
  Proof.
    apply m_get_none. unfold m_remove, m_keys. intros H. apply in_map_iff in H.
    destruct H as [[k' v] [E H]]. apply filter_In in H. destruct H as [_ H]. cbn [fst] in *.
    subst k'. destruct (eq_dec k k); congruence.
  Qed.
  Lemma m_get_remove_neq k k' (m : list (K * V)) : k <> k' ->
    m_get eq_dec k (m_remove eq_dec k' m) = m_get eq_dec k m.
  Proof.
    intros Hn. induction m as [|[a v] m IH]; [reflexivity|]. cbn [m_remove filter fst].
    destruct (eq_dec k' a) as [->|E].
    - cbn [m_get]. destruct (eq_dec k a); [congruence|]. exact IH.
    - cbn [m_get]. destruct (eq_dec k a); [reflexivity|]. exact IH.
  Qed.
  Lemma m_get_insert_eq k v (m : list (K * V)) : m_get eq_dec k (m_insert eq_dec k v m) = Some v.
  Proof. cbn [m_insert m_get]. destruct (eq_dec k k); congruence. Qed.
  Lemma m_get_insert_neq k k' v (m : list (K * V)) : k <> k' ->
    m_get eq_dec k (m_insert eq_dec k' v m) = m_get eq_dec k m.
  Proof.
    intros H. cbn [m_insert m_get]. destruct (eq_dec k k'); [congruence|].
    apply m_get_remove_neq, H.
  Qed.
  Lemma m_remove_id k (m : list (K * V)) : ~ In k (m_keys m) -> m_remove eq_dec k m = m.
  Proof.
    induction m as [|[a v] m IH]; [reflexivity|]. cbn [m_keys map fst m_remove filter In].
    intros H. destruct (eq_dec k a) as [->|E]; [exfalso; apply H; auto|].
    f_equal. apply IH. intros H1. apply H. right. exact H1.
  Qed.
  Lemma m_keys_remove k x (m : list (K * V)) :
    In x (m_keys (m_remove eq_dec k m)) <-> In x (m_keys m) /\ x <> k.
  Proof.
    unfold m_keys, m_remove. rewrite !in_map_iff. split.
    - intros [[a v] [E H]]. apply filter_In in H. destruct H as [H1 H2]. cbn [fst] in *. subst a.
      destruct (eq_dec k x) as [E|E]; [discriminate|]. split; [|congruence].
      exists (x, v). auto.
    - intros [[[a v] [E H]] Hn]. cbn [fst] in E. subst a. exists (x, v). split; [reflexivity|].
      apply filter_In. split; [exact H|]. cbn [fst]. destruct (eq_dec k x); [congruence|reflexivity].
  Qed.
  Lemma m_keys_insert k v x (m : list (K * V)) :
    In x (m_keys (m_insert eq_dec k v m)) <-> x = k \/ In x (m_keys m).
  Proof.
    cbn [m_insert m_keys map fst In]. fold (m_keys (m_remove eq_dec k m)). rewrite m_keys_remove.
    destruct (eq_dec x k) as [->|E]; [tauto|]. split; [intros [H|H]; [congruence|tauto]|].
    intros [H|H]; [congruence|auto].
  Qed.
  Lemma m_nodup_remove k (m : list (K * V)) : NoDup (m_keys m) -> NoDup (m_keys (m_remove eq_dec k m)).
  Proof.
    induction m as [|[a v] m IH]; [auto|]. cbn [m_keys map fst m_remove filter].
    intros H. inversion H as [|x l Hx Hl]; subst. destruct (eq_dec k a) as [E|E]; [exact (IH Hl)|].
    cbn [map fst]. constructor; [|exact (IH Hl)].
    intros H1. apply (m_keys_remove k a m) in H1. destruct H1 as [H1 _]. contradiction.
  Qed.
  Lemma m_nodup_insert k v (m : list (K * V)) : NoDup (m_keys m) -> NoDup (m_keys (m_insert eq_dec k v m)).
  Proof.
    intros H. cbn [m_insert m_keys map fst]. constructor; [|apply m_nodup_remove, H].
    intros H1. apply (m_keys_remove k k m) in H1. tauto.
  Qed.
End AssocLemmas.

Lemma nodup_app {A} (a b : list A) : NoDup a -> NoDup b -> (forall x, In x a -> ~ In x b) -> NoDup (a ++ b).
Proof.
  intros Ha Hb H. induction Ha as [|x a Hx Ha IH]; [exact Hb|]. cbn [app]. constructor.
  - intros H1. apply in_app_or in H1. destruct H1 as [H1|H1]; [contradiction|].
    exact (H x (or_introl eq_refl) H1).
  - apply IH. intros y Hy. apply H. right. exact Hy.
Qed.

Section Guard.
  Context {V : Type} (eq_dec : forall a b : V, {a = b} + {a <> b}).
  Notation get := (m_get eq_dec).

  (** ** Specification: dependency graphs as histories of additions *)
  Definition history := list (V * list V).
  Definition depends (h : history) (a b : V) : Prop := exists ds, In (a, ds) h /\ In b ds.
  (** a node lies on a cycle *)
  Definition on_cycle (E : V -> V -> Prop) (x : V) : Prop := clos_trans V E x x.
  Definition acyclic (E : V -> V -> Prop) : Prop := forall x, ~ on_cycle E x.
  (** consecutive elements of the list are edges *)
  Fixpoint chain (E : V -> V -> Prop) (l : list V) : Prop :=
    match l with
    | x :: ((y :: _) as r) => E x y /\ chain E r
    | _ => True
    end.

  (** ** The guard after a history *)
  Definition guard_after (h : history) : guard V :=
    fold_left (fun g ed => guard_insert eq_dec (fst ed) (snd ed) g) h guard_empty.

  Definition edge (nodes : list (V * list V)) (a b : V) : Prop := In b (m_entry eq_dec a nodes).

  Lemma s_insert_in x y s : In y (s_insert eq_dec x s) <-> y = x \/ In y s.
  Proof.
    unfold s_insert. destruct (in_dec eq_dec x s) as [H|H].
    - split; [auto|]. intros [->|H1]; auto.
    - cbn [In]. split; intros [H1|H1]; auto.
  Qed.
  Lemma s_extend_in l y : forall s, In y (s_extend eq_dec s l) <-> In y s \/ In y l.
  Proof.
    unfold s_extend. induction l as [|x l IH]; intros s; cbn [fold_left In]; [tauto|].
    rewrite IH, s_insert_in. split; intros H; intuition congruence.
  Qed.
  Lemma edge_insert g e deps a b :
    edge (ig_nodes (guard_insert eq_dec e deps g)) a b <->
    edge (ig_nodes g) a b \/ (a = e /\ In b deps).
  Proof.
    unfold edge, guard_insert, m_entry. cbn [ig_nodes]. destruct (eq_dec a e) as [->|E].
    - rewrite m_get_insert_eq, s_extend_in. tauto.
    - rewrite m_get_insert_neq by exact E. split; [auto|]. intros [H|[H _]]; [exact H|contradiction].
  Qed.
  Lemma edge_after h a b : edge (ig_nodes (guard_after h)) a b <-> depends h a b.
  Proof.
    unfold guard_after. assert (G : forall g,
      edge (ig_nodes (fold_left (fun g ed => guard_insert eq_dec (fst ed) (snd ed) g) h g)) a b
      <-> edge (ig_nodes g) a b \/ depends h a b).
    { induction h as [|[e ds] h IH]; intros g; cbn [fold_left].
      - split; [auto|]. intros [H|(ds & [] & _)]. exact H.
      - rewrite IH, edge_insert. cbn [fst snd]. unfold depends. cbn [In]. split.
        + intros [[H|[-> H]]|(d & H1 & H2)]; [auto| |]; right; eauto.
        + intros [H|(d & [H1|H1] & H2)]; [auto| |].
          * injection H1 as -> ->. auto.
          * right. eauto. }
    rewrite G. split; [intros [H|H]; [destruct H|exact H]|auto].
  Qed.

  (** ** The search *)
  Context (ord : V -> list V -> list V).
  Hypothesis ord_perm : forall n s, Permutation (ord n s) s.
  Context (nodes : list (V * list V)) (s : V).

  Definition targets : list V := flat_map snd nodes.
  Lemma edge_targets a b : edge nodes a b -> In b targets.
  Proof.
    unfold edge, m_entry, targets. destruct (get a nodes) as [ns|] eqn:E; [|intros []].
    intros H. apply m_get_in in E. apply in_flat_map. exists (a, ns). auto.
  Qed.
  Lemma targets_length : length targets = edge_count nodes.
  Proof.
    unfold targets, edge_count. induction nodes as [|[a ns] l IH]; [reflexivity|].
    cbn [flat_map fold_right snd]. rewrite app_length, IH. reflexivity.
  Qed.

  (** parents: newest first; the parent of an entry is the start or has an older entry *)
  Fixpoint parent_wf (P : list (V * V)) : Prop :=
    match P with
    | [] => True
    | (n, p) :: P' => edge nodes p n /\ (p = s \/ In p (m_keys P')) /\ ~ In n (m_keys P') /\ parent_wf P'
    end.

  Lemma parent_wf_nodup P : parent_wf P -> NoDup (m_keys P).
  Proof.
    induction P as [|[n p] P IH]; [constructor|]. cbn [parent_wf m_keys map fst].
    intros (_ & _ & H1 & H2). constructor; [exact H1|exact (IH H2)].
  Qed.
  Lemma parent_wf_length P : parent_wf P -> (length P <= edge_count nodes)%nat.
  Proof.
    intros H. rewrite <- targets_length. unfold m_keys in *.
    rewrite <- (map_length fst P). apply NoDup_incl_length.
    - exact (parent_wf_nodup P H).
    - intros x Hx. revert H Hx. induction P as [|[n p] P IH]; [intros _ []|].
      cbn [parent_wf map fst In]. intros (He & _ & _ & Hw) [<-|Hx]; [|exact (IH Hw Hx)].
      exact (edge_targets _ _ He).
  Qed.

  (** [a] was visited before [b]; the latest visited element is the first *)
  Definition before (visited : list V) (a b : V) : Prop := exists v1 v2, visited = v1 ++ b :: v2 /\ In a v2.
  Lemma before_cons x visited a b : before visited a b -> before (x :: visited) a b.
  Proof. intros (v1 & v2 & -> & H). exists (x :: v1), v2. auto. Qed.
  Lemma before_trans visited a b c : NoDup visited -> before visited a b -> before visited b c -> before visited a c.
  Proof.
    intros Hn (v1 & v2 & E1 & H1) (w1 & w2 & E2 & H2). exists w1, w2. split; [exact E2|].
    apply in_split in H2. destruct H2 as (u1 & u2 & ->). rewrite E2 in E1.
    assert (K : u2 = v2); [|subst u2; apply in_or_app; right; right; exact H1].
    clear - Hn E1 E2. subst visited. revert v1 E1 Hn. change (w1 ++ c :: u1 ++ b :: u2) with (w1 ++ (c :: u1) ++ b :: u2).
    rewrite app_assoc. generalize (w1 ++ c :: u1). intros w. induction w as [|x w IH]; intros v1 E1 Hn.
    - destruct v1 as [|y v1]; cbn [app] in E1; [injection E1 as E1; exact E1|]. injection E1 as -> E1. exfalso.
      inversion Hn as [|? ? K _]; subst. apply K. apply in_or_app. right. left. reflexivity.
    - destruct v1 as [|y v1]; cbn [app] in E1; injection E1 as -> E1.
      + exfalso. inversion Hn as [|? ? K _]; subst. apply K. apply in_or_app. right. left. reflexivity.
      + inversion Hn; subst. eapply IH; [exact E1|assumption].
  Qed.
  Lemma before_irrefl visited a : NoDup visited -> ~ before visited a a.
  Proof.
    intros Hn (v1 & v2 & -> & H). apply NoDup_remove_2 in Hn. apply Hn. apply in_or_app. right. exact H.
  Qed.

  (** the state of the search *)
  Record search_inv (visited stack : list V) (P : list (V * V)) : Prop := {
    si_parent : parent_wf P;
    si_parents_visited : forall n p, In (n, p) P -> In p visited;
    si_start : In s visited \/ (visited = [] /\ stack = [s] /\ P = []);
    si_visited : forall x, In x visited -> x = s \/ In x (m_keys P);
    si_keys : forall x, In x (m_keys P) -> In x stack \/ (In x visited /\ x <> s);
    si_stack : forall x, In x stack -> In x (m_keys P) \/ (visited = [] /\ x = s);
    si_stack_nodup : NoDup stack;
    si_disjoint : forall x, In x stack -> In x visited -> x = s;
    si_edges : forall a b, In a visited -> edge nodes a b -> In b (m_keys P);
    si_visited_nodup : NoDup visited;
    (** a parent is the first visited node with an edge *)
    si_first : forall n p a, In (n, p) P -> In a visited -> edge nodes a n -> a = p \/ before visited p a;
    si_order : forall n p, In (n, p) P -> In n visited -> n <> s -> before visited p n
  }.

  Lemma push_neighbors_spec node ns : forall stack P stack2 P2,
    push_neighbors eq_dec node ns stack P = (stack2, P2) ->
    exists news, stack2 = news ++ stack /\ P2 = map (fun n => (n, node)) news ++ P
      /\ NoDup news /\ (forall x, In x news <-> In x ns /\ ~ In x (m_keys P)).
  Proof.
    induction ns as [|n ns IH]; intros stack P stack2 P2 H; cbn [push_neighbors] in H.
    - injection H as <- <-. exists []. split; [reflexivity|]. split; [reflexivity|].
      split; [constructor|]. intros x. cbn. tauto.
    - destruct (m_mem eq_dec n P) eqn:Em.
      + apply m_mem_spec in Em. destruct (IH _ _ _ _ H) as (news & H1 & H2 & H3 & H4).
        exists news. split; [exact H1|]. split; [exact H2|]. split; [exact H3|].
        intros x. rewrite H4. cbn [In]. split; [tauto|]. intros [[<-|Hx] Hn]; [contradiction|auto].
      + assert (Hn : ~ In n (m_keys P)) by (rewrite <- (m_mem_spec eq_dec); congruence).
        unfold m_insert in H. rewrite (m_remove_id eq_dec n P Hn) in H.
        destruct (IH _ _ _ _ H) as (news & H1 & H2 & H3 & H4).
        exists (news ++ [n]). rewrite <- app_assoc. split; [exact H1|]. split.
        { rewrite map_app, <- app_assoc. exact H2. }
        split.
        { apply (Permutation_NoDup (Permutation_cons_append news n)). constructor; [|exact H3].
          intros H5. apply H4 in H5. destruct H5 as [_ H5]. apply H5. left. reflexivity. }
        intros x. rewrite in_app_iff, H4. cbn [m_keys map fst In]. fold (m_keys P). split.
        * intros [[Hx Hnx]|[<-|[]]]; [|auto]. split; [auto|]. intros Hk. apply Hnx. auto.
        * intros [[<-|Hx] Hk]; [right; auto|]. destruct (eq_dec n x) as [->|E]; [right; auto|].
          left. split; [exact Hx|]. intros [E2|H5]; [congruence|contradiction].
  Qed.

  Lemma parent_wf_push node news P : parent_wf P -> (node = s \/ In node (m_keys P)) ->
    NoDup news -> (forall x, In x news -> edge nodes node x /\ ~ In x (m_keys P)) ->
    parent_wf (map (fun n => (n, node)) news ++ P).
  Proof.
    intros Hw Hp Hd Hx. induction Hd as [|n news Hn Hd IH]; [exact Hw|].
    cbn [map app parent_wf]. split; [apply Hx; left; reflexivity|].
    split.
    - destruct Hp as [Hp|Hp]; [left; exact Hp|right]. unfold m_keys. rewrite map_app. apply in_or_app.
      right. exact Hp.
    - split.
      + unfold m_keys. rewrite map_app, map_map. cbn [fst]. rewrite map_id. intros H.
        apply in_app_or in H. destruct H as [H|H]; [contradiction|].
        destruct (Hx n (or_introl eq_refl)) as [_ H2]. contradiction.
      + apply IH. intros x Hx2. apply Hx. right. exact Hx2.
  Qed.

  Lemma keys_push node (news : list V) (P : list (V * V)) x :
    In x (m_keys (map (fun n => (n, node)) news ++ P)) <-> In x news \/ In x (m_keys P).
  Proof. unfold m_keys. rewrite map_app, map_map. cbn [fst]. rewrite map_id, in_app_iff. tauto. Qed.

  Lemma search_step visited node stack P : search_inv visited (node :: stack) P ->
    ~ In node visited ->
    forall stack2 P2,
    match get node nodes with
    | Some ns => push_neighbors eq_dec node (ord node ns) stack P
    | None => (stack, P)
    end = (stack2, P2) ->
    search_inv (node :: visited) stack2 P2
    /\ (length stack2 + length P = length stack + length P2)%nat.
  Proof.
    intros Hi Hnv stack2 P2 H.
    assert (Hnews : exists news, stack2 = news ++ stack /\ P2 = map (fun n => (n, node)) news ++ P
      /\ NoDup news /\ (forall x, In x news <-> edge nodes node x /\ ~ In x (m_keys P))).
    { unfold edge, m_entry. destruct (get node nodes) as [ns|].
      - destruct (push_neighbors_spec _ _ _ _ _ _ H) as (news & H1 & H2 & H3 & H4).
        exists news. repeat (split; [assumption|]). intros x. rewrite H4.
        split; intros [Hx1 Hx2]; (split; [|exact Hx2]);
          [apply (Permutation_in x (ord_perm node ns)), Hx1
          |apply (Permutation_in x (Permutation_sym (ord_perm node ns))), Hx1].
      - injection H as <- <-. exists []. split; [reflexivity|]. split; [reflexivity|].
        split; [constructor|]. intros x. cbn. tauto. }
    destruct Hnews as (news & -> & -> & Hd & Hnews). clear H.
    assert (Hnk : node = s \/ In node (m_keys P)).
    { destruct (si_stack _ _ _ Hi node (or_introl eq_refl)) as [H|[_ H]]; auto. }
    assert (Hnd : NoDup (node :: stack)) by apply (si_stack_nodup _ _ _ Hi).
    inversion Hnd as [|x l Hns Hst]; subst.
    split.
    - constructor.
      + apply parent_wf_push; auto. { apply (si_parent _ _ _ Hi). } intros x Hx. apply Hnews, Hx.
      + intros n p H. apply in_app_or in H. destruct H as [H|H].
        * apply in_map_iff in H. destruct H as [x [E _]]. injection E as _ <-. left. reflexivity.
        * right. apply (si_parents_visited _ _ _ Hi n p H).
      + left. destruct (si_start _ _ _ Hi) as [H|(_ & H & _)]; [right; exact H|].
        injection H as -> _. left. reflexivity.
      + intros x [<-|H].
        * rewrite keys_push. tauto.
        * rewrite keys_push. destruct (si_visited _ _ _ Hi x H); tauto.
      + intros x H. apply keys_push in H. destruct H as [H|H].
        * left. apply in_or_app. left. exact H.
        * destruct (si_keys _ _ _ Hi x H) as [[<-|H1]|[H1 H2]].
          -- (* the node itself *)
             destruct (eq_dec node s) as [->|E]; [|right; split; [left; reflexivity|exact E]].
             exfalso. destruct (si_start _ _ _ Hi) as [H2|(_ & _ & H2)]; [contradiction|].
             subst P. destruct H.
          -- left. apply in_or_app. right. exact H1.
          -- right. split; [right; exact H1|exact H2].
      + intros x H. apply in_app_or in H. left. rewrite keys_push. destruct H as [H|H]; [auto|].
        right. destruct (si_stack _ _ _ Hi x (or_intror H)) as [H1|[H1 H2]]; [exact H1|].
        exfalso. destruct (si_start _ _ _ Hi) as [H3|(_ & H3 & _)].
        * rewrite H1 in H3. destruct H3.
        * injection H3 as _ H3. rewrite H3 in H. destruct H.
      + apply nodup_app; [exact Hd|exact Hst|]. intros x Hx1 Hx2. apply Hnews in Hx1.
        destruct Hx1 as [_ Hx1]. apply Hx1.
        destruct (si_stack _ _ _ Hi x (or_intror Hx2)) as [H1|[H1 H2]]; [exact H1|].
        exfalso. destruct (si_start _ _ _ Hi) as [H3|(_ & H3 & _)].
        * rewrite H1 in H3. destruct H3.
        * injection H3 as _ H3. rewrite H3 in Hx2. destruct Hx2.
      + intros x H [<-|Hv].
        * apply in_app_or in H. destruct H as [H|H]; [|contradiction].
          apply Hnews in H. destruct Hnk as [E|Hk]; [exact E|]. tauto.
        * apply in_app_or in H. destruct H as [H|H].
          -- apply Hnews in H. destruct (si_visited _ _ _ Hi x Hv) as [E|Hk]; [exact E|tauto].
          -- exact (si_disjoint _ _ _ Hi x (or_intror H) Hv).
      + intros a b [<-|Ha] He; apply keys_push.
        * destruct (in_dec eq_dec b (m_keys P)) as [H|H]; [auto|]. left. apply Hnews. auto.
        * right. exact (si_edges _ _ _ Hi a b Ha He).
      + constructor; [exact Hnv|apply (si_visited_nodup _ _ _ Hi)].
      + intros n p a Hnp Ha He. apply in_app_or in Hnp. destruct Hnp as [Hnp|Hnp].
        * apply in_map_iff in Hnp. destruct Hnp as (x & Ex & Hx). injection Ex as -> <-. destruct Ha as [->|Ha]; [auto|].
          exfalso. apply Hnews in Hx. apply Hx. exact (si_edges _ _ _ Hi a n Ha He).
        * destruct Ha as [<-|Ha].
          -- right. exists [], visited. split; [reflexivity|]. exact (si_parents_visited _ _ _ Hi n p Hnp).
          -- destruct (si_first _ _ _ Hi n p a Hnp Ha He) as [->|H]; [auto|]. right. apply before_cons, H.
      + intros n p Hnp Hv Hne. apply in_app_or in Hnp. destruct Hnp as [Hnp|Hnp].
        * apply in_map_iff in Hnp. destruct Hnp as (x & Ex & Hx). injection Ex as -> <-. apply Hnews in Hx. exfalso. destruct Hv as [<-|Hv].
          -- destruct Hnk as [E|Hk]; tauto.
          -- destruct (si_visited _ _ _ Hi n Hv) as [E|Hk]; tauto.
        * destruct Hv as [<-|Hv].
          -- exists [], visited. split; [reflexivity|]. exact (si_parents_visited _ _ _ Hi node p Hnp).
          -- apply before_cons. exact (si_order _ _ _ Hi n p Hnp Hv Hne).
    - rewrite !app_length, map_length. lia.
  Qed.

  (** following the parents of a node leads to the start *)
  Lemma chain_snoc E l x y : chain E (l ++ [x]) -> E x y -> chain E ((l ++ [x]) ++ [y]).
  Proof.
    induction l as [|a l IH]; [cbn; auto|]. destruct l as [|b l].
    - cbn. tauto.
    - cbn [app]. cbn [app] in IH. intros [H1 H2] H3. split; [exact H1|]. apply IH; assumption.
  Qed.

  Lemma get_parent P n p : get n P = Some p -> parent_wf P ->
    edge nodes p n /\ exists P1 P2, P = P1 ++ (n, p) :: P2 /\ (p = s \/ In p (m_keys P2)).
  Proof.
    induction P as [|[a q] P IH]; [discriminate|]. cbn [m_get parent_wf].
    destruct (eq_dec n a) as [->|E]; intros H (H1 & H2 & H3 & H4).
    - injection H as ->. split; [exact H1|]. exists [], P. auto.
    - destruct (IH H H4) as (He & P1 & P2 & -> & Hp). split; [exact He|].
      exists ((a, q) :: P1), P2. auto.
  Qed.
  Lemma get_app_older P1 P2 n : parent_wf (P1 ++ P2) -> In n (m_keys P2) -> get n (P1 ++ P2) = get n P2.
  Proof.
    induction P1 as [|[a q] P1 IH]; [reflexivity|]. cbn [app parent_wf m_get].
    intros (_ & _ & H3 & H4) Hn. destruct (eq_dec n a) as [->|E]; [|exact (IH H4 Hn)].
    exfalso. apply H3. unfold m_keys. rewrite map_app. apply in_or_app. right. exact Hn.
  Qed.

  Definition parent_of (P : list (V * V)) (a b : V) : Prop := get b P = Some a.

  (** [P] is the whole map, [Q] the entries not older than needed; the elements visited are keys of
      [Q] until the start is reached *)
  Lemma cycle_loop_spec P : parent_wf P -> forall Q R, P = R ++ Q -> forall n acc fuel,
    In n (m_keys Q) -> (length Q < fuel)%nat ->
    exists mid, cycle_loop eq_dec fuel s P (get n P) acc = Done (acc ++ mid ++ [s])
      /\ chain (parent_of P) (s :: rev mid ++ [n]) /\ NoDup (n :: mid) /\ ~ In s mid
      /\ incl mid (m_keys Q).
  Proof.
    intros Hw Q. induction Q as [Q IH] using (well_founded_induction
      (Wf_nat.well_founded_ltof _ (@length (V * V)))).
    unfold Wf_nat.ltof in IH. intros R HP n acc fuel Hn Hf.
    destruct (m_get_some_key eq_dec n Q Hn) as [p Hp].
    assert (Hg : get n P = Some p).
    { rewrite HP. rewrite get_app_older; [exact Hp|rewrite <- HP; exact Hw|exact Hn]. }
    destruct fuel as [|fuel]; [lia|]. rewrite Hg. cbn [cycle_loop].
    assert (Hwq : parent_wf Q).
    { clear - Hw HP. subst P. induction R as [|[a q] R IH]; [exact Hw|]. apply IH. apply Hw. }
    destruct (get_parent Q n p Hp Hwq) as (He & Q1 & Q2 & HQ & Hps).
    assert (Hnq2 : ~ In n (m_keys Q2)).
    { rewrite HQ in Hwq. clear - Hwq. induction Q1 as [|[a q] Q1 IH]; [apply Hwq|].
      apply IH. apply Hwq. }
    destruct (eq_dec p s) as [->|E].
    - exists []. cbn [app rev chain]. repeat split; auto.
      + constructor; [intros []|constructor].
      + intros x [].
    - destruct Hps as [Hps|Hps]; [contradiction|].
      destruct (IH Q2) with (R := R ++ Q1 ++ [(n, p)]) (n := p) (acc := acc ++ [p]) (fuel := fuel)
        as (mid & E1 & H1 & H2 & H3 & H4).
      + rewrite HQ, app_length. cbn. lia.
      + rewrite HP, HQ, <- !app_assoc. reflexivity.
      + exact Hps.
      + rewrite HQ, app_length in Hf. cbn in Hf. lia.
      + exists (p :: mid). rewrite E1. split; [rewrite <- app_assoc; reflexivity|].
        cbn [rev]. split; [|split; [|split]].
        * change (s :: (rev mid ++ [p]) ++ [n]) with ((s :: rev mid ++ [p]) ++ [n]).
          change (s :: rev mid ++ [p]) with ((s :: rev mid) ++ [p]) in *.
          apply chain_snoc; assumption.
        * (* n is not among the older ones *)
          constructor; [|exact H2]. intros [<-|H5]; [contradiction|]. apply Hnq2, H4, H5.
        * intros [H5|H5]; [congruence|contradiction].
        * assert (Hi : incl (m_keys Q2) (m_keys Q)).
          { rewrite HQ. intros x Hx. unfold m_keys. rewrite map_app. apply in_or_app. right. right. exact Hx. }
          intros x [<-|Hx]; [apply Hi, Hps|apply Hi, H4, Hx].
  Qed.

  (** no edge leads from an element of the list to a later one but the next *)
  Definition direct (E : V -> V -> Prop) (c : list V) : Prop :=
    forall l1 a l2 b l3, c = l1 ++ a :: l2 ++ b :: l3 -> E a b -> l2 = [].
  (** a cycle through the start, without repetitions and shortcuts *)
  Definition simple_cycle (E : V -> V -> Prop) (x : V) (c : list V) : Prop :=
    exists mid, c = x :: mid ++ [x] /\ chain E c /\ NoDup (x :: mid) /\ direct E c.

  Lemma rt_parent visited stack P : search_inv visited stack P ->
    forall x, In x (m_keys P) -> clos_trans V (edge nodes) s x.
  Proof.
    intros Hi. pose proof (si_parent _ _ _ Hi) as Hw. clear Hi.
    induction P as [|[n p] P IH]; [intros x []|]. cbn [parent_wf] in Hw.
    destruct Hw as (He & Hp & _ & Hw). intros x [<-|Hx]; [|exact (IH Hw x Hx)]. cbn [fst].
    destruct Hp as [->|Hp]; [apply t_step, He|].
    apply t_trans with p; [exact (IH Hw p Hp)|apply t_step, He].
  Qed.

  Lemma chain_right (E : V -> V -> Prop) l1 l2 : chain E (l1 ++ l2) -> chain E l2.
  Proof.
    induction l1 as [|x l1 IH]; [auto|]. intros H. apply IH. cbn [app] in H. destruct (l1 ++ l2) as [|y l]; [exact I|apply H].
  Qed.
  Lemma chain_left (E : V -> V -> Prop) l1 l2 : chain E (l1 ++ l2) -> chain E l1.
  Proof.
    induction l1 as [|x l1 IH]; [constructor|]. intros H. cbn [app] in H. destruct l1 as [|y l1]; [exact I|]. destruct H as [H1 H2].
    split; [exact H1|apply IH, H2].
  Qed.
  Lemma parents_edges P l : parent_wf P -> chain (parent_of P) l -> chain (edge nodes) l.
  Proof.
    intros Hw. induction l as [|x l IH]; [auto|]. destruct l as [|y l]; [auto|]. intros [H1 H2]. split; [|apply IH, H2].
    exact (proj1 (get_parent P y x H1 Hw)).
  Qed.
  Lemma parents_before visited stack P : search_inv visited stack P -> forall l a p, chain (parent_of P) (a :: l ++ [p]) ->
    (forall y, In y (l ++ [p]) -> y <> s /\ In y visited) -> before visited a p.
  Proof.
    intros Hi. induction l as [|x l IH]; intros a p Hc Hy; cbn [app chain] in Hc; destruct Hc as [H1 H2]; apply m_get_in in H1.
    - destruct (Hy p (or_introl eq_refl)) as [Y1 Y2]. exact (si_order _ _ _ Hi p a H1 Y2 Y1).
    - apply before_trans with x; [apply (si_visited_nodup _ _ _ Hi)| |].
      + destruct (Hy x (or_introl eq_refl)) as [Y1 Y2]. exact (si_order _ _ _ Hi x a H1 Y2 Y1).
      + apply IH; [exact H2|]. intros y Y. apply Hy. right. exact Y.
  Qed.
  Lemma snoc_prefix {A} (u : list A) z X b l : u ++ [z] = X ++ b :: l -> exists Y, u = X ++ Y.
  Proof.
    intros E. destruct (exists_last (l := b :: l)) as (Y & z' & EY); [discriminate|]. exists Y. rewrite EY, app_assoc in E.
    apply app_inj_tail in E. apply E.
  Qed.
  (** no shortcuts: the parent of a node is the first node with an edge to it *)
  Lemma parents_direct visited stack P m : search_inv visited stack P -> chain (parent_of P) (s :: m ++ [s]) -> NoDup (s :: m) ->
    direct (edge nodes) (s :: m ++ [s]).
  Proof.
    intros Hi Hc Hd l1 a l2 b l3 E He. destruct l2 as [|x0 l0] using rev_ind; [reflexivity|]. exfalso. rename x0 into p. clear IHl0. rename l0 into l2.
    assert (E' : (s :: m) ++ [s] = (l1 ++ a :: l2 ++ [p]) ++ b :: l3).
    { cbn [app]. rewrite E. repeat (rewrite <- app_assoc; cbn [app]). reflexivity. }
    change (s :: m ++ [s]) with ((s :: m) ++ [s]) in Hc. rewrite E' in Hc.
    destruct (snoc_prefix _ _ _ _ _ E') as [Y EY].
    assert (Hv : forall x, In x (s :: m) -> In x visited).
    { intros x Hx. apply in_split in Hx. destruct Hx as (u1 & u2 & Eu). rewrite <- E' in Hc. rewrite Eu, <- app_assoc in Hc.
      apply chain_right in Hc. cbn [app] in Hc. destruct (u2 ++ [s]) as [|y u] eqn:Eu2; [destruct u2; discriminate|].
      destruct Hc as [Hc _]. apply m_get_in in Hc. exact (si_parents_visited _ _ _ Hi y x Hc). }
    assert (Hp : In (b, p) P).
    { rewrite <- !app_assoc in Hc. apply chain_right in Hc. change ((a :: l2 ++ [p]) ++ b :: l3) with (a :: (l2 ++ [p]) ++ b :: l3) in Hc.
      rewrite <- app_assoc in Hc. change (a :: l2 ++ [p] ++ b :: l3) with ((a :: l2) ++ p :: b :: l3) in Hc. apply chain_right in Hc.
      destruct Hc as [Hc _]. apply m_get_in in Hc. exact Hc. }
    assert (Hin : forall x, In x (l1 ++ a :: l2 ++ [p]) -> In x (s :: m)).
    { intros x Hx. rewrite EY. apply in_or_app. left. exact Hx. }
    assert (B : before visited a p).
    { apply (parents_before visited stack P Hi l2 a p).
      - apply chain_left in Hc. apply chain_right in Hc. exact Hc.
      - intros y Hy. split; [|apply Hv, Hin, in_or_app; right; right; exact Hy].
        intros ->. rewrite EY in Hd. destruct l1 as [|x l1].
        + cbn [app] in EY, Hd. injection EY as Es _. subst a. inversion Hd as [|? ? K _]; subst. apply K. apply in_or_app. left. exact Hy.
        + cbn [app] in EY, Hd. injection EY as Es _. subst x. inversion Hd as [|? ? K _]; subst. apply K. apply in_or_app. left.
          apply in_or_app. right. right. exact Hy. }
    assert (Va : In a visited) by (apply Hv, Hin, in_or_app; right; left; reflexivity).
    pose proof (si_visited_nodup _ _ _ Hi) as Nv.
    destruct (si_first _ _ _ Hi b p a Hp Va He) as [->|B2].
    - exact (before_irrefl _ _ Nv B).
    - exact (before_irrefl _ _ Nv (before_trans _ _ _ _ Nv B B2)).
  Qed.

  Lemma search_done visited P : search_inv visited [] P -> ~ on_cycle (edge nodes) s.
  Proof.
    intros Hi Hc.
    assert (Hclosed : forall a b, clos_trans V (edge nodes) a b -> In a visited -> In b (m_keys P)).
    { intros a b H. induction H as [a b H|a b c H1 IH1 H2 IH2]; intros Ha.
      - exact (si_edges _ _ _ Hi a b Ha H).
      - apply IH2. destruct (si_keys _ _ _ Hi b (IH1 Ha)) as [[]|[H _]]. exact H. }
    assert (Hs : In s visited).
    { destruct (si_start _ _ _ Hi) as [H|(_ & H & _)]; [exact H|discriminate]. }
    destruct (si_keys _ _ _ Hi s (Hclosed s s Hc Hs)) as [[]|[_ H]]. congruence.
  Qed.

  Lemma check_loop_spec : forall fuel visited stack P, search_inv visited stack P ->
    (length stack + (edge_count nodes - length P) <= fuel)%nat ->
    exists r, check_loop eq_dec fuel ord nodes visited stack P = Done r
    /\ match r with
       | None => ~ on_cycle (edge nodes) s
       | Some c => simple_cycle (edge nodes) s c
       end.
  Proof.
    induction fuel as [|fuel IH]; intros visited stack P Hi Hf; (destruct stack as [|node stack];
      [|try (cbn [length] in Hf; lia)]).
    - exists None. split; [reflexivity|]. exact (search_done _ _ Hi).
    - exists None. split; [reflexivity|]. exact (search_done _ _ Hi).
    - cbn [check_loop]. destruct (in_dec eq_dec node visited) as [Hv|Hv].
      + assert (node = s) as -> by (apply (si_disjoint _ _ _ Hi); [left; reflexivity|exact Hv]).
        destruct (si_stack _ _ _ Hi s (or_introl eq_refl)) as [Hk|[Hk _]];
          [|rewrite Hk in Hv; destruct Hv].
        destruct (cycle_loop_spec P (si_parent _ _ _ Hi) P [] eq_refl s [s] (S (length P)) Hk)
          as (mid & E & Hc & Hd & Hs & _); [lia|].
        rewrite E. cbn [obind]. eexists. split; [reflexivity|]. exists (rev mid).
        cbn [app rev]. rewrite rev_app_distr. cbn [rev app]. split; [reflexivity|]. split.
        * exact (parents_edges P _ (si_parent _ _ _ Hi) Hc).
        * assert (Hd' : NoDup (s :: rev mid)); [|split; [exact Hd'|exact (parents_direct _ _ P (rev mid) Hi Hc Hd')]].
          apply NoDup_cons_iff. rewrite <- in_rev. apply NoDup_cons_iff in Hd. destruct Hd as [H1 H2].
          split; [exact H1|]. apply NoDup_rev, H2.
      + destruct (match get node nodes with
             | Some ns => push_neighbors eq_dec node (ord node ns) stack P
             | None => (stack, P) end) as [stack2 P2] eqn:E.
        destruct (search_step visited node stack P Hi Hv stack2 P2 E) as [Hi2 Hl].
        destruct (IH (node :: visited) stack2 P2 Hi2) as (r & E2 & Hr); [|exists r; split; [|exact Hr]].
        * pose proof (parent_wf_length P (si_parent _ _ _ Hi)).
          pose proof (parent_wf_length P2 (si_parent _ _ _ Hi2)). cbn [length] in Hf. lia.
        * exact E2.
  Qed.

  Lemma search_inv_init : search_inv [] [s] [].
  Proof.
    constructor; cbn.
    - exact I.
    - intros n p [].
    - right. auto.
    - intros x [].
    - intros x [].
    - intros x [<-|[]]. auto.
    - constructor; [intros []|constructor].
    - intros x _ [].
    - intros a b [].
    - constructor.
    - intros n p a [].
    - intros n p [].
  Qed.
End Guard.

Section GuardTop.
  Context {V : Type} (eq_dec : forall a b : V, {a = b} + {a <> b}).
  Context (ord : V -> list V -> list V).
  Hypothesis ord_perm : forall n s, Permutation (ord n s) s.

  Lemma check_cyclic_spec (g : guard V) s :
    exists r, check_cyclic eq_dec ord g s = Done r
    /\ match r with
       | None => ~ on_cycle (edge eq_dec (ig_nodes g)) s
       | Some c => simple_cycle (edge eq_dec (ig_nodes g)) s c
       end.
  Proof.
    unfold check_cyclic. apply (check_loop_spec eq_dec ord ord_perm (ig_nodes g) s).
    - apply search_inv_init.
    - cbn [length]. lia.
  Qed.

  Lemma chain_trans (E : V -> V -> Prop) x mid y : chain E (x :: mid ++ [y]) -> clos_trans V E x y.
  Proof.
    revert x. induction mid as [|a mid IH]; intros x; cbn [app chain].
    - intros [H _]. apply t_step, H.
    - intros [H1 H2]. apply t_trans with a; [apply t_step, H1|apply IH, H2].
  Qed.
  Lemma chain_mono (E E' : V -> V -> Prop) l : (forall a b, E a b -> E' a b) -> chain E l -> chain E' l.
  Proof.
    intros H. induction l as [|a l IH]; [auto|]. destruct l as [|b l]; [auto|].
    intros [H1 H2]. split; [apply H, H1|apply IH, H2].
  Qed.
  Lemma trans_mono (E E' : V -> V -> Prop) a b : (forall a b, E a b -> E' a b) ->
    clos_trans V E a b -> clos_trans V E' a b.
  Proof.
    intros H H1. induction H1 as [a b H1|a b c H1 IH1 H2 IH2]; [apply t_step, H, H1|].
    apply t_trans with b; assumption.
  Qed.

  (** [add] after a history *)
  Lemma guard_add_spec h e deps :
    let h' := h ++ [(e, deps)] in
    exists r, guard_add eq_dec ord e deps (guard_after eq_dec h) = Done (r, guard_after eq_dec h')
    /\ match r with
       | None => ~ on_cycle (depends h') e
       | Some c => simple_cycle (depends h') e c
       end.
  Proof.
    cbn zeta. unfold guard_add.
    assert (Eg : guard_insert eq_dec e deps (guard_after eq_dec h) = guard_after eq_dec (h ++ [(e, deps)])).
    { unfold guard_after. rewrite fold_left_app. reflexivity. }
    rewrite Eg. destruct (check_cyclic_spec (guard_after eq_dec (h ++ [(e, deps)])) e) as (r & E & Hr).
    rewrite E. exists r. split; [reflexivity|]. destruct r as [c|].
    - destruct Hr as (mid & -> & Hc & Hd & Hs). exists mid. split; [reflexivity|]. split; [|split; [exact Hd|]].
      + revert Hc. apply chain_mono. intros a b. apply edge_after.
      + intros l1 a l2 b l3 El Hab. apply (Hs l1 a l2 b l3 El). apply edge_after, Hab.
    - intros Hc. apply Hr. revert Hc. apply trans_mono. intros a b. apply edge_after.
  Qed.

  Lemma guard_add_real h e deps c g :
    guard_add eq_dec ord e deps (guard_after eq_dec h) = Done (Some c, g) ->
    exists mid, c = e :: mid ++ [e] /\ chain (depends (h ++ [(e, deps)])) c /\ NoDup (e :: mid) /\ direct (depends (h ++ [(e, deps)])) c.
  Proof.
    intros E. destruct (guard_add_spec h e deps) as (r & E2 & Hr). rewrite E in E2.
    injection E2 as <- _. exact Hr.
  Qed.

  Lemma guard_add_iff h e deps :
    let h' := h ++ [(e, deps)] in
    exists r, guard_add eq_dec ord e deps (guard_after eq_dec h) = Done (r, guard_after eq_dec h')
    /\ ((exists c, r = Some c) <-> on_cycle (depends h') e).
  Proof.
    cbn zeta. destruct (guard_add_spec h e deps) as (r & E & Hr). exists r. split; [exact E|].
    destruct r as [c|].
    - destruct Hr as (mid & -> & Hc & _). split; [|eauto]. intros _. exact (chain_trans _ _ _ _ Hc).
    - split; [intros [c Hc]; discriminate|contradiction].
  Qed.

  (** run a sequence of additions; the results of the calls *)
  Fixpoint guard_run (h : history (V := V)) (g : guard V) : outcome (list (option (list V)) * guard V) :=
    match h with
    | [] => Done ([], g)
    | (e, deps) :: r =>
      obind (guard_add eq_dec ord e deps g) (fun '(x, g') =>
        obind (guard_run r g') (fun '(xs, g2) => Done (x :: xs, g2)))
    end.

  Lemma trans_new_edge (E : V -> V -> Prop) (e : V) (E' : V -> V -> Prop) :
    (forall a b, E' a b -> E a b \/ a = e) ->
    forall a b, clos_trans V E' a b ->
      clos_trans V E a b
      \/ ((a = e \/ clos_trans V E a e) /\ clos_trans V E' e b).
  Proof.
    intros H a b Ht. apply Operators_Properties.clos_trans_t1n in Ht.
    induction Ht as [a b Hab|a c b Hac Hcb IH].
    - destruct (H a b Hab) as [H1| ->].
      + left. apply t_step, H1.
      + right. split; [auto|]. apply t_step, Hab.
    - apply Operators_Properties.clos_t1n_trans in Hcb.
      destruct (H a c Hac) as [H1| ->].
      + destruct IH as [IH|[IH1 IH2]].
        * left. apply t_trans with c; [apply t_step, H1|exact IH].
        * right. split; [|exact IH2]. right. destruct IH1 as [->|IH1]; [apply t_step, H1|].
          apply t_trans with c; [apply t_step, H1|exact IH1].
      + right. split; [auto|]. apply t_trans with c; [apply t_step, Hac|exact Hcb].
  Qed.

  Lemma acyclic_add (h : history (V := V)) e deps : acyclic (depends h) ->
    ~ on_cycle (depends (h ++ [(e, deps)])) e -> acyclic (depends (h ++ [(e, deps)])).
  Proof.
    intros Ha Hn x Hx. pose proof Hx as Hx2.
    apply (trans_new_edge (depends h) e) in Hx2.
    - destruct Hx2 as [Hx2|[H1 H2]]; [exact (Ha x Hx2)|].
      apply Hn. destruct H1 as [->|H1]; [exact H2|].
      apply t_trans with x; [exact H2|]. revert H1. apply trans_mono.
      intros a b (ds & H3 & H4). exists ds. split; [apply in_or_app; left; exact H3|exact H4].
    - intros a b (ds & H3 & H4). apply in_app_or in H3. destruct H3 as [H3|[H3|[]]].
      + left. exists ds. auto.
      + right. injection H3 as -> _. reflexivity.
  Qed.

  Lemma guard_run_spec (h2 : history (V := V)) : forall h1,
    exists rs, guard_run h2 (guard_after eq_dec h1) = Done (rs, guard_after eq_dec (h1 ++ h2))
    /\ (acyclic (depends h1) ->
        ((forall r, In r rs -> r = None) <-> acyclic (depends (h1 ++ h2)))).
  Proof.
    induction h2 as [|[e deps] h2 IH]; intros h1.
    - exists []. rewrite app_nil_r. split; [reflexivity|]. intros Ha. split; [auto|]. intros _ r [].
    - cbn [guard_run]. destruct (guard_add_iff h1 e deps) as (r & E & Hr). rewrite E. cbn [obind].
      destruct (IH (h1 ++ [(e, deps)])) as (rs & E2 & Hrs). rewrite E2. cbn [obind].
      rewrite <- app_assoc in *. cbn [app] in *. exists (r :: rs). split; [reflexivity|].
      intros Ha. destruct r as [c|].
      + split.
        * intros H. specialize (H (Some c) (or_introl eq_refl)). discriminate.
        * intros H. exfalso. assert (on_cycle (depends (h1 ++ [(e, deps)])) e) as Hc by (apply Hr; eauto).
          apply (H e). revert Hc. apply trans_mono. intros a b (ds & H3 & H4). exists ds.
          split; [|exact H4]. apply in_app_or in H3. apply in_or_app.
          destruct H3 as [H3|[H3|[]]]; [left; exact H3|right; left; exact H3].
      + assert (Ha2 : acyclic (depends (h1 ++ [(e, deps)]))).
        { apply acyclic_add; [exact Ha|]. intros Hc. apply Hr in Hc. destruct Hc as [c Hc]. discriminate. }
        rewrite <- (Hrs Ha2). split.
        * intros H x Hx. apply H. right. exact Hx.
        * intros H x [<-|Hx]; [reflexivity|apply H, Hx].
  Qed.

  Lemma guard_silent_iff (h : history (V := V)) : exists rs,
    guard_run h guard_empty = Done (rs, guard_after eq_dec h)
    /\ ((forall r, In r rs -> r = None) <-> acyclic (depends h)).
  Proof.
    destruct (guard_run_spec h []) as (rs & E & H). exists rs. split; [exact E|]. apply H.
    intros x Hx. apply Operators_Properties.clos_trans_t1n in Hx.
    destruct Hx as [y (ds & [] & _)|y z (ds & [] & _) _].
  Qed.
End GuardTop.
