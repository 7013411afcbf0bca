(** The order of the analysis and its results *)
From Verif Require Export ProjectProofs.

(** ** Loading from the root *)
Lemma parse_nodup fl fs incl : forall p t ft cur cur', NoDup (keys cur) ->
  parse_file fl fs incl p t ft cur = Done cur' -> NoDup (keys cur').
Proof.
  induction fl as [|fl IH]; intros p t ft cur cur' Hn E; [discriminate|]. rewrite parse_file_unfold in E.
  destruct (parse_text (include_dirs incl p) t p) as [f s|d s| |]; try discriminate.
  - assert (L : forall is ds c r, NoDup (keys c) -> inc_loop fs (parse_file fl fs incl) is ds c = Done r -> NoDup (keys (snd r))).
    { induction is as [|i is IHl]; intros ds c r Hc F; cbn [inc_loop] in F; [injection F as <-; exact Hc|].
      destruct (include_path fs i) as [q|e]; [|eapply IHl; eassumption]. destruct (m_mem str_eq_dec q c); [eapply IHl; eassumption|].
      destruct (read_to_string fs q) as [t'|e]; [|eapply IHl; eassumption].
      destruct (parse_file fl fs incl q t' (file_type_of_path q) c) as [c1| |] eqn:E1; try discriminate. cbn [obind] in F.
      eapply IHl; [|exact F]. eapply IH; eassumption. }
    destruct (inc_loop _ _ _ _ _) as [[ds c1]| |] eqn:E1; try discriminate. cbn [obind] in E. injection E as <-.
    apply (m_nodup_insert str_eq_dec). apply (L _ _ _ _) in E1; [exact E1|]. apply (m_nodup_insert str_eq_dec), Hn.
  - injection E as <-. apply (m_nodup_insert str_eq_dec), Hn.
Qed.

Lemma load_spec fs incl u root text ft files fuel : finite_fs fs u -> valid_utf8 text = true -> (length u < fuel)%nat ->
  exists files', parse_file fuel fs incl root text ft files = Done files'
    /\ (forall k, In k (keys files) -> k <> root -> fget k files' = fget k files)
    /\ (exists v, fget root files' = Some v /\ stored fs incl root (keys files) root text ft v)
    /\ (forall k, In k (keys files') <-> In k (keys files) \/ loaded fs incl root text (keys files) k)
    /\ (forall k, loaded fs incl root text (keys files) k -> k <> root ->
          ~ In k (keys files)
          /\ exists t v, read_to_string fs k = inl t /\ fget k files' = Some v
             /\ stored fs incl root (keys files) k t (file_type_of_path k) v).
Proof.
  intros Hfin Hv Hl. destruct fuel as [|fl]; [lia|].
  destruct (parse_body fs incl u Hfin root text (keys files) fl root text ft files (all_parse fs incl u Hfin root text (keys files) fl))
    as (files' & E & A & B & C & D).
  - split; [apply m_keys_insert; auto|]. split; [intros k Hk; apply m_keys_insert; auto|].
    intros k Hk. apply m_keys_insert in Hk. tauto.
  - constructor.
  - apply text_of_root.
  - exact Hv.
  - unfold missing. eapply Nat.le_lt_trans with (length u); [|lia].
    assert (F : forall f : fpath -> bool, (length (filter f (nodup str_eq_dec u)) <= length (nodup str_eq_dec u))%nat).
    { intros f. induction (nodup str_eq_dec u) as [|x l IH]; [auto|]. cbn [filter length]. destruct (f x); cbn [length]; lia. }
    etransitivity; [apply F|]. clear. induction u as [|x l IH]; [auto|]. cbn [nodup]. destruct (in_dec str_eq_dec x l); cbn [length]; lia.
  - assert (LN : forall k, loaded fs incl root text (keys files) k -> k <> root -> ~ In k (keys files)).
    { intros k Hk Hn. inversion Hk; subst; [congruence|assumption]. }
    assert (K1 : In root (keys files')) by (destruct B as (v & B & _); eapply m_get_key, B).
    assert (KL : forall k, loaded fs incl root text (keys files) k -> In k (keys files')).
    { intros k Hk. induction Hk as [|p q Hp IH Hi Hq Hr]; [exact K1|].
      destruct (str_eq_dec p root) as [->|Hn]; [exact (C q Hi Hr)|].
      destruct (m_get_some_key str_eq_dec p files' IH) as [w Hw].
      destruct (D p w Hw (LN p Hp Hn) Hn) as (_ & F & _). exact (F q Hi Hr). }
    exists files'. split; [exact E|]. split; [exact A|]. split; [exact B|]. split.
    + intros k. split.
      * intros Hk. destruct (in_dec str_eq_dec k (keys files)) as [H|H]; [auto|]. right.
        destruct (str_eq_dec k root) as [->|Hn]; [constructor|].
        destruct (m_get_some_key str_eq_dec k files' Hk) as [w Hw]. apply (D k w Hw H Hn).
      * intros [Hk|Hk]; [|apply KL, Hk]. destruct (str_eq_dec k root) as [->|Hn]; [exact K1|].
        destruct (m_get_some_key str_eq_dec k files Hk) as [w Hw]. rewrite <- (A k Hk Hn) in Hw. eapply m_get_key, Hw.
    + intros k Hk Hn. split; [apply LN; assumption|].
      destruct (m_get_some_key str_eq_dec k files' (KL k Hk)) as [w Hw].
      destruct (D k w Hw (LN k Hk Hn) Hn) as (_ & _ & t & H1 & H2). exists t, w. auto.
Qed.

(** ** The order *)
Lemma position_nth x l i : position_of x l = Some i -> nth_error l i = Some x.
Proof.
  revert i. induction l as [|y l IH]; intros i; [discriminate|]. cbn [position_of].
  destruct (str_eq_dec y x) as [->|E]; [intros H; injection H as <-; reflexivity|].
  destruct (position_of x l) as [j|]; [|discriminate]. intros H. injection H as <-. apply IH. reflexivity.
Qed.
Lemma position_in x l : In x l -> exists i, position_of x l = Some i.
Proof.
  induction l as [|y l IH]; [intros []|]. cbn [position_of]. destruct (str_eq_dec y x) as [->|E]; [eexists; reflexivity|].
  intros [H|H]; [congruence|]. destruct (IH H) as [i ->]. eexists; reflexivity.
Qed.
Lemma set_nth_length {A} i (x : A) l : length (set_nth i x l) = length l.
Proof. revert i. induction l as [|y l IH]; intros [|i]; cbn; auto. Qed.
Lemma set_nth_get {A} i (x : A) l j : nth_error (set_nth i x l) j
  = if Nat.eqb i j then match nth_error l j with Some _ => Some x | None => None end else nth_error l j.
Proof.
  revert i j. induction l as [|y l IH]; intros [|i] [|j]; cbn [set_nth nth_error Nat.eqb]; auto.
  - destruct (Nat.eqb i j); reflexivity.
Qed.
Lemma swap_get i j l a b k : nth_error l i = Some a -> nth_error l j = Some b -> 
  nth_error (swap_nth i j l) k = if Nat.eqb i k then Some b else if Nat.eqb j k then Some a else nth_error l k.
Proof.
  intros Hi Hj. unfold swap_nth. rewrite Hi, Hj, !set_nth_get.
  destruct (Nat.eqb i k) eqn:E1.
  - apply Nat.eqb_eq in E1. subst k. destruct (Nat.eqb j i); rewrite Hi; reflexivity.
  - destruct (Nat.eqb j k) eqn:E2; [|reflexivity]. apply Nat.eqb_eq in E2. subst k. rewrite Hj. reflexivity.
Qed.
Lemma set_nth_split {A} (l1 : list A) x y l2 : set_nth (length l1) y (l1 ++ x :: l2) = l1 ++ y :: l2.
Proof. induction l1; cbn; congruence. Qed.
Lemma swap_perm i j l : Permutation (swap_nth i j l) l.
Proof.
  unfold swap_nth. destruct (nth_error l i) as [a|] eqn:Ei; [|reflexivity].
  destruct (nth_error l j) as [b|] eqn:Ej; [|reflexivity].
  assert (G : forall i j (l : list fpath) a b, (i < j)%nat -> nth_error l i = Some a -> nth_error l j = Some b ->
    Permutation (set_nth i b (set_nth j a l)) l /\ set_nth i b (set_nth j a l) = set_nth j a (set_nth i b l)).
  { clear. intros i j l a b Hij Hi Hj. apply nth_error_split in Hi. destruct Hi as (l1 & l2 & -> & <-).
    rewrite nth_error_app2 in Hj by lia. destruct (j - length l1)%nat as [|k] eqn:Ek; [lia|]. cbn [nth_error] in Hj.
    apply nth_error_split in Hj. destruct Hj as (l3 & l4 & -> & Hk).
    assert (j = length (l1 ++ a :: l3)) as -> by (rewrite app_length; cbn; lia).
    assert (S1 : set_nth (length (l1 ++ a :: l3)) a (l1 ++ a :: l3 ++ b :: l4) = l1 ++ a :: l3 ++ a :: l4).
    { replace (l1 ++ a :: l3 ++ b :: l4) with ((l1 ++ a :: l3) ++ b :: l4) by (rewrite <- app_assoc; reflexivity).
      rewrite set_nth_split, <- app_assoc. reflexivity. }
    rewrite S1, !set_nth_split. split.
    - apply Permutation_app_head. rewrite (app_comm_cons l3 _ b), (app_comm_cons l3 _ a).
      eapply perm_trans; [apply Permutation_sym, Permutation_middle|]. rewrite app_comm_cons.
      eapply perm_trans; [|apply Permutation_middle]. cbn [app]. apply perm_swap.
    - replace (length (l1 ++ a :: l3)) with (length (l1 ++ b :: l3)) by (rewrite !app_length; reflexivity).
      replace (l1 ++ b :: l3 ++ b :: l4) with ((l1 ++ b :: l3) ++ b :: l4) by (rewrite <- app_assoc; reflexivity).
      rewrite set_nth_split, <- app_assoc. reflexivity. }
  destruct (Nat.lt_trichotomy i j) as [H|[H|H]].
  - apply (G i j l a b H Ei Ej).
  - subst j. assert (b = a) as -> by congruence. apply nth_error_split in Ei. destruct Ei as (l1 & l2 & -> & <-).
    rewrite !set_nth_split. reflexivity.
  - destruct (G j i l b a H Ej Ei) as [G1 G2]. rewrite <- G2. exact G1.
Qed.

Lemma swap_values_perm ki vs : forall order order', swap_values ki vs order = Done order' -> Permutation order' order.
Proof.
  induction vs as [|v vs IH]; intros order order' H; cbn [swap_values] in H; [injection H as <-; reflexivity|].
  destruct (position_of v order) as [vi|]; [|discriminate]. apply IH in H. rewrite H.
  destruct (Nat.ltb vi ki); [apply swap_perm|reflexivity].
Qed.
Lemma order_loop_perm m : forall order order', order_loop m order = Done order' -> Permutation order' order.
Proof.
  induction m as [|[k vs] m IH]; intros order order' H; cbn [order_loop] in H; [injection H as <-; reflexivity|].
  destruct (position_of k order) as [ki|]; [|discriminate].
  destruct (swap_values ki vs order) as [o1| |] eqn:E; try discriminate. cbn [obind] in H. apply IH in H. rewrite H.
  eapply swap_values_perm, E.
Qed.
Lemma swap_values_done ki vs : forall order, incl vs order -> exists order', swap_values ki vs order = Done order'.
Proof.
  induction vs as [|v vs IH]; intros order Hi; cbn [swap_values]; [eauto|].
  destruct (position_in v order (Hi v (or_introl eq_refl))) as [vi ->]. apply IH.
  intros x Hx. assert (In x order) by (apply Hi; right; exact Hx).
  destruct (Nat.ltb vi ki); [|assumption]. eapply Permutation_in; [apply Permutation_sym, swap_perm|assumption].
Qed.
Lemma order_loop_done m : forall order, (forall k vs, In (k, vs) m -> In k order /\ incl vs order) ->
  exists order', order_loop m order = Done order'.
Proof.
  induction m as [|[k vs] m IH]; intros order H; cbn [order_loop]; [eauto|].
  destruct (H k vs (or_introl eq_refl)) as [H1 H2]. destruct (position_in k order H1) as [ki ->].
  destruct (swap_values_done ki vs order H2) as [o1 E]. rewrite E. cbn [obind]. apply IH.
  intros k' vs' H'. destruct (H k' vs' (or_intror H')) as [A B]. apply swap_values_perm, Permutation_sym in E.
  split; [eapply Permutation_in; eassumption|]. intros x Hx. eapply Permutation_in; [exact E|apply B, Hx].
Qed.

(** ** The map from files to their includers *)
Section IncMap.
  Context (fs : fsys).
  Definition targets_of (v : pfile) : list fpath :=
    match pf_file v with None => [] | Some f => resolved_includes fs f end.
  Definition entry (k : fpath) (m : list (fpath * list fpath)) : list fpath :=
    match fget k m with Some l => l | None => [] end.

  Lemma resolved_in f q : In q (resolved_includes fs f) <->
    exists i, In (PDirective (AInclude i)) (fl_elements f) /\ include_path fs i = inl q.
  Proof.
    unfold resolved_includes. split.
    - intros H. assert (exists i, In i (includes_of f) /\ include_path fs i = inl q) as (i & A & B).
      { induction (includes_of f) as [|i l IH]; [contradiction|]. cbn [fold_right] in H.
        destruct (include_path fs i) as [p|e] eqn:E.
        - destruct H as [<-|H]; [exists i; split; [left; reflexivity|exact E]|].
          destruct (IH H) as (j & A & B). exists j. split; [right; exact A|exact B].
        - destruct (IH H) as (j & A & B). exists j. split; [right; exact A|exact B]. }
      exists i. split; [apply includes_of_in, A|exact B].
    - intros (i & A & B). apply includes_of_in in A. induction (includes_of f) as [|j l IH]; [contradiction|].
      cbn [fold_right]. destruct A as [->|A].
      + rewrite B. left. reflexivity.
      + destruct (include_path fs j); [right|]; apply IH, A.
  Qed.

  Lemma push_entry k v m j x : In x (entry j (map_push k v m)) <-> In x (entry j m) \/ (j = k /\ x = v).
  Proof.
    unfold map_push, entry. destruct (str_eq_dec j k) as [->|E].
    - rewrite m_get_insert_eq, in_app_iff. cbn [In]. intuition congruence.
    - rewrite m_get_insert_neq by exact E. intuition congruence.
  Qed.
  Lemma push_keys k v m j : In j (m_keys (map_push k v m)) <-> j = k \/ In j (m_keys m).
  Proof. unfold map_push. apply m_keys_insert. Qed.
  Lemma touch_entry k m j x : In x (entry j (map_touch k m)) <-> In x (entry j m).
  Proof.
    unfold map_touch, entry. destruct (fget k m) eqn:F; [reflexivity|]. destruct (str_eq_dec j k) as [->|E].
    - rewrite m_get_insert_eq, F. reflexivity.
    - rewrite m_get_insert_neq by exact E. reflexivity.
  Qed.
  Lemma touch_keys k m j : In j (m_keys (map_touch k m)) <-> j = k \/ In j (m_keys m).
  Proof.
    unfold map_touch. destruct (fget k m) eqn:F; [|apply m_keys_insert].
    split; [auto|]. intros [->|H]; [eapply m_get_key, F|exact H].
  Qed.
  Lemma push_nodup k v m : NoDup (m_keys m) -> NoDup (m_keys (map_push k v m)).
  Proof. apply m_nodup_insert. Qed.
  Lemma touch_nodup k m : NoDup (m_keys m) -> NoDup (m_keys (map_touch k m)).
  Proof. unfold map_touch. destruct (fget k m); [auto|apply m_nodup_insert]. Qed.

  Lemma pushes_spec p l : forall m,
    (forall j x, In x (entry j (fold_left (fun m i => map_push i p m) l m)) <-> In x (entry j m) \/ (In j l /\ x = p))
    /\ (forall j, In j (m_keys (fold_left (fun m i => map_push i p m) l m)) <-> In j l \/ In j (m_keys m))
    /\ (NoDup (m_keys m) -> NoDup (m_keys (fold_left (fun m i => map_push i p m) l m))).
  Proof.
    induction l as [|i l IH]; intros m; cbn [fold_left In].
    - repeat split; auto; tauto.
    - destruct (IH (map_push i p m)) as (A & B & C). split; [|split].
      + intros j x. rewrite A, push_entry. intuition congruence.
      + intros j. rewrite B, push_keys. intuition congruence.
      + intros H. apply C, push_nodup, H.
  Qed.

  Definition has_tree (v : pfile) : Prop := exists f, pf_file v = Some f.
  Lemma includer_spec files : forall m,
    let r := fold_left (fun m kv =>
      match pf_file (snd kv) with
      | None => m
      | Some f => fold_left (fun m i => map_push i (fst kv) m) (resolved_includes fs f) (map_touch (fst kv) m)
      end) files m in
    (forall j x, In x (entry j r) <-> In x (entry j m) \/ exists v, In (x, v) files /\ In j (targets_of v))
    /\ (forall j, In j (m_keys r) <-> In j (m_keys m) \/ (exists v, In (j, v) files /\ has_tree v)
          \/ exists x v, In (x, v) files /\ In j (targets_of v))
    /\ (NoDup (m_keys m) -> NoDup (m_keys r)).
  Proof.
    induction files as [|[p v] files IH]; intros m; cbn [fold_left In fst snd].
    - split; [|split; [|auto]].
      + intros j x. split; [auto|]. intros [H|(v & [] & _)]. exact H.
      + intros j. split; [auto|]. intros [H|[(v & [] & _)|(x & v & [] & _)]]. exact H.
    - destruct (pf_file v) as [f|] eqn:Ev.
      + destruct (IH (fold_left (fun m i => map_push i p m) (resolved_includes fs f) (map_touch p m))) as (A & B & C).
        destruct (pushes_spec p (resolved_includes fs f) (map_touch p m)) as (A1 & B1 & C1).
        assert (T : targets_of v = resolved_includes fs f) by (unfold targets_of; rewrite Ev; reflexivity).
        split; [|split].
        * intros j x. rewrite A, A1, touch_entry. split.
          -- intros [[H|[H ->]]|(w & H1 & H2)]; [auto| |right; exists w; auto]. right. exists v. rewrite T. auto.
          -- intros [H|(w & [H1|H1] & H2)]; [auto| |right; exists w; auto]. injection H1 as -> ->. rewrite T in H2. auto.
        * intros j. rewrite B, B1, touch_keys. split.
          -- intros [[H|[H|H]]|[(w & H1 & H2)|(x & w & H1 & H2)]]; [| |auto| |].
             ++ right. right. exists p, v. rewrite T. auto.
             ++ subst j. right. left. exists v. split; [auto|exists f; exact Ev].
             ++ right. left. exists w. auto.
             ++ right. right. exists x, w. auto.
          -- intros [H|[(w & [H1|H1] & H2)|(x & w & [H1|H1] & H2)]]; [auto| | | |].
             ++ injection H1 as -> ->. auto.
             ++ right. left. exists w. auto.
             ++ injection H1 as -> ->. rewrite T in H2. auto.
             ++ right. right. exists x, w. auto.
        * intros H. apply C, C1, touch_nodup, H.
      + destruct (IH m) as (A & B & C).
        assert (T : targets_of v = []) by (unfold targets_of; rewrite Ev; reflexivity).
        split; [|split; [|exact C]].
        * intros j x. rewrite A. split; (intros [H|(w & H1 & H2)]; [auto|right]).
          -- exists w. auto.
          -- destruct H1 as [H1|H1]; [injection H1 as -> ->; rewrite T in H2; contradiction|exists w; auto].
        * intros j. rewrite B. split; (intros [H|[(w & H1 & H2)|(x & w & H1 & H2)]]; [auto|right; left|right; right]).
          -- exists w. auto.
          -- exists x, w. auto.
          -- destruct H1 as [H1|H1]; [injection H1 as -> ->; destruct H2; congruence|exists w; auto].
          -- destruct H1 as [H1|H1]; [injection H1 as -> ->; rewrite T in H2; contradiction|exists x, w; auto].
  Qed.
  Lemma includer_map_spec files :
    (forall j x, In x (entry j (includer_map fs files)) <-> exists v, In (x, v) files /\ In j (targets_of v))
    /\ (forall j, In j (m_keys (includer_map fs files)) <-> (exists v, In (j, v) files /\ has_tree v)
          \/ exists x v, In (x, v) files /\ In j (targets_of v))
    /\ NoDup (m_keys (includer_map fs files)).
  Proof.
    destruct (includer_spec files []) as (A & B & C). split; [|split].
    - intros j x. unfold includer_map. rewrite A. cbn. tauto.
    - intros j. unfold includer_map. rewrite B. cbn. tauto.
    - apply C. constructor.
  Qed.
End IncMap.

Lemma stored_includes_in fs files p q : NoDup (keys files) ->
  (stored_includes fs files p q <-> exists v, In (p, v) files /\ In q (targets_of fs v)).
Proof.
  intros Hn. unfold stored_includes, targets_of. split.
  - intros (v & f & i & A & B & C & D). exists v. split; [apply m_get_in in A; exact A|]. rewrite B. apply resolved_in. eauto.
  - intros (v & A & B). destruct (pf_file v) as [f|] eqn:E; [|contradiction]. apply resolved_in in B. destruct B as (i & B & C).
    exists v, f, i. split; [apply m_in_get; assumption|]. auto.
Qed.

Definition order_ok (o : oracle) : Prop :=
  (forall l, Permutation (o_files o l) l) /\ (forall l, Permutation (o_map o l) l) /\ oracle_ok (o_an o).
Definition closed_files (fs : fsys) (files : list (fpath * pfile)) : Prop :=
  forall p q, stored_includes fs files p q -> In q (keys files).

Lemma key_order_perm o fs files order : order_ok o -> compute_key_order o fs files = Done order ->
  Permutation order (keys files).
Proof.
  intros (H1 & _ & _) E. unfold compute_key_order in E. apply order_loop_perm in E. rewrite E.
  unfold m_keys. apply Permutation_map, H1.
Qed.
Lemma key_order_done o fs files : order_ok o -> NoDup (keys files) -> closed_files fs files ->
  exists order, compute_key_order o fs files = Done order.
Proof.
  intros (H1 & H2 & _) Hn Hc. unfold compute_key_order. apply order_loop_done. intros k vs H.
  apply (Permutation_in _ (H2 _)) in H.
  assert (P : forall x, In x (m_keys (o_files o files)) <-> In x (keys files)).
  { intros x. unfold m_keys. split; apply Permutation_in; [|apply Permutation_sym]; apply Permutation_map, H1. }
  assert (Hn' : NoDup (keys (o_files o files))).
  { eapply Permutation_NoDup; [|exact Hn]. apply Permutation_sym, Permutation_map, H1. }
  destruct (includer_map_spec fs (o_files o files)) as (A & B & C).
  assert (I : forall x v, In (x, v) (o_files o files) -> In (x, v) files) by (intros x v; apply Permutation_in, H1).
  split.
  - apply P. assert (K : In k (m_keys (includer_map fs (o_files o files)))) by (apply (in_map fst) in H; exact H).
    apply B in K. destruct K as [(v & K & _)|(x & v & K1 & K2)].
    + apply I, (in_map fst) in K. exact K.
    + apply (Hc x k), stored_includes_in; [exact Hn|]. exists v. split; [apply I, K1|exact K2].
  - intros x Hx. apply P. assert (E : In x (entry k (includer_map fs (o_files o files)))).
    { unfold entry. rewrite (m_in_get str_eq_dec k vs _ C H). exact Hx. }
    apply A in E. destruct E as (v & E & _). apply I, (in_map fst) in E. exact E.
Qed.

(** ** The analysis of all the files *)
Lemma update_get k v m q : fget q (m_update k v m)
  = if str_eq_dec k q then match fget q m with Some _ => Some v | None => None end else fget q m.
Proof.
  unfold m_update. induction m as [|[a w] m IH]; cbn [map m_get fst]; [destruct (str_eq_dec k q); reflexivity|].
  destruct (str_eq_dec k a) as [->|E]; cbn [m_get].
  - destruct (str_eq_dec q a) as [->|E2]; [destruct (str_eq_dec a a); congruence|]. exact IH.
  - destruct (str_eq_dec q a) as [->|E2]; [destruct (str_eq_dec k a); congruence|]. exact IH.
Qed.
Lemma update_keys k v m : m_keys (m_update k v m) = m_keys m.
Proof.
  unfold m_update, m_keys. rewrite map_map. apply map_ext. intros [a w]. destruct (str_eq_dec k _); reflexivity.
Qed.

(** the dependencies a file records *)
Definition file_deps (fs : fsys) (f : dts_file) : list (fpath * list fpath) :=
  flat_map (fun p => match p with
    | PDirective (AInclude i) => match include_path fs i with inl q => [(q, [fl_source f])] | inr _ => [] end
    | _ => []
    end) (fl_elements f).
Lemma elements_deps fs pj src ft l : forall ps ds h ds' h' es, elements fs pj src ft ps ds h l ds' h' es ->
  h' = h ++ file_deps fs (mkFile l src).
Proof.
  induction l as [|p l IH]; intros ps ds h ds' h' es H; inversion H; subst.
  - unfold file_deps. cbn. rewrite app_nil_r. reflexivity.
  - match goal with K : elements _ _ _ _ _ _ _ l _ _ _ |- _ => apply IH in K; subst h' end.
    unfold file_deps. cbn [fl_elements flat_map fl_source]. rewrite app_assoc. f_equal.
    match goal with K : element _ _ _ _ _ _ _ p _ _ _ |- _ => inversion K; subst end; rewrite ?app_nil_r; try reflexivity.
    match goal with K : included _ _ _ _ _ _ _ _ |- _ => inversion K; subst end;
      match goal with K : include_path _ _ = _ |- _ => rewrite K end; rewrite ?app_nil_r; reflexivity.
Qed.
Lemma file_spec_deps o fs pj file ft h a : oracle_ok o -> project_ok pj -> an_guard a = guard_after str_eq_dec h ->
  exists ac es a', analyze_file o fs pj file ft a = Done ((ac, es), a') /\ ctx_ok ac
    /\ an_guard a' = guard_after str_eq_dec (h ++ file_deps fs file).
Proof.
  intros Ho Hp G. destruct (file_spec o fs pj file ft Ho Hp h a G) as (ac & es & a' & ds & h' & E & A & B & _ & _ & G').
  exists ac, es, a'. split; [exact E|]. split; [exact B|]. inversion A; subst.
  match goal with K : elements _ _ _ _ _ _ _ _ _ _ _ |- _ => apply elements_deps in K; subst h' end.
  rewrite G'. destruct file; reflexivity.
Qed.

(** what the analysis of the files in [order] does: the file [k] is analysed with the results of those before *)
Definition deps_of (fs : fsys) (files : list (fpath * pfile)) (order : list fpath) : list (fpath * list fpath) :=
  flat_map (fun k => match fget k files with
    | Some v => match pf_file v with Some f => file_deps fs f | None => [] end
    | None => []
    end) order.
Definition analysed_in (o : an_oracle) (fs : fsys) (files : list (fpath * pfile)) (h0 : list (fpath * list fpath))
  (order : list fpath) (pj' : project) : Prop :=
  m_keys (pj_files pj') = m_keys files
  /\ (forall k, ~ In k order -> fget k (pj_files pj') = fget k files)
  /\ (forall k v, fget k files = Some v -> pf_file v = None -> fget k (pj_files pj') = Some v)
  /\ (forall k1 k k2 v f, order = k1 ++ k :: k2 -> fget k files = Some v -> pf_file v = Some f ->
        exists pjk a a' ac es, fget k (pj_files pj') = Some (store_result (ac, es) v)
          /\ an_guard a = guard_after str_eq_dec (h0 ++ deps_of fs files k1)
          /\ analyze_file o fs pjk f (pf_type v) a = Done ((ac, es), a') /\ ctx_ok ac
          /\ project_ok pjk /\ pj_sev pjk = pj_sev pj'
          /\ (forall q, In q k1 -> fget q (pj_files pjk) = fget q (pj_files pj'))
          /\ (forall q, ~ In q k1 -> fget q (pj_files pjk) = fget q files)).

Lemma project_ok_update pj k v r : project_ok pj -> ctx_ok (fst r) ->
  project_ok (set_files (m_update k (store_result r v) (pj_files pj)) pj).
Proof.
  intros H Hr p f c Hin Hc. cbn [pj_files set_files] in Hin. unfold m_update in Hin. apply in_map_iff in Hin.
  destruct Hin as ([a w] & E & Hin). cbn [fst] in E. destruct (str_eq_dec k a); injection E as <- <-.
  - cbn in Hc. injection Hc as <-. exact Hr.
  - eapply H; eassumption.
Qed.

Lemma analyze_keys_spec o fs : oracle_ok o -> forall order a pj h, project_ok pj -> NoDup order ->
  (forall k, In k order -> In k (keys (pj_files pj))) -> an_guard a = guard_after str_eq_dec h ->
  exists pj', analyze_keys o fs order a pj = Done pj' /\ project_ok pj' /\ pj_incl pj' = pj_incl pj /\ pj_sev pj' = pj_sev pj
    /\ analysed_in o fs (pj_files pj) h order pj'.
Proof.
  intros Ho. induction order as [|k order IH]; intros a pj h Hp Hn Hin G.
  - exists pj. split; [reflexivity|]. split; [exact Hp|]. split; [reflexivity|]. split; [reflexivity|].
    split; [reflexivity|]. split; [auto|]. split; [auto|]. intros [|x0 k1] k k2 v f E; discriminate.
  - inversion Hn as [|? ? Hk Hn']; subst. cbn [analyze_keys].
    destruct (m_get_some_key str_eq_dec k (pj_files pj) (Hin k (or_introl eq_refl))) as [v Hv]. rewrite Hv.
    assert (Hin' : forall q, In q order -> In q (keys (pj_files pj))) by (intros q Hq; apply Hin; right; exact Hq).
    destruct (pf_file v) as [f|] eqn:Ef.
    + destruct (file_spec_deps o fs pj f (pf_type v) h a Ho Hp G) as (ac & es & a' & E & Hok & G').
      rewrite E. cbn [obind]. set (pj1 := set_files (m_update k (store_result (ac, es) v) (pj_files pj)) pj).
      assert (F1 : forall q, q <> k -> fget q (pj_files pj1) = fget q (pj_files pj)).
      { intros q Hq. cbn [pj_files pj1 set_files]. rewrite update_get. destruct (str_eq_dec k q); [congruence|reflexivity]. }
      assert (F2 : fget k (pj_files pj1) = Some (store_result (ac, es) v)).
      { cbn [pj_files pj1 set_files]. rewrite update_get, Hv. destruct (str_eq_dec k k); [reflexivity|congruence]. }
      destruct (IH a' pj1 (h ++ file_deps fs f)) as (pj' & E' & P1 & P2 & P2b & A1 & A2 & A3 & A4).
      { apply project_ok_update; assumption. }
      { exact Hn'. }
      { intros q Hq. cbn [pj_files pj1 set_files]. rewrite update_keys. apply Hin', Hq. }
      { exact G'. }
      exists pj'. split; [exact E'|]. split; [exact P1|]. split; [exact P2|]. split; [exact P2b|].
      split; [rewrite A1; cbn [pj_files pj1 set_files]; apply update_keys|].
      split; [|split].
      * intros q Hq. rewrite A2 by (intros H; apply Hq; right; exact H). apply F1. intros ->. apply Hq. left. reflexivity.
      * intros q w Hw Hf. destruct (str_eq_dec q k) as [->|Hne].
        -- congruence.
        -- apply A3; [rewrite F1 by exact Hne; exact Hw|exact Hf].
      * intros k1 q k2 w g Eo Hw Hg. destruct k1 as [|x k1].
        -- cbn [app] in Eo. injection Eo as <- <-. assert (w = v) as -> by congruence. assert (g = f) as -> by congruence.
           exists pj, a, a', ac, es. split; [rewrite A2 by exact Hk; exact F2|].
           split; [cbn [deps_of flat_map]; rewrite app_nil_r; exact G|]. split; [exact E|]. split; [exact Hok|]. split; [exact Hp|].
           split; [symmetry; exact P2b|]. split; [intros q []|auto].
        -- cbn [app] in Eo. injection Eo as <- Eo.
           assert (Hqk : q <> k) by (intros ->; apply Hk; rewrite Eo; apply in_or_app; right; left; reflexivity).
           assert (Hk1 : ~ In k k1) by (intros H; apply Hk; rewrite Eo; apply in_or_app; left; exact H).
           destruct (A4 k1 q k2 w g Eo) as (pjk & b & b' & ac' & es' & B1 & B2 & B3 & B4 & B5 & B6 & B7 & B8).
           { rewrite F1 by exact Hqk. exact Hw. }
           { exact Hg. }
           exists pjk, b, b', ac', es'. split; [exact B1|]. split.
           { rewrite B2. f_equal. rewrite <- app_assoc. f_equal. unfold deps_of. cbn [flat_map]. rewrite Hv, Ef. f_equal.
             assert (Sub : forall k, In k k1 -> k <> k -> False) by (intros; congruence). clear Sub.
             clear - F1 Hk1. induction k1 as [|x k1 IH]; [reflexivity|]. cbn [flat_map]. rewrite F1 by (intros ->; apply Hk1; left; reflexivity).
             rewrite IH by (intros H; apply Hk1; right; exact H). reflexivity. }
           split; [exact B3|]. split; [exact B4|]. split; [exact B5|]. split; [exact B6|]. split.
           { intros x [<-|Hx]; [|exact (B7 x Hx)]. rewrite (B8 k Hk1). symmetry. apply A2, Hk. }
           { intros x Hx. rewrite B8 by (intros H; apply Hx; right; exact H). apply F1. intros ->. apply Hx. left. reflexivity. }
    + destruct (IH a pj h Hp Hn' Hin' G) as (pj' & E' & P1 & P2 & P2b & A1 & A2 & A3 & A4).
      exists pj'. split; [exact E'|]. split; [exact P1|]. split; [exact P2|]. split; [exact P2b|]. split; [exact A1|]. split; [|split; [exact A3|]].
      * intros q Hq. apply A2. intros H. apply Hq. right. exact H.
      * intros k1 q k2 w g Eo Hw Hg. destruct k1 as [|x k1].
        -- cbn [app] in Eo. injection Eo as <- <-. congruence.
        -- cbn [app] in Eo. injection Eo as <- Eo.
           assert (Hk1 : ~ In k k1) by (intros H; apply Hk; rewrite Eo; apply in_or_app; left; exact H).
           destruct (A4 k1 q k2 w g Eo Hw Hg) as (pjk & b & b' & ac' & es' & B1 & B2 & B3 & B4 & B5 & B6 & B7 & B8).
           exists pjk, b, b', ac', es'. split; [exact B1|]. split.
           { unfold deps_of. cbn [flat_map]. rewrite Hv, Ef. exact B2. }
           split; [exact B3|]. split; [exact B4|]. split; [exact B5|]. split; [exact B6|]. split.
           { intros x [<-|Hx]; [|exact (B7 x Hx)]. rewrite (B8 k Hk1). symmetry. apply A2, Hk. }
           { intros x Hx. apply B8. intros H. apply Hx. right. exact H. }
Qed.
