(** Each cycle without repetitions and shortcuts is found for some order of iteration *)
From Verif Require Import ImportGuard GuardProofs.
From Coq Require Import Permutation.

Section Steer.
  Context {V : Type} (eq_dec : forall a b : V, {a = b} + {a <> b}).
  Notation get := (m_get eq_dec).

  Fixpoint next_in (c : list V) (n : V) : option V :=
    match c with
    | x :: ((y :: _) as r) => if eq_dec x n then Some y else next_in r n
    | _ => None
    end.
  Definition is (m x : V) : bool := if eq_dec x m then true else false.
  (** the next element of the cycle is the last that is looked at, and the first that is searched *)
  Definition steer (c : list V) (n : V) (l : list V) : list V :=
    match next_in c n with
    | Some m => filter (fun x => negb (is m x)) l ++ filter (is m) l
    | None => l
    end.
  Lemma filter_both {A} (f : A -> bool) l : Permutation (filter (fun x => negb (f x)) l ++ filter f l) l.
  Proof.
    induction l as [|x l IH]; [constructor|]. cbn [filter]. destruct (f x); cbn [negb app].
    - apply Permutation_sym. apply Permutation_cons_app. apply Permutation_sym, IH.
    - constructor. exact IH.
  Qed.
  Lemma steer_perm c n l : Permutation (steer c n l) l.
  Proof. unfold steer. destruct (next_in c n); [apply filter_both|apply Permutation_refl]. Qed.
  Lemma next_at pre n m post : ~ In n pre -> next_in (pre ++ n :: m :: post) n = Some m.
  Proof.
    induction pre as [|x pre IH]; intros H.
    - cbn [app next_in]. destruct (eq_dec n n); [reflexivity|contradiction].
    - assert (E : next_in ((x :: pre) ++ n :: m :: post) n = next_in (pre ++ n :: m :: post) n).
      { cbn [app next_in]. destruct (pre ++ n :: m :: post) eqn:E; [destruct pre; discriminate|].
        destruct (eq_dec x n) as [->|_]; [exfalso; apply H; left; reflexivity|reflexivity]. }
      rewrite E. apply IH. intros K. apply H. right. exact K.
  Qed.

  Lemma push_app node l1 l2 stack P : push_neighbors eq_dec node (l1 ++ l2) stack P
    = let '(stack1, P1) := push_neighbors eq_dec node l1 stack P in push_neighbors eq_dec node l2 stack1 P1.
  Proof.
    revert stack P. induction l1 as [|x l1 IH]; intros stack P; cbn [app push_neighbors]; [reflexivity|].
    destruct (m_mem eq_dec x P); apply IH.
  Qed.
  Lemma push_known node m l : (forall x, In x l -> x = m) -> forall stack P, In m (m_keys P) ->
    push_neighbors eq_dec node l stack P = (stack, P).
  Proof.
    induction l as [|x l IH]; intros H stack P Hm; cbn [push_neighbors]; [reflexivity|].
    rewrite (H x (or_introl eq_refl)). rewrite (proj2 (m_mem_spec eq_dec m P) Hm). apply IH; [|exact Hm]. intros y Hy. apply H. right. exact Hy.
  Qed.
  Lemma push_last node m l1 l2 stack P : ~ In m l1 -> l2 <> [] -> (forall x, In x l2 -> x = m) -> ~ In m (m_keys P) ->
    exists stack' P', push_neighbors eq_dec node (l1 ++ l2) stack P = (m :: stack', P').
  Proof.
    intros H1 H2 H3 H4. rewrite push_app. destruct (push_neighbors eq_dec node l1 stack P) as [stack1 P1] eqn:E.
    destruct (push_neighbors_spec eq_dec _ _ _ _ _ _ E) as (news & -> & -> & _ & Hn).
    destruct l2 as [|x l2]; [contradiction|]. cbn [push_neighbors]. rewrite (H3 x (or_introl eq_refl)).
    assert (N : ~ In m (m_keys (map (fun n => (n, node)) news ++ P))).
    { rewrite keys_push. intros [K|K]; [apply Hn in K; tauto|contradiction]. }
    destruct (m_mem eq_dec m (map (fun n => (n, node)) news ++ P)) eqn:M; [apply m_mem_spec in M; contradiction|].
    rewrite (push_known node m l2); [eauto|intros y Hy; apply H3; right; exact Hy|]. apply m_keys_insert. left. reflexivity.
  Qed.

  Context (nodes : list (V * list V)) (s : V).
  (** a node has one parent *)
  Lemma parents_unique P n l1 : forall l2, chain (parent_of eq_dec P) (s :: l1 ++ [n]) -> chain (parent_of eq_dec P) (s :: l2 ++ [n]) ->
    ~ In s l1 -> ~ In s l2 -> l1 = l2.
  Proof.
    revert n. induction l1 as [|x l1 IH] using rev_ind; intros n l2 H1 H2 N1 N2.
    - destruct l2 as [|y l2] using rev_ind; [reflexivity|]. exfalso. clear IHl2.
      rewrite <- app_assoc in H2. change (s :: l2 ++ [y] ++ [n]) with ((s :: l2) ++ [y; n]) in H2. apply chain_right in H2.
      destruct H1 as [H1 _]. destruct H2 as [H2 _]. unfold parent_of in *. apply N2. apply in_or_app. right. left. congruence.
    - destruct l2 as [|y l2] using rev_ind.
      + exfalso. rewrite <- app_assoc in H1. change (s :: l1 ++ [x] ++ [n]) with ((s :: l1) ++ [x; n]) in H1. apply chain_right in H1.
        destruct H1 as [H1 _]. destruct H2 as [H2 _]. unfold parent_of in *. apply N1. apply in_or_app. right. left. congruence.
      + clear IHl2. assert (A1 := H1). assert (A2 := H2).
        rewrite <- app_assoc in H1, H2. change (s :: l2 ++ [y] ++ [n]) with ((s :: l2) ++ [y; n]) in H2.
        change (s :: l1 ++ [x] ++ [n]) with ((s :: l1) ++ [x; n]) in H1. apply chain_right in H1, H2.
        destruct H1 as [H1 _]. destruct H2 as [H2 _]. unfold parent_of in H1, H2. assert (x = y) as -> by congruence.
        f_equal. apply (IH y).
        * change (s :: (l1 ++ [y]) ++ [n]) with ((s :: l1 ++ [y]) ++ [n]) in A1. apply chain_left in A1. exact A1.
        * change (s :: (l2 ++ [y]) ++ [n]) with ((s :: l2 ++ [y]) ++ [n]) in A2. apply chain_left in A2. exact A2.
        * intros K. apply N1. apply in_or_app. left. exact K.
        * intros K. apply N2. apply in_or_app. left. exact K.
  Qed.

  Context (mid : list V).
  Let c : list V := s :: mid ++ [s].
  Context (Hc : chain (edge eq_dec nodes) c) (Hd : NoDup (s :: mid)) (Hs : direct (edge eq_dec nodes) c).

  Lemma steer_run : forall fuel pre n post rest P, c = pre ++ n :: post -> search_inv eq_dec nodes s (rev pre) (n :: rest) P ->
    chain (parent_of eq_dec P) (pre ++ [n]) -> (length (n :: rest) + (edge_count nodes - length P) <= fuel)%nat ->
    check_loop eq_dec fuel (steer c) nodes (rev pre) (n :: rest) P = Done (Some c).
  Proof.
    assert (Nsm : ~ In s mid) by (inversion Hd; assumption).
    induction fuel as [|fuel IH]; intros pre n post rest P Ec Hi Hp Hf; [cbn [length] in Hf; lia|].
    cbn [check_loop]. destruct (in_dec eq_dec n (rev pre)) as [Hv|Hv].
    - assert (n = s) as -> by (apply (si_disjoint _ _ _ _ _ _ Hi); [left; reflexivity|exact Hv]).
      destruct (si_stack _ _ _ _ _ _ Hi s (or_introl eq_refl)) as [Hk|[Hk _]]; [|rewrite Hk in Hv; destruct Hv].
      destruct (cycle_loop_spec eq_dec nodes s P (si_parent _ _ _ _ _ _ Hi) P [] eq_refl s [s] (S (length P)) Hk)
        as (mid0 & E & Hc0 & Hd0 & Hs0 & _); [lia|].
      rewrite E. cbn [obind app rev]. rewrite rev_app_distr. cbn [rev app].
      assert (Epre : pre = s :: mid).
      { rewrite <- in_rev in Hv. unfold c in Ec. destruct pre as [|x pre]; [destruct Hv|]. cbn [app] in Ec. injection Ec as <- Ec. f_equal.
        destruct post as [|y post] using rev_ind.
        - apply app_inj_tail in Ec. symmetry. apply Ec.
        - exfalso. clear IHpost. change (mid ++ [s] = pre ++ (s :: post) ++ [y]) in Ec. rewrite app_assoc in Ec. apply app_inj_tail in Ec. destruct Ec as [Ec _].
          apply Nsm. rewrite Ec. apply in_or_app. right. left. reflexivity. }
      assert (K : rev mid0 = mid).
      { apply (parents_unique P s); [exact Hc0|rewrite Epre in Hp; exact Hp|rewrite <- in_rev; exact Hs0|exact Nsm]. }
      rewrite K. reflexivity.
    - destruct post as [|m post].
      { exfalso. unfold c in Ec. change (s :: mid ++ [s]) with ((s :: mid) ++ [s]) in Ec. apply app_inj_tail in Ec. destruct Ec as [<- <-].
        apply Hv. rewrite <- in_rev. left. reflexivity. }
      assert (Em : edge eq_dec nodes n m).
      { assert (K := Hc). rewrite Ec in K. apply chain_right in K. apply K. }
      assert (Nm : ~ In m (m_keys P)).
      { intros K. destruct (m_get_some_key eq_dec m P K) as [p Hg]. destruct (get_parent eq_dec nodes s P m p Hg (si_parent _ _ _ _ _ _ Hi)) as [He _].
        apply m_get_in in Hg. apply (si_parents_visited _ _ _ _ _ _ Hi) in Hg. rewrite <- in_rev in Hg. apply in_split in Hg. destruct Hg as (a1 & a2 & ->).
        assert (K2 : a2 ++ [n] = []).
        { apply (Hs a1 p (a2 ++ [n]) m post); [|exact He]. rewrite Ec. repeat (rewrite <- app_assoc; cbn [app]). reflexivity. }
        destruct a2; discriminate K2. }
      assert (Nn : ~ In n pre) by (rewrite in_rev; exact Hv).
      destruct (match get n nodes with
             | Some ns => push_neighbors eq_dec n (steer c n ns) rest P
             | None => (rest, P) end) as [stack2 P2] eqn:E.
      destruct (search_step eq_dec (steer c) (steer_perm c) nodes s (rev pre) n rest P Hi Hv stack2 P2 E) as [Hi2 Hl].
      unfold edge, m_entry in Em. destruct (get n nodes) as [ns|] eqn:En; [|destruct Em].
      assert (Hst : steer c n ns = filter (fun x => negb (is m x)) ns ++ filter (is m) ns).
      { unfold steer. rewrite Ec, (next_at _ _ _ _ Nn). reflexivity. }
      assert (Hh : exists stack', stack2 = m :: stack').
      { rewrite Hst in E. destruct (push_last n m (filter (fun x => negb (is m x)) ns) (filter (is m) ns) rest P) as (st & P' & K).
        - intros K. apply filter_In in K. destruct K as [_ K]. unfold is in K. destruct (eq_dec m m); [discriminate|contradiction].
        - intros K. assert (X : In m (filter (is m) ns)) by (apply filter_In; split; [exact Em|unfold is; destruct (eq_dec m m); [reflexivity|contradiction]]).
          rewrite K in X. destruct X.
        - intros x K. apply filter_In in K. destruct K as [_ K]. unfold is in K. destruct (eq_dec x m); [assumption|discriminate].
        - exact Nm.
        - rewrite K in E. injection E as <- _. eauto. }
      destruct Hh as [stack' ->].
      assert (Er : rev (pre ++ [n]) = n :: rev pre) by (rewrite rev_app_distr; reflexivity).
      rewrite <- Er. apply (IH (pre ++ [n]) m post).
      + rewrite <- app_assoc. exact Ec.
      + rewrite Er. exact Hi2.
      + destruct (push_neighbors_spec eq_dec _ _ _ _ _ _ E) as (news & Est & EP & Hnd & Hn).
        rewrite Hst in Hn.
        assert (Hmn : In m news).
        { apply Hn. split; [|exact Nm]. apply in_or_app. right. apply filter_In. split; [exact Em|]. unfold is. destruct (eq_dec m m); [reflexivity|contradiction]. }
        assert (Old : forall a b, parent_of eq_dec P a b -> parent_of eq_dec P2 a b).
        { unfold parent_of. intros a b K. rewrite EP, get_app_older with (nodes := nodes) (s := s); [exact K|rewrite <- EP; apply (si_parent _ _ _ _ _ _ Hi2)|].
          eapply m_get_key, K. }
        assert (New : parent_of eq_dec P2 n m).
        { unfold parent_of. rewrite EP. clear - Hmn. induction news as [|x news IHn]; [destruct Hmn|]. cbn [map app m_get].
          destruct (eq_dec m x) as [->|Ne]; [reflexivity|]. apply IHn. destruct Hmn as [K|K]; [congruence|exact K]. }
        apply chain_snoc; [|exact New]. eapply chain_mono; [exact Old|exact Hp].
      + pose proof (parent_wf_length eq_dec nodes s P (si_parent _ _ _ _ _ _ Hi)).
        pose proof (parent_wf_length eq_dec nodes s P2 (si_parent _ _ _ _ _ _ Hi2)). cbn [length] in *. lia.
  Qed.
End Steer.

Lemma guard_add_named {V} (eq_dec : forall a b : V, {a = b} + {a <> b}) h e deps c : simple_cycle (depends (h ++ [(e, deps)])) e c ->
  guard_add eq_dec (steer eq_dec c) e deps (guard_after eq_dec h) = Done (Some c, guard_after eq_dec (h ++ [(e, deps)])).
Proof.
  intros (mid & -> & Hc & Hd & Hs). unfold guard_add.
  assert (Eg : guard_insert eq_dec e deps (guard_after eq_dec h) = guard_after eq_dec (h ++ [(e, deps)])).
  { unfold guard_after. rewrite fold_left_app. reflexivity. }
  rewrite Eg. unfold check_cyclic.
  rewrite (steer_run eq_dec (ig_nodes (guard_after eq_dec (h ++ [(e, deps)]))) e mid) with (pre := []) (post := mid ++ [e]).
  - reflexivity.
  - revert Hc. apply chain_mono. intros a b. apply edge_after.
  - exact Hd.
  - intros l1 a l2 b l3 El Hab. apply (Hs l1 a l2 b l3 El). revert Hab. apply edge_after.
  - reflexivity.
  - apply search_inv_init.
  - exact I.
  - cbn [length]. lia.
Qed.
