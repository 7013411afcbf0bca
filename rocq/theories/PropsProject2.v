(** Properties of projects: C38 to C41, and the include graph of a project *)
From Verif Require Export PropsProject PropsAnalysis Tests.
From Coq Require Import Relations.

(** ** C38: the order of the analysis *)
Lemma acyclic_rank {V} (E : V -> V -> Prop) (rank : V -> nat) : (forall p q, E p q -> (rank p < rank q)%nat) -> acyclic E.
Proof.
  intros H x Hx. assert (K : forall a b, clos_trans V E a b -> (rank a < rank b)%nat).
  { intros a b Hab. induction Hab as [a b Hab|a b c _ IH1 _ IH2]; [apply H, Hab|lia]. }
  specialize (K x x Hx). lia.
Qed.
(** a check that the includes of the files go forward in a list *)
Definition forward (fs : fsys) (l : list fpath) (files : list (fpath * pfile)) : bool :=
  forallb (fun kv => forallb (fun q => Nat.ltb (idx (fst kv) l) (idx q l)) (targets_of fs (snd kv))) files.
Lemma forward_acyclic fs l files : NoDup (keys files) -> forward fs l files = true -> acyclic (stored_includes fs files).
Proof.
  intros Hn H. apply acyclic_rank with (rank := fun x => idx x l). intros p q Hpq.
  apply stored_includes_in in Hpq; [|exact Hn]. destruct Hpq as (v & A & B). unfold forward in H. rewrite forallb_forall in H.
  specialize (H _ A). rewrite forallb_forall in H. specialize (H _ B). apply Nat.ltb_lt in H. exact H.
Qed.

(** a includes b, b includes c, a uses a label of c *)
Definition text38 : str := bs "/dts-v1/; /include/ ""/b.dtsi"" / { p = <&l>; };".
Definition ex38 : list (fpath * str) :=
  [(bs "/a.dts", text38); (bs "/b.dtsi", bs "/include/ ""/c.dtsi"""); (bs "/c.dtsi", bs "/ { l: n { }; };")].
Definition rev_oracle : oracle := mkPOracle (fun l => rev l) (fun l => l) (mkOracle (fun _ _ l => l) (fun _ l => l)).
Lemma rev_order_ok : order_ok rev_oracle.
Proof. repeat split; intros; try apply Permutation_refl. cbn. apply Permutation_sym, Permutation_rev. Qed.
Definition files38 : list (fpath * pfile) :=
  match parse_file 4 (mem_fs ex38) [] (bs "/a.dts") text38 DtSource [] with Done l => l | _ => [] end.

(** The claim is false: with the iteration order a, b, c of the hash map the file b is analysed before c. *)
Theorem C38_refuted : exists fs fuel o root text ft files order p q,
  parse_file fuel fs [] root text ft [] = Done files /\ order_ok o /\ acyclic (stored_includes fs files)
  /\ compute_key_order o fs files = Done order /\ stored_includes fs files p q /\ (idx p order < idx q order)%nat.
Proof.
  exists (mem_fs ex38), 4%nat, id_oracle, (bs "/a.dts"), text38, DtSource, files38,
    [bs "/b.dtsi"; bs "/c.dtsi"; bs "/a.dts"], (bs "/b.dtsi"), (bs "/c.dtsi").
  assert (N : NoDup (keys files38)).
  { assert (E : m_keys files38 = [bs "/a.dts"; bs "/b.dtsi"; bs "/c.dtsi"]) by (vm_compute; reflexivity). rewrite E.
    repeat constructor; cbn; intuition discriminate. }
  split; [vm_compute; reflexivity|]. split; [apply id_order_ok|].
  split; [apply (forward_acyclic _ [bs "/a.dts"; bs "/b.dtsi"; bs "/c.dtsi"]); [exact N|vm_compute; reflexivity]|].
  split; [vm_compute; reflexivity|]. split; [|vm_compute; repeat constructor].
  apply stored_includes_in; [exact N|].
  assert (H : existsb (fun kv => if str_eq_dec (fst kv) (bs "/b.dtsi") then existsb (fun q => if str_eq_dec q (bs "/c.dtsi") then true else false) (targets_of (mem_fs ex38) (snd kv)) else false) files38 = true)
    by (vm_compute; reflexivity).
  apply existsb_exists in H. destruct H as ([k v] & H1 & H2). cbn [fst snd] in H2. destruct (str_eq_dec k (bs "/b.dtsi")) as [->|]; [|discriminate].
  apply existsb_exists in H2. destruct H2 as (q & H2 & H3). destruct (str_eq_dec q (bs "/c.dtsi")) as [->|]; [|discriminate].
  exists v. split; [exact H1|exact H2].
Qed.
Print Assumptions C38_refuted.

(** What a user sees of it: the diagnostics depend on the iteration order of the hash map. *)
Theorem C38_diagnostics_refuted : exists fs u fuel o1 o2 name text ft pj1 pj2, finite_fs fs u /\ (length u < fuel)%nat
  /\ order_ok o1 /\ order_ok o2 /\ fs_canon fs name = inl name /\ read_to_string fs name = inl text
  /\ add_file_with_text fuel o1 fs name text ft project_new = Done pj1
  /\ add_file_with_text fuel o2 fs name text ft project_new = Done pj2
  /\ acyclic (stored_includes fs (pj_files pj1))
  /\ get_diagnostics fs pj1 name <> [] /\ get_diagnostics fs pj2 name = [].
Proof.
  exists (mem_fs ex38), (m_keys ex38), 4%nat, id_oracle, rev_oracle, (bs "/a.dts"), text38, DtSource.
  exists (unwrap (add_file_with_text 4 id_oracle (mem_fs ex38) (bs "/a.dts") text38 DtSource project_new)).
  exists (unwrap (add_file_with_text 4 rev_oracle (mem_fs ex38) (bs "/a.dts") text38 DtSource project_new)).
  split; [apply mem_fs_finite|]. split; [cbn; lia|]. split; [apply id_order_ok|]. split; [apply rev_order_ok|].
  split; [vm_compute; reflexivity|]. split; [vm_compute; reflexivity|]. split; [vm_compute; reflexivity|]. split; [vm_compute; reflexivity|].
  split.
  - apply (forward_acyclic _ [bs "/a.dts"; bs "/b.dtsi"; bs "/c.dtsi"]); [|vm_compute; reflexivity].
    assert (E : m_keys (pj_files (unwrap (add_file_with_text 4 id_oracle (mem_fs ex38) (bs "/a.dts") text38 DtSource project_new)))
      = [bs "/a.dts"; bs "/b.dtsi"; bs "/c.dtsi"]) by (vm_compute; reflexivity). rewrite E.
    repeat constructor; cbn; intuition discriminate.
  - split; [|vm_compute; reflexivity]. intros H. apply (f_equal (@length diag)) in H. revert H.
    assert (E : length (get_diagnostics (mem_fs ex38)
      (unwrap (add_file_with_text 4 id_oracle (mem_fs ex38) (bs "/a.dts") text38 DtSource project_new)) (bs "/a.dts")) = 1%nat)
      by (vm_compute; reflexivity).
    rewrite E. discriminate.
Qed.
Print Assumptions C38_diagnostics_refuted.

(** Also false for includes of depth one, if a file is shared: m1 includes l1 and l2, m2 includes l2 *)
Definition ex38b : list (fpath * str) :=
  [(bs "/m1.dts", bs "/dts-v1/; /include/ ""/l1.dtsi"" /include/ ""/l2.dtsi""");
   (bs "/m2.dts", bs "/dts-v1/; /include/ ""/l2.dtsi"""); (bs "/l1.dtsi", bs ""); (bs "/l2.dtsi", bs "")].
Definition pj38b : project :=
  unwrap (obind (add_file_with_text 5 id_oracle (mem_fs ex38b) (bs "/m1.dts") (bs "/dts-v1/; /include/ ""/l1.dtsi"" /include/ ""/l2.dtsi""") DtSource project_new)
    (fun pj => add_file_with_text 5 id_oracle (mem_fs ex38b) (bs "/m2.dts") (bs "/dts-v1/; /include/ ""/l2.dtsi""") DtSource pj)).
Definition swap_pairs {A} (l : list A) : list A := match l with [a; b; c; d] => [b; a; d; c] | _ => l end.
Definition pairs_oracle : oracle := mkPOracle swap_pairs (fun l => rev l) (mkOracle (fun _ _ l => l) (fun _ l => l)).
Lemma pairs_order_ok : order_ok pairs_oracle.
Proof.
  repeat split; intros; try apply Permutation_refl; cbn [o_files o_map pairs_oracle]; [|apply Permutation_sym, Permutation_rev].
  destruct l as [|a [|b [|c [|d [|e l]]]]]; try apply Permutation_refl. cbn [swap_pairs].
  eapply perm_trans; [apply perm_swap|]. do 2 apply perm_skip. apply perm_swap.
Qed.
Lemma stored_by_table fs files T : NoDup (keys files) -> map (fun kv => (fst kv, targets_of fs (snd kv))) files = T ->
  forall p q, stored_includes fs files p q <-> exists l, In (p, l) T /\ In q l.
Proof.
  intros N <- p q. rewrite (stored_includes_in _ _ _ _ N). split.
  - intros (v & A & B). exists (targets_of fs v). split; [|exact B]. apply in_map_iff. exists (p, v). auto.
  - intros (l & A & B). apply in_map_iff in A. destruct A as ([k v] & A1 & A2). cbn [fst snd] in A1. injection A1 as -> <-. eauto.
Qed.
Theorem C38_shared_refuted : exists fs o pj order p q, reached pj /\ order_ok o
  /\ (forall p q r, stored_includes fs (pj_files pj) p q -> ~ stored_includes fs (pj_files pj) q r)
  /\ compute_key_order o fs (pj_files pj) = Done order /\ stored_includes fs (pj_files pj) p q /\ (idx p order < idx q order)%nat.
Proof.
  exists (mem_fs ex38b), pairs_oracle, pj38b, [bs "/l1.dtsi"; bs "/m1.dts"; bs "/l2.dtsi"; bs "/m2.dts"], (bs "/m1.dts"), (bs "/l2.dtsi").
  assert (R : reached pj38b).
  { eapply (re_add (mem_fs ex38b) (m_keys ex38b) 5 id_oracle (bs "/m2.dts") (bs "/dts-v1/; /include/ ""/l2.dtsi""") DtSource
      (unwrap (add_file_with_text 5 id_oracle (mem_fs ex38b) (bs "/m1.dts") (bs "/dts-v1/; /include/ ""/l1.dtsi"" /include/ ""/l2.dtsi""") DtSource project_new)));
      [|apply mem_fs_finite|cbn; lia|apply id_order_ok|vm_compute; reflexivity|vm_compute; reflexivity].
    eapply (re_add (mem_fs ex38b) (m_keys ex38b) 5 id_oracle (bs "/m1.dts") (bs "/dts-v1/; /include/ ""/l1.dtsi"" /include/ ""/l2.dtsi""") DtSource project_new);
      [constructor|apply mem_fs_finite|cbn; lia|apply id_order_ok|vm_compute; reflexivity|vm_compute; reflexivity]. }
  split; [exact R|]. split; [apply pairs_order_ok|]. pose proof (pi_nodup _ (reached_inv _ R)) as N.
  assert (T : map (fun kv => (fst kv, targets_of (mem_fs ex38b) (snd kv))) (pj_files pj38b)
    = [(bs "/m2.dts", [bs "/l2.dtsi"]); (bs "/m1.dts", [bs "/l1.dtsi"; bs "/l2.dtsi"]); (bs "/l2.dtsi", []); (bs "/l1.dtsi", [])])
    by (vm_compute; reflexivity).
  assert (S : forall p q, stored_includes (mem_fs ex38b) (pj_files pj38b) p q <->
    (p, q) = (bs "/m2.dts", bs "/l2.dtsi") \/ (p, q) = (bs "/m1.dts", bs "/l1.dtsi") \/ (p, q) = (bs "/m1.dts", bs "/l2.dtsi")).
  { intros p q. rewrite (stored_by_table _ _ _ N T). clear. split.
    - intros (l & A & B). destruct A as [A|[A|[A|[A|[]]]]]; injection A as <- <-; cbn [In] in B;
        repeat (destruct B as [<-|B]; [auto|]); contradiction.
    - intros [H|[H|H]]; injection H as -> ->; eexists; (split; [cbn [In]; eauto|cbn [In]; auto]). }
  split; [|split; [vm_compute; reflexivity|split; [apply S; auto|vm_compute; repeat constructor]]].
  intros p q r H1 H2. apply S in H1. apply S in H2. destruct H1 as [H1|[H1|H1]]; injection H1 as -> ->;
    destruct H2 as [H2|[H2|H2]]; discriminate H2.
Qed.
Print Assumptions C38_shared_refuted.

(** Missing for the full claim: deeper includes and files shared by some of the includers only, where it is false. *)
Theorem C38_flat_partial : forall fs u fuel o name root text ft pj pj', finite_fs fs u -> (length u < fuel)%nat -> order_ok o ->
  fs_canon fs name = inl root -> valid_utf8 text = true -> reached pj -> add_file_with_text fuel o fs name text ft pj = Done pj' ->
  two_level fs (pj_files pj') ->
  exists files' order, parse_file fuel fs (pj_incl pj) root text ft (pj_files pj) = Done files'
    /\ compute_key_order o fs files' = Done order /\ Permutation order (keys (pj_files pj'))
    /\ forall p q, stored_includes fs (pj_files pj') p q -> (idx q order < idx p order)%nat.
Proof.
  intros fs u fuel o name root text ft pj pj' Hf Hl Ho Hc Hv Hp E H2.
  assert (Hp' := reached_inv _ Hp). destruct (load_inv_holds fs u fuel (pj_incl pj) root text ft (pj_files pj) Hf Hv Hl (pi_nodup _ Hp')) as (files2 & E2 & L2).
  assert (G := E). unfold add_file_with_text in G. rewrite Hc, E2 in G. cbn [obind] in G.
  destruct (compute_key_order o fs files2) as [order| |] eqn:Eo; try discriminate. exists files2, order.
  split; [exact E2|]. split; [exact Eo|].
  assert (Hcl : closed_files fs files2).
  { intros p q H. destruct (in_dec str_eq_dec q (keys files2)) as [Hq|Hq]; [exact Hq|]. exfalso.
    rewrite (proj2 (key_order_panic o fs files2 Ho (li_nodup _ _ _ _ _ _ _ L2))) in Eo; [discriminate|]. intros X. apply Hq, (X p q H). }
  pose proof (key_order_perm _ _ _ _ Ho Eo) as P.
  destruct (add_spec fs u fuel o name root text ft pj Hf Hl Ho Hc Hv Hp') as (files3 & L3 & [[_ X]|(_ & order3 & pj3 & X & Y1 & Y2 & _ & _ & _ & Y3)]); [congruence|].
  assert (S : forall p q, stored_includes fs (pj_files pj') p q <-> stored_includes fs files2 p q).
  { intros p q. rewrite E in X. injection X as <-. rewrite (same_includes fs files3 (pj_files pj')).
    - rewrite (load_includes _ _ _ _ _ _ _ Hv L3), (load_includes _ _ _ _ _ _ _ Hv L2). reflexivity.
    - eapply analysed_source; [|exact Y3]. intros k. split; apply Permutation_in; [exact Y2|apply Permutation_sym, Y2]. }
  split.
  - eapply perm_trans; [exact P|]. rewrite E in X. injection X as <-. destruct Y3 as (Y3 & _). rewrite Y3.
    apply NoDup_Permutation; [apply L2|apply L3|]. intros k. rewrite (li_keys _ _ _ _ _ _ _ L2), (li_keys _ _ _ _ _ _ _ L3). reflexivity.
  - destruct (key_order_flat o fs files2 Ho (li_nodup _ _ _ _ _ _ _ L2) Hcl) as (order' & O1 & O2).
    + destruct H2 as [A B]. split.
      * intros p q r. rewrite <- !S. apply A.
      * intros p p' q q'. rewrite <- !S. apply B.
    + assert (order' = order) as -> by congruence. intros p q. rewrite S. apply O2.
Qed.
Print Assumptions C38_flat_partial.

(** one source with two includes *)
Definition text38c : str := bs "/dts-v1/; /include/ ""/b.dtsi"" /include/ ""/c.dtsi"" / { p = <&l>; };".
Definition ex38c : list (fpath * str) := [(bs "/a.dts", text38c); (bs "/b.dtsi", bs ""); (bs "/c.dtsi", bs "/ { l: n { }; };")].
Definition pj38c : project := unwrap (add_file_with_text 4 id_oracle (mem_fs ex38c) (bs "/a.dts") text38c DtSource project_new).
Lemma pj38c_added : add_file_with_text 4 id_oracle (mem_fs ex38c) (bs "/a.dts") text38c DtSource project_new = Done pj38c.
Proof. vm_compute. reflexivity. Qed.
Lemma pj38c_reached : reached pj38c.
Proof.
  eapply (re_add (mem_fs ex38c) (m_keys ex38c) 4 id_oracle (bs "/a.dts") text38c DtSource project_new);
    [constructor|apply mem_fs_finite|cbn; lia|apply id_order_ok|vm_compute; reflexivity|apply pj38c_added].
Qed.
Lemma pj38c_includes p q : stored_includes (mem_fs ex38c) (pj_files pj38c) p q
  <-> p = bs "/a.dts" /\ (q = bs "/b.dtsi" \/ q = bs "/c.dtsi").
Proof.
  pose proof (pi_nodup _ (reached_inv _ pj38c_reached)) as N.
  assert (T : map (fun kv => (fst kv, targets_of (mem_fs ex38c) (snd kv))) (pj_files pj38c)
    = [(bs "/a.dts", [bs "/b.dtsi"; bs "/c.dtsi"]); (bs "/c.dtsi", []); (bs "/b.dtsi", [])]) by (vm_compute; reflexivity).
  rewrite (stored_by_table _ _ _ N T). clear. split.
  - intros (l & A & B). destruct A as [A|[A|[A|[]]]]; injection A as <- <-; cbn [In] in B;
      repeat (destruct B as [<-|B]; [auto|]); contradiction.
  - intros [-> [-> | ->]]; eexists; (split; [cbn [In]; eauto|cbn [In]; auto]).
Qed.
Example C38_case : two_level (mem_fs ex38c) (pj_files pj38c) /\ compute_key_order id_oracle (mem_fs ex38c) (pj_files pj38c)
  = Done [bs "/c.dtsi"; bs "/b.dtsi"; bs "/a.dts"].
Proof.
  split; [|vm_compute; reflexivity]. split.
  - intros p q r H1 H2. apply pj38c_includes in H1. apply pj38c_includes in H2. destruct H1 as [_ H1], H2 as [-> _]. destruct H1; discriminate.
  - intros p p' q q' H1 H2 H3. apply pj38c_includes in H1, H2, H3. apply pj38c_includes. tauto.
Qed.
