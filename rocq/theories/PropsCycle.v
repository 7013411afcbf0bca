(** C59: the cycle that a diagnostic names is a cycle of includes of the project *)
From Verif Require Import ParserBase ProjectSpec ProjectProofs2 ProjectOrder ProjectHistory PropsProject PropsProject2 PropsProject3 PropsHistory PropsOrder Tests.
From Coq Require Import Permutation.

Lemma chain_sub {V} (E F : V -> V -> Prop) (H : forall a b, E a b -> F a b) : forall l, chain E l -> chain F l.
Proof.
  induction l as [|x l IH]; intros K; [exact I|]. destruct l as [|y l]; [exact I|]. destruct K as [K1 K2]. split; [apply H, K1|apply IH, K2].
Qed.
Lemma elements_named (R : fpath -> fpath -> Prop) fs pj src ft l : (forall i q, In (PDirective (AInclude i)) l -> include_path fs i = inl q -> R q src) ->
  forall ps ds h ds' h' es, elements fs pj src ft ps ds h l ds' h' es -> inside R h ->
  forall d, In d es -> is_cyclic d -> exists i q mid, In (PDirective (AInclude i)) l /\ include_path fs i = inl q
    /\ chain R (q :: mid ++ [q]) /\ NoDup (q :: mid)
    /\ d = mkDiag CyclicDependencyError (include_span i) (include_source i) (bs "Cyclic include: " ++ join (bs " -> ") (q :: mid ++ [q])).
Proof.
  induction l as [|p l IH]; intros Hi ps ds h ds' h' es H I d Hd Hk.
  - apply elements_nil_inv in H. destruct H as (_ & _ & ->). destruct Hd.
  - apply elements_cons_inv in H. destruct H as (dp & h1 & ep & e2 & A & B & ->). apply in_app_or in Hd. destruct Hd as [Hd|Hd].
    + destruct (element_cyclic _ _ _ _ _ _ _ _ _ _ _ _ A Hd Hk) as (i & q & -> & Ei & Hc). inversion A; subst.
      match goal with K : included _ _ _ _ _ _ _ _ |- _ => inversion K as [x X|q1 cy X Y|q1 X Y Z|q1 f0 ? ? X Y Z T1 T2]; subst; clear K end;
        try (exfalso; congruence); try (exfalso; apply Y; assert (q1 = q) as -> by congruence; exact Hc).
      assert (q1 = q) as -> by congruence. destruct Hd as [<-|[]]. destruct Y as (mid & -> & Y1 & Y2 & _). exists i, q, mid.
      split; [left; reflexivity|]. split; [exact Ei|]. split; [|split; [exact Y2|reflexivity]].
      eapply chain_sub; [|exact Y1]. apply inside_snoc; [exact I|]. eapply Hi; [left; reflexivity|exact Ei].
    + destruct (IH (fun i q Hq => Hi i q (or_intror Hq)) _ _ _ _ _ _ B) with (d := d) as (i & q & mid & K1 & K); try assumption.
      * inversion A; subst; try exact I.
        match goal with K : included _ _ _ _ _ _ _ _ |- _ => inversion K; subst end; try exact I; apply inside_snoc; try exact I;
          (eapply Hi; [left; reflexivity|assumption]).
      * exists i, q, mid. split; [right; exact K1|exact K].
Qed.

(** the text of a path in the include graph *)
Fixpoint arrows (first : fpath) (rest : list fpath) : str :=
  match rest with
  | [] => first
  | x :: r => first ++ bs " -> " ++ arrows x r
  end.
Lemma join_arrows r : forall x, join (bs " -> ") (x :: r) = arrows x r.
Proof. induction r as [|y r IH]; intros x; [reflexivity|]. cbn [arrows]. rewrite <- IH. reflexivity. Qed.

Theorem C59_cycle_named : forall fs u fuel o name root text ft pj pj', finite_fs fs u -> (length u < fuel)%nat -> order_ok o ->
  fs_canon fs name = inl root -> valid_utf8 text = true -> reached pj -> add_file_with_text fuel o fs name text ft pj = Done pj' ->
  forall k v d, fget k (pj_files pj') = Some v -> In d (pf_adiags v) -> dg_kind d = CyclicDependencyError ->
  exists f i q mid, pf_file v = Some f /\ In (PDirective (AInclude i)) (fl_elements f) /\ include_path fs i = inl q
    /\ dg_span d = include_span i /\ dg_source d = include_source i
    /\ chain (fun a b => stored_includes fs (pj_files pj') b a) (q :: mid ++ [q]) /\ NoDup (q :: mid)
    /\ dg_msg d = bs "Cyclic include: " ++ arrows q (mid ++ [q]).
Proof.
  intros fs u fuel o name root text ft pj pj' Hf Hl Ho Hc Hv Hp E k w d Hw Hd Hkd.
  destruct (add_done _ _ _ _ _ _ _ _ _ _ Hf Hl Ho Hc Hv Hp E) as (files' & order & L & Hcl & Hk & P & Hp' & _ & _ & A & S).
  pose proof (same_includes fs files' (pj_files pj') S) as SI.
  assert (Hin : forall k, In k order <-> In k (keys files')).
  { intros x. split; apply Permutation_in; [exact P|apply Permutation_sym, P]. }
  assert (Hsrc : forall k v f, fget k files' = Some v -> pf_file v = Some f -> fl_source f = k).
  { intros x y z H1 H3. specialize (S x). rewrite H1 in S. destruct (fget x (pj_files pj')) as [w'|] eqn:Ew; [|contradiction].
    apply (pi_source _ Hp' x w' z Ew). destruct S as (_ & S & _). congruence. }
  pose proof (S k) as Sk. rewrite Hw in Sk. destruct (fget k files') as [v|] eqn:Ev; [|contradiction].
  destruct Sk as (_ & Sf & St & _). destruct (pf_file w) as [f|] eqn:Efw.
  2:{ destruct (pi_bare _ Hp' k w Hw Efw) as [_ X]. rewrite X in Hd. destruct Hd. }
  assert (Ef : pf_file v = Some f) by congruence.
  assert (Hko : In k order) by (apply Hin; eapply m_get_key, Ev).
  apply in_split in Hko. destruct Hko as (k1 & k2 & Eo).
  destruct A as (A1 & A2 & A3 & A4).
  destruct (A4 k1 k k2 v f Eo Ev Ef) as (pjk & a & a' & ac & es & B1 & B2 & B3 & B4 & B5 & Bs & B6 & _).
  assert (w = store_result (ac, es) v) as -> by congruence. cbn [store_result pf_adiags snd] in Hd.
  destruct (analysed_spec fs pjk f (pf_type v) (deps_of fs files' k1) ac es B5) as (ds & h' & An & _).
  { exists (o_an o), a, a'. split; [apply Ho|]. split; [exact B2|exact B3]. }
  inversion An as [? ? e0 vs rs H1 H2 H3]; subst.
  assert (Hd0 : In d e0).
  { apply in_app_or in Hd. destruct Hd as [Hd|Hd]; [exact Hd|]. exfalso. apply in_app_or in Hd. destruct Hd as [Hd|Hd].
    - rewrite (version_kind _ _ _ _ _ H2 Hd) in Hkd. discriminate.
    - rewrite (references_kind _ _ _ _ _ _ H3 Hd) in Hkd. discriminate. }
  rewrite (Hsrc k v f Ev Ef) in H1.
  destruct (elements_named (fun a b => stored_includes fs (pj_files pj') b a) fs pjk k (pf_type v) (fl_elements f)) with (2 := H1) (4 := Hd0)
    as (i & q & mid & K1 & K2 & K3 & K4 & ->); [| |exact Hkd|].
  - intros i q Hi Ei. apply SI. exists v, f, i. auto.
  - intros x y Hxy. apply SI. apply (deps_of_depends fs files' (k1 ++ k :: k2) (li_nodup _ _ _ _ _ _ _ L) Hin Hsrc x y).
    unfold deps_of. rewrite flat_map_app. apply depends_app. left. exact Hxy.
  - exists f, i, q, mid. cbn [dg_span dg_source dg_msg]. rewrite join_arrows. auto 10.
Qed.
Print Assumptions C59_cycle_named.

(** the project of C59_case: the file [/b.dtsi] includes itself and [/a.dts] *)
Definition cycle_messages (pj : project) : list str :=
  flat_map (fun kv => flat_map (fun d => if error_code_eq_dec (dg_kind d) CyclicDependencyError then [dg_msg d] else []) (pf_adiags (snd kv))) (pj_files pj).
Example C59_named_case : exists pj, add_file_with_text 3 id_oracle (mem_fs ex35) (bs "/a.dts") (bs "/dts-v1/; /include/ ""/b.dtsi""") DtSource project_new = Done pj
  /\ cycle_messages pj = [bs "Cyclic include: /a.dts -> /b.dtsi -> /a.dts"; bs "Cyclic include: /b.dtsi -> /b.dtsi"].
Proof. eexists. split; vm_compute; reflexivity. Qed.

(** ** C32: the cycle that is named depends on hash orders.
    [/q.dtsi] includes [/a.dtsi] and [/b.dtsi], which both include [/q.dtsi]. The two runs differ in nothing but
    the order in which the set of includers of a file is iterated. *)
Definition guard_rev : oracle := mkPOracle (fun l => rev l) (fun l => l) (mkOracle (fun _ _ s => rev s) (fun _ m => m)).
Definition ex32c : list (fpath * str) :=
  [(bs "/q.dtsi", bs "/include/ ""a.dtsi"" /include/ ""b.dtsi"""); (bs "/a.dtsi", bs "/include/ ""q.dtsi""");
   (bs "/b.dtsi", bs "/include/ ""q.dtsi""")].
Lemma guard_rev_ok : order_ok guard_rev.
Proof. repeat split; intros; cbn; (apply Permutation_refl || (apply Permutation_sym, Permutation_rev)). Qed.
Theorem C32_cycle_refuted : exists fs name o o' pj pj', order_ok o /\ order_ok o'
  /\ add_file 5 o fs name project_new = Done (inr pj) /\ add_file 5 o' fs name project_new = Done (inr pj')
  /\ cycle_messages pj = [bs "Cyclic include: /q.dtsi -> /b.dtsi -> /q.dtsi"; bs "Cyclic include: /q.dtsi -> /a.dtsi -> /q.dtsi"]
  /\ cycle_messages pj' = [bs "Cyclic include: /q.dtsi -> /a.dtsi -> /q.dtsi"; bs "Cyclic include: /q.dtsi -> /a.dtsi -> /q.dtsi"].
Proof.
  exists (mem_fs ex32c), (bs "/q.dtsi"), guard_rev, rev_oracle. do 2 eexists.
  split; [exact guard_rev_ok|]. split; [exact rev_order_ok|].
  split; [vm_compute; reflexivity|]. split; [vm_compute; reflexivity|]. split; vm_compute; reflexivity.
Qed.
Print Assumptions C32_cycle_refuted.
