(** Properties of go to definition and hover: C50, C62, C64 *)
From Verif Require Import PropsServer ServerProofs Server LexSpec ReaderProofs ParserBase PropsAnalysis AnalysisProofs ProjectOrder ProjectProofs2 ProjectHistory PropsProject PropsProject2 PropsProject3 Tests.
From Coq Require Import Permutation.

(** ** C50: go to definition *)
(** the node a reference stands for, after the definitions [ds] *)
Definition meant (ds : list def) (r : reference) (n : node) : Prop :=
  match r with RefLabel l => label_means ds l (LNode n) | RefPath p => path_means ds p n end.

Lemma referenced_iff fs pj f ft h ac es : project_ok pj -> analysed fs pj f ft h ac es ->
  exists ds h' es', elements fs pj (fl_source f) ft [] [] h (fl_elements f) ds h' es' /\ (forall r n, get_referenced ac r = Some n <-> meant ds r n).
Proof.
  intros Hp Ha. apply (analysed_spec _ _ _ _ _ _ _ Hp) in Ha. destruct Ha as (ds & h' & A & _ & HL & HP). inversion A; subst.
  do 3 eexists. split; [eassumption|]. intros [l|p] n; cbn [get_referenced meant].
  - unfold get_node_by_label. rewrite <- HL. destruct (m_get str_eq_dec l (ac_labels ac)) as [[m|q]|]; split; congruence.
  - apply HP.
Qed.
Lemma referenced_in ac r n : get_referenced ac r = Some n -> (exists l, In (l, LNode n) (ac_labels ac)) \/ (exists p, In (p, n) (ac_flat ac)).
Proof.
  destruct r as [l|p]; cbn [get_referenced].
  - unfold get_node_by_label. destruct (m_get str_eq_dec l (ac_labels ac)) as [[m|q]|] eqn:E; try discriminate. intros H. injection H as ->.
    left. exists l. eapply m_get_in, E.
  - intros H. right. exists p. eapply m_get_in, H.
Qed.
Lemma referenced_known ac r n : ctx_known ac -> get_referenced ac r = Some n -> known n.
Proof. intros [K1 K2] H. apply referenced_in in H. destruct H as [[l H]|[p H]]; [eapply K1, H|eapply K2, H]. Qed.

Lemma goto_reference sv fs p k v f pos r ac : served sv -> fs_canon fs p = inl k -> fget k (pj_files (sv_project sv)) = Some v -> pf_file v = Some f ->
  file_at f pos = Some (AtReference r) -> pf_ctx v = Some ac ->
  goto_definition fs (FileUri p) pos sv = Done (option_map (fun n => (FileUri (wt_source (nd_name n)), wt_span (nd_name n))) (get_referenced ac r)).
Proof.
  intros Hs Hc Hg Hf Hr Ha. unfold goto_definition, find_at_pos, get_node_position, get_analysis, get_file. cbn [to_file_path]. rewrite Hc, Hg, Hf, Hr, Ha.
  destruct (get_referenced ac r) as [n|] eqn:E; cbn [option_map]; [|reflexivity].
  assert (K : known n). { eapply referenced_known; [|exact E]. eapply (si_ctx _ (served_inv _ Hs)); eassumption. }
  destruct K as (q & text & Hq & Ho). rewrite (proj2 (origin_tok _ _ _ Ho)), (from_absolute _ Hq). reflexivity.
Qed.

(** The answer is the place of the name of the node the reference means, in the file and in the text where it was written. Never a panic. *)
Theorem C50_definition : forall sv fs p k v f pos r, served sv -> fs_canon fs p = inl k -> fget k (pj_files (sv_project sv)) = Some v ->
  pf_file v = Some f -> file_at f pos = Some (AtReference r) ->
  exists fs0 pj0 h ds h' es, elements fs0 pj0 (fl_source f) (pf_type v) [] [] h (fl_elements f) ds h' es
    /\ (forall n, meant ds r n -> exists q text, origin n q text /\ tok_at text q (wt_tok (nd_name n))
          /\ goto_definition fs (FileUri p) pos sv = Done (Some (FileUri q, wt_span (nd_name n))))
    /\ ((forall n, ~ meant ds r n) -> goto_definition fs (FileUri p) pos sv = Done None).
Proof.
  intros sv fs p k v f pos r Hs Hc Hg Hf Hr. pose proof (served_inv _ Hs) as Hi.
  destruct (si_tree _ Hi k v f Hg Hf) as [_ (fs0 & pj0 & h & ac & es & Hp & Hctx & Ha)].
  destruct (referenced_iff _ _ _ _ _ _ _ Hp Ha) as (ds & h' & es' & El & Hm). exists fs0, pj0, h, ds, h', es'. split; [exact El|].
  rewrite (goto_reference sv fs p k v f pos r ac Hs Hc Hg Hf Hr Hctx). split.
  - intros n Hn. apply Hm in Hn. rewrite Hn. cbn [option_map].
    destruct (referenced_known ac r n (si_ctx _ Hi k v ac Hg Hctx) Hn) as (q & text & _ & Ho). destruct (origin_tok _ _ _ Ho) as [T1 T2].
    exists q, text. split; [exact Ho|]. split; [exact T1|]. rewrite T2. reflexivity.
  - intros Hn. destruct (get_referenced ac r) as [n|] eqn:E; [|reflexivity]. exfalso. apply (Hn n), Hm, E.
Qed.
Print Assumptions C50_definition.
(** no request for a definition panics *)
Theorem C50_no_panic : forall sv fs u pos, served sv -> exists a, goto_definition fs u pos sv = Done a.
Proof.
  intros sv fs u pos Hs. destruct u as [p|s]; [|eexists; reflexivity].
  unfold goto_definition. cbn [to_file_path]. unfold find_at_pos, get_node_position, get_analysis, get_file.
  destruct (fs_canon fs p) as [k|e]; [|eexists; reflexivity].
  destruct (m_get str_eq_dec k (pj_files (sv_project sv))) as [v|] eqn:Hg; [|eexists; reflexivity].
  destruct (pf_file v) as [f|]; [|eexists; reflexivity]. destruct (file_at f pos) as [it|]; [|eexists; reflexivity]. destruct it as [r|w|i]; try (eexists; reflexivity).
  - destruct (pf_ctx v) as [ac|] eqn:Hctx; [|eexists; reflexivity]. destruct (get_referenced ac r) as [n|] eqn:E; cbn [option_map]; [|eexists; reflexivity].
    destruct (referenced_known ac r n (si_ctx _ (served_inv _ Hs) k v ac Hg Hctx) E) as (q & text & Hq & Ho).
    rewrite (proj2 (origin_tok _ _ _ Ho)), (from_absolute _ Hq). eexists. reflexivity.
  - destruct (include_path fs i) as [q|e]; [|eexists; reflexivity]. destruct (from_file_path q); eexists; reflexivity.
Qed.
Print Assumptions C50_no_panic.

Definition ex50 : list (fpath * str) := [(bs "/a.dts", bs ""); (bs "/b.dtsi", bs "/ { m: x { }; };")].
Definition text50 : str := bs "/dts-v1/; /include/ ""/b.dtsi"" / { p = <&l &m &z>; l: n { }; z: q; };".
Definition sv50 : server := unwrap_sv (did_open 5 id_oracle (fun l => l) (mem_fs ex50) (FileUri (bs "/a.dts")) text50 server_new).
Lemma sv50_served : served sv50.
Proof.
  apply (se_open 5 id_oracle (fun l => l) (mem_fs ex50) (FileUri (bs "/a.dts")) text50 server_new);
    [constructor|apply mem_disk; [reflexivity|cbn; lia]|apply id_order_ok|apply id_shuffle|vm_compute; reflexivity|vm_compute; reflexivity].
Qed.
(** on "&l": the name n; on "&m": the name x in the other file; on "&z", which labels a property: nothing *)
Example C50_case :
  goto_definition (mem_fs ex50) (FileUri (bs "/a.dts")) (mkPos 0 40) sv50 = Done (Some (FileUri (bs "/a.dts"), mkSpan (mkPos 0 53) (mkPos 0 54)))
  /\ goto_definition (mem_fs ex50) (FileUri (bs "/a.dts")) (mkPos 0 43) sv50 = Done (Some (FileUri (bs "/b.dtsi"), mkSpan (mkPos 0 7) (mkPos 0 8)))
  /\ goto_definition (mem_fs ex50) (FileUri (bs "/a.dts")) (mkPos 0 46) sv50 = Done None.
Proof. vm_compute. repeat split. Qed.

(** ** C62: go to definition on an include *)
(** exactly: the answer is the included file, but with the range of the directive in the including file *)
Theorem C62_include_exact : forall sv fs p k v f pos i q, fs_canon fs p = inl k -> fget k (pj_files (sv_project sv)) = Some v ->
  pf_file v = Some f -> file_at f pos = Some (AtInclude i) -> include_path fs i = inl q -> canon_absolute fs ->
  goto_definition fs (FileUri p) pos sv = Done (Some (FileUri q, include_span i)).
Proof.
  intros sv fs p k v f pos i q Hc Hg Hf Hi Hq Ha. unfold goto_definition, find_at_pos, get_file. cbn [to_file_path]. rewrite Hc, Hg, Hf, Hi, Hq.
  destruct (include_canon _ _ _ Hq) as [x Hx]. rewrite (from_absolute _ (Ha _ _ Hx)). reflexivity.
Qed.
Print Assumptions C62_include_exact.
(** so the location need not exist in the included file *)
Theorem C62_refuted : exists sv fs p pos q sp w, served sv /\ canon_absolute fs
  /\ goto_definition fs (FileUri p) pos sv = Done (Some (FileUri q, sp)) /\ fget q (pj_files (sv_project sv)) = Some w
  /\ ~ pos_le (span_end sp) (pos_after (pf_text w)).
Proof.
  destruct (fget (bs "/b.dtsi") (pj_files (sv_project sv50))) as [w|] eqn:Ew; [|vm_compute in Ew; discriminate].
  exists sv50, (mem_fs ex50), (bs "/a.dts"), (mkPos 0 20), (bs "/b.dtsi"), (mkSpan (mkPos 0 10) (mkPos 0 29)), w.
  split; [apply sv50_served|]. split; [apply (mem_disk ex50 5); [reflexivity|cbn; lia]|]. split; [vm_compute; reflexivity|]. split; [exact Ew|].
  assert (K : option_map pf_text (fget (bs "/b.dtsi") (pj_files (sv_project sv50))) = Some (bs "/ { m: x { }; };")) by (vm_compute; reflexivity).
  rewrite Ew in K. cbn [option_map] in K. injection K as ->. intros H.
  apply pos_leb_spec in H. vm_compute in H. discriminate.
Qed.
Print Assumptions C62_refuted.

(** ** C64: the answers are about the current texts *)
Definition current (files : list (fpath * pfile)) (n : node) : Prop :=
  exists q v f, fget q files = Some v /\ pf_file v = Some f /\ In n (file_nodes f).
Definition ctx_current (files : list (fpath * pfile)) (c : actx) : Prop :=
  (forall l n, In (l, LNode n) (ac_labels c) -> current files n) /\ (forall p n, In (p, n) (ac_flat c) -> current files n).

Lemma analysed_current files fs pj f ft h ac es : project_ok pj -> analysed fs pj f ft h ac es ->
  (forall i q v c, In (PDirective (AInclude i)) (fl_elements f) -> include_path fs i = inl q -> get_file fs pj q = Some v -> pf_ctx v = Some c -> ctx_current files c) ->
  (forall n, In n (file_nodes f) -> current files n) -> ctx_current files ac.
Proof.
  intros Hp Ha Hc Hn. apply (analysed_spec _ _ _ _ _ _ _ Hp) in Ha. destruct Ha as (ds & h' & A & [N1 N2] & HL & HP).
  inversion A as [ds2 h2 es1 vs rs El _ _]; subst. pose proof (elements_from _ _ _ _ _ _ _ _ _ _ _ El) as F.
  assert (G : forall d, In d ds -> def_from fs pj (fl_elements f) d) by (intros d Hd; destruct (F d Hd) as [[]|K]; exact K).
  split.
  - intros l n H. apply (m_in_get str_eq_dec) in H; [|exact N1]. apply HL in H. destruct H as (pre & d & post & -> & B & _).
    assert (Hd : In d (pre ++ d :: post)) by (apply in_or_app; right; left; reflexivity). specialize (G d Hd).
    inversion B; subst; cbn [def_from] in G.
    + apply Hn. exact G.
    + destruct G as (i & q & v & G0 & G1 & G2 & G3). eapply (proj1 (Hc _ _ _ _ G0 G1 G2 G3)). eassumption.
  - intros p n H. apply (m_in_get npath_eq_dec) in H; [|exact N2]. apply HP in H. destruct H as (pre & d & post & -> & B & _).
    assert (Hd : In d (pre ++ d :: post)) by (apply in_or_app; right; left; reflexivity). specialize (G d Hd).
    inversion B; subst; cbn [def_from] in G.
    + apply Hn. exact G.
    + destruct G as (i & q & v & G0 & G1 & G2 & G3). eapply (proj2 (Hc _ _ _ _ G0 G1 G2 G3)). eassumption.
Qed.
(** if every file is analysed after the files it includes, all contexts are current *)
Lemma ordered_current o fs files order pj' : oracle_ok o -> canon_stable fs -> NoDup order -> (forall k, In k order <-> In k (keys files)) ->
  closed_files fs files -> (forall p q, stored_includes fs files p q -> (idx q order < idx p order)%nat) ->
  (forall k v, fget k files = Some v -> pf_file v = None -> pf_ctx v = None) ->
  analysed_in o fs files [] order pj' ->
  forall k v c, fget k (pj_files pj') = Some v -> pf_ctx v = Some c -> ctx_current (pj_files pj') c.
Proof.
  intros Ho Hst No Hin Hcl Hord Hbare An. pose proof (analysed_source _ _ _ _ _ _ Hin An) as S. destruct An as (A1 & A2 & A3 & A4).
  assert (G : forall k1 k2, order = k1 ++ k2 -> forall k v c, In k k1 -> fget k (pj_files pj') = Some v -> pf_ctx v = Some c -> ctx_current (pj_files pj') c).
  { intros k1. induction k1 as [|k k1 IH] using rev_ind; intros k2 Eo q v c Hq H1 H2; [destruct Hq|].
    rewrite <- app_assoc in Eo. cbn [app] in Eo. apply in_app_or in Hq. destruct Hq as [Hq|[<-|[]]]; [eapply IH; eassumption|].
    pose proof (S k) as Sk. rewrite H1 in Sk. destruct (fget k files) as [w|] eqn:Ew; [|contradiction]. destruct Sk as (_ & Sf & _). destruct (pf_file w) as [f|] eqn:Ef.
    - destruct (A4 k1 k k2 w f Eo Ew Ef) as (pjk & a & a' & ac & es & X1 & X2 & X3 & X4 & X5 & X6 & X7 & X8).
      rewrite H1 in X1. injection X1 as ->. cbn [store_result pf_ctx fst] in H2. injection H2 as <-.
      eapply analysed_current; [exact X5|exists o, a, a'; split; [exact Ho|split; [exact X2|exact X3]]| |].
      + intros i x y z Y1 Y2 Y3 Y4. assert (Hs : stored_includes fs files k x) by (exists w, f, i; auto).
        assert (Hx : In x k1).
        { pose proof (Hord _ _ Hs) as O2. rewrite Eo in O2, No. rewrite (idx_split k1 k k2 No) in O2.
          assert (Hqo : In x (k1 ++ k :: k2)) by (rewrite <- Eo; apply Hin, (Hcl _ _ Hs)).
          destruct (idx_in x _ Hqo) as (N1 & _ & _). rewrite nth_error_app1 in N1 by exact O2. eapply nth_error_In, N1. }
        unfold get_file in Y3. destruct (include_canon fs i x Y2) as [t Ht]. rewrite (Hst t x Ht), (X7 x Hx) in Y3. eapply IH; eassumption.
      + intros n Hn. exists k, (store_result (ac, es) w), f. auto.
    - rewrite (A3 k w Ew Ef) in H1. injection H1 as <-. rewrite (Hbare k w Ew Ef) in H2. discriminate. }
  intros k v c H1 H2. assert (Hk : In k order) by (apply Hin; rewrite <- A1; eapply m_get_key, H1).
  eapply (G order []); [rewrite app_nil_r; reflexivity|exact Hk|exact H1|exact H2].
Qed.

(** Missing for the full claim: deeper includes and partially shared files (C38), where it is false. *)
Theorem C64_flat_partial : forall fuel o ok fs p text sv sv', served sv -> disk fs fuel -> canon_stable fs -> order_ok o -> shuffle ok -> valid_utf8 text = true ->
  did_open fuel o ok fs (FileUri p) text sv = Done sv' -> two_level fs (pj_files (sv_project sv')) ->
  forall u k v f pos r q sp, fs_canon fs u = inl k -> fget k (pj_files (sv_project sv')) = Some v -> pf_file v = Some f -> file_at f pos = Some (AtReference r) ->
  goto_definition fs (FileUri u) pos sv' = Done (Some (FileUri q, sp)) ->
  exists w n, fget q (pj_files (sv_project sv')) = Some w /\ origin n q (pf_text w) /\ sp = wt_span (nd_name n) /\ tok_at (pf_text w) q (wt_tok (nd_name n)).
Proof.
  intros fuel o ok fs p text sv sv' Hs Hd Hst Ho Hk Hv E H2 u k v f pos r q sp Hc Hg Hf Hr Hgo.
  assert (Hs' : served sv') by (eapply se_open; eassumption). destruct Hd as [Ha (l & Hfin & Hl)]. pose proof (served_inv _ Hs) as Hi. pose proof (served_inv _ Hs') as Hi'.
  destruct (si_tree _ Hi' k v f Hg Hf) as [_ (fs0 & pj0 & h & ac & es & _ & Hctx & _)].
  rewrite (goto_reference sv' fs u k v f pos r ac Hs' Hc Hg Hf Hr Hctx) in Hgo.
  destruct (get_referenced ac r) as [n|] eqn:En; cbn [option_map] in Hgo; [|discriminate]. injection Hgo as Eq Es.
  unfold did_open in E. cbn [to_file_path] in E.
  destruct (add_file_with_text fuel o fs p text (file_type_of_path p) (sv_project sv)) as [pj| |] eqn:Ea; cbn [obind] in E; try discriminate.
  apply publish_project in E. cbn [sv_project] in E. rewrite E in *.
  destruct (fs_canon fs p) as [root|e] eqn:Ec; [|unfold add_file_with_text in Ea; rewrite Ec in Ea; discriminate].
  destruct (add_done _ _ _ _ _ _ _ _ _ _ Hfin Hl Ho Ec Hv (si_reached _ Hi) Ea) as (files' & order & L & Hcl & Hko & P & Hp' & _ & _ & A & S).
  pose proof (same_includes fs files' (pj_files pj) S) as SI.
  destruct (key_order_flat o fs files' Ho (li_nodup _ _ _ _ _ _ _ L) Hcl) as (order' & O1 & O2).
  { destruct H2 as [X Y]. split; [intros x y z; rewrite <- !SI; apply X|intros x x' y y'; rewrite <- !SI; apply Y]. }
  assert (order' = order) as -> by congruence.
  assert (Hcur : ctx_current (pj_files pj) ac).
  { eapply (ordered_current (o_an o) fs files' order pj); [apply Ho|exact Hst| | |exact Hcl|exact O2| |exact A|exact Hg|exact Hctx].
    - eapply Permutation_NoDup; [apply Permutation_sym, P|apply L].
    - intros x. split; apply Permutation_in; [exact P|apply Permutation_sym, P].
    - intros x y X1 X2. pose proof (load_keeps _ _ _ _ _ _ _ Hv (reached_inv _ (si_reached _ Hi)) L) as [_ _ _ B]. exact (proj1 (B x y X1 X2)). }
  assert (Hn : current (pj_files pj) n).
  { apply referenced_in in En. destruct En as [[l' En]|[l' En]]; [exact (proj1 Hcur _ _ En)|exact (proj2 Hcur _ _ En)]. }
  destruct Hn as (q' & w & g & W1 & W2 & W3). destruct (si_tree _ Hi' q' w g W1 W2) as [(dirs & s & T1 & T2) _].
  assert (Hor : origin n q' (pf_text w)) by (exists dirs, g, s; auto). destruct (origin_tok _ _ _ Hor) as [T3 T4].
  assert (q' = q) as -> by congruence. exists w, n. auto.
Qed.
Print Assumptions C64_flat_partial.

(** the claim is false for deeper includes: b includes c, c includes d; after a change of d, b is analysed before c *)
Definition ex64 : list (fpath * str) :=
  [(bs "/b.dts", bs "/dts-v1/; /include/ ""/c.dtsi"" / { p = <&l>; };"); (bs "/c.dtsi", bs "/include/ ""/d.dtsi"""); (bs "/d.dtsi", bs "/ { l: n { }; };")].
Definition by3 (x y z : nat) (l : list (fpath * pfile)) : list (fpath * pfile) :=
  match l with [a; b; c] => map (fun i => nth i [a; b; c] a) [x; y; z] | _ => l end.
Definition orders (f : list (fpath * pfile) -> list (fpath * pfile)) (g : list (fpath * list fpath) -> list (fpath * list fpath)) : oracle :=
  mkPOracle f g (mkOracle (fun _ _ l => l) (fun _ l => l)).
Lemma by3_perm x y z : Permutation [x; y; z] [0%nat; 1%nat; 2%nat] -> forall l, Permutation (by3 x y z l) l.
Proof.
  intros H l. destruct l as [|a [|b [|c [|d l]]]]; try apply Permutation_refl. unfold by3.
  apply (Permutation_map (fun i => nth i [a; b; c] a) H).
Qed.
Lemma orders_ok f g : (forall l, Permutation (f l) l) -> (forall l, Permutation (g l) l) -> order_ok (orders f g).
Proof. intros Hf Hg. repeat split; intros; cbn; auto using Permutation_refl. Qed.
(** the hash map of the project is iterated in the order c, b, d both times *)
Definition o64a : oracle := orders (by3 1 0 2) (fun l => rev l).
Definition o64b : oracle := orders (by3 2 1 0) (fun l => l).
Lemma o64a_ok : order_ok o64a.
Proof. apply orders_ok; [apply by3_perm; constructor|intros l; apply Permutation_sym, Permutation_rev]. Qed.
Lemma o64b_ok : order_ok o64b.
Proof.
  apply orders_ok; [apply by3_perm|intros l; apply Permutation_refl]. apply (Permutation_trans (l' := [1%nat; 2%nat; 0%nat])); [constructor|].
  apply (Permutation_trans (l' := [1%nat; 0%nat; 2%nat])); [apply perm_skip, perm_swap|apply perm_swap].
Qed.
Definition sv64a : server :=
  unwrap_sv (did_open 5 o64a (fun l => l) (mem_fs ex64) (FileUri (bs "/b.dts")) (bs "/dts-v1/; /include/ ""/c.dtsi"" / { p = <&l>; };") server_new).
Definition sv64b : server := unwrap_sv (did_change 5 o64b (fun l => l) (mem_fs ex64) (FileUri (bs "/d.dtsi")) [bs "/ {            l: n { }; };"] sv64a).
Lemma sv64_served : served sv64b.
Proof.
  apply (se_change 5 o64b (fun l => l) (mem_fs ex64) (FileUri (bs "/d.dtsi")) [bs "/ {            l: n { }; };"] sv64a);
    [|apply mem_disk; [reflexivity|cbn; lia]|apply o64b_ok|apply id_shuffle|repeat constructor|vm_compute; reflexivity].
  apply (se_open 5 o64a (fun l => l) (mem_fs ex64) (FileUri (bs "/b.dts")) (bs "/dts-v1/; /include/ ""/c.dtsi"" / { p = <&l>; };") server_new);
    [constructor|apply mem_disk; [reflexivity|cbn; lia]|apply o64a_ok|apply id_shuffle|vm_compute; reflexivity|vm_compute; reflexivity].
Qed.
Theorem C64_refuted : exists sv fs u pos q sp w, served sv /\ goto_definition fs (FileUri u) pos sv = Done (Some (FileUri q, sp))
  /\ fget q (pj_files (sv_project sv)) = Some w /\ (forall n, origin n q (pf_text w) -> sp <> wt_span (nd_name n)).
Proof.
  destruct (fget (bs "/d.dtsi") (pj_files (sv_project sv64b))) as [w|] eqn:Ew; [|vm_compute in Ew; discriminate].
  exists sv64b, (mem_fs ex64), (bs "/b.dts"), (mkPos 0 40), (bs "/d.dtsi"), (mkSpan (mkPos 0 7) (mkPos 0 8)), w.
  split; [apply sv64_served|]. split; [vm_compute; reflexivity|]. split; [exact Ew|].
  assert (K : option_map pf_text (fget (bs "/d.dtsi") (pj_files (sv_project sv64b))) = Some (bs "/ {            l: n { }; };")) by (vm_compute; reflexivity).
  rewrite Ew in K. cbn [option_map] in K. assert (K2 : pf_text w = bs "/ {            l: n { }; };") by (injection K as K; exact K). rewrite K2. intros n (dirs & f & s & _ & Ep & Hn).
  assert (Ed : exists f0 s0, parse_text dirs (bs "/ {            l: n { }; };") (bs "/d.dtsi") = ROk f0 s0 /\ map (fun m => wt_span (nd_name m)) (file_nodes f0)
     = [mkSpan (mkPos 0 0) (mkPos 0 1); mkSpan (mkPos 0 18) (mkPos 0 19)]) by (do 2 eexists; split; vm_compute; reflexivity).
  destruct Ed as (f0 & s0 & E1 & E2). rewrite Ep in E1. injection E1 as <- <-.
  apply (in_map (fun m => wt_span (nd_name m))) in Hn. rewrite E2 in Hn. intros X. cbv beta in Hn. rewrite <- X in Hn. destruct Hn as [Hn|[Hn|[]]]; discriminate.
Qed.
Print Assumptions C64_refuted.
Lemma sv50_includes p q : stored_includes (mem_fs ex50) (pj_files (sv_project sv50)) p q <-> p = bs "/a.dts" /\ q = bs "/b.dtsi".
Proof.
  assert (N : NoDup (keys (pj_files (sv_project sv50)))) by apply (pi_nodup _ (reached_inv _ (si_reached _ (served_inv _ sv50_served)))).
  assert (T : map (fun kv => (fst kv, targets_of (mem_fs ex50) (snd kv))) (pj_files (sv_project sv50)) = [(bs "/a.dts", [bs "/b.dtsi"]); (bs "/b.dtsi", [])]) by (vm_compute; reflexivity).
  rewrite (stored_by_table _ _ _ N T). clear. split.
  - intros (l & A & B). destruct A as [A|[A|[]]]; injection A as <- <-; cbn [In] in B;
      repeat (destruct B as [<-|B]; [auto|]); contradiction.
  - intros [-> ->]. eexists. split; [left; reflexivity|left; reflexivity].
Qed.
Example C64_case : two_level (mem_fs ex50) (pj_files (sv_project sv50)) /\ canon_stable (mem_fs ex50).
Proof.
  split; [split|].
  - intros p q r H1 H2. apply sv50_includes in H1, H2. destruct H1 as [_ ->], H2 as [H2 _]. discriminate.
  - intros p p' q q' H1 H2 H3. apply sv50_includes in H1, H2, H3. apply sv50_includes. tauto.
  - intros x p H. unfold mem_fs in *. cbn [fs_canon] in *. destruct (m_mem str_eq_dec x _) eqn:E; [|discriminate]. injection H as <-. rewrite E. reflexivity.
Qed.

(** ** C65: hover *)
Theorem C65_hover : forall sv fs p k v f pos r, served sv -> fs_canon fs p = inl k -> fget k (pj_files (sv_project sv)) = Some v ->
  pf_file v = Some f -> file_at f pos = Some (AtReference r) ->
  (hover fs (FileUri p) pos sv = None /\ goto_definition fs (FileUri p) pos sv = Done None)
  \/ exists n q text, origin n q text /\ hover fs (FileUri p) pos sv = Some (bs "Node " ++ nn_name (wt_item (nd_name n)))
       /\ goto_definition fs (FileUri p) pos sv = Done (Some (FileUri q, wt_span (nd_name n))).
Proof.
  intros sv fs p k v f pos r Hs Hc Hg Hf Hr. pose proof (served_inv _ Hs) as Hi.
  destruct (si_tree _ Hi k v f Hg Hf) as [_ (fs0 & pj0 & h & ac & es & Hp & Hctx & Ha)].
  rewrite (goto_reference sv fs p k v f pos r ac Hs Hc Hg Hf Hr Hctx).
  unfold hover, find_at_pos, document_reference, get_analysis, get_file. cbn [to_file_path]. rewrite Hc, Hg, Hf, Hr, Hctx.
  destruct (get_referenced ac r) as [n|] eqn:E; cbn [option_map]; [right|left; auto].
  destruct (referenced_known ac r n (si_ctx _ Hi k v ac Hg Hctx) E) as (q & text & _ & Ho). exists n, q, text. split; [exact Ho|]. split; [reflexivity|].
  rewrite (proj2 (origin_tok _ _ _ Ho)). reflexivity.
Qed.
Print Assumptions C65_hover.
Example C65_case : hover (mem_fs ex50) (FileUri (bs "/a.dts")) (mkPos 0 43) sv50 = Some (bs "Node x")
  /\ hover (mem_fs ex50) (FileUri (bs "/a.dts")) (mkPos 0 46) sv50 = None.
Proof. vm_compute. split; reflexivity. Qed.

(** On a label the hover shows the label and there is no definition, on an include it shows the name of the file,
    away from labels, references and includes there is neither. *)
From Verif Require Import PropsVisitor.
Theorem C65_spots : forall sv fs p k v f pos pre e post x, served sv -> fs_canon fs p = inl k -> fget k (pj_files (sv_project sv)) = Some v ->
  pf_file v = Some f -> fl_elements f = pre ++ e :: post -> Forall (fun e => blind e = None) pre -> In x (primary_spots e) -> on_spot pos x ->
  match x with
  | SLabel l => hover fs (FileUri p) pos sv = Some (wt_item l) /\ goto_definition fs (FileUri p) pos sv = Done None
  | SInclude i => hover fs (FileUri p) pos sv = Some (wt_item (in_file_name i))
  | SRef r => file_at f pos = Some (AtReference (wt_item r))
  end.
Proof.
  intros sv fs p k v f pos pre e post x Hs Hc Hg Hf El Hb Hx Hon. pose proof (served_inv _ Hs) as Hi.
  destruct (si_tree _ Hi k v f Hg Hf) as [(dirs & s & Hv & E) _].
  pose proof (C45_complete_partial _ _ _ _ _ _ _ _ _ _ Hv E El Hb Hx Hon) as H.
  unfold hover, goto_definition, find_at_pos, get_file. cbn [to_file_path]. rewrite Hc, Hg, Hf, H.
  destruct x; cbn [spot_item]; auto.
Qed.
Print Assumptions C65_spots.
Theorem C65_elsewhere : forall sv fs p k v f pos, served sv -> fs_canon fs p = inl k -> fget k (pj_files (sv_project sv)) = Some v ->
  pf_file v = Some f -> Forall (fun e => blind e = None) (fl_elements f) -> (forall x, In x (file_spots f) -> ~ on_spot pos x) ->
  hover fs (FileUri p) pos sv = None /\ goto_definition fs (FileUri p) pos sv = Done None.
Proof.
  intros sv fs p k v f pos Hs Hc Hg Hf Hb Hx.
  assert (H : file_at f pos = None) by (unfold file_at; rewrite (sighted_first _ _ Hb); apply first_none; exact Hx).
  unfold hover, goto_definition, find_at_pos, get_file. cbn [to_file_path]. rewrite Hc, Hg, Hf, H. auto.
Qed.
Print Assumptions C65_elsewhere.
(** [text50] has an include, a reference and a label; nothing comes before them that hides them *)
Example C65_spots_case : exists v f, fget (bs "/a.dts") (pj_files (sv_project sv50)) = Some v /\ pf_file v = Some f
  /\ Forall (fun e => blind e = None) (fl_elements f) /\ length (file_spots f) = 6%nat.
Proof. eexists _, _. split; [vm_compute; reflexivity|]. split; [vm_compute; reflexivity|]. split; [vm_compute; repeat constructor|vm_compute; reflexivity]. Qed.
