(** C96: the editor and the command line tool report the same *)
From Verif Require Import Parser Cli NameProofs ParserBase ProjectSpec ProjectProofs ProjectProofs2 ProjectOrder ProjectHistory PropsProject PropsProject2 PropsProject3 PropsGoto PropsHistory
  Server ServerProofs PropsServer PropsServed PropsOrder PropsCli Tests.
From Coq Require Import Permutation Wf_nat Operators_Properties Relation_Operators.

(** every file of the project has the text and the type it has on disk: nothing is unsaved *)
Definition on_disk (fs : fsys) (pj : project) : Prop :=
  forall k v, fget k (pj_files pj) = Some v -> read_to_string fs k = inl (pf_text v) /\ pf_type v = file_type_of_path k.

(** ** What the tool holds *)
Lemma tool_run fs u fuel o file dirs pj : finite_fs fs u -> (length u < fuel)%nat -> order_ok o -> canon_stable fs ->
  add_file fuel o fs file (set_include_paths fs dirs project_new) = Done (inr pj) ->
  exists root text, fs_canon fs file = inl root /\ read_to_string fs root = inl text /\ valid_utf8 text = true /\ fs_canon fs root = inl root
    /\ add_file_with_text fuel o fs root text (file_type_of_path root) (set_include_paths fs dirs project_new) = Done pj
    /\ on_disk fs pj /\ (forall k, In k (keys (pj_files pj)) -> reaches fs pj root k).
Proof.
  intros Hf Hl Ho Hst E. unfold add_file in E.
  destruct (fs_canon fs file) as [root|e] eqn:Ec; [|discriminate]. destruct (read_to_string fs root) as [text|e] eqn:Er; [|discriminate].
  destruct (add_file_with_text fuel o fs root text (file_type_of_path root) _) as [pj2| |] eqn:E2; try discriminate. cbn [obind] in E. injection E as ->.
  pose proof (Hst _ _ Ec) as Hc. pose proof (proj1 (read_valid fs root text Er)) as Hv.
  exists root, text. split; [reflexivity|]. split; [exact Er|]. split; [exact Hv|]. split; [exact Hc|]. split; [exact E2|].
  assert (Hp : reached (set_include_paths fs dirs project_new)) by (repeat constructor).
  destruct (add_done _ _ _ _ _ _ _ _ _ _ Hf Hl Ho Hc Hv Hp E2) as (files' & order & L & Hcl & _ & _ & _ & _ & _ & (A & _) & S).
  pose proof (same_includes fs _ _ S) as SI. split.
  - intros k v Hk. specialize (S k). rewrite Hk in S. destruct (fget k files') as [w|] eqn:Ew; [|contradiction]. destruct S as (_ & _ & S2 & S3).
    assert (Hin : In k (keys files')) by (eapply m_get_key, Ew). apply (li_keys _ _ _ _ _ _ _ L) in Hin. destruct Hin as [[]|Hld].
    destruct (str_eq_dec k root) as [->|Hne].
    + destruct (li_root _ _ _ _ _ _ _ L) as (w' & X & (T1 & T2 & _)). rewrite Ew in X. injection X as <-. split; [rewrite S3, T1; exact Er|congruence].
    + destruct (li_new _ _ _ _ _ _ _ L k Hld Hne) as (_ & t & w' & X & Y & (T1 & T2 & _)). rewrite Ew in Y. injection Y as <-. split; [rewrite S3, T1; exact X|congruence].
  - intros k Hk. rewrite A in Hk. apply (li_keys _ _ _ _ _ _ _ L) in Hk. destruct Hk as [[]|Hld].
    induction Hld as [|p q Hp' IH Hi Hn Hr]; [apply rt_refl|]. eapply rt_trans; [exact IH|]. apply rt_step.
    apply SI. destruct Hi as (t & f & s & i & Ht & Ep & Hin & Ei).
    assert (W : exists w, fget p files' = Some w /\ stored fs (pj_incl (set_include_paths fs dirs project_new)) root [] p t (pf_type w) w).
    { unfold text_of in Ht. destruct (str_eq_dec p root) as [->|Hne].
      - injection Ht as <-. destruct (li_root _ _ _ _ _ _ _ L) as (w & X & Y). exists w. split; [exact X|]. destruct Y as (Y1 & Y2 & Y3). unfold stored. auto.
      - destruct (li_new _ _ _ _ _ _ _ L p Hp' Hne) as (_ & t' & w & X & X2 & Y). rewrite X in Ht. injection Ht as <-. exists w. split; [exact X2|].
        destruct Y as (Y1 & Y2 & Y3). unfold stored. auto. }
    destruct W as (w & W1 & (_ & _ & _ & _ & [(f' & s' & Z1 & Z2 & _)|(d & s' & Z1 & _)])); [|congruence].
    rewrite Ep in Z1. injection Z1 as <- <-. exists w, f, i. auto.
Qed.
Lemma same_disk fs dirs pj1 pj2 k : session fs dirs pj1 -> session fs dirs pj2 -> closed_files fs (pj_files pj1) -> closed_files fs (pj_files pj2) ->
  on_disk fs pj1 -> on_disk fs pj2 -> In k (keys (pj_files pj1)) -> In k (keys (pj_files pj2)) -> same_view fs pj1 pj2 k.
Proof.
  intros Z1 Z2 C1 C2 D1 D2 K1 K2 q Hq.
  assert (G : In q (keys (pj_files pj1)) /\ In q (keys (pj_files pj2))).
  { apply clos_rt_rtn1 in Hq. induction Hq as [|p q Hpq _ [I1 I2]]; [auto|]. split; [exact (C1 _ _ Hpq)|]. apply (C2 p).
    destruct Hpq as (v & f & i & Hv & Hf & Hi). change (m_get str_eq_dec p (pj_files pj1)) with (fget p (pj_files pj1)) in Hv.
    apply (m_get_some_key str_eq_dec) in I2. destruct I2 as [w Hw]. exists w, f, i. split; [exact Hw|]. split; [|exact Hi].
    destruct (D1 _ _ Hv) as [A1 A2], (D2 _ _ Hw) as [B1 B2].
    assert (S : same_source v w) by (apply (by_text_eq fs dirs pj1 pj2 p v w Z1 Z2 Hv Hw); congruence). destruct S as (_ & S & _). congruence. }
  destruct G as [I1 I2]. apply (m_get_some_key str_eq_dec) in I1, I2. destruct I1 as [v Hv], I2 as [w Hw]. exists v, w. split; [exact Hv|]. split; [exact Hw|].
  destruct (D1 _ _ Hv) as [A1 A2], (D2 _ _ Hw) as [B1 B2]. split; congruence.
Qed.

(** ** C96 *)
(** Nothing is unsaved and the editor knows the file: for every file the tool prints, the editor shows exactly the diagnostics printed.
    As for C71, files are analysed behind their includes and no opened label is ambiguous. *)
Theorem C96_tool_partial : forall fs dirs sv dbg fuel o ofiles file root text status out,
  canon_stable fs -> edited_in_order fs dirs sv -> on_disk fs (sv_project sv) ->
  disk fs fuel -> order_ok o -> (forall l, Permutation (ofiles l) l) ->
  fs_canon fs file = inl root -> In root (keys (pj_files (sv_project sv))) -> read_to_string fs root = inl text ->
  in_order fuel o fs root text (file_type_of_path root) (set_include_paths fs dirs project_new) ->
  (forall pj, add_file fuel o fs file (set_include_paths fs dirs project_new) = Done (inr pj) -> unambiguous_files fs pj) ->
  cli_main dbg fuel o ofiles fs dirs file = Done (status, out) ->
  exists files pages tail, In root (map fst files)
    /\ Forall2 (fun kv => Forall2 (block dbg (snd kv)) (pf_diags (snd kv))) files pages
    /\ out = concat (map page pages) ++ tail /\ (tail = [] \/ tail = bs "OK; No issues found" ++ [cNL])
    /\ Forall (fun kv => client_view (sv_sent sv) (FileUri (fst kv)) = map shown (pf_diags (snd kv))) files.
Proof.
  intros fs dirs sv dbg fuel o ofiles file root text status out Hst He Hd [_ (l & Hf & Hl)] Ho Hof Hc Hin Hr Hord Hu Ec.
  destruct (C61_all_printed _ _ _ _ _ _ _ _ _ Ec) as [(e & E & _)|(pj & pages & tail & E & P1 & P2 & P3)].
  { exfalso. unfold add_file in E. rewrite Hc, Hr in E. destruct (add_file_with_text _ _ _ _ _ _ _); discriminate E. }
  destruct (tool_run fs l fuel o file dirs pj Hf Hl Ho Hst E) as (root' & text' & Q1 & Q2 & Q3 & Q4 & Q5 & Q6 & Q7).
  assert (root' = root) as -> by congruence. assert (text' = text) as -> by congruence.
  assert (U1 : updated_in_order fs dirs pj).
  { exists l, fuel, o, root, root, text, (file_type_of_path root), (set_include_paths fs dirs project_new). split; [constructor|]. auto 10. }
  destruct (edited_in_order_updated _ _ _ He) as [U2 V2].
  pose proof (updated_closed _ _ _ (in_order_updated _ _ _ U1)) as C1. pose proof (updated_closed _ _ _ (in_order_updated _ _ _ U2)) as C2.
  pose proof (updated_session _ _ _ (in_order_updated _ _ _ U1)) as Z1. pose proof (updated_session _ _ _ (in_order_updated _ _ _ U2)) as Z2.
  exists (ofiles (pj_files pj)), pages, tail.
  assert (Hroot : In root (keys (pj_files pj))).
  { assert (Hp : reached (set_include_paths fs dirs project_new)) by (repeat constructor).
    apply (C36_closure _ _ _ _ _ _ _ _ _ _ Hf Hl Ho Q4 Q3 Hp Q5). right. constructor. }
  split; [eapply Permutation_in; [apply Permutation_sym, Permutation_map, Hof|exact Hroot]|]. split; [exact P1|]. split; [exact P2|]. split; [exact P3|].
  apply Forall_forall. intros [k v] Hk. cbn [fst snd]. eapply Permutation_in in Hk; [|apply Hof].
  pose proof (reached_inv _ (session_reached _ _ _ Z1)) as I1.
  assert (Hv : fget k (pj_files pj) = Some v) by (apply m_in_get; [exact (pi_nodup _ I1)|exact Hk]).
  assert (Hk1 : In k (keys (pj_files pj))) by (eapply m_get_key, Hv).
  pose proof (same_disk fs dirs pj (sv_project sv) root Z1 Z2 C1 C2 Q6 Hd Hroot Hin) as Sr.
  destruct (Sr k (Q7 k Hk1)) as (_ & w & _ & Hw & _). assert (Hk2 : In k (keys (pj_files (sv_project sv)))) by (eapply m_get_key, Hw).
  assert (Hck : fs_canon fs k = inl k).
  { destruct (str_eq_dec k root) as [->|Hne]; [exact Q4|]. specialize (Q7 k Hk1). apply clos_rt_rtn1 in Q7. destruct Q7 as [|p k Hpk _]; [contradiction|].
    destruct Hpk as (? & ? & i & _ & _ & _ & Hi). destruct (include_canon _ _ _ Hi) as [y Hy]. exact (Hst _ _ Hy). }
  pose proof (same_disk fs dirs pj (sv_project sv) k Z1 Z2 C1 C2 Q6 Hd Hk1 Hk2) as Sk.
  destruct (C75_local_partial fs dirs pj (sv_project sv) k k Hst U1 U2 Sk) as [Eq _]; [|exact Hck|].
  - intros q v0 f _ A B C. exact (Hu pj E q v0 f A B C).
  - rewrite (V2 k Hk2), <- Eq. f_equal. unfold get_diagnostics, get_file. rewrite Hck. change (m_get str_eq_dec k (pj_files pj)) with (fget k (pj_files pj)). rewrite Hv. reflexivity.
Qed.
Print Assumptions C96_tool_partial.

(** A fresh connection that opens the file with the text it has on disk holds the very project the tool prints, for each order of the
    hash maps, if the name it is opened by has the ending of the file itself *)
Theorem C96_opened : forall fs dirs fuel o ok file root text sv, canon_stable fs -> fs_canon fs file = inl root -> read_to_string fs root = inl text ->
  file_type_of_path file = file_type_of_path root ->
  did_open fuel o ok fs (FileUri file) text (initialize fs dirs server_new) = Done sv ->
  add_file fuel o fs file (set_include_paths fs dirs project_new) = Done (inr (sv_project sv)).
Proof.
  intros fs dirs fuel o ok file root text sv Hst Hc Hr Ht E. unfold did_open in E. cbn [to_file_path] in E.
  destruct (add_file_with_text fuel o fs file text (file_type_of_path file) _) as [pj| |] eqn:Ea; cbn [obind] in E; try discriminate.
  apply publish_project in E. cbn [sv_project] in E. subst pj. unfold add_file. rewrite Hc, Hr, <- Ht.
  cbn [initialize sv_project server_new] in Ea.
  replace (add_file_with_text fuel o fs root text (file_type_of_path file) (set_include_paths fs dirs project_new))
    with (add_file_with_text fuel o fs file text (file_type_of_path file) (set_include_paths fs dirs project_new)).
  - rewrite Ea. reflexivity.
  - unfold add_file_with_text. rewrite Hc, (Hst _ _ Hc). reflexivity.
Qed.
Print Assumptions C96_opened.

(** without this condition they differ: a link that ends in .dtsi to a source *)
Definition text96 : str := bs "/ { };".
Definition fs96 : fsys :=
  mkFs (fun p => if str_eqb p (bs "/l.dtsi") then inl (bs "/a.dts") else if str_eqb p (bs "/a.dts") then inl p else inr (bs "not found"))
       (fun p => if str_eqb p (bs "/a.dts") then inl text96 else inr (bs "not found")).
Theorem C96_refuted : exists fs dirs fuel o ok file text sv pj v, canon_stable fs /\ disk fs fuel /\ order_ok o /\ shuffle ok
  /\ fs_canon fs file = inl (bs "/a.dts") /\ read_to_string fs (bs "/a.dts") = inl text
  /\ did_open fuel o ok fs (FileUri file) text (initialize fs dirs server_new) = Done sv
  /\ add_file fuel o fs file (set_include_paths fs dirs project_new) = Done (inr pj)
  /\ fget (bs "/a.dts") (pj_files pj) = Some v /\ pf_diags v <> [] /\ client_view (sv_sent sv) (FileUri (bs "/a.dts")) = [].
Proof.
  exists fs96, [], 5%nat, id_oracle, (fun l => l), (bs "/l.dtsi"), text96. do 3 eexists.
  split; [|split; [|split; [apply id_order_ok|split; [intros x; apply Permutation_refl|]]]].
  - intros x p. unfold fs96. cbn [fs_canon]. destruct (str_eqb x (bs "/l.dtsi")) eqn:E1; [intros H; injection H as <-; reflexivity|].
    destruct (str_eqb x (bs "/a.dts")) eqn:E2; [|discriminate]. intros H. injection H as <-. rewrite E1, E2. reflexivity.
  - split.
    + intros x p. unfold fs96. cbn [fs_canon]. destruct (str_eqb x (bs "/l.dtsi")); [intros H; injection H as <-; eexists; reflexivity|].
      destruct (str_eqb x (bs "/a.dts")) eqn:E2; [|discriminate]. apply str_eqb_spec in E2. intros H. injection H as <-. subst x. eexists. reflexivity.
    + exists [bs "/a.dts"]. split; [|cbn; lia]. intros x p t _. unfold fs96. cbn [fs_read]. destruct (str_eqb p (bs "/a.dts")) eqn:E2; [|discriminate].
      apply str_eqb_spec in E2. subst p. intros _. left. reflexivity.
  - split; [reflexivity|]. split; [reflexivity|]. split; [vm_compute; reflexivity|]. split; [vm_compute; reflexivity|].
    split; [vm_compute; reflexivity|]. split; [discriminate|]. vm_compute. reflexivity.
Qed.
Print Assumptions C96_refuted.

(** ** Case *)
(** two sources that include a file; the editor has both open, the tool is run on one of them *)
Definition a96 : str := bs "/dts-v1/; /include/ ""/c.dtsi"" / { p = <&l &m>; };".
Definition z96 : str := bs "/dts-v1/; /include/ ""/c.dtsi"" / { q = <&n>; };".
Definition ex96 : list (fpath * str) := [(bs "/a.dts", a96); (bs "/c.dtsi", bs "/ { l: d { e = <1> } };"); (bs "/z.dts", z96)].
Definition fs96c : fsys := mem_fs ex96.
Definition unwrap_or {A} (x : A) (r : outcome A) : A := match r with Done a => a | _ => x end.
Definition sv96a : server := unwrap_or server_new (did_open 5 id_oracle (fun l => l) fs96c (FileUri (bs "/z.dts")) z96 (initialize fs96c [] server_new)).
Definition sv96 : server := unwrap_or server_new (did_open 5 id_oracle (fun l => l) fs96c (FileUri (bs "/a.dts")) a96 sv96a).
Definition out96 : N * str := unwrap_or (0, []) (cli_main false 5 rev_oracle (fun l => l) fs96c [] (bs "/a.dts")).
Example C96_case : canon_stable fs96c /\ edited_in_order fs96c [] sv96 /\ on_disk fs96c (sv_project sv96) /\ disk fs96c 5
  /\ In (bs "/a.dts") (keys (pj_files (sv_project sv96)))
  /\ in_order 5 rev_oracle fs96c (bs "/a.dts") a96 DtSource (set_include_paths fs96c [] project_new)
  /\ (forall pj, add_file 5 rev_oracle fs96c (bs "/a.dts") (set_include_paths fs96c [] project_new) = Done (inr pj) -> unambiguous_files fs96c pj)
  /\ cli_main false 5 rev_oracle (fun l => l) fs96c [] (bs "/a.dts") = Done out96 /\ length (snd out96) <> 0%nat
  /\ length (client_view (sv_sent sv96) (FileUri (bs "/a.dts"))) = 2%nat.
Proof.
  assert (St : canon_stable fs96c).
  { intros x p H. unfold fs96c, mem_fs in *. cbn [fs_canon] in *. destruct (m_mem str_eq_dec x _) eqn:E; [|discriminate]. injection H as <-. rewrite E. reflexivity. }
  assert (Dk : disk fs96c 5).
  { split; [|exists (m_keys ex96); split; [apply mem_fs_finite|cbn; lia]]. intros x p H. unfold fs96c, mem_fs in H. cbn [fs_canon] in H.
    destruct (m_mem str_eq_dec x ex96) eqn:E; [|discriminate]. injection H as <-. apply m_mem_spec in E. cbn in E. destruct E as [<-|[<-|[<-|[]]]]; eexists; reflexivity. }
  assert (Sh : shuffle (fun l => l)) by (intros l; apply Permutation_refl).
  split; [exact St|]. split; [|split; [|split; [exact Dk|]]].
  - exists 5%nat, id_oracle, (fun l => l), (bs "/a.dts"), (bs "/a.dts"), a96, sv96a. split; [|split; [exact Dk|split; [apply id_order_ok|split; [exact Sh|]]]].
    + apply (co_open fs96c [] 5 id_oracle (fun l => l) (FileUri (bs "/z.dts")) z96 (initialize fs96c [] server_new)); [constructor|exact Dk|apply id_order_ok|exact Sh|reflexivity|vm_compute; reflexivity].
    + split; [reflexivity|]. split; [vm_compute; reflexivity|]. split; [apply in_orderb_ok; vm_compute; reflexivity|]. left. vm_compute. reflexivity.
  - assert (B : forallb (fun kv => match read_to_string fs96c (fst kv) with inl t => str_eqb t (pf_text (snd kv)) | inr _ => false end
        && match pf_type (snd kv), file_type_of_path (fst kv) with DtSource, DtSource | DtSourceInclude, DtSourceInclude => true | _, _ => false end)
        (pj_files (sv_project sv96)) = true) by (vm_compute; reflexivity).
    rewrite forallb_forall in B. intros k v Hk. apply m_get_in in Hk. specialize (B _ Hk). cbn [fst snd] in B. apply andb_prop in B. destruct B as [B1 B2].
    clear - B1 B2. revert B1. generalize (read_to_string fs96c k). intros [t|t] B1; [|discriminate B1]. apply str_eqb_spec in B1. subst t. split; [reflexivity|].
    destruct (pf_type v), (file_type_of_path k); try reflexivity; discriminate B2.
  - split; [vm_compute; tauto|]. split; [apply in_orderb_ok; vm_compute; reflexivity|]. split; [|split; [vm_compute; reflexivity|split; [vm_compute; discriminate|vm_compute; reflexivity]]].
    intros pj H. apply plain_unambiguous.
    assert (X : match add_file 5 rev_oracle fs96c (bs "/a.dts") (set_include_paths fs96c [] project_new) with Done (inr pj) => plain_files pj | _ => false end = true) by (vm_compute; reflexivity).
    rewrite H in X. exact X.
Qed.
