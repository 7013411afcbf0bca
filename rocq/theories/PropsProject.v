(** Properties of projects: C35 to C41 *)
From Verif Require Export ProjectHistory Tests.

(** ** C35: termination, each file parsed at most once *)
Lemma inc_loop_mono fs r1 r2 : (forall p t ft c x, r1 p t ft c = x -> x <> NoFuel -> r2 p t ft c = x) ->
  forall is ds c x, inc_loop fs r1 is ds c = x -> x <> NoFuel -> inc_loop fs r2 is ds c = x.
Proof.
  intros H. induction is as [|i is IH]; intros ds c x E Hx; cbn [inc_loop] in *; [exact E|].
  destruct (include_path fs i) as [p|e]; [|apply IH; assumption]. destruct (m_mem str_eq_dec p c); [apply IH; assumption|].
  destruct (read_to_string fs p) as [t|e]; [|apply IH; assumption].
  destruct (r1 p t (file_type_of_path p) c) as [c'| |] eqn:E1; cbn [obind] in E.
  - rewrite (H _ _ _ _ _ E1) by discriminate. cbn [obind]. apply IH; assumption.
  - rewrite (H _ _ _ _ _ E1) by discriminate. exact E.
  - congruence.
Qed.
(** more fuel gives the same result *)
Lemma parse_mono fl fs incl : forall p t ft c x, parse_file fl fs incl p t ft c = x -> x <> NoFuel ->
  parse_file (S fl) fs incl p t ft c = x.
Proof.
  induction fl as [|fl IH]; intros p t ft c x E Hx; [cbn in E; congruence|].
  rewrite parse_file_unfold in E. rewrite parse_file_unfold.
  destruct (parse_text (include_dirs incl p) t p) as [f s|d s| |]; try exact E.
  destruct (inc_loop fs (parse_file fl fs incl) (includes_of f) (ps_diags s) (m_insert str_eq_dec p pf_default c)) as [[ds c']| |] eqn:E1;
    cbn [obind] in E.
  - rewrite (inc_loop_mono fs _ _ IH _ _ _ _ E1) by discriminate. exact E.
  - rewrite (inc_loop_mono fs _ _ IH _ _ _ _ E1) by discriminate. exact E.
  - exfalso. apply Hx. symmetry. exact E.
Qed.
Lemma add_mono n m o fs name text ft pj r : (n <= m)%nat -> add_file_with_text n o fs name text ft pj = r -> r <> NoFuel ->
  add_file_with_text m o fs name text ft pj = r.
Proof.
  intros H. induction H as [|m H IH]; intros E Hr; [exact E|]. specialize (IH E Hr). unfold add_file_with_text in *.
  destruct (fs_canon fs name) as [p|e]; [|exact IH].
  destruct (parse_file m fs (pj_incl pj) p text ft (pj_files pj)) as [c| |] eqn:E1; cbn [obind] in IH.
  - rewrite (parse_mono _ _ _ _ _ _ _ _ E1) by discriminate. exact IH.
  - rewrite (parse_mono _ _ _ _ _ _ _ _ E1) by discriminate. exact IH.
  - congruence.
Qed.

(** With some depth [n] of the recursion the addition ends, and with every larger one it ends in the same way;
    the parser was called for each loaded file once and for no other file. *)
Theorem C35_terminates : forall fs u o name text ft pj, finite_fs fs u -> reached pj -> order_ok o -> valid_utf8 text = true ->
  exists n r, r <> NoFuel /\ forall fuel, (n <= fuel)%nat -> add_file_with_text fuel o fs name text ft pj = r.
Proof.
  intros fs u o name text ft pj Hf Hp Ho Hv. apply reached_inv in Hp. exists (S (length u)).
  destruct (fs_canon fs name) as [root|e] eqn:Ec.
  - destruct (add_spec fs u (S (length u)) o name root text ft pj Hf (Nat.lt_succ_diag_r _) Ho Ec Hv Hp) as (files' & _ & H).
    assert (K : exists r, add_file_with_text (S (length u)) o fs name text ft pj = r /\ r <> NoFuel).
    { destruct H as [[_ H]|(_ & order & pj' & H & _)]; rewrite H; eexists; (split; [reflexivity|discriminate]). }
    destruct K as (r & K1 & K2). exists r. split; [exact K2|]. intros fuel Hl. eapply add_mono; eassumption.
  - exists Panic. split; [discriminate|]. intros fuel _. unfold add_file_with_text. rewrite Ec. reflexivity.
Qed.
Print Assumptions C35_terminates.

Theorem C35_parsed_once : forall fs u fuel incl root text ft files, finite_fs fs u -> (length u < fuel)%nat -> valid_utf8 text = true ->
  NoDup (keys files) ->
  exists files' log, parse_file_log fs incl fuel root text ft files = Done (files', log)
    /\ parse_file fuel fs incl root text ft files = Done files'
    /\ NoDup log /\ forall k, In k log <-> loaded fs incl root text (keys files) k.
Proof.
  intros fs u fuel incl root text ft files Hf Hl Hv Hn.
  destruct (load_inv_holds fs u fuel incl root text ft files Hf Hv Hl Hn) as (files' & E & L).
  pose proof (log_erase fs incl fuel root text ft files) as G. rewrite E in G. unfold no_log in G.
  destruct (parse_file_log fs incl fuel root text ft files) as [[f2 log]| |] eqn:El; try discriminate. cbn [obind] in G.
  injection G as ->. exists files', log. split; [reflexivity|]. split; [exact E|].
  destruct (log_spec _ _ _ _ _ _ _ _ _ El) as (K & rest & -> & N & F). split; [exact N|].
  intros k. split.
  - intros [<-|Hk]; [constructor|]. assert (Hk' : In k (keys files')) by (apply K; right; right; exact Hk).
    apply (li_keys _ _ _ _ _ _ _ L) in Hk'. destruct Hk' as [Hk'|Hk']; [destruct (F k Hk Hk')|exact Hk'].
  - intros Hk. destruct (str_eq_dec k root) as [->|Hne]; [left; reflexivity|].
    destruct (li_new _ _ _ _ _ _ _ L k Hk Hne) as (Hnk & t & v & _ & Hg & _). apply m_get_key in Hg. apply K in Hg.
    destruct Hg; [contradiction|assumption].
Qed.
Print Assumptions C35_parsed_once.

Lemma mem_fs_finite l : finite_fs (mem_fs l) (m_keys l).
Proof.
  intros x p t H1 H2. cbn in H1, H2. destruct (m_get str_eq_dec p l) as [y|] eqn:E; [|discriminate]. eapply m_get_key, E.
Qed.
Lemma id_order_ok : order_ok id_oracle.
Proof. repeat split; intros; apply Permutation_refl. Qed.

(** two files that include each other *)
Definition ex35 : list (fpath * str) :=
  [(bs "/a.dts", bs "/dts-v1/; /include/ ""/b.dtsi"""); (bs "/b.dtsi", bs "/include/ ""/a.dts"" /include/ ""/b.dtsi""")].
Example C35_case : exists pj files', add_file_with_text 3 id_oracle (mem_fs ex35) (bs "/a.dts") (bs "/dts-v1/; /include/ ""/b.dtsi""") DtSource project_new = Done pj
  /\ m_keys (pj_files pj) = [bs "/a.dts"; bs "/b.dtsi"]
  /\ parse_file_log (mem_fs ex35) [] 3 (bs "/a.dts") (bs "/dts-v1/; /include/ ""/b.dtsi""") DtSource [] = Done (files', [bs "/a.dts"; bs "/b.dtsi"])
  /\ (length (m_keys ex35) < 3)%nat.
Proof. do 2 eexists. split; [vm_compute; reflexivity|]. split; [vm_compute; reflexivity|]. split; [vm_compute; reflexivity|]. cbn. lia. Qed.

(** ** C36: the include closure *)
Lemma add_done_at fs u fuel o name root text ft pj pj' : finite_fs fs u -> (length u < fuel)%nat -> order_ok o ->
  fs_canon fs name = inl root -> valid_utf8 text = true -> reached pj -> add_file_with_text fuel o fs name text ft pj = Done pj' ->
  exists files' order, parse_file fuel fs (pj_incl pj) root text ft (pj_files pj) = Done files'
    /\ load_inv fs (pj_incl pj) root text ft (pj_files pj) files' /\ closed_files fs files'
    /\ compute_key_order o fs files' = Done order /\ Permutation order (keys files') /\ project_inv pj'
    /\ pj_incl pj' = pj_incl pj /\ pj_sev pj' = pj_sev pj /\ analysed_in (o_an o) fs files' [] order pj'
    /\ (forall k, match fget k (pj_files pj'), fget k files' with
                  | Some v, Some w => same_source v w
                  | None, None => True
                  | _, _ => False
                  end).
Proof.
  intros Hf Hl Ho Hc Hv Hp E. apply reached_inv in Hp.
  destruct (load_inv_holds fs u fuel (pj_incl pj) root text ft (pj_files pj) Hf Hv Hl (pi_nodup pj Hp)) as (files' & P & L).
  destruct (add_spec_at fs fuel o name root text ft pj files' Ho Hc Hv Hp P L) as [[_ X]|(Hcl & order & pj2 & X & Y)]; [congruence|].
  rewrite E in X. injection X as <-. exists files', order. split; [exact P|]. split; [exact L|]. split; [exact Hcl|].
  destruct Y as (Y1 & Y2 & Y3 & Y4 & Y5 & Y6). repeat (split; [assumption|]).
  eapply analysed_source; [|exact Y6]. intros k. split; apply Permutation_in; [exact Y2|apply Permutation_sym, Y2].
Qed.
Lemma add_done fs u fuel o name root text ft pj pj' : finite_fs fs u -> (length u < fuel)%nat -> order_ok o ->
  fs_canon fs name = inl root -> valid_utf8 text = true -> reached pj -> add_file_with_text fuel o fs name text ft pj = Done pj' ->
  exists files' order, load_inv fs (pj_incl pj) root text ft (pj_files pj) files' /\ closed_files fs files'
    /\ compute_key_order o fs files' = Done order /\ Permutation order (keys files') /\ project_inv pj'
    /\ pj_incl pj' = pj_incl pj /\ pj_sev pj' = pj_sev pj /\ analysed_in (o_an o) fs files' [] order pj'
    /\ (forall k, match fget k (pj_files pj'), fget k files' with
                  | Some v, Some w => same_source v w
                  | None, None => True
                  | _, _ => False
                  end).
Proof.
  intros Hf Hl Ho Hc Hv Hp E. destruct (add_done_at _ _ _ _ _ _ _ _ _ _ Hf Hl Ho Hc Hv Hp E) as (files' & order & _ & X).
  exists files', order. exact X.
Qed.

Theorem C36_closure : forall fs u fuel o name root text ft pj pj', finite_fs fs u -> (length u < fuel)%nat -> order_ok o ->
  fs_canon fs name = inl root -> valid_utf8 text = true -> reached pj -> add_file_with_text fuel o fs name text ft pj = Done pj' ->
  forall k, In k (keys (pj_files pj')) <-> In k (keys (pj_files pj)) \/ loaded fs (pj_incl pj) root text (keys (pj_files pj)) k.
Proof.
  intros fs u fuel o name root text ft pj pj' Hf Hl Ho Hc Hv Hp E k.
  destruct (add_done _ _ _ _ _ _ _ _ _ _ Hf Hl Ho Hc Hv Hp E) as (files' & order & L & _ & _ & _ & _ & _ & _ & A & _).
  destruct A as (A & _). rewrite A. apply L.
Qed.
Print Assumptions C36_closure.

(** reachability in the file system, without a project *)
Inductive include_closure (fs : fsys) (incl : list fpath) (root : fpath) (text : str) : fpath -> Prop :=
| ic_root : include_closure fs incl root text root
| ic_step p q : include_closure fs incl root text p -> includes fs incl root text p q -> readable fs q ->
    include_closure fs incl root text q.
Theorem C36_from_empty : forall fs u fuel o name root text ft dirs pj', finite_fs fs u -> (length u < fuel)%nat -> order_ok o ->
  fs_canon fs name = inl root -> valid_utf8 text = true ->
  add_file_with_text fuel o fs name text ft (set_include_paths fs dirs project_new) = Done pj' ->
  forall k, In k (keys (pj_files pj')) <-> include_closure fs (pj_incl pj') root text k.
Proof.
  intros fs u fuel o name root text ft dirs pj' Hf Hl Ho Hc Hv E k.
  assert (Hp : reached (set_include_paths fs dirs project_new)) by (repeat constructor).
  rewrite (C36_closure _ _ _ _ _ _ _ _ _ _ Hf Hl Ho Hc Hv Hp E).
  destruct (add_done _ _ _ _ _ _ _ _ _ _ Hf Hl Ho Hc Hv Hp E) as (files' & order & _ & _ & _ & _ & _ & -> & _).
  cbn [set_include_paths pj_files pj_incl project_new m_keys map]. split.
  - intros [[]|H]. induction H as [|p q H1 IH H2 H3 H4]; econstructor; eassumption.
  - intros H. right. induction H as [|p q H1 IH H2 H3]; [constructor|]. econstructor; eauto.
Qed.
Print Assumptions C36_from_empty.

(** [add_file] reads the text; the canonical form of a canonical path is the path itself *)
Definition canon_stable (fs : fsys) : Prop := forall x p, fs_canon fs x = inl p -> fs_canon fs p = inl p.
Theorem C36_add_file : forall fs u fuel o name dirs pj', finite_fs fs u -> (length u < fuel)%nat -> order_ok o -> canon_stable fs ->
  add_file fuel o fs name (set_include_paths fs dirs project_new) = Done (inr pj') ->
  exists root text, fs_canon fs name = inl root /\ read_to_string fs root = inl text
    /\ forall k, In k (keys (pj_files pj')) <-> include_closure fs (pj_incl pj') root text k.
Proof.
  intros fs u fuel o name dirs pj' Hf Hl Ho Hs E. unfold add_file in E.
  destruct (fs_canon fs name) as [root|e] eqn:Ec; [|discriminate]. destruct (read_to_string fs root) as [text|e] eqn:Er; [|discriminate].
  exists root, text. split; [reflexivity|]. split; [exact Er|].
  destruct (add_file_with_text fuel o fs root text (file_type_of_path root) _) as [pj2| |] eqn:E2; try discriminate.
  cbn [obind] in E. injection E as ->. exact (C36_from_empty fs u fuel o root root text _ dirs pj' Hf Hl Ho (Hs _ _ Ec) (proj1 (read_valid fs root text Er)) E2).
Qed.
Print Assumptions C36_add_file.

(** an include that does not resolve, a chain of two found in an include directory, an unused file *)
Definition ex36 : list (fpath * str) :=
  [(bs "/d/a.dts", bs "/dts-v1/; /include/ ""b.dtsi"" /include/ ""x.dtsi""");
   (bs "/i/b.dtsi", bs "/include/ ""c.dtsi"""); (bs "/i/c.dtsi", bs ""); (bs "/i/unused.dtsi", bs "")].
Example C36_case : exists pj, add_file 5 id_oracle (mem_fs ((bs "/i", [255]) :: ex36)) (bs "/d/a.dts")
   (set_include_paths (mem_fs ((bs "/i", [255]) :: ex36)) [bs "/i"] project_new) = Done (inr pj)
  /\ m_keys (pj_files pj) = [bs "/d/a.dts"; bs "/i/b.dtsi"; bs "/i/c.dtsi"]
  /\ pj_incl pj = [bs "/i"]
  /\ canon_stable (mem_fs ((bs "/i", [255]) :: ex36)).
Proof.
  eexists. split; [vm_compute; reflexivity|]. split; [vm_compute; reflexivity|]. split; [vm_compute; reflexivity|].
  intros x p H. unfold mem_fs in *. cbn [fs_canon] in *. destruct (m_mem str_eq_dec x _) eqn:E; [|discriminate]. injection H as <-. rewrite E. reflexivity.
Qed.

(** ** C37: panics *)
Lemma load_includes fs incl root text ft files files' : valid_utf8 text = true -> load_inv fs incl root text ft files files' ->
  forall p q, stored_includes fs files' p q <->
    (loaded fs incl root text (keys files) p /\ includes fs incl root text p q) \/ (p <> root /\ stored_includes fs files p q).
Proof.
  intros Hv L p q. pose proof (load_cases _ _ _ _ _ _ _ Hv L) as K. split.
  - intros (v & f & i & H1 & H2 & H3 & H4). destruct (K p v H1) as [[Hne H]|(Hl & t & ft' & _ & Ht & S)].
    + right. split; [exact Hne|]. exists v, f, i. auto.
    + left. split; [exact Hl|]. destruct S as (_ & _ & _ & _ & [(g & s & S1 & S2 & _)|(d & s & _ & S2 & _)]); [|congruence].
      exists t, f, s, i. assert (g = f) as -> by congruence. auto.
  - intros [[Hl (t & f & s & i & H1 & H2 & H3 & H4)]|[Hne (v & f & i & H1 & H2 & H3 & H4)]].
    + assert (G : exists v ft', fget p files' = Some v /\ stored fs incl root (keys files) p t ft' v).
      { destruct (str_eq_dec p root) as [->|Hne].
        - rewrite text_of_root in H1. injection H1 as <-. destruct (li_root _ _ _ _ _ _ _ L) as (v & A & B). exists v, ft. auto.
        - destruct (li_new _ _ _ _ _ _ _ L p Hl Hne) as (_ & t' & v & A & B & C).
          rewrite (text_of_other fs root text p t' Hne A) in H1. injection H1 as <-. exists v, (file_type_of_path p). auto. }
      destruct G as (v & ft' & G & (_ & _ & _ & _ & [(g & s' & S1 & S2 & _)|(d & s' & S1 & _)])); [|congruence].
      rewrite H2 in S1. injection S1 as <- <-. exists v, f, i. auto.
    + exists v, f, i. split; [|auto]. rewrite (li_frame _ _ _ _ _ _ _ L p); [exact H1| |exact Hne]. eapply m_get_key, H1.
Qed.

(** Adding an existing file panics exactly if some file, one of those parsed now or one of the others, has an
    include that resolves but is neither in the project nor parsed now. *)
Theorem C37_panic_exact : forall fs u fuel o name root text ft pj, finite_fs fs u -> (length u < fuel)%nat -> order_ok o ->
  fs_canon fs name = inl root -> valid_utf8 text = true -> reached pj ->
  let old := keys (pj_files pj) in
  let new := loaded fs (pj_incl pj) root text old in
  add_file_with_text fuel o fs name text ft pj = Panic <->
  exists p q, ((new p /\ includes fs (pj_incl pj) root text p q) \/ (p <> root /\ stored_includes fs (pj_files pj) p q))
    /\ ~ In q old /\ ~ new q.
Proof.
  intros fs u fuel o name root text ft pj Hf Hl Ho Hc Hv Hp old new. apply reached_inv in Hp.
  destruct (add_spec fs u fuel o name root text ft pj Hf Hl Ho Hc Hv Hp) as (files' & L & H).
  pose proof (load_includes _ _ _ _ _ _ _ Hv L) as I. fold old new in I.
  assert (K : (exists p q, ((new p /\ includes fs (pj_incl pj) root text p q) \/ (p <> root /\ stored_includes fs (pj_files pj) p q))
    /\ ~ In q old /\ ~ new q) -> ~ closed_files fs files').
  { intros (p & q & A & B & C) Hcl. apply I in A. apply Hcl in A. apply (li_keys _ _ _ _ _ _ _ L) in A. destruct A; contradiction. }
  destruct H as [[H1 H2]|(H1 & order & pj' & H2 & _)]; rewrite H2; split; try discriminate; try (intros X; destruct (K X H1)).
  - intros _.
    (* the includes of the files are finitely many: find the one that is missing *)
    assert (Dec : forall l : list (fpath * fpath), (forall p q, In (p, q) l -> In q (keys files')) \/ exists p q, In (p, q) l /\ ~ In q (keys files')).
    { induction l as [|[p q] l IH]; [left; intros p q []|]. destruct (in_dec str_eq_dec q (keys files')) as [Hq|Hq].
      - destruct IH as [IH|(p' & q' & IH1 & IH2)].
        + left. intros p' q' [E|E]; [injection E as <- <-; exact Hq|eapply IH, E].
        + right. exists p', q'. split; [right; exact IH1|exact IH2].
      - right. exists p, q. split; [left; reflexivity|exact Hq]. }
    destruct (Dec (flat_map (fun kv => map (pair (fst kv)) (targets_of fs (snd kv))) files')) as [D|(p & q & D1 & D2)].
    + exfalso. apply H1. intros p q Hpq. apply stored_includes_in in Hpq; [|apply L]. destruct Hpq as (v & A & B).
      apply (D p q). apply in_flat_map. exists (p, v). split; [exact A|]. apply in_map_iff. exists q. auto.
    + exists p, q. split.
      * apply I. apply stored_includes_in; [apply L|]. apply in_flat_map in D1. destruct D1 as ([k v] & A & B).
        apply in_map_iff in B. destruct B as (x & B1 & B2). cbn [fst snd] in *. injection B1 as <- <-. exists v. auto.
      * split; intros X; apply D2; apply (li_keys _ _ _ _ _ _ _ L); auto.
  - intros X. reflexivity.
Qed.
Print Assumptions C37_panic_exact.

(** the claim in full is false: an include of a path that exists but cannot be read, here because its bytes are
    not UTF-8; the same happens for a directory *)
Definition ex37 : fsys := mem_fs [(bs "/a.dts", bs "/dts-v1/; /include/ ""/b.dtsi"""); (bs "/b.dtsi", [255])].
Theorem C37_refuted : exists fs u fuel o name root text ft pj, finite_fs fs u /\ (length u < fuel)%nat /\ order_ok o
  /\ fs_canon fs name = inl root /\ read_to_string fs root = inl text /\ reached pj
  /\ add_file_with_text fuel o fs name text ft pj = Panic.
Proof.
  exists ex37, [bs "/a.dts"; bs "/b.dtsi"], 3%nat, id_oracle, (bs "/a.dts"), (bs "/a.dts"), (bs "/dts-v1/; /include/ ""/b.dtsi"""), DtSource, project_new.
  split; [apply mem_fs_finite|]. split; [cbn; lia|]. split; [apply id_order_ok|]. split; [vm_compute; reflexivity|].
  split; [vm_compute; reflexivity|]. split; [constructor|]. vm_compute. reflexivity.
Qed.
Print Assumptions C37_refuted.

(** also false for readable files: add a file that includes a second one, remove the second one, add a third one *)
Definition ex37b : fsys :=
  mem_fs [(bs "/a.dts", bs "/dts-v1/; /include/ ""/b.dtsi"""); (bs "/b.dtsi", bs ""); (bs "/c.dts", bs "/dts-v1/;")].
Definition unwrap (r : outcome project) : project := match r with Done pj => pj | _ => project_new end.
Definition ex37_pj : project :=
  unwrap (add_file_with_text 4 id_oracle ex37b (bs "/a.dts") (bs "/dts-v1/; /include/ ""/b.dtsi""") DtSource project_new).
Theorem C37_removal_refuted : exists fs u fuel o name root text ft pj, finite_fs fs u /\ (length u < fuel)%nat /\ order_ok o
  /\ fs_canon fs name = inl root /\ read_to_string fs root = inl text /\ reached pj
  /\ (forall x p, fs_canon fs x = inl p -> readable fs p)
  /\ add_file_with_text fuel o fs name text ft pj = Panic.
Proof.
  exists ex37b, [bs "/a.dts"; bs "/b.dtsi"; bs "/c.dts"], 4%nat, id_oracle, (bs "/c.dts"), (bs "/c.dts"), (bs "/dts-v1/;"), DtSource,
    (remove_file ex37b (bs "/b.dtsi") ex37_pj).
  assert (Hf : finite_fs ex37b [bs "/a.dts"; bs "/b.dtsi"; bs "/c.dts"]) by apply mem_fs_finite.
  split; [exact Hf|]. split; [cbn; lia|]. split; [apply id_order_ok|]. split; [vm_compute; reflexivity|].
  split; [vm_compute; reflexivity|]. split.
  - apply re_remove. eapply (re_add ex37b _ 4 id_oracle (bs "/a.dts") (bs "/dts-v1/; /include/ ""/b.dtsi""") DtSource project_new);
      [constructor|exact Hf|cbn; lia|apply id_order_ok|vm_compute; reflexivity|vm_compute; reflexivity].
  - split; [|vm_compute; reflexivity]. intros x p H. unfold ex37b, mem_fs in H. cbn [fs_canon] in H.
    destruct (m_mem str_eq_dec x _) eqn:E; [|discriminate]. injection H as <-.
    apply (m_mem_spec str_eq_dec) in E. cbn [m_keys map fst In] in E.
    destruct E as [<-|[<-|[<-|[]]]]; eexists; vm_compute; reflexivity.
Qed.
Print Assumptions C37_removal_refuted.

(** [followable]: every include met while adding can be read, is there already, or is the added file *)
Definition followable (fs : fsys) (incl : list fpath) (root : fpath) (text : str) (present : list fpath) : Prop :=
  forall p q, loaded fs incl root text present p -> includes fs incl root text p q -> readable fs q \/ In q present \/ q = root.
(** histories in one file system that add followable files and remove files no other file includes *)
Inductive careful (fs : fsys) : project -> Prop :=
| ca_new : careful fs project_new
| ca_dirs ps pj : careful fs pj -> careful fs (set_include_paths fs ps pj)
| ca_add u fuel o name root text ft pj pj' : careful fs pj -> finite_fs fs u -> (length u < fuel)%nat -> order_ok o ->
    fs_canon fs name = inl root -> valid_utf8 text = true -> followable fs (pj_incl pj) root text (keys (pj_files pj)) ->
    add_file_with_text fuel o fs name text ft pj = Done pj' -> careful fs pj'
| ca_remove p q pj : careful fs pj -> fs_canon fs p = inl q ->
    (forall k, k <> q -> ~ stored_includes fs (pj_files pj) k q) -> careful fs (remove_file fs p pj).
Lemma careful_reached fs pj : careful fs pj -> reached pj.
Proof. induction 1; econstructor; eassumption. Qed.

Lemma same_includes fs files files' : (forall k, match fget k files', fget k files with
                  | Some v, Some w => same_source v w
                  | None, None => True
                  | _, _ => False
                  end) -> forall p q, stored_includes fs files' p q <-> stored_includes fs files p q.
Proof.
  intros H p q. specialize (H p). unfold stored_includes. destruct (fget p files') as [v|], (fget p files) as [w|]; try contradiction.
  - destruct H as (_ & H & _). split; intros (x & f & i & A & B & C & D); injection A as <-;
      [exists w, f, i; rewrite <- H|exists v, f, i; rewrite H]; auto.
  - split; intros (x & f & i & A & _); discriminate.
Qed.
Lemma followable_closed fs incl root text ft files files' : valid_utf8 text = true -> load_inv fs incl root text ft files files' ->
  closed_files fs files -> followable fs incl root text (keys files) -> closed_files fs files'.
Proof.
  intros Hv L Hc Hf p q H. apply (load_includes _ _ _ _ _ _ _ Hv L) in H. apply (li_keys _ _ _ _ _ _ _ L).
  destruct H as [[H1 H2]|[_ H]]; [|left; eapply Hc, H].
  destruct (in_dec str_eq_dec q (keys files)) as [Hq|Hq]; [left; exact Hq|right].
  destruct (str_eq_dec q root) as [->|Hne]; [constructor|].
  destruct (Hf p q H1 H2) as [Hr|[Hr|Hr]]; [|contradiction|contradiction]. econstructor; eassumption.
Qed.
Lemma careful_closed fs pj : careful fs pj -> closed_files fs (pj_files pj).
Proof.
  induction 1 as [|ps pj H IH|u fuel o name root text ft pj pj' H IH Hf Hl Ho Hc Hv Hw E|p q pj H IH Hc Hn].
  - intros p q (v & f & i & A & _). discriminate.
  - exact IH.
  - destruct (add_done _ _ _ _ _ _ _ _ _ _ Hf Hl Ho Hc Hv (careful_reached _ _ H) E)
      as (files' & order & L & Hcl & _ & _ & _ & _ & _ & A & S).
    destruct A as (A & _). intros x y Hxy. rewrite A. apply (Hcl x y), (same_includes _ _ _ S), Hxy.
  - pose proof (remove_get fs p q pj Hc) as R. intros x y (v & f & i & A & B & C & D). rewrite R in A.
    destruct (str_eq_dec x q) as [->|Hne]; [discriminate|].
    assert (Hs : stored_includes fs (pj_files pj) x y) by (exists v, f, i; auto).
    pose proof (IH x y Hs) as Hy. apply (m_get_some_key str_eq_dec) in Hy. destruct Hy as [w Hw].
    assert (Hyq : y <> q) by (intros ->; exact (Hn x Hne Hs)).
    eapply m_get_key. rewrite R. destruct (str_eq_dec y q); [contradiction|exact Hw].
Qed.

(** Missing for the full claim: files that cannot be read, removals of included files, changes of the file system
    between the steps. The first two panic. *)
Theorem C37_no_panic_partial : forall fs u fuel o name root text ft pj, finite_fs fs u -> (length u < fuel)%nat -> order_ok o ->
  fs_canon fs name = inl root -> valid_utf8 text = true -> careful fs pj ->
  followable fs (pj_incl pj) root text (keys (pj_files pj)) ->
  exists pj', add_file_with_text fuel o fs name text ft pj = Done pj' /\ careful fs pj'.
Proof.
  intros fs u fuel o name root text ft pj Hf Hl Ho Hc Hv Hp Hw.
  destruct (add_spec fs u fuel o name root text ft pj Hf Hl Ho Hc Hv (reached_inv _ (careful_reached _ _ Hp))) as (files' & L & H).
  destruct H as [[H _]|(_ & order & pj' & E & _)].
  - exfalso. apply H. eapply followable_closed; try eassumption. apply careful_closed, Hp.
  - exists pj'. split; [exact E|]. econstructor; eassumption.
Qed.
Print Assumptions C37_no_panic_partial.

(** in a file system where every path that exists is a readable file, additions alone never panic *)
Inductive added (fs : fsys) : project -> Prop :=
| ad_new : added fs project_new
| ad_dirs ps pj : added fs pj -> added fs (set_include_paths fs ps pj)
| ad_add u fuel o name text ft pj pj' : added fs pj -> finite_fs fs u -> (length u < fuel)%nat -> order_ok o ->
    valid_utf8 text = true -> add_file_with_text fuel o fs name text ft pj = Done pj' -> added fs pj'.
Theorem C37_additions_partial : forall fs u fuel o name root text ft pj, finite_fs fs u -> (length u < fuel)%nat -> order_ok o ->
  (forall x p, fs_canon fs x = inl p -> readable fs p) ->
  fs_canon fs name = inl root -> valid_utf8 text = true -> added fs pj ->
  exists pj', add_file_with_text fuel o fs name text ft pj = Done pj'.
Proof.
  intros fs u fuel o name root text ft pj Hf Hl Ho Hr Hc Hv Hp.
  assert (F : forall incl root text present, followable fs incl root text present).
  { intros incl r t present p q _ (x & f & s & i & _ & _ & _ & H). left. apply include_canon in H. destruct H as [y H]. exact (Hr y q H). }
  assert (Ca : careful fs pj).
  { clear - Hp F. induction Hp as [|ps pj H IH|u fuel o name text ft pj pj' H IH Hf Hl Ho Hv E]; [constructor|constructor; exact IH|].
    destruct (fs_canon fs name) as [root|e] eqn:Ec; [|unfold add_file_with_text in E; rewrite Ec in E; discriminate].
    econstructor; eauto. }
  destruct (C37_no_panic_partial fs u fuel o name root text ft pj Hf Hl Ho Hc Hv Ca (F _ _ _ _)) as (pj' & E & _). eauto.
Qed.
Print Assumptions C37_additions_partial.

(** a project with an include, then a second file including the same one *)
Definition ex37c : fsys :=
  mem_fs [(bs "/a.dts", bs "/dts-v1/; /include/ ""/b.dtsi"""); (bs "/b.dtsi", bs ""); (bs "/c.dts", bs "/dts-v1/; /include/ ""/b.dtsi""")].
Example C37_case : exists pj, add_file_with_text 4 id_oracle ex37c (bs "/c.dts") (bs "/dts-v1/; /include/ ""/b.dtsi""") DtSource ex37_pj = Done pj
  /\ m_keys (pj_files pj) = [bs "/c.dts"; bs "/a.dts"; bs "/b.dtsi"] /\ added ex37c ex37_pj /\ careful ex37c ex37_pj
  /\ (forall x p, fs_canon ex37c x = inl p -> readable ex37c p).
Proof.
  assert (Hr : forall x p, fs_canon ex37c x = inl p -> readable ex37c p).
  { intros x p H. unfold ex37c, mem_fs in H. cbn [fs_canon] in H.
    destruct (m_mem str_eq_dec x _) eqn:E; [|discriminate]. injection H as <-.
    apply (m_mem_spec str_eq_dec) in E. cbn [m_keys map fst In] in E.
    destruct E as [<-|[<-|[<-|[]]]]; eexists; vm_compute; reflexivity. }
  assert (Hf : finite_fs ex37c [bs "/a.dts"; bs "/b.dtsi"; bs "/c.dts"]) by apply mem_fs_finite.
  eexists. split; [vm_compute; reflexivity|]. split; [vm_compute; reflexivity|].
  assert (E : add_file_with_text 4 id_oracle ex37c (bs "/a.dts") (bs "/dts-v1/; /include/ ""/b.dtsi""") DtSource project_new = Done ex37_pj)
    by (vm_compute; reflexivity).
  split; [|split; [|exact Hr]].
  - eapply (ad_add ex37c _ 4 id_oracle (bs "/a.dts") (bs "/dts-v1/; /include/ ""/b.dtsi""") DtSource project_new);
      [constructor|exact Hf|cbn; lia|apply id_order_ok|vm_compute; reflexivity|exact E].
  - eapply (ca_add ex37c _ 4 id_oracle (bs "/a.dts") (bs "/a.dts") (bs "/dts-v1/; /include/ ""/b.dtsi""") DtSource project_new);
      [constructor|exact Hf|cbn; lia|apply id_order_ok|vm_compute; reflexivity|vm_compute; reflexivity| |exact E].
    intros p q _ (x & f & s & i & _ & _ & _ & H). left. apply include_canon in H. destruct H as [y H]. exact (Hr y q H).
Qed.
