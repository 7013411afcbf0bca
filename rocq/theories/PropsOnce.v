(** C88 Missing includes are reported once: they are reported exactly twice *)
From Verif Require Import Parser Kinds AnalysisSpec AnalysisProofs ProjectSpec ProjectProofs2 ProjectHistory PropsAnalysis PropsProject PropsProject2 PropsHistory
  LsMain PropsLs PropsSearch Server ServerProofs PropsServer Tests.

Definition is_io (d : diag) : bool := if error_code_eq_dec (dg_kind d) IOError then true else false.
Lemma is_io_of ds : filter is_io ds = of_kind IOError ds.
Proof. reflexivity. Qed.

Lemma element_io fs pj src ft ps ds h p dp h' es : element fs pj src ft ps ds h p dp h' es -> of_kind IOError es = unfollowed fs p.
Proof.
  intros H. destruct H as [t es H|t|a l|t r|s|i ds' h' es H|t r p found es H1 H2|n|r p found es H1 H2 H3|r H1]; cbn [unfollowed]; try reflexivity.
  - apply of_kind_none. intros d Hd. destruct H; cbn [In] in Hd; intuition (subst; discriminate).
  - destruct H as [e He|p cycle Hp _|p Hp _ _|p f ds' es Hp _ _ _ He]; try rewrite Hp; try rewrite He; try reflexivity.
    destruct He as [[_ ->]|[_ ->]]; reflexivity.
  - apply of_kind_none. intros d Hd E. rewrite (blame_kind _ _ _ _ _ _ H2 Hd) in E. discriminate.
  - apply of_kind_none. intros d Hd E. apply compatible_kind in Hd. rewrite Hd in E. discriminate.
  - apply of_kind_none. intros d Hd E. apply in_app_or in Hd. destruct Hd as [Hd|Hd]; [rewrite (blame_kind _ _ _ _ _ _ H3 Hd) in E|apply compatible_kind in Hd; rewrite Hd in E]; discriminate.
  - apply of_kind_none. intros d Hd E. apply compatible_kind in Hd. rewrite Hd in E. discriminate.
Qed.
Lemma elements_io fs pj src ft l : forall ps ds h ds' h' es, elements fs pj src ft ps ds h l ds' h' es -> of_kind IOError es = flat_map (unfollowed fs) l.
Proof.
  induction l as [|p l IH]; intros ps ds h ds' h' es H.
  - apply elements_nil_inv in H. destruct H as (_ & _ & ->). reflexivity.
  - apply elements_cons_inv in H. destruct H as (dp & h1 & ep & e2 & H1 & H2 & ->). rewrite of_kind_app. cbn [flat_map]. rewrite (element_io _ _ _ _ _ _ _ _ _ _ _ H1), (IH _ _ _ _ _ _ H2). reflexivity.
Qed.
Lemma analysis_io fs pj src ft h l ds h' es : analysis_of fs pj src ft h l ds h' es -> of_kind IOError es = flat_map (unfollowed fs) l.
Proof.
  intros H. destruct H as [ds h' es vs rs H1 H2 H3]. rewrite !of_kind_app, (elements_io _ _ _ _ _ _ _ _ _ _ _ H1).
  assert (E2 : of_kind IOError vs = []) by (destruct H2; reflexivity).
  assert (E3 : of_kind IOError rs = []).
  { apply of_kind_none. intros d Hd E. clear - H3 Hd E. induction H3 as [|r l1 found es es' _ Hb _ IH]; [contradiction Hd|].
    apply in_app_or in Hd. destruct Hd as [Hd|Hd]; [rewrite (blame_kind _ _ _ _ _ _ Hb Hd) in E; discriminate|exact (IH Hd)]. }
  rewrite E2, E3, !app_nil_r. reflexivity.
Qed.

Lemma session_utf8 fs dirs pj : session fs dirs pj -> forall k v, fget k (pj_files pj) = Some v -> valid_utf8 (pf_text v) = true.
Proof.
  induction 1 as [|u fuel o name text ft pj pj' H IH Hf Hl Ho Hv E|p pj H IH].
  - intros k v X. discriminate.
  - destruct (fs_canon fs name) as [root|e] eqn:Ec; [|unfold add_file_with_text in E; rewrite Ec in E; discriminate].
    destruct (add_done _ _ _ _ _ _ _ _ _ _ Hf Hl Ho Ec Hv (session_reached _ _ _ H) E) as (files' & order & L & Hcl & Hk & P & Hp' & Ei & Es & A & S).
    intros k v Hkv. specialize (S k). rewrite Hkv in S. destruct (fget k files') as [w|] eqn:Ew; [|contradiction]. destruct S as (_ & _ & _ & S).
    destruct (load_cases _ _ _ _ _ _ _ Hv L k w Ew) as [[_ X]|(X & t & ft' & Ht & Xt & T1 & T2 & _ & _ & T)]; [rewrite S; exact (IH k w X)|].
    rewrite S, T1. exact Ht.
  - intros k v Hk. destruct (fs_canon fs p) as [q|e] eqn:Ec; [|unfold remove_file in Hk; rewrite Ec in Hk; exact (IH k v Hk)].
    rewrite (remove_get fs p q pj Ec) in Hk. destruct (str_eq_dec k q); [discriminate|]. exact (IH k v Hk).
Qed.
(** The includes of a stored file that cannot be found, in the order of the file, each reported while parsing and once more by the analysis;
    no other diagnostic is an i/o error. *)
Theorem C88_twice : forall fs dirs pj k v f, updated fs dirs pj -> fget k (pj_files pj) = Some v -> pf_file v = Some f ->
  filter is_io (pf_diags v) = flat_map (unfollowed fs) (fl_elements f) ++ flat_map (unfollowed fs) (fl_elements f).
Proof.
  intros fs dirs pj k v f Hu Hk Hf. rewrite is_io_of. pose proof (session_by_text _ _ _ (updated_session _ _ _ Hu)) as (_ & _ & Hb).
  specialize (Hb k v Hk). unfold by_text in Hb.
  pose proof Hu as (u & fuel & o & name & text & ft & pj0 & H1 & H2 & H3 & H4 & H5 & H6).
  pose proof (session_reached _ _ _ H1) as R.
  destruct (fs_canon fs name) as [root|e] eqn:Ec; [|unfold add_file_with_text in H6; rewrite Ec in H6; discriminate].
  destruct (add_done _ _ _ _ _ _ _ _ _ _ H2 H3 H4 Ec H5 R H6) as (files' & order & L & Hcl & Hko & P & Hp' & Ei & Es & A & S).
  unfold pf_diags. rewrite of_kind_app. f_equal.
  - pose proof (session_utf8 _ _ _ (updated_session _ _ _ Hu) k v Hk) as Hv.
    pose proof (parser_kinds (include_dirs (pj_incl pj) k) (pf_text v) k Hv) as K.
    destruct (parse_text _ _ _) as [g s|d s| |]; try contradiction; destruct Hb as [Hg Hp]; [|rewrite Hg in Hf; discriminate].
    rewrite Hf in Hg. injection Hg as <-. rewrite Hp, of_kind_app.
    assert (E0 : of_kind IOError (ps_diags s) = []).
    { apply of_kind_none. intros d Hd E. rewrite Forall_forall in K. specialize (K d Hd). unfold pk in K. rewrite E in K. unfold parser_kind in K. cbn in K. intuition discriminate. }
    rewrite E0. cbn [app]. apply of_kind_all. intros d Hd. apply in_flat_map in Hd. destruct Hd as (p & _ & Hd). unfold unfollowed in Hd.
    destruct p as [[]| | |]; try contradiction. destruct (include_path fs i); [contradiction|]. destruct Hd as [<-|[]]. reflexivity.
  - pose proof (S k) as Sk. rewrite Hk in Sk. destruct (fget k files') as [w|] eqn:Ew; [|contradiction]. destruct Sk as (_ & S2 & _ & _).
    assert (Hin : In k order) by (apply (Permutation_in _ (Permutation_sym P)), (m_get_key _ _ _ _ Ew)).
    apply in_split in Hin. destruct Hin as (k1 & k2 & Eo). destruct A as (_ & _ & _ & A).
    rewrite Hf in S2. destruct (A k1 k k2 w f Eo Ew (eq_sym S2)) as (pjk & a & a' & ac & es & B1 & B2 & B3 & _ & B4 & _).
    rewrite B1 in Hk. injection Hk as <-. cbn [store_result pf_adiags snd].
    destruct (analysed_spec fs pjk f (pf_type w) ([] ++ deps_of fs files' k1) ac es B4) as (ds & h' & C1 & _); [exists (o_an o), a, a'; split; [apply H4|split; assumption]|].
    exact (analysis_io _ _ _ _ _ _ _ _ _ C1).
Qed.
Print Assumptions C88_twice.

(** so the claim is false for every missing include; a witness *)
Theorem C88_refuted : exists sv d, open87 server_new = Done sv /\ client_view (sv_sent sv) (FileUri (bs "/d/a.dts")) = [d; d].
Proof.
  destruct (open87 server_new) as [sv| |] eqn:E; [|vm_compute in E; discriminate E|vm_compute in E; discriminate E].
  exists sv. assert (K : match open87 server_new with Done sv => match client_view (sv_sent sv) (FileUri (bs "/d/a.dts")) with [a; b] => a = b | _ => False end | _ => False end)
    by (vm_compute; reflexivity).
  rewrite E in K. destruct (client_view (sv_sent sv) (FileUri (bs "/d/a.dts"))) as [|a [|b [|c l]]]; try contradiction. subst b. exists a. split; reflexivity.
Qed.
Print Assumptions C88_refuted.
(** the hypotheses of C88_twice are met with two missing includes and one that is there *)
Definition text88 : str := bs "/dts-v1/; /include/ ""x.dtsi"" /include/ ""b.dtsi"" /include/ ""y.dtsi""".
Definition pj88 : project := add71 (bs "/a.dts") text88 DtSource project_new.
Example C88_case : updated (mem_fs ex71) [] pj88
  /\ match fget (bs "/a.dts") (pj_files pj88) with Some v => pf_file v <> None /\ length (filter is_io (pf_diags v)) = 4%nat | None => False end.
Proof.
  split; [apply add71_updated; [apply (se_start (mem_fs ex71) [])|vm_compute; reflexivity|vm_compute; reflexivity]|].
  vm_compute. split; [discriminate|reflexivity].
Qed.
