(** C121 A byte order mark does not matter *)
From Verif Require Import Lexer Parser Utf8 Project Visitor Server Cli Session GuardProofs CrLfProject Tests ProjectProofs ProjectProofs2 PropsParser PropsCrLf.
From Coq Require Import Lia List.
Import ListNotations.

(** U+FEFF in UTF-8 *)
Definition bom : str := [239; 187; 191].
Lemma valid_bom rest : valid_utf8 (bom ++ rest) = valid_utf8 rest.
Proof. unfold bom. cbn [app]. apply valid_three; [lia|reflexivity|reflexivity]. Qed.

(** what is said of every such file *)
Definition bom_error (src : fpath) : diag :=
  mkDiag Expected (mkSpan (mkPos 0 0) (mkPos 0 1)) src
    (bs "Expected one of /dts-v1/, /memreserve/, /include/, /delete-node/, /omit-if-no-ref/, '/', reference").

(** Whatever is behind the mark, the parser stops with this one error. *)
Theorem C121_parse : forall incl rest src, exists s, parse_text incl (bom ++ rest) src = RErr (bom_error src) s /\ ps_diags s = [].
Proof. intros incl rest src. eexists. split; vm_compute; reflexivity. Qed.
Print Assumptions C121_parse.

Lemma get_update (k p : fpath) v m : k <> p -> m_get str_eq_dec p (m_update k v m) = m_get str_eq_dec p m.
Proof.
  intros N. induction m as [|[q f] m IH]; [reflexivity|]. unfold m_update in *. cbn [map fst].
  destruct (str_eq_dec k q) as [->|E]; cbn [m_get]; destruct (str_eq_dec p q); congruence.
Qed.
Lemma refused_stays o fs p f keys : forall a pj pj', m_get str_eq_dec p (pj_files pj) = Some f -> pf_file f = None ->
  analyze_keys o fs keys a pj = Done pj' -> m_get str_eq_dec p (pj_files pj') = Some f.
Proof.
  induction keys as [|k keys IH]; intros a pj pj' G F H; cbn [analyze_keys] in H; [injection H as <-; exact G|].
  destruct (m_get str_eq_dec k (pj_files pj)) as [g|] eqn:Gk; [|discriminate].
  destruct (pf_file g) as [file|] eqn:Fg; [|exact (IH _ _ _ G F H)].
  destruct (analyze_file o fs pj file (pf_type g) a) as [[res a']| |]; cbn [obind] in H; try discriminate.
  refine (IH _ _ _ _ F H). cbn. rewrite get_update; [exact G|]. intros ->. congruence.
Qed.

Lemma keys_stay o fs keys : forall a pj pj', analyze_keys o fs keys a pj = Done pj' -> m_keys (pj_files pj') = m_keys (pj_files pj).
Proof.
  induction keys as [|k keys IH]; intros a pj pj' H; cbn [analyze_keys] in H; [injection H as <-; reflexivity|].
  destruct (m_get str_eq_dec k (pj_files pj)) as [g|]; [|discriminate].
  destruct (pf_file g) as [file|]; [|exact (IH _ _ _ H)].
  destruct (analyze_file o fs pj file (pf_type g) a) as [[res a']| |]; cbn [obind] in H; try discriminate.
  rewrite (IH _ _ _ H). cbn. unfold m_update, m_keys. rewrite map_map. apply map_ext. intros [q f].
  cbn. destruct (str_eq_dec k q); reflexivity.
Qed.

(** In a project, in whatever state and next to whatever files: the file has this one diagnostic, nothing in it can be found or referred to, and no file is
    loaded because of it. *)
Theorem C121_project : forall fuel o fs name p rest ft pj pj', fs_canon fs name = inl p -> fs_canon fs p = inl p ->
  add_file_with_text fuel o fs name (bom ++ rest) ft pj = Done pj' ->
  get_diagnostics fs pj' p = [bom_error p]
  /\ get_analysis fs pj' p = None
  /\ (forall c, find_at_pos fs pj' p c = None)
  /\ (forall q, In q (m_keys (pj_files pj')) <-> q = p \/ In q (m_keys (pj_files pj))).
Proof.
  intros fuel o fs name p rest ft pj pj' C C2 H. unfold add_file_with_text in H. rewrite C in H.
  destruct fuel as [|fuel]; [discriminate|]. cbn [parse_file] in H.
  destruct (C121_parse (include_dirs (pj_incl pj) p) rest p) as (s & E & _). rewrite E in H. cbn [obind] in H.
  set (files := m_insert str_eq_dec p (pf_unrecoverable (bom_error p) (bom ++ rest) ft) (pj_files pj)) in *.
  destruct (compute_key_order o fs files) as [keys| |]; cbn [obind] in H; try discriminate.
  assert (G : m_get str_eq_dec p (pj_files pj') = Some (pf_unrecoverable (bom_error p) (bom ++ rest) ft)).
  { refine (refused_stays _ _ _ (pf_unrecoverable (bom_error p) (bom ++ rest) ft) _ _ _ _ _ eq_refl H). apply m_get_insert_eq. }
  split; [unfold get_diagnostics, get_file; rewrite C2, G; reflexivity|].
  split; [unfold get_analysis, get_file; rewrite C2, G; reflexivity|].
  split; [intros c; unfold find_at_pos, get_file; rewrite C2, G; reflexivity|].
  intros q. rewrite (keys_stay _ _ _ _ _ _ H). cbn [set_files pj_files]. subst files. rewrite m_keys_insert. reflexivity.
Qed.
Print Assumptions C121_project.

(** So the claim is false: the tool has no complaint about a file, and one about the same file with the mark. *)
Theorem C121_refuted : exists fs fs' file pj pj',
  (forall p, fs_canon fs' p = fs_canon fs p)
  /\ (forall p, fs_read fs' p = fs_read fs p \/ exists t, fs_read fs p = inl t /\ fs_read fs' p = inl (bom ++ t))
  /\ add_file 9 id_oracle fs file project_new = Done (inr pj) /\ add_file 9 id_oracle fs' file project_new = Done (inr pj')
  /\ get_diagnostics fs pj file = [] /\ get_diagnostics fs' pj' file = [bom_error file].
Proof.
  set (t := bs "/dts-v1/; / { };"). exists (mem_fs [(bs "/a.dts", t)]), (mem_fs [(bs "/a.dts", bom ++ t)]), (bs "/a.dts").
  eexists _, _. split; [|split].
  - intros p. cbn [mem_fs fs_canon]. unfold m_mem. cbn [m_get]. destruct (str_eq_dec p (bs "/a.dts")); reflexivity.
  - intros p. cbn [mem_fs fs_read m_get]. destruct (str_eq_dec p (bs "/a.dts")); [right; exists t; split; reflexivity|left; reflexivity].
  - split; [vm_compute; reflexivity|]. split; [vm_compute; reflexivity|]. split; vm_compute; reflexivity.
Qed.
Print Assumptions C121_refuted.
(** An included file with the mark: its labels are not known, and both files get complaints. *)
Example C121_case : exists pj, let fs := mem_fs [(bs "/a.dts", bs "/dts-v1/; /include/ ""b.dtsi"" &l { };"); (bs "/b.dtsi", bom ++ bs "/ { l: n { }; };")] in
  valid_utf8 (bom ++ bs "/ { l: n { }; };") = true
  /\ add_file 9 id_oracle fs (bs "/a.dts") project_new = Done (inr pj)
  /\ map dg_kind (get_diagnostics fs pj (bs "/a.dts")) = [ErrorsInInclude; UnresolvedReference]
  /\ get_diagnostics fs pj (bs "/b.dtsi") = [bom_error (bs "/b.dtsi")].
Proof. eexists. cbv zeta. split; [reflexivity|]. split; [vm_compute; reflexivity|]. split; vm_compute; reflexivity. Qed.
