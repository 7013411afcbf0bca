(** C69: where includes are looked for; C53: the type of included files *)
From Verif Require Import Project ProjectSpec ProjectProofs ProjectProofs2 ProjectHistory PropsProject PropsFiles
  LexerProofs2 TokParser ParserSim.

(** ** Specification *)
(** the path [c] of the name [n] in the directory [d] *)
Inductive joined : fpath -> str -> fpath -> Prop :=
| jo_absolute d n : joined d (cSlash :: n) (cSlash :: n)
| jo_here n : (forall r, n <> cSlash :: r) -> joined [] n n
| jo_slash d n : (forall r, n <> cSlash :: r) -> joined (d ++ [cSlash]) n (d ++ [cSlash] ++ n)
| jo_plain d c n : (forall r, n <> cSlash :: r) -> c <> cSlash -> joined (d ++ [c]) n (d ++ [c; cSlash] ++ n).
(** the first of the directories [dirs], and then the working directory, that has the name [n]; it is the
    file [q] there *)
Inductive first_hit (fs : fsys) (n : str) : list fpath -> fpath -> Prop :=
| fh_cwd q : fs_canon fs n = inl q -> first_hit fs n [] q
| fh_here d dirs c q : joined d n c -> fs_canon fs c = inl q -> first_hit fs n (d :: dirs) q
| fh_later d dirs c e q : joined d n c -> fs_canon fs c = inr e -> first_hit fs n dirs q -> first_hit fs n (d :: dirs) q.
(** the directory of an absolute path *)
Inductive directory : fpath -> fpath -> Prop :=
| di_root b : ~ In cSlash b -> b <> [] -> directory (cSlash :: b) [cSlash]
| di_dir d b : d <> [] -> ~ In cSlash b -> b <> [] -> directory (cSlash :: d ++ [cSlash] ++ b) (cSlash :: d).

(** ** The include directories in the tree *)
Definition gives {A} (R : A -> Prop) (m : TM A) : Prop := forall s, match m s with TOk a _ => R a | _ => True end.
Lemma gives_ret {A} (R : A -> Prop) a : R a -> gives R (t_ret a).
Proof. intros H s. exact H. Qed.
Lemma gives_throw {A} (R : A -> Prop) d : gives R (t_throw d).
Proof. intros s. exact I. Qed.
Lemma gives_bind {A B} (R : A -> Prop) (R' : B -> Prop) m k : gives R m -> (forall a, R a -> gives R' (k a)) -> gives R' (t_bind m k).
Proof.
  intros Hm Hk s. specialize (Hm s). unfold t_bind. destruct (m s) as [a s'|d s'|]; try exact I. exact (Hk a Hm s').
Qed.
Lemma gives_any {A} (m : TM A) : gives (fun _ => True) m.
Proof. intros s. destruct (m s); exact I. Qed.

Section Dirs.
  Context (src : fpath) (incl : list fpath) (rl : position -> list token).
  Definition searches (p : primary) : Prop := forall i, p = PDirective (AInclude i) -> in_paths i = incl.
  Lemma primary_dirs f : gives searches (t_p_primary src incl rl f).
  Proof.
    unfold t_p_primary.
    repeat first
      [ progress intros
      | apply gives_throw
      | match goal with
        | |- gives _ (t_bind (t_include_paths _) _) => apply (gives_bind (fun x => x = incl)); [apply gives_ret; reflexivity|intros ? ->]
        | |- gives _ (t_bind _ _) => apply (gives_bind (fun _ => True)); [apply gives_any|]
        | |- gives _ (match ?x with _ => _ end) => destruct x
        | |- gives _ (t_ret _) => apply gives_ret; intros i E; first [discriminate E | injection E as <-; reflexivity]
        end ].
  Qed.
  Lemma file_dirs f : forall acc, Forall searches acc -> gives (Forall searches) (t_file_loop src incl rl f acc).
  Proof.
    induction f as [|f IH]; intros acc Ha; cbn [t_file_loop]; [intros s; exact I|].
    apply (gives_bind (fun _ => True)); [apply gives_any|]. intros [t|] _; [|apply gives_ret; exact Ha].
    eapply gives_bind; [apply primary_dirs|]. intros p Hp. apply IH. apply Forall_app. auto.
  Qed.
End Dirs.
Lemma parsed_dirs incl text src f s i : valid_utf8 text = true -> parse_text incl text src = ROk f s ->
  In (PDirective (AInclude i)) (fl_elements f) -> in_paths i = incl.
Proof.
  intros Hv E Hi. destruct (tokenize_total text src Hv) as [toks Ht].
  pose proof (parse_sim incl text src toks Hv Ht) as H. rewrite E in H. unfold t_parse, t_p_file in H.
  pose proof (file_dirs src incl (relex text src) (S (S (length text))) [] (Forall_nil _) (mkTS toks [])) as G.
  unfold t_bind, t_source, t_ret in H. destruct (t_file_loop _ _ _ _ _ _) as [els s'|d s'|]; try contradiction.
  destruct H as [-> _]. cbn [fl_elements] in Hi. rewrite Forall_forall in G. exact (G _ Hi i eq_refl).
Qed.

(** ** Resolution *)
Lemma joined_join d n : joined d n (path_join d n).
Proof.
  assert (D : (exists r, n = cSlash :: r) \/ (forall r, n <> cSlash :: r)).
  { destruct n as [|c r]; [right; discriminate|]. destruct (N.eq_dec c cSlash) as [->|H]; [left; eauto|right].
    intros r' E. injection E as E _. contradiction. }
  destruct D as [[r ->]|D]; [apply jo_absolute|].
  assert (E : path_join d n = match d with [] => n | _ => if last d 0 =? cSlash then d ++ n else d ++ [cSlash] ++ n end).
  { unfold path_join. destruct n as [|c r]; [reflexivity|]. destruct (N.eq_dec c 47) as [->|Hc]; [exfalso; exact (D r eq_refl)|].
    destruct c as [|p]; [reflexivity|]. do 6 (destruct p as [p|p|]; try reflexivity). exfalso. apply Hc. reflexivity. }
  rewrite E. clear E.
  destruct d as [|x d] using rev_ind; [apply jo_here; exact D|]. clear IHd.
  rewrite last_last. destruct (d ++ [x]) as [|y l] eqn:E; [destruct d; discriminate|]. rewrite <- E. clear y l E.
  destruct (N.eqb_spec x cSlash) as [->|Hx].
  - rewrite <- app_assoc. apply jo_slash. exact D.
  - rewrite <- app_assoc. apply (jo_plain d x n D Hx).
Qed.
Lemma joined_fun d n c c' : joined d n c -> joined d n c' -> c = c'.
Proof.
  intros H H'. inversion H; subst; inversion H'; subst; try reflexivity;
    try match goal with K : forall r, cSlash :: ?x <> cSlash :: r |- _ => exfalso; exact (K x eq_refl) end;
    try match goal with K : forall r, ?n <> cSlash :: r, E : _ = ?n |- _ => subst n; exfalso; eapply K; reflexivity end;
    try match goal with E : _ ++ [_] = [] |- _ => apply app_eq_nil in E; destruct E; discriminate
                      | E : [] = _ ++ [_] |- _ => symmetry in E; apply app_eq_nil in E; destruct E; discriminate end;
    try match goal with E : _ ++ [_] = _ ++ [_] |- _ => apply app_inj_tail in E; destruct E as [<- E] end;
    try congruence; try reflexivity.
Qed.
Lemma include_path_iff fs i q : include_path fs i = inl q <-> first_hit fs (wt_item (in_file_name i)) (in_paths i) q.
Proof.
  unfold include_path. generalize (wt_item (in_file_name i)) as n. intros n. induction (in_paths i) as [|d l IH]; cbn [resolve_in].
  - split; [intros H; constructor; exact H|intros H; inversion H; assumption].
  - pose proof (joined_join d n) as J. destruct (fs_canon fs (path_join d n)) as [p|e] eqn:E.
    + split.
      * intros H. injection H as <-. eapply fh_here; eassumption.
      * intros H. inversion H; subst;
          match goal with K : joined d n _ |- _ => rewrite (joined_fun _ _ _ _ K J) in * end; congruence.
    + rewrite IH. split; [intros H; eapply fh_later; eassumption|].
      intros H. inversion H; subst;
          match goal with K : joined d n _ |- _ => rewrite (joined_fun _ _ _ _ K J) in * end; congruence.
Qed.
Lemma slash_free b : ~ In cSlash b -> existsb (fun x => x =? cSlash) b = false.
Proof.
  intros H. destruct (existsb _ b) eqn:E; [|reflexivity]. apply existsb_exists in E. destruct E as (x & Hx & E).
  apply N.eqb_eq in E. subst. contradiction.
Qed.
Lemma strip_dir d b : ~ In cSlash b -> strip_last (d ++ [cSlash] ++ b) = d.
Proof.
  intros Hb. induction d as [|c d IH].
  - cbn [app strip_last]. rewrite (slash_free b Hb). reflexivity.
  - cbn [app strip_last] in *. rewrite existsb_app. cbn [existsb]. rewrite orb_true_r. rewrite IH. reflexivity.
Qed.
Lemma parent_directory p d : directory p d -> path_parent p = Some d.
Proof.
  assert (R : forall c l, path_parent (cSlash :: c :: l) = if existsb (fun x => x =? cSlash) (c :: l) then Some (cSlash :: strip_last (c :: l)) else Some [cSlash])
    by reflexivity.
  intros H. inversion H as [b Hb Hn|d' b Hd Hb Hn]; subst.
  - destruct b as [|c b]; [contradiction|]. rewrite R, (slash_free _ Hb). reflexivity.
  - destruct (d' ++ [cSlash] ++ b) as [|c l] eqn:E; [destruct d'; discriminate|]. rewrite R, <- E.
    rewrite existsb_app. cbn [app existsb]. rewrite orb_true_r. f_equal. f_equal. exact (strip_dir d' b Hb).
Qed.

(** An include of a file is looked for beside the file that includes it, then in the include directories in their
    order, then in the working directory; the first hit counts. [p] is any of the files parsed by the addition. *)
Theorem C69_search : forall fs u fuel o name root text ft pj pj', finite_fs fs u -> (length u < fuel)%nat -> order_ok o ->
  fs_canon fs name = inl root -> valid_utf8 text = true -> reached pj -> add_file_with_text fuel o fs name text ft pj = Done pj' ->
  forall p d v f i, loaded fs (pj_incl pj) root text (keys (pj_files pj)) p -> directory p d ->
  fget p (pj_files pj') = Some v -> pf_file v = Some f -> In (PDirective (AInclude i)) (fl_elements f) ->
  forall q, include_path fs i = inl q <-> first_hit fs (wt_item (in_file_name i)) (d :: pj_incl pj) q.
Proof.
  intros fs u fuel o name root text ft pj pj' Hf Hl Ho Hc Hv Hp E p d v f i Hld Hd Hg Hf' Hi q.
  destruct (add_done _ _ _ _ _ _ _ _ _ _ Hf Hl Ho Hc Hv Hp E) as (files' & order & L & _ & _ & _ & _ & _ & _ & _ & S).
  assert (G : exists w t ft', fget p files' = Some w /\ valid_utf8 t = true /\ stored fs (pj_incl pj) root (keys (pj_files pj)) p t ft' w).
  { destruct (str_eq_dec p root) as [->|Hne].
    - destruct (li_root _ _ _ _ _ _ _ L) as (w & A & B). exists w, text, ft. auto.
    - destruct (li_new _ _ _ _ _ _ _ L p Hld Hne) as (_ & t & w & A & B & C). exists w, t, (file_type_of_path p).
      split; [exact B|]. split; [exact (proj1 (read_valid _ _ _ A))|exact C]. }
  destruct G as (w & t & ft' & G & Ht & (_ & _ & _ & _ & B)). specialize (S p). rewrite Hg, G in S. destruct S as (_ & S & _).
  rewrite Hf' in S. destruct B as [(g & s & B1 & B2 & _)|(d' & s & _ & B2 & _)]; [|congruence].
  assert (g = f) as -> by congruence. rewrite include_path_iff, (parsed_dirs _ _ _ _ _ _ Ht B1 Hi).
  unfold include_dirs. rewrite (parent_directory _ _ Hd). reflexivity.
Qed.
Print Assumptions C69_search.

(** The include directories of a project are the given ones in canonical form, in the given order *)
Theorem C69_directories : forall fs dirs pj, (forall d, In d dirs -> exists c, fs_canon fs d = inl c) ->
  Forall2 (fun d c => fs_canon fs d = inl c) dirs (pj_incl (set_include_paths fs dirs pj)).
Proof.
  intros fs dirs pj H. cbn [set_include_paths pj_incl]. induction dirs as [|d dirs IH]; [constructor|].
  cbn [map]. destruct (H d (or_introl eq_refl)) as [c E]. constructor; [rewrite E; reflexivity|].
  apply IH. intros d' Hd. apply H. right. exact Hd.
Qed.
Print Assumptions C69_directories.

(** The type of every file that an addition loads is that of its name; the file that is added has the given type *)
Theorem C53_included : forall fs u fuel o name root text ft pj pj', finite_fs fs u -> (length u < fuel)%nat -> order_ok o ->
  fs_canon fs name = inl root -> valid_utf8 text = true -> reached pj -> add_file_with_text fuel o fs name text ft pj = Done pj' ->
  (exists v, fget root (pj_files pj') = Some v /\ pf_type v = ft)
  /\ forall p, loaded fs (pj_incl pj) root text (keys (pj_files pj)) p -> p <> root ->
     exists v, fget p (pj_files pj') = Some v /\ pf_type v = file_type_of_path p.
Proof.
  intros fs u fuel o name root text ft pj pj' Hf Hl Ho Hc Hv Hp E.
  destruct (add_done _ _ _ _ _ _ _ _ _ _ Hf Hl Ho Hc Hv Hp E) as (files' & order & L & _ & _ & _ & _ & _ & _ & _ & S).
  assert (K : forall p w t ft', fget p files' = Some w -> stored fs (pj_incl pj) root (keys (pj_files pj)) p t ft' w ->
    exists v, fget p (pj_files pj') = Some v /\ pf_type v = ft').
  { intros p w t ft' G (_ & T & _). specialize (S p). rewrite G in S. destruct (fget p (pj_files pj')) as [v|]; [|contradiction].
    exists v. split; [reflexivity|]. destruct S as (_ & _ & S & _). congruence. }
  split.
  - destruct (li_root _ _ _ _ _ _ _ L) as (w & A & B). exact (K _ _ _ _ A B).
  - intros p Hld Hne. destruct (li_new _ _ _ _ _ _ _ L p Hld Hne) as (_ & t & w & _ & B & C). exact (K _ _ _ _ B C).
Qed.
Print Assumptions C53_included.

(** An include directory that does not exist is not ignored: it stands for the working directory, and hides the
    directories behind it *)
Definition ex69 : list (fpath * str) := [(bs "/i", [255]); (bs "b.dtsi", bs ""); (bs "/i/b.dtsi", bs "")].
Theorem C69_missing_refuted : exists fs missing dir n q q',
  (exists e, fs_canon fs missing = inr e) /\ q <> q'
  /\ first_hit fs n (pj_incl (set_include_paths fs [dir] project_new)) q
  /\ first_hit fs n (pj_incl (set_include_paths fs [missing; dir] project_new)) q'.
Proof.
  exists (mem_fs ex69), (bs "/no"), (bs "/i"), (bs "b.dtsi"), (bs "/i/b.dtsi"), (bs "b.dtsi").
  split; [eexists; reflexivity|]. split; [discriminate|]. split.
  - apply (fh_here _ _ _ _ (bs "/i/b.dtsi")); [|reflexivity]. apply (jo_plain (bs "/") 105 (bs "b.dtsi")); intros; discriminate.
  - apply (fh_here _ _ _ _ (bs "b.dtsi")); [|reflexivity]. apply jo_here. discriminate.
Qed.
Print Assumptions C69_missing_refuted.

(** the file beside the includer wins over the one in the include directory; the included file searches its own
    directory *)
Definition ex69b : list (fpath * str) :=
  [(bs "/i", [255]); (bs "/d/a.dts", bs "/include/ ""b.dtsi"" /include/ ""sub/c.dtsi"""); (bs "/d/b.dtsi", bs ""); (bs "/i/b.dtsi", bs "");
   (bs "/i/sub/c.dtsi", bs "/include/ ""e.dtsi"""); (bs "/i/sub/e.dtsi", bs ""); (bs "/d/e.dtsi", bs "")].
Example C69_case : exists pj, add_file_with_text 7 id_oracle (mem_fs ex69b) (bs "/d/a.dts") (bs "/include/ ""b.dtsi"" /include/ ""sub/c.dtsi""") DtSource
   (set_include_paths (mem_fs ex69b) [bs "/i"] project_new) = Done pj
  /\ keys (pj_files pj) = [bs "/d/a.dts"; bs "/i/sub/c.dtsi"; bs "/i/sub/e.dtsi"; bs "/d/b.dtsi"]
  /\ map (fun kv => pf_type (snd kv)) (pj_files pj) = [DtSource; DtSourceInclude; DtSourceInclude; DtSourceInclude]
  /\ directory (bs "/i/sub/c.dtsi") (bs "/i/sub") /\ directory (bs "/a.dts") (bs "/").
Proof.
  eexists. split; [vm_compute; reflexivity|]. split; [vm_compute; reflexivity|]. split; [vm_compute; reflexivity|]. split.
  - apply (di_dir (bs "i/sub") (bs "c.dtsi")); try discriminate. intros H. vm_compute in H. intuition discriminate.
  - apply (di_root (bs "a.dts")); try discriminate. intros H. vm_compute in H. intuition discriminate.
Qed.

(** ** C51: the levels of the codes in every project; nothing changes them *)
Theorem C51_levels : forall pj c, reached pj ->
  (pj_sev pj c = SevWarning <-> In c [NameTooLong; NonStringInCompatible; DuplicateDirective])
  /\ (pj_sev pj c = SevError <-> ~ In c [NameTooLong; NonStringInCompatible; DuplicateDirective]).
Proof.
  intros pj c H. assert (E : pj_sev pj = default_severities).
  { induction H as [|fs ps pj H IH|fs u fuel o name text ft pj pj' H IH Hf Hl Ho Hv E|fs p pj H IH]; try exact IH; [reflexivity| |].
    - destruct (fs_canon fs name) as [root|e] eqn:Ec; [|unfold add_file_with_text in E; rewrite Ec in E; discriminate].
      destruct (add_done _ _ _ _ _ _ _ _ _ _ Hf Hl Ho Ec Hv H E) as (files' & order & _ & _ & _ & _ & _ & _ & -> & _). exact IH.
    - unfold remove_file. destruct (fs_canon fs p); exact IH. }
  rewrite E. destruct c; cbn; intuition discriminate.
Qed.
Print Assumptions C51_levels.
