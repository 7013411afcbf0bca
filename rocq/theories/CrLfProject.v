(** Windows line ends: projects and the command line tool *)
From Verif Require Import Project Printer Cli PropsParser CrLf CrLfParser CrLfScan.
From Coq Require Import Lia List.
Import ListNotations.

(** ** lines *)
Lemma strip_none l : ~ In cCR l -> strip_cr l = l.
Proof.
  intros H. unfold strip_cr. destruct (rev l) as [|c r] eqn:E; [reflexivity|].
  assert (I : In c l) by (apply in_rev; rewrite E; left; reflexivity).
  destruct (N.eq_dec c cCR) as [->|D]; [contradiction|].
  destruct c as [|q]; [reflexivity|].
  do 4 (destruct q as [q|q|]; try reflexivity). contradiction.
Qed.
Lemma strip_one l : strip_cr (l ++ [cCR]) = l.
Proof. unfold strip_cr. rewrite rev_app_distr. cbn [rev app]. apply rev_involutive. Qed.

Lemma lines_crlf t t' : crlf t t' -> lines t' = lines t.
Proof.
  intros H. unfold lines.
  assert (G : forall cur, ~ In cCR cur -> lines_go cur t' = lines_go cur t).
  { induction H as [|c l l' Hc H IH|l l' H IH]; intros cur N.
    - reflexivity.
    - cbn [lines_go]. destruct (c =? cNL).
      + f_equal. apply IH. intros [].
      + apply IH. intros I. apply in_app_or in I. destruct I as [I|[I|[]]]; [exact (N I)|congruence].
    - cbn [lines_go]. change (cCR =? cNL) with false. change (cNL =? cNL) with true. cbn iota.
      rewrite strip_one, (strip_none _ N). f_equal. apply IH. intros []. }
  apply G. intros [].
Qed.

(** ** One text *)
(** the parser has nothing to say about the text *)
Definition parses_cleanly (t : list N) : Prop :=
  forall incl src, exists f s, parse_text incl t src = ROk f s /\ ps_diags s = [].

(** [t'] is [t] with Windows line ends, where that makes no difference: no string, path reference or
    directive goes over a line end; and there is no line comment, or no syntax error *)
Definition fine (t t' : list N) : Prop :=
  crlf t t' /\ unbroken t = true /\ (unbroken_no_line_comment t = true \/ parses_cleanly t).

Lemma near_false ds ds' : Forall2 (near_diag False) ds ds' -> ds' = ds.
Proof.
  induction 1 as [|d d' l l' H _ IH]; [reflexivity|].
  destruct H as [-> | [[] _]]. congruence.
Qed.

(** the two parsers agree *)
Definition parse_agrees (x x' : res dts_file) : Prop :=
  match x, x' with
  | ROk f s, ROk f' s' => f' = f /\ ps_diags s' = ps_diags s
  | RErr d _, RErr d' _ => d' = d
  | _, _ => False
  end.

Lemma fine_parse t t' incl src : fine t t' -> valid_utf8 t = true -> valid_utf8 t' = true ->
  parse_agrees (parse_text incl t src) (parse_text incl t' src).
Proof.
  intros (C & U & D) V V'.
  pose proof (C09_parse_total incl t src V) as T. pose proof (C09_parse_total incl t' src V') as T'.
  destruct D as [D | D].
  - pose proof (same_parse False t (unbroken_weaker _ D) (or_intror (unbroken_no_comments _ D))
                  t' incl src C) as S.
    destruct T as [(f & s & E) | (d & s & E)]; rewrite E in *;
    destruct T' as [(f' & s' & E') | (d' & s' & E')]; rewrite E' in *; cbn [rsame parse_agrees] in *;
      try contradiction.
    + destruct S as [<- S]. split; [reflexivity|]. apply near_false, (q_diags _ _ _ _ S).
    + destruct S as [[-> | [[] _]] _]. reflexivity.
  - pose proof (same_parse True t (unbroken_one_line _ U) (or_introl I) t' incl src C) as S.
    destruct (D incl src) as (f & s & E & E2). rewrite E in *.
    destruct T' as [(f' & s' & E') | (d' & s' & E')]; rewrite E' in *; cbn [rsame parse_agrees] in *;
      try contradiction.
    destruct S as [<- S]. split; [reflexivity|].
    pose proof (q_diags _ _ _ _ S) as Q. rewrite E2 in Q. inversion Q. congruence.
Qed.

(** ** Projects *)
(** the same but for the text, and the lines of the text are the same *)
Definition same_but_text (f f' : pfile) : Prop :=
  pf_pdiags f' = pf_pdiags f /\ pf_adiags f' = pf_adiags f /\ pf_file f' = pf_file f
  /\ pf_ctx f' = pf_ctx f /\ pf_type f' = pf_type f /\ lines (pf_text f') = lines (pf_text f).
Definition entry_alike (R : pfile -> pfile -> Prop) (a b : fpath * pfile) : Prop :=
  fst b = fst a /\ R (snd a) (snd b).
Notation alike := (Forall2 (entry_alike same_but_text)).

(** an order of iteration that depends on the names of the files only *)
Definition by_name (f : list (fpath * pfile) -> list (fpath * pfile)) : Prop :=
  forall R l l', Forall2 (entry_alike R) l l' -> Forall2 (entry_alike R) (f l) (f l').

Definition orel {A} (R : A -> A -> Prop) (x x' : outcome A) : Prop :=
  match x, x' with
  | Done a, Done a' => R a a'
  | Panic, Panic | NoFuel, NoFuel => True
  | _, _ => False
  end.

Lemma orel_bind A B (R : A -> A -> Prop) (S : B -> B -> Prop) x x' f f' :
  orel R x x' -> (forall a a', R a a' -> orel S (f a) (f' a')) -> orel S (obind x f) (obind x' f').
Proof. intros H G. destruct x, x'; cbn in *; auto; contradiction. Qed.
Lemma orel_eq A (x x' : outcome A) : x' = x -> orel eq x x'.
Proof. intros ->. destruct x; cbn; auto. Qed.

Lemma alike_keys R l l' : Forall2 (entry_alike R) l l' -> m_keys l' = m_keys l.
Proof. induction 1 as [|a b l l' [E _] _ IH]; [reflexivity|]. unfold m_keys in *. cbn. congruence. Qed.

Lemma alike_get l l' p : alike l l' ->
  match m_get str_eq_dec p l, m_get str_eq_dec p l' with
  | Some f, Some f' => same_but_text f f'
  | None, None => True
  | _, _ => False
  end.
Proof.
  induction 1 as [|[k v] [k' v'] l l' [E S] _ IH]; [exact I|]. cbn [fst snd] in E, S. subst k'.
  cbn [m_get]. destruct (str_eq_dec p k); [exact S|exact IH].
Qed.
Lemma alike_mem l l' p : alike l l' -> m_mem str_eq_dec p l' = m_mem str_eq_dec p l.
Proof.
  intros H. pose proof (alike_get _ _ p H) as G. unfold m_mem.
  destruct (m_get str_eq_dec p l), (m_get str_eq_dec p l'); auto; contradiction.
Qed.

Lemma alike_remove l l' p : alike l l' -> alike (m_remove str_eq_dec p l) (m_remove str_eq_dec p l').
Proof.
  induction 1 as [|[k v] [k' v'] l l' [E S] _ IH]; [constructor|]. cbn [fst snd] in E, S. subst k'.
  unfold m_remove in *. cbn [filter fst]. destruct (str_eq_dec p k); [exact IH|].
  constructor; [split; [reflexivity|exact S]|exact IH].
Qed.
Lemma alike_insert l l' p f f' : alike l l' -> same_but_text f f' ->
  alike (m_insert str_eq_dec p f l) (m_insert str_eq_dec p f' l').
Proof.
  intros H S. unfold m_insert. constructor; [split; [reflexivity|exact S]|]. apply alike_remove, H.
Qed.

(** two disks: the same names, the same errors, and texts that differ in their line ends only *)
Definition same_disk (fs fs' : fsys) : Prop :=
  (forall p, fs_canon fs' p = fs_canon fs p)
  /\ forall p, match read_to_string fs p, read_to_string fs' p with
               | inl t, inl t' => fine t t'
               | inr e, inr e' => e' = e
               | _, _ => False
               end.

Section Disks.
Variables fs fs' : fsys.
Hypothesis SD : same_disk fs fs'.

Lemma d_canon p : fs_canon fs' p = fs_canon fs p.
Proof. apply SD. Qed.
Lemma d_include i : include_path fs' i = include_path fs i.
Proof.
  unfold include_path.
  assert (G : forall ds n, resolve_in fs' ds n = resolve_in fs ds n).
  { induction ds as [|d ds IH]; intros n; [reflexivity|]. cbn [resolve_in]. rewrite d_canon, IH. reflexivity. }
  rewrite G, d_canon. reflexivity.
Qed.

Lemma read_valid g p t : read_to_string g p = inl t -> valid_utf8 t = true.
Proof.
  unfold read_to_string. destruct (fs_read g p) as [b|e]; [|discriminate].
  destruct (valid_utf8 b) eqn:V; [|discriminate]. intros E. injection E as <-. exact V.
Qed.

Lemma parse_alike fl incl : forall name t t' ft l l',
  fine t t' -> valid_utf8 t = true -> valid_utf8 t' = true -> alike l l' ->
  orel alike (parse_file fl fs incl name t ft l) (parse_file fl fs' incl name t' ft l').
Proof.
  induction fl as [|fl IH]; intros name t t' ft l l' F V V' H; cbn [parse_file]; [exact I|].
  pose proof (fine_parse _ _ (include_dirs incl name) name F V V') as P.
  assert (L : lines t' = lines t) by (apply lines_crlf, F).
  destruct (parse_text (include_dirs incl name) t name) as [f s|d s| |],
    (parse_text (include_dirs incl name) t' name) as [f' s'|d' s'| |]; cbn [parse_agrees] in P;
    try contradiction.
  - destruct P as [-> Ps].
    eapply orel_bind with (R := fun x y => fst y = fst x /\ alike (snd x) (snd y)).
    + rewrite Ps. generalize (ps_diags s) as ds.
      assert (H1 : alike (m_insert str_eq_dec name pf_default l) (m_insert str_eq_dec name pf_default l')).
      { apply alike_insert; [exact H|]. repeat split. }
      revert H1. generalize (m_insert str_eq_dec name pf_default l) as c.
      generalize (m_insert str_eq_dec name pf_default l') as c'.
      induction (includes_of f) as [|i is IHi]; intros c' c H1 ds; [cbn; auto|].
      rewrite d_include. destruct (include_path fs i) as [p|e]; [|apply IHi, H1].
      rewrite (alike_mem _ _ p H1). destruct (m_mem str_eq_dec p c); [apply IHi, H1|].
      pose proof (proj2 SD p) as Rd.
      destruct (read_to_string fs p) as [t1|e1] eqn:R1, (read_to_string fs' p) as [t2|e2] eqn:R2;
        try contradiction.
      * eapply orel_bind.
        -- apply IH; [exact Rd|exact (read_valid _ _ _ R1)|exact (read_valid _ _ _ R2)|exact H1].
        -- intros a a' Ha. apply IHi, Ha.
      * subst e2. apply IHi, H1.
    + intros [ds c] [ds' c'] [E Hc]. cbn [fst snd] in E, Hc. subst ds'. cbn [orel].
      apply alike_insert; [exact Hc|]. repeat split. exact L.
  - subst d'. cbn [orel]. apply alike_insert; [exact H|]. repeat split. exact L.
Qed.

Lemma alike_includer l l' : alike l l' -> includer_map fs' l' = includer_map fs l.
Proof.
  unfold includer_map. generalize (@nil (fpath * list fpath)) as m. intros m H. revert m.
  induction H as [|[k v] [k' v'] l l' [E S] _ IH]; intros m; [reflexivity|].
  cbn [fst snd] in E, S. subst k'. cbn [fold_left fst snd].
  rewrite (proj1 (proj2 (proj2 S))).
  assert (R : forall f, resolved_includes fs' f = resolved_includes fs f).
  { intros f. unfold resolved_includes. induction (includes_of f) as [|i is IHi]; [reflexivity|].
    cbn [fold_right]. rewrite d_include, IHi. reflexivity. }
  destruct (pf_file v) as [f|]; [rewrite R|]; apply IH.
Qed.

Lemma alike_order o l l' : by_name (o_files o) -> alike l l' ->
  compute_key_order o fs' l' = compute_key_order o fs l.
Proof.
  intros B H. unfold compute_key_order. apply B in H.
  rewrite (alike_includer _ _ H), (alike_keys _ _ _ H). reflexivity.
Qed.

Definition same_project (pj pj' : project) : Prop :=
  alike (pj_files pj) (pj_files pj') /\ pj_incl pj' = pj_incl pj /\ pj_sev pj' = pj_sev pj.

Lemma same_get pj pj' p : same_project pj pj' ->
  match get_file fs pj p, get_file fs' pj' p with
  | Some f, Some f' => same_but_text f f'
  | None, None => True
  | _, _ => False
  end.
Proof.
  intros (H & _ & _). unfold get_file. rewrite d_canon.
  destruct (fs_canon fs p); [apply alike_get, H|exact I].
Qed.

Lemma same_has_errors m f f' : same_but_text f f' -> has_errors m f' = has_errors m f.
Proof. intros (A & B & _). unfold has_errors, pf_diags. rewrite A, B. reflexivity. Qed.

Lemma same_analyze_include o pj pj' file i a c : same_project pj pj' ->
  analyze_include o fs' pj' file i a c = analyze_include o fs pj file i a c.
Proof.
  intros H. unfold analyze_include. rewrite d_include.
  destruct (include_path fs i) as [p|e]; [|reflexivity].
  destruct (guard_add str_eq_dec (o_guard o (an_tick a)) p [fl_source file] (an_guard a)) as [[r g]| |];
    cbn [obind]; try reflexivity.
  destruct r as [cy|]; [reflexivity|].
  pose proof (same_get _ _ p H) as G.
  destruct (get_file fs pj p) as [f|], (get_file fs' pj' p) as [f'|]; try contradiction; [|reflexivity].
  rewrite (proj2 (proj2 H)), (same_has_errors _ _ _ G).
  destruct G as (_ & _ & _ & -> & _). reflexivity.
Qed.

Lemma same_analyze_file o pj pj' file ft a : same_project pj pj' ->
  analyze_file o fs' pj' file ft a = analyze_file o fs pj file ft a.
Proof.
  intros H. unfold analyze_file. generalize (fctx_new ft) as c.
  assert (G : forall ps a c, analyze_primaries o fs' pj' file ps a c = analyze_primaries o fs pj file ps a c).
  { induction ps as [|p ps IH]; intros a0 c; [reflexivity|]. cbn [analyze_primaries].
    assert (E : analyze_primary o fs' pj' file p a0 c = analyze_primary o fs pj file p a0 c).
    { destruct p as [[]| | |]; try reflexivity. apply same_analyze_include, H. }
    rewrite E. destruct (analyze_primary o fs pj file p a0 c) as [[a1 c1]| |]; cbn [obind]; auto. }
  intros c. rewrite G. reflexivity.
Qed.

Lemma alike_update l l' k v v' : alike l l' -> same_but_text v v' ->
  alike (m_update k v l) (m_update k v' l').
Proof.
  intros H S. unfold m_update. induction H as [|[x w] [x' w'] l l' [E T] _ IH]; [constructor|].
  cbn [fst snd] in E, T. subst x'. cbn [map fst]. constructor; [|exact IH].
  destruct (str_eq_dec k x); split; cbn; auto.
Qed.

Lemma same_analyze_keys o keys : forall a pj pj', same_project pj pj' ->
  orel same_project (analyze_keys o fs keys a pj) (analyze_keys o fs' keys a pj').
Proof.
  induction keys as [|k keys IH]; intros a pj pj' H; cbn [analyze_keys]; [exact H|].
  pose proof (alike_get _ _ k (proj1 H)) as G.
  destruct (m_get str_eq_dec k (pj_files pj)) as [f|], (m_get str_eq_dec k (pj_files pj')) as [f'|];
    try contradiction; [|exact I].
  destruct G as (G1 & G2 & G3 & G4 & G5 & G6). rewrite G3, G5.
  destruct (pf_file f) as [file|] eqn:Ef; [|apply IH, H].
  rewrite (same_analyze_file _ _ _ _ _ _ H).
  destruct (analyze_file o fs pj file (pf_type f) a) as [[res a']| |]; cbn [obind orel]; auto.
  apply IH. destruct H as (H1 & H2 & H3). split; [|split; assumption].
  cbn [pj_files set_files]. apply alike_update; [exact H1|].
  unfold store_result, same_but_text.
  cbn [pf_pdiags pf_adiags pf_file pf_ctx pf_type pf_text]. repeat (split; [congruence|]). exact G6.
Qed.

Lemma same_add_text fuel o name t t' ft pj pj' : by_name (o_files o) ->
  fine t t' -> valid_utf8 t = true -> valid_utf8 t' = true -> same_project pj pj' ->
  orel same_project (add_file_with_text fuel o fs name t ft pj) (add_file_with_text fuel o fs' name t' ft pj').
Proof.
  intros B F V V' (H1 & H2 & H3). unfold add_file_with_text. rewrite d_canon, H2.
  destruct (fs_canon fs name) as [p|e]; [|exact I].
  eapply orel_bind; [apply parse_alike; eassumption|]. intros l l' Hl.
  eapply orel_bind; [apply orel_eq; apply (alike_order o _ _ B Hl)|]. intros ks ks' <-.
  apply same_analyze_keys. split; [exact Hl|]. split; assumption.
Qed.

Lemma same_add fuel o name pj pj' : by_name (o_files o) -> same_project pj pj' ->
  orel (fun x y => match x, y with
                   | inl e, inl e' => e' = e
                   | inr a, inr b => same_project a b
                   | _, _ => False
                   end)
    (add_file fuel o fs name pj) (add_file fuel o fs' name pj').
Proof.
  intros B H. unfold add_file. rewrite d_canon. destruct (fs_canon fs name) as [p|e]; [|reflexivity].
  pose proof (proj2 SD p) as Rd.
  destruct (read_to_string fs p) as [t1|e1] eqn:R1, (read_to_string fs' p) as [t2|e2] eqn:R2;
    try contradiction; [|exact Rd].
  eapply orel_bind; [apply same_add_text; try eassumption|].
  - exact (read_valid _ _ _ R1).
  - exact (read_valid _ _ _ R2).
  - intros a a' Ha. exact Ha.
Qed.

Lemma same_include_paths ps pj pj' : same_project pj pj' ->
  same_project (set_include_paths fs ps pj) (set_include_paths fs' ps pj').
Proof.
  intros (H1 & H2 & H3). split; [exact H1|]. split; [|exact H3]. cbn.
  apply map_ext. intros p. rewrite d_canon. reflexivity.
Qed.

Lemma same_print dbg l l' : alike l l' -> print_files dbg l' = print_files dbg l.
Proof.
  induction 1 as [|[k v] [k' v'] l l' [E S] _ IH]; [reflexivity|]. cbn [print_files].
  cbn [fst snd] in S. destruct S as (A & B & _ & _ & _ & L). unfold pf_diags. rewrite A, B, L, IH.
  reflexivity.
Qed.

Lemma same_cli dbg fuel o of incl file : by_name (o_files o) -> by_name of ->
  cli_main dbg fuel o of fs' incl file = cli_main dbg fuel o of fs incl file.
Proof.
  intros B B2. unfold cli_main.
  assert (H0 : same_project (set_include_paths fs incl project_new) (set_include_paths fs' incl project_new)).
  { apply same_include_paths. repeat split. constructor. }
  pose proof (same_add fuel o file _ _ B H0) as H.
  destruct (add_file fuel o fs file _) as [[e|pj]| |], (add_file fuel o fs' file _) as [[e'|pj']| |];
    cbn [orel obind] in *; try contradiction; try reflexivity.
  rewrite (same_print dbg _ _ (B2 _ _ _ (proj1 H))). reflexivity.
Qed.
End Disks.
