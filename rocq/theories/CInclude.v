(** #include "..." lines: projects with and without them *)
From Verif Require Import Lexer Parser Utf8 Project Visitor Server Session AnalysisSpec AnalysisProofs PropsParser CrLfProject PropsCrLf.
From Coq Require Import Lia List.
Import ListNotations.

Definition is_c_include (p : primary) : bool := match p with PCStyleInclude _ => true | _ => false end.
(** a tree without its #include elements *)
Definition plain (f : dts_file) : dts_file := mkFile (filter (fun p => negb (is_c_include p)) (fl_elements f)) (fl_source f).

(** [t'] parses like [t], but for the #include elements: same diagnostics, same tree otherwise, or the same error *)
Definition without_c (t t' : list N) : Prop := forall incl src,
  match parse_text incl t src, parse_text incl t' src with
  | ROk f s, ROk f' s' => f' = plain f /\ ps_diags s' = ps_diags s
  | RErr d _, RErr d' _ => d' = d
  | _, _ => False
  end.
Definition disk_without_c (fs fs' : fsys) : Prop :=
  (forall p, fs_canon fs' p = fs_canon fs p)
  /\ forall p, match read_to_string fs p, read_to_string fs' p with
               | inl t, inl t' => without_c t t'
               | inr e, inr e' => e' = e
               | _, _ => False
               end.

Record pf_like (f f' : pfile) : Prop := mkPfLike {
  pk_pdiags : pf_pdiags f' = pf_pdiags f;
  pk_adiags : pf_adiags f' = pf_adiags f;
  pk_file : pf_file f' = option_map plain (pf_file f);
  pk_ctx : pf_ctx f' = pf_ctx f;
  pk_type : pf_type f' = pf_type f
}.
Notation alike := (Forall2 (entry_alike pf_like)).

Lemma alike_get l l' p : alike l l' ->
  match m_get str_eq_dec p l, m_get str_eq_dec p l' with
  | Some f, Some f' => pf_like f f'
  | None, None => True
  | _, _ => False
  end.
Proof.
  induction 1 as [|[k v] [k' v'] l l' [E S] _ IH]; [exact I|]. cbn [fst snd] in E, S. subst k'.
  cbn [m_get]. destruct (str_eq_dec p k); [exact S|exact IH].
Qed.
Lemma alike_mem l l' p : alike l l' -> m_mem str_eq_dec p l' = m_mem str_eq_dec p l.
Proof.
  intros H. pose proof (alike_get _ _ p H) as G. unfold m_mem.
  destruct (m_get str_eq_dec p l), (m_get str_eq_dec p l'); auto; contradiction.
Qed.
Lemma alike_remove l l' p : alike l l' -> alike (m_remove str_eq_dec p l) (m_remove str_eq_dec p l').
Proof.
  induction 1 as [|[k v] [k' v'] l l' [E S] _ IH]; [constructor|]. cbn [fst snd] in E, S. subst k'.
  unfold m_remove in *. cbn [filter fst]. destruct (str_eq_dec p k); [exact IH|].
  constructor; [split; [reflexivity|exact S]|exact IH].
Qed.
Lemma alike_insert l l' p f f' : alike l l' -> pf_like f f' ->
  alike (m_insert str_eq_dec p f l) (m_insert str_eq_dec p f' l').
Proof.
  intros H S. unfold m_insert. constructor; [split; [reflexivity|exact S]|]. apply alike_remove, H.
Qed.
Lemma alike_update l l' k v v' : alike l l' -> pf_like v v' ->
  alike (m_update k v l) (m_update k v' l').
Proof.
  intros H S. unfold m_update. induction H as [|[x w] [x' w'] l l' [E T] _ IH]; [constructor|].
  cbn [fst snd] in E, T. subst x'. cbn [map fst]. constructor; [|exact IH].
  destruct (str_eq_dec k x); split; cbn; auto.
Qed.
Definition like_project (pj pj' : project) : Prop :=
  alike (pj_files pj) (pj_files pj') /\ pj_incl pj' = pj_incl pj /\ pj_sev pj' = pj_sev pj.


Lemma includes_plain f : includes_of (plain f) = includes_of f.
Proof.
  unfold includes_of, plain. cbn [fl_elements]. induction (fl_elements f) as [|p l IH]; [reflexivity|].
  cbn [filter]. destruct p as [[]| | |]; cbn [is_c_include negb fold_right as_include]; rewrite ?IH; reflexivity.
Qed.
Lemma at_plain f c : file_at (plain f) c = file_at f c.
Proof.
  unfold file_at, plain. cbn [fl_elements]. induction (fl_elements f) as [|p l IH]; [reflexivity|].
  cbn [filter]. destruct p; cbn [is_c_include negb find_map]; rewrite ?IH; reflexivity.
Qed.

Lemma symbols_plain f : file_symbols (plain f) = file_symbols f.
Proof.
  unfold file_symbols, plain. cbn [fl_elements]. induction (fl_elements f) as [|p l IH]; [reflexivity|].
  cbn [filter]. destruct p; cbn [is_c_include negb Server.filter_map]; rewrite ?IH; reflexivity.
Qed.

Section Disks.
Context (fs fs' : fsys) (SD : disk_without_c fs fs').
Lemma u_canon p : fs_canon fs' p = fs_canon fs p.
Proof. apply SD. Qed.
Lemma u_include i : include_path fs' i = include_path fs i.
Proof.
  unfold include_path.
  assert (G : forall ds n, resolve_in fs' ds n = resolve_in fs ds n).
  { induction ds as [|d ds IH]; intros n; [reflexivity|]. cbn [resolve_in]. rewrite u_canon, IH. reflexivity. }
  rewrite G, u_canon. reflexivity.
Qed.

Lemma parse_like fl incl : forall name t t' ft l l',
  without_c t t' -> alike l l' ->
  orel alike (parse_file fl fs incl name t ft l) (parse_file fl fs' incl name t' ft l').
Proof.
  induction fl as [|fl IH]; intros name t t' ft l l' W H; cbn [parse_file]; [exact I|].
  pose proof (W (include_dirs incl name) name) as P.
  destruct (parse_text (include_dirs incl name) t name) as [f s|d s| |],
    (parse_text (include_dirs incl name) t' name) as [f' s'|d' s'| |]; try contradiction.
  - destruct P as (-> & Ps). rewrite includes_plain.
    eapply orel_bind with (R := fun x y => fst y = fst x /\ alike (snd x) (snd y)).
    + rewrite Ps. generalize (ps_diags s) as ds.
      assert (H1 : alike (m_insert str_eq_dec name pf_default l) (m_insert str_eq_dec name pf_default l')).
      { apply alike_insert; [exact H|]. constructor; reflexivity. }
      revert H1. generalize (m_insert str_eq_dec name pf_default l) as c.
      generalize (m_insert str_eq_dec name pf_default l') as c'.
      induction (includes_of f) as [|i js IHi]; intros c' c H1 ds; [cbn; auto|].
      rewrite u_include. destruct (include_path fs i) as [p|e]; [|apply IHi, H1].
      rewrite (alike_mem _ _ p H1). destruct (m_mem str_eq_dec p c); [apply IHi, H1|].
      pose proof (proj2 SD p) as Rd.
      destruct (read_to_string fs p) as [t1|e1] eqn:R1, (read_to_string fs' p) as [t2|e2] eqn:R2;
        try contradiction.
      * eapply orel_bind.
        -- apply IH; [exact Rd|exact H1].
        -- intros a a' Ha. apply IHi, Ha.
      * subst e2. apply IHi, H1.
    + intros [ds c] [ds' c'] [E Hc]. cbn [fst snd] in E, Hc. subst ds'. cbn [orel].
      apply alike_insert; [exact Hc|]. constructor; reflexivity.
  - subst d'. cbn [orel]. apply alike_insert; [exact H|]. constructor; reflexivity.
Qed.

Lemma like_includer l l' : alike l l' -> includer_map fs' l' = includer_map fs l.
Proof.
  unfold includer_map. generalize (@nil (fpath * list fpath)) as m. intros m H. revert m.
  induction H as [|[k v] [k' v'] l l' [E S] _ IH]; intros m; [reflexivity|].
  cbn [fst snd] in E, S. subst k'. cbn [fold_left fst snd].
  rewrite (pk_file _ _ S).
  assert (R : forall f, resolved_includes fs' (plain f) = resolved_includes fs f).
  { intros f. unfold resolved_includes. rewrite includes_plain. induction (includes_of f) as [|i js IHi]; [reflexivity|].
    cbn [fold_right]. rewrite u_include, IHi. reflexivity. }
  destruct (pf_file v) as [f|]; cbn [option_map]; [rewrite R|]; apply IH.
Qed.
Lemma like_order o l l' : by_name (o_files o) -> alike l l' ->
  compute_key_order o fs' l' = compute_key_order o fs l.
Proof.
  intros B H. unfold compute_key_order. apply B in H.
  rewrite (like_includer _ _ H), (alike_keys _ _ _ H). reflexivity.
Qed.
Lemma like_get pj pj' p : like_project pj pj' ->
  match get_file fs pj p, get_file fs' pj' p with
  | Some f, Some f' => pf_like f f'
  | None, None => True
  | _, _ => False
  end.
Proof.
  intros (H & _ & _). unfold get_file. rewrite u_canon.
  destruct (fs_canon fs p); [apply alike_get, H|exact I].
Qed.


(** ** The analysis *)
Lemma c_include o pj pj' file file' i a c : like_project pj pj' -> fl_source file' = fl_source file ->
  analyze_include o fs' pj' file' i a c = analyze_include o fs pj file i a c.
Proof.
  intros H Es. unfold analyze_include. rewrite u_include, Es.
  destruct (include_path fs i) as [p|e]; [|reflexivity].
  destruct (guard_add str_eq_dec (o_guard o (an_tick a)) p [fl_source file] (an_guard a)) as [[[cy|] g]| |]; cbn [obind]; auto.
  pose proof (like_get _ _ p H) as G.
  destruct (get_file fs pj p) as [f|], (get_file fs' pj' p) as [f'|]; try contradiction; [|reflexivity].
  unfold has_errors, pf_diags. rewrite (pk_pdiags _ _ G), (pk_adiags _ _ G), (proj2 (proj2 H)), (pk_ctx _ _ G). reflexivity.
Qed.
Lemma c_primaries o pj pj' file file' ps : like_project pj pj' -> fl_source file' = fl_source file -> forall a c,
  analyze_primaries o fs' pj' file' (filter (fun p => negb (is_c_include p)) ps) a c = analyze_primaries o fs pj file ps a c.
Proof.
  intros H Es. induction ps as [|p ps IH]; intros a c; [reflexivity|].
  assert (E : is_c_include p = false -> analyze_primary o fs' pj' file' p a c = analyze_primary o fs pj file p a c).
  { destruct p as [[t|t|x y|i|t r|t r]|n|r|s]; intros D; try reflexivity; try discriminate D. cbn [analyze_primary]. apply c_include; assumption. }
  cbn [filter]. destruct (is_c_include p) eqn:D; cbn [negb].
  - destruct p; try discriminate D. cbn [analyze_primaries analyze_primary obind]. apply IH.
  - cbn [analyze_primaries]. rewrite (E eq_refl). destruct (analyze_primary o fs pj file p a c) as [[a1 c1]| |]; cbn [obind]; [apply IH|reflexivity..].
Qed.
Lemma c_analyze_file o pj pj' file ft a : like_project pj pj' ->
  analyze_file o fs' pj' (plain file) ft a = analyze_file o fs pj file ft a.
Proof.
  intros H. unfold analyze_file.
  change (fl_elements (plain file)) with (filter (fun p => negb (is_c_include p)) (fl_elements file)).
  rewrite (c_primaries o pj pj' file (plain file)) by (assumption || reflexivity). reflexivity.
Qed.
Lemma c_analyze_keys o keys : forall a pj pj', like_project pj pj' ->
  orel like_project (analyze_keys o fs keys a pj) (analyze_keys o fs' keys a pj').
Proof.
  induction keys as [|k keys IH]; intros a pj pj' H; cbn [analyze_keys]; [exact H|].
  pose proof (alike_get _ _ k (proj1 H)) as G.
  destruct (m_get str_eq_dec k (pj_files pj)) as [f|], (m_get str_eq_dec k (pj_files pj')) as [f'|];
    try contradiction; [|exact I].
  rewrite (pk_file _ _ G), (pk_type _ _ G).
  destruct (pf_file f) as [file|] eqn:Ef; cbn [option_map]; [|apply IH, H].
  rewrite (c_analyze_file _ _ _ _ _ _ H).
  destruct (analyze_file o fs pj file (pf_type f) a) as [[res a1]| |]; cbn [obind orel]; auto.
  apply IH. destruct H as (H1 & H2 & H3). split; [|split; assumption].
  cbn [pj_files set_files]. apply alike_update; [exact H1|].
  unfold store_result. constructor; cbn [pf_pdiags pf_adiags pf_file pf_ctx pf_type fst snd]; try apply G; reflexivity.
Qed.
Lemma like_add_text fuel o name t t' ft pj pj' : by_name (o_files o) ->
  without_c t t' -> like_project pj pj' ->
  orel like_project (add_file_with_text fuel o fs name t ft pj) (add_file_with_text fuel o fs' name t' ft pj').
Proof.
  intros B W (H1 & H2 & H3). unfold add_file_with_text. rewrite u_canon, H2.
  destruct (fs_canon fs name) as [p|e]; [|exact I].
  eapply orel_bind; [apply parse_like; eassumption|]. intros l l' Hl.
  eapply orel_bind; [apply orel_eq; apply (like_order o _ _ B Hl)|]. intros ks ks' <-.
  apply c_analyze_keys. split; [exact Hl|]. split; assumption.
Qed.
Lemma like_add fuel o name pj pj' : by_name (o_files o) -> like_project pj pj' ->
  orel (fun x y => match x, y with
                   | inl e, inl e' => e' = e
                   | inr a, inr b => like_project a b
                   | _, _ => False
                   end)
    (add_file fuel o fs name pj) (add_file fuel o fs' name pj').
Proof.
  intros B H. unfold add_file. rewrite u_canon. destruct (fs_canon fs name) as [p|e]; [|reflexivity].
  pose proof (proj2 SD p) as Rd.
  destruct (read_to_string fs p) as [t1|e1] eqn:R1, (read_to_string fs' p) as [t2|e2] eqn:R2;
    try contradiction; [|exact Rd].
  eapply orel_bind; [apply like_add_text; try eassumption|].
  intros a a' Ha. exact Ha.
Qed.
Lemma like_include_paths ps pj pj' : like_project pj pj' ->
  like_project (set_include_paths fs ps pj) (set_include_paths fs' ps pj').
Proof.
  intros (H1 & H2 & H3). split; [exact H1|]. split; [|exact H3]. cbn.
  apply map_ext. intros p. rewrite u_canon. reflexivity.
Qed.

(** ** The server *)
Definition like_server (sv sv' : server) : Prop :=
  like_project (sv_project sv) (sv_project sv') /\ sv_sent sv' = sv_sent sv.
Definition note_without (n n' : note) : Prop :=
  match n, n' with
  | NInitialize d, NInitialize d' | NConfigure d, NConfigure d' => d' = d
  | NOpen u t, NOpen u' t' => u' = u /\ without_c t t'
  | NChange u ts, NChange u' ts' => u' = u /\ Forall2 (without_c) ts ts'
  | NClose u, NClose u' => u' = u
  | _, _ => False
  end.
Lemma like_diagnostics pj pj' p : like_project pj pj' ->
  get_diagnostics fs' pj' p = get_diagnostics fs pj p.
Proof.
  intros H. pose proof (like_get _ _ p H) as G. unfold get_diagnostics.
  destruct (get_file fs pj p) as [f|], (get_file fs' pj' p) as [f'|]; try contradiction; [|reflexivity].
  unfold pf_diags. rewrite (pk_pdiags _ _ G), (pk_adiags _ _ G). reflexivity.
Qed.
Lemma like_publish ok sv sv' : like_server sv sv' ->
  orel like_server (publish ok fs sv) (publish ok fs' sv').
Proof.
  intros [H E]. unfold publish. rewrite (alike_keys _ _ _ (proj1 H)), E.
  assert (G : forall l, publish_all fs' (sv_project sv') l = publish_all fs (sv_project sv) l).
  { induction l as [|f l IH]; [reflexivity|]. cbn [publish_all].
    rewrite IH, (like_diagnostics _ _ f H). reflexivity. }
  rewrite G. destruct (publish_all fs (sv_project sv) _) as [ps| |]; cbn [obind orel]; auto.
  split; [exact H|reflexivity].
Qed.
Lemma like_remove p pj pj' : like_project pj pj' ->
  like_project (remove_file fs p pj) (remove_file fs' p pj').
Proof.
  intros H. unfold remove_file. rewrite u_canon. destruct (fs_canon fs p); [|exact H].
  destruct H as (H1 & H2 & H3). split; [|split; assumption]. apply alike_remove, H1.
Qed.
Lemma like_handle fuel o ok n n' sv sv' : by_name (o_files o) -> note_without n n' -> like_server sv sv' ->
  orel like_server (handle fuel o ok fs n sv) (handle fuel o ok fs' n' sv').
Proof.
  intros B N [H E].
  assert (C : forall d, like_server (mkServer (set_include_paths fs d (sv_project sv)) (sv_sent sv))
                          (mkServer (set_include_paths fs' d (sv_project sv')) (sv_sent sv'))).
  { intros d. split; [apply like_include_paths; assumption|exact E]. }
  assert (T : forall u t t', without_c t t' ->
    orel like_server (did_open fuel o ok fs u t sv) (did_open fuel o ok fs' u t' sv')).
  { intros u t t' F. unfold did_open. destruct (to_file_path u) as [p|]; [|split; assumption].
    eapply orel_bind; [apply like_add_text; eassumption|]. intros a a' Ha.
    apply like_publish. split; assumption. }
  destruct n as [d|d|u t|u ts|u], n' as [d'|d'|u' t'|u' ts'|u']; cbn [note_without] in N; try contradiction;
    cbn [handle].
  - subst d'. apply C.
  - subst d'. apply like_publish, C.
  - destruct N as [-> F]. apply T; assumption.
  - destruct N as [-> F]. unfold did_change. destruct F as [|t t' ts ts' F _].
    + destruct (to_file_path u); [exact I|]. split; assumption.
    + apply (T u t t'); assumption.
  - subst u'. cbn [orel]. unfold did_close. destruct (to_file_path u); [|split; assumption].
    split; [apply like_remove, H|exact E].
Qed.


Lemma like_answers sv sv' u c : like_server sv sv' ->
  goto_definition fs' u c sv' = goto_definition fs u c sv /\ hover fs' u c sv' = hover fs u c sv
  /\ document_symbol fs' u sv' = document_symbol fs u sv.
Proof.
  intros [H _]. unfold goto_definition, hover, document_symbol. destruct (to_file_path u) as [p|]; [|auto].
  pose proof (like_get _ _ p H) as G.
  assert (X : find_at_pos fs' (sv_project sv') p c = find_at_pos fs (sv_project sv) p c).
  { unfold find_at_pos. destruct (get_file fs (sv_project sv) p) as [f|], (get_file fs' (sv_project sv') p) as [f'|]; try contradiction; [|reflexivity].
    rewrite (pk_file _ _ G). destruct (pf_file f) as [file|]; [apply at_plain|reflexivity]. }
  assert (A : get_analysis fs' (sv_project sv') p = get_analysis fs (sv_project sv) p).
  { unfold get_analysis. destruct (get_file fs (sv_project sv) p) as [f|], (get_file fs' (sv_project sv') p) as [f'|]; try contradiction; [|reflexivity].
    apply (pk_ctx _ _ G). }
  assert (R : option_map file_symbols (get_root fs' (sv_project sv') p) = option_map file_symbols (get_root fs (sv_project sv) p)).
  { unfold get_root. destruct (get_file fs (sv_project sv) p) as [f|], (get_file fs' (sv_project sv') p) as [f'|]; try contradiction; [|reflexivity].
    rewrite (pk_file _ _ G). destruct (pf_file f) as [file|]; [|reflexivity]. cbn [option_map]. rewrite symbols_plain. reflexivity. }
  rewrite X, R. unfold get_node_position, document_reference. rewrite A.
  destruct (find_at_pos fs (sv_project sv) p c) as [[r|l|i]|]; rewrite ?u_include; auto.
Qed.
End Disks.
