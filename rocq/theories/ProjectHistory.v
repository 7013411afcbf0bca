(** Adding a file as a whole, and the projects that additions and removals reach *)
From Verif Require Export ProjectOrder.

(** ** Each file is parsed at most once *)
Section Log.
  Context (fs : fsys) (incl : list fpath).
  (** [parse_file] which also returns the files parsed, in the order of the calls of the parser *)
  Definition lbind {A B} (r : outcome (A * list fpath)) (k : A -> outcome (B * list fpath)) : outcome (B * list fpath) :=
    obind r (fun '(a, l) => obind (k a) (fun '(b, m) => Done (b, l ++ m))).
  Fixpoint parse_file_log (fuel : nat) (name : fpath) (text : str) (ft : file_type) (files : list (fpath * pfile))
    : outcome (list (fpath * pfile) * list fpath) :=
    match fuel with
    | O => NoFuel
    | S fl =>
      match parse_text (include_dirs incl name) text name with
      | RPanic => Panic
      | RNoFuel => NoFuel
      | RErr d _ => Done (m_insert str_eq_dec name (pf_unrecoverable d text ft) files, [name])
      | ROk file st =>
        lbind (Done (tt, [name])) (fun _ =>
        lbind
          ((fix go (is : list include) (ds : list diag) (files : list (fpath * pfile))
              : outcome ((list diag * list (fpath * pfile)) * list fpath) :=
              match is with
              | [] => Done ((ds, files), [])
              | i :: r =>
                match include_path fs i with
                | inr e => go r (ds ++ [diag_io_error (include_span i) (include_source i) e]) files
                | inl p =>
                  if m_mem str_eq_dec p files then go r ds files
                  else
                    match read_to_string fs p with
                    | inl t => lbind (parse_file_log fl p t (file_type_of_path p) files) (go r ds)
                    | inr e => go r (ds ++ [diag_io_error (include_span i) (include_source i) e]) files
                    end
                end
              end)
             (includes_of file) (ps_diags st) (m_insert str_eq_dec name pf_default files))
          (fun '(ds, files') => Done (m_insert str_eq_dec name (pf_parsed ds file ft text) files', [])))
      end
    end.
  Definition no_log {A} (r : outcome (A * list fpath)) : outcome A := obind r (fun '(a, _) => Done a).
  Section LoopLog.
    Variable rec : fpath -> str -> file_type -> list (fpath * pfile) -> outcome (list (fpath * pfile) * list fpath).
    Fixpoint log_loop (is : list include) (ds : list diag) (files : list (fpath * pfile))
      : outcome ((list diag * list (fpath * pfile)) * list fpath) :=
      match is with
      | [] => Done ((ds, files), [])
      | i :: r =>
        match include_path fs i with
        | inr e => log_loop r (ds ++ [diag_io_error (include_span i) (include_source i) e]) files
        | inl p =>
          if m_mem str_eq_dec p files then log_loop r ds files
          else
            match read_to_string fs p with
            | inl t => lbind (rec p t (file_type_of_path p) files) (log_loop r ds)
            | inr e => log_loop r (ds ++ [diag_io_error (include_span i) (include_source i) e]) files
            end
        end
      end.
  End LoopLog.
  Lemma log_unfold fl name text ft files : parse_file_log (S fl) name text ft files =
    match parse_text (include_dirs incl name) text name with
    | RPanic => Panic
    | RNoFuel => NoFuel
    | RErr d _ => Done (m_insert str_eq_dec name (pf_unrecoverable d text ft) files, [name])
    | ROk file st => lbind (Done (tt, [name])) (fun _ =>
        lbind (log_loop (parse_file_log fl) (includes_of file) (ps_diags st) (m_insert str_eq_dec name pf_default files))
          (fun '(ds, files') => Done (m_insert str_eq_dec name (pf_parsed ds file ft text) files', [])))
    end.
  Proof. reflexivity. Qed.

  Lemma no_log_bind {A B} (r : outcome (A * list fpath)) (k : A -> outcome (B * list fpath)) :
    no_log (lbind r k) = obind (no_log r) (fun a => no_log (k a)).
  Proof. unfold no_log, lbind. destruct r as [[a l]| |]; cbn [obind]; [|reflexivity|reflexivity]. destruct (k a) as [[b m]| |]; reflexivity. Qed.

  (** without the log it is [parse_file] *)
  Lemma log_erase fl : forall name text ft files,
    no_log (parse_file_log fl name text ft files) = parse_file fl fs incl name text ft files.
  Proof.
    induction fl as [|fl IH]; intros name text ft files; [reflexivity|]. rewrite log_unfold, parse_file_unfold.
    destruct (parse_text (include_dirs incl name) text name) as [file st|d st| |]; try reflexivity.
    rewrite !no_log_bind. cbn [no_log obind].
    assert (L : forall is ds files, no_log (log_loop (parse_file_log fl) is ds files) = inc_loop fs (parse_file fl fs incl) is ds files).
    { induction is as [|i is IHl]; intros ds c; cbn [log_loop inc_loop]; [reflexivity|].
      destruct (include_path fs i) as [p|e]; [|apply IHl]. destruct (m_mem str_eq_dec p c); [apply IHl|].
      destruct (read_to_string fs p) as [t|e]; [|apply IHl]. rewrite no_log_bind, IH.
      destruct (parse_file fl fs incl p t (file_type_of_path p) c); cbn [obind]; auto. }
    rewrite L. destruct (inc_loop _ _ _ _ _) as [[ds c]| |]; reflexivity.
  Qed.

  (** the files parsed are new, apart from the first one *)
  Lemma log_spec fl : forall name text ft files files' log, parse_file_log fl name text ft files = Done (files', log) ->
    (forall k, In k (keys files') <-> In k (keys files) \/ In k log)
    /\ exists rest, log = name :: rest /\ NoDup log /\ forall k, In k rest -> ~ In k (keys files).
  Proof.
    induction fl as [|fl IH]; intros name text ft files files' log E; [discriminate|]. rewrite log_unfold in E.
    destruct (parse_text (include_dirs incl name) text name) as [file st|d st| |]; try discriminate.
    - assert (L : forall is ds c ds' c' m, log_loop (parse_file_log fl) is ds c = Done ((ds', c'), m) ->
        (forall k, In k (keys c') <-> In k (keys c) \/ In k m) /\ NoDup m /\ forall k, In k m -> ~ In k (keys c)).
      { induction is as [|i is IHl]; intros ds c ds' c' m F; cbn [log_loop] in F.
        - injection F as <- <- <-. split; [|split; [constructor|intros k []]]. intros k. cbn. tauto.
        - destruct (include_path fs i) as [p|e]; [|eapply IHl, F]. destruct (m_mem str_eq_dec p c) eqn:M; [eapply IHl, F|].
          destruct (read_to_string fs p) as [t|e]; [|eapply IHl, F]. unfold lbind in F.
          destruct (parse_file_log fl p t (file_type_of_path p) c) as [[c1 m1]| |] eqn:E1; try discriminate. cbn [obind] in F.
          destruct (log_loop (parse_file_log fl) is ds c1) as [[[d2 c2] m2]| |] eqn:E2; try discriminate. cbn [obind] in F.
          injection F as <- <- <-. destruct (IH _ _ _ _ _ _ E1) as (K1 & rest & -> & N1 & F1).
          destruct (IHl _ _ _ _ _ E2) as (K2 & N2 & F2).
          assert (Hp : ~ In p (keys c)).
          { intros H. apply (m_mem_spec str_eq_dec) in H. congruence. }
          split; [|split].
          + intros k. rewrite K2, K1, in_app_iff. tauto.
          + apply nodup_app; [exact N1|exact N2|]. intros x Hx Hx2. apply (F2 x Hx2). apply K1. auto.
          + intros k Hk. apply in_app_or in Hk. destruct Hk as [[<-|Hk]|Hk]; [exact Hp|exact (F1 k Hk)|].
            intros H. apply (F2 k Hk). apply K1. auto. }
      unfold lbind in E. cbn [obind] in E.
      destruct (log_loop (parse_file_log fl) _ _ _) as [[[ds c] m]| |] eqn:E1; try discriminate. cbn [obind] in E.
      injection E as <- <-. destruct (L _ _ _ _ _ _ E1) as (K & N & F). rewrite app_nil_r. split.
      + intros k. rewrite (m_keys_insert str_eq_dec), K, (m_keys_insert str_eq_dec). cbn [app In]. intuition congruence.
      + exists m. split; [reflexivity|]. split.
        * cbn [app]. constructor; [|exact N]. intros H. apply (F name H). apply (m_keys_insert str_eq_dec). auto.
        * intros k Hk H. apply (F k Hk). apply (m_keys_insert str_eq_dec). auto.
    - injection E as <- <-. split.
      + intros k. rewrite (m_keys_insert str_eq_dec). cbn. intuition congruence.
      + exists []. split; [reflexivity|]. split; [repeat constructor; intros []|intros k []].
  Qed.
End Log.

(** ** When the order cannot be computed *)
Lemma swap_values_fuel ki vs : forall order, swap_values ki vs order <> NoFuel.
Proof.
  induction vs as [|v vs IH]; intros order; cbn [swap_values]; [discriminate|].
  destruct (position_of v order); [apply IH|discriminate].
Qed.
Lemma order_loop_fuel m : forall order, order_loop m order <> NoFuel.
Proof.
  induction m as [|[k vs] m IH]; intros order; cbn [order_loop]; [discriminate|].
  destruct (position_of k order) as [ki|]; [|discriminate].
  destruct (swap_values ki vs order) eqn:E; cbn [obind]; [apply IH|discriminate|]. exfalso. eapply swap_values_fuel, E.
Qed.
Lemma order_loop_keys m : forall order order', order_loop m order = Done order' -> forall k vs, In (k, vs) m -> In k order.
Proof.
  induction m as [|[j ws] m IH]; intros order order' E k vs H; cbn [order_loop] in E; [destruct H|].
  destruct (position_of j order) as [ki|] eqn:Ep; [|discriminate].
  destruct (swap_values ki ws order) as [o1| |] eqn:E1; try discriminate. cbn [obind] in E.
  destruct H as [H|H].
  - injection H as <- <-. apply position_nth in Ep. eapply nth_error_In, Ep.
  - eapply Permutation_in; [eapply swap_values_perm, E1|]. eapply IH; eassumption.
Qed.
Lemma key_order_panic o fs files : order_ok o -> NoDup (keys files) ->
  compute_key_order o fs files = Panic <-> ~ closed_files fs files.
Proof.
  intros Ho Hn. split.
  - intros E Hc. destruct (key_order_done o fs files Ho Hn Hc). congruence.
  - intros Hc. destruct (compute_key_order o fs files) as [order| |] eqn:E; [|reflexivity|exfalso; eapply order_loop_fuel, E].
    exfalso. apply Hc. intros p q H. pose proof (key_order_perm o fs files order Ho E) as P.
    destruct Ho as (H1 & H2 & _). unfold compute_key_order in E.
    destruct (includer_map_spec fs (o_files o files)) as (_ & B & _).
    assert (Hq : In q (m_keys (includer_map fs (o_files o files)))).
    { apply B. right. apply stored_includes_in in H; [|exact Hn]. destruct H as (v & X & Y). exists p, v.
      split; [eapply Permutation_in; [apply Permutation_sym, H1|exact X]|exact Y]. }
    destruct (m_get_some_key str_eq_dec _ _ Hq) as [vs Hvs]. apply m_get_in in Hvs.
    assert (Hin : In (q, vs) (o_map o (includer_map fs (o_files o files)))).
    { eapply Permutation_in; [apply Permutation_sym, H2|exact Hvs]. }
    pose proof (order_loop_keys _ _ _ E q vs Hin) as K. unfold m_keys in K.
    eapply Permutation_in; [apply Permutation_map, H1|exact K].
Qed.

(** ** Adding a file *)
(** what is known about the files of a project *)
Record project_inv (pj : project) : Prop := {
  pi_nodup : NoDup (keys (pj_files pj));
  pi_ok : project_ok pj;
  (** the tree of a file carries its path, a file without tree has no analysis *)
  pi_source : forall k v f, fget k (pj_files pj) = Some v -> pf_file v = Some f -> fl_source f = k;
  pi_bare : forall k v, fget k (pj_files pj) = Some v -> pf_file v = None -> pf_ctx v = None /\ pf_adiags v = []
}.

(** the files after loading, before the analysis *)
Record load_inv (fs : fsys) (incl : list fpath) (root : fpath) (text : str) (ft : file_type)
  (files files' : list (fpath * pfile)) : Prop := {
  li_frame : forall k, In k (keys files) -> k <> root -> fget k files' = fget k files;
  li_root : exists v, fget root files' = Some v /\ stored fs incl root (keys files) root text ft v;
  li_keys : forall k, In k (keys files') <-> In k (keys files) \/ loaded fs incl root text (keys files) k;
  li_new : forall k, loaded fs incl root text (keys files) k -> k <> root -> ~ In k (keys files)
     /\ exists t v, read_to_string fs k = inl t /\ fget k files' = Some v
        /\ stored fs incl root (keys files) k t (file_type_of_path k) v;
  li_nodup : NoDup (keys files')
}.

Lemma parse_source dirs text src f s : valid_utf8 text = true -> parse_text dirs text src = ROk f s -> fl_source f = src.
Proof.
  intros Hv E. pose proof (ParserSafe2.parse_safe text src Hv dirs) as H. unfold ParserBase.wp in H.
  change (p_file _ _) with (parse_text dirs text src) in H. rewrite E in H. exact (proj2 H).
Qed.

Lemma load_inv_holds fs u fuel incl root text ft files : finite_fs fs u -> valid_utf8 text = true ->
  (length u < fuel)%nat -> NoDup (keys files) ->
  exists files', parse_file fuel fs incl root text ft files = Done files' /\ load_inv fs incl root text ft files files'.
Proof.
  intros Hf Hv Hl Hn. destruct (load_spec fs incl u root text ft files fuel Hf Hv Hl) as (files' & E & A & B & C & D).
  exists files'. split; [exact E|]. constructor; auto. eapply parse_nodup; eassumption.
Qed.

(** every file after loading is an old one or was stored by the addition *)
Lemma load_cases fs incl root text ft files files' : valid_utf8 text = true -> load_inv fs incl root text ft files files' ->
  forall k v, fget k files' = Some v ->
    (k <> root /\ fget k files = Some v)
    \/ (loaded fs incl root text (keys files) k /\ exists t ft', valid_utf8 t = true /\ text_of fs root text k = Some t
          /\ stored fs incl root (keys files) k t ft' v).
Proof.
  intros Hv [A B C D N] k v Hk. destruct (str_eq_dec k root) as [->|Hne].
  - right. destruct B as (w & B1 & B2). assert (w = v) as -> by congruence. split; [constructor|].
    exists text, ft. split; [exact Hv|]. split; [apply text_of_root|exact B2].
  - destruct (in_dec str_eq_dec k (keys files)) as [Hin|Hin].
    + left. split; [exact Hne|]. rewrite <- (A k Hin Hne). exact Hk.
    + right. assert (Hl : In k (keys files')) by (eapply m_get_key, Hk). apply C in Hl. destruct Hl as [Hl|Hl]; [contradiction|].
      split; [exact Hl|]. destruct (D k Hl Hne) as (_ & t & w & X & Y & Z). assert (w = v) as -> by congruence.
      exists t, (file_type_of_path k). split; [apply (read_valid fs k t X)|]. split; [apply text_of_other; assumption|exact Z].
Qed.

Lemma load_keeps fs incl root text ft pj files' : valid_utf8 text = true -> project_inv pj ->
  load_inv fs incl root text ft (pj_files pj) files' -> project_inv (set_files files' pj).
Proof.
  intros Hv [P1 P2 P3 P4] L. pose proof (load_cases _ _ _ _ _ _ _ Hv L) as K. constructor; cbn [pj_files set_files].
  - apply L.
  - intros k v c Hin Hc. cbn [pj_files set_files] in Hin. apply (m_in_get str_eq_dec) in Hin; [|apply L].
    destruct (K k v Hin) as [[_ H]|(_ & t & ft' & _ & _ & S)].
    + apply (P2 k v c); [apply m_get_in in H; exact H|exact Hc].
    + destruct S as (_ & _ & S & _). congruence.
  - intros k v f Hk Hf. destruct (K k v Hk) as [[_ H]|(_ & t & ft' & Ht & _ & S)]; [eapply P3; eassumption|].
    destruct S as (_ & _ & _ & _ & [(g & s & S1 & S2 & _)|(d & s & _ & S2 & _)]); [|congruence].
    assert (g = f) as -> by congruence. eapply parse_source; eassumption.
  - intros k v Hk Hf. destruct (K k v Hk) as [[_ H]|(_ & t & ft' & Ht & _ & S)]; [eapply P4; eassumption|].
    destruct S as (_ & _ & S1 & S2 & _). auto.
Qed.

Lemma analysed_source o fs files h order pj' : (forall k, In k order <-> In k (keys files)) ->
  analysed_in o fs files h order pj' ->
  forall k, match fget k (pj_files pj'), fget k files with
            | Some v, Some w => same_source v w
            | None, None => True
            | _, _ => False
            end.
Proof.
  intros Ho (A1 & A2 & A3 & A4) k. destruct (fget k files) as [w|] eqn:E.
  - destruct (pf_file w) as [f|] eqn:Ef.
    + assert (Hk : In k order) by (apply Ho; eapply m_get_key, E). apply in_split in Hk. destruct Hk as (k1 & k2 & Hk).
      destruct (A4 k1 k k2 w f Hk E Ef) as (pjk & a & a' & ac & es & B & _). rewrite B. repeat split.
    + rewrite (A3 k w E Ef). repeat split.
  - rewrite A2; [rewrite E; exact I|]. intros H. apply Ho in H. destruct (m_get_some_key str_eq_dec _ _ H). congruence.
Qed.

Lemma add_spec_at fs fuel o name root text ft pj files' : order_ok o -> fs_canon fs name = inl root -> valid_utf8 text = true -> project_inv pj ->
  parse_file fuel fs (pj_incl pj) root text ft (pj_files pj) = Done files' -> load_inv fs (pj_incl pj) root text ft (pj_files pj) files' ->
  (~ closed_files fs files' /\ add_file_with_text fuel o fs name text ft pj = Panic)
  \/ (closed_files fs files' /\ exists order pj',
              add_file_with_text fuel o fs name text ft pj = Done pj'
              /\ compute_key_order o fs files' = Done order
              /\ Permutation order (keys files') /\ project_inv pj'
              /\ pj_incl pj' = pj_incl pj /\ pj_sev pj' = pj_sev pj
              /\ analysed_in (o_an o) fs files' [] order pj').
Proof.
  intros Ho Hc Hv Hp E L. unfold add_file_with_text. rewrite Hc, E. cbn [obind].
  destruct (compute_key_order o fs files') as [order| |] eqn:Ek; cbn [obind].
  - right. split.
    + destruct (key_order_panic o fs files' Ho (li_nodup _ _ _ _ _ _ _ L)) as [_ K].
      intros p q Hpq. destruct (in_dec str_eq_dec q (keys files')) as [H|H]; [exact H|].
      exfalso. rewrite K in Ek; [discriminate|]. intros Hcl. apply H, (Hcl p q Hpq).
    + pose proof (key_order_perm o fs files' order Ho Ek) as P.
      pose proof (load_keeps _ _ _ _ _ _ _ Hv Hp L) as Hq.
      assert (Hin : forall k, In k order <-> In k (keys files')).
      { intros k. split; apply Permutation_in; [|apply Permutation_sym]; exact P. }
      destruct (analyze_keys_spec (o_an o) fs) with (order := order) (a := analysis_new) (pj := set_files files' pj) (h := @nil (fpath * list fpath))
        as (pj' & E' & B1 & B2 & B3 & B4).
      { apply Ho. }
      { apply Hq. }
      { eapply Permutation_NoDup; [apply Permutation_sym, P|]. apply L. }
      { intros k Hk. apply Hin, Hk. }
      { reflexivity. }
      cbn [pj_files set_files pj_incl pj_sev] in *. exists order, pj'. split; [exact E'|]. split; [reflexivity|]. split; [exact P|].
      split; [|auto]. pose proof (analysed_source _ _ _ _ _ _ Hin B4) as S. constructor.
      * destruct B4 as (B4 & _). rewrite B4. apply L.
      * exact B1.
      * intros k v f Hk Hf'. specialize (S k). rewrite Hk in S. destruct (fget k files') as [w|] eqn:Ew; [|contradiction].
        destruct S as (_ & S & _). eapply (pi_source _ Hq k w); [exact Ew|]. rewrite <- S. exact Hf'.
      * intros k v Hk Hf'. specialize (S k). rewrite Hk in S. destruct (fget k files') as [w|] eqn:Ew; [|contradiction].
        destruct S as (_ & S & _). destruct B4 as (_ & _ & B4 & _).
        assert (Hw : pf_file w = None) by congruence. rewrite (B4 k w Ew Hw) in Hk. injection Hk as ->.
        apply (pi_bare _ Hq k v Ew Hw).
  - left. split; [|reflexivity]. apply (key_order_panic o fs files' Ho); [apply L|exact Ek].
  - exfalso. eapply order_loop_fuel, Ek.
Qed.

Lemma add_spec fs u fuel o name root text ft pj : finite_fs fs u -> (length u < fuel)%nat -> order_ok o ->
  fs_canon fs name = inl root -> valid_utf8 text = true -> project_inv pj ->
  exists files', load_inv fs (pj_incl pj) root text ft (pj_files pj) files'
    /\ ((~ closed_files fs files' /\ add_file_with_text fuel o fs name text ft pj = Panic)
        \/ (closed_files fs files' /\ exists order pj',
              add_file_with_text fuel o fs name text ft pj = Done pj'
              /\ compute_key_order o fs files' = Done order
              /\ Permutation order (keys files') /\ project_inv pj'
              /\ pj_incl pj' = pj_incl pj /\ pj_sev pj' = pj_sev pj
              /\ analysed_in (o_an o) fs files' [] order pj')).
Proof.
  intros Hf Hl Ho Hc Hv Hp.
  destruct (load_inv_holds fs u fuel (pj_incl pj) root text ft (pj_files pj) Hf Hv Hl (pi_nodup pj Hp)) as (files' & E & L).
  exists files'. split; [exact L|]. exact (add_spec_at fs fuel o name root text ft pj files' Ho Hc Hv Hp E L).
Qed.

Lemma remove_get fs p q pj : fs_canon fs p = inl q -> forall k,
  fget k (pj_files (remove_file fs p pj)) = if str_eq_dec k q then None else fget k (pj_files pj).
Proof.
  intros E k. unfold remove_file. rewrite E. cbn [pj_files set_files]. destruct (str_eq_dec k q) as [->|H].
  - apply m_get_remove_eq.
  - apply m_get_remove_neq. exact H.
Qed.
Lemma remove_nodup {V} q (m : list (fpath * V)) : NoDup (m_keys m) -> NoDup (m_keys (m_remove str_eq_dec q m)).
Proof.
  unfold m_keys, m_remove. induction m as [|[a v] m IH]; intros H; [constructor|]. inversion H as [|? ? H1 H2]; subst. cbn [filter map fst].
  destruct (str_eq_dec q a); cbn; [auto|]. constructor; [|auto]. intros K. apply H1. clear - K.
  induction m as [|[b w] m IH]; cbn in *; [contradiction|]. destruct (str_eq_dec q b); cbn in *; tauto.
Qed.
Lemma remove_keeps fs p pj : project_inv pj -> project_inv (remove_file fs p pj).
Proof.
  intros Hp. destruct (fs_canon fs p) as [q|e] eqn:E; [|unfold remove_file; rewrite E; exact Hp].
  pose proof (remove_get fs p q pj E) as R. destruct Hp as [P1 P2 P3 P4].
  assert (N : NoDup (keys (pj_files (remove_file fs p pj)))).
  { unfold remove_file. rewrite E. cbn [pj_files set_files]. apply remove_nodup, P1. }
  constructor; [exact N| | |].
  - intros k v c Hin Hc. apply (m_in_get str_eq_dec) in Hin; [|exact N]. rewrite R in Hin. destruct (str_eq_dec k q); [discriminate|].
    apply (P2 k v c); [apply m_get_in in Hin; exact Hin|exact Hc].
  - intros k v f. rewrite R. destruct (str_eq_dec k q); [discriminate|]. apply P3.
  - intros k v. rewrite R. destruct (str_eq_dec k q); [discriminate|]. apply P4.
Qed.

(** ** Histories *)
(** the projects reached by additions and removals; the file system may change between them *)
Inductive reached : project -> Prop :=
| re_new : reached project_new
| re_dirs fs ps pj : reached pj -> reached (set_include_paths fs ps pj)
| re_add fs u fuel o name text ft pj pj' : reached pj -> finite_fs fs u -> (length u < fuel)%nat -> order_ok o ->
    valid_utf8 text = true -> add_file_with_text fuel o fs name text ft pj = Done pj' -> reached pj'
| re_remove fs p pj : reached pj -> reached (remove_file fs p pj).

Lemma new_inv : project_inv project_new.
Proof.
  constructor; cbn.
  - constructor.
  - intros p f c [].
  - discriminate.
  - discriminate.
Qed.
Lemma reached_inv pj : reached pj -> project_inv pj.
Proof.
  induction 1 as [|fs ps pj H IH|fs u fuel o name text ft pj pj' H IH Hf Hl Ho Hv E|fs p pj H IH].
  - apply new_inv.
  - destruct IH as [A B C D]. constructor; assumption.
  - destruct (fs_canon fs name) as [root|e] eqn:Ec; [|unfold add_file_with_text in E; rewrite Ec in E; discriminate].
    destruct (add_spec fs u fuel o name root text ft pj Hf Hl Ho Ec Hv IH) as (files' & _ & [[_ X]|(_ & order & pj2 & X & _ & _ & Y & _)]); congruence.
  - apply remove_keeps, IH.
Qed.
