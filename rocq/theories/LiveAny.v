(** Adding a file while anything may happen to the disk (for C118) *)
From Verif Require Import Base Parser Analysis Project AnalysisSpec AnalysisProofs GuardProofs ProjectSpec ProjectProofs ProjectProofs2 ProjectHistory Live LiveProofs.
From Coq Require Import Permutation ListDec.

(** ** Clock and names *)
Section Clock.
  Context (D : nat -> fsys).
  Lemma resolve_clock dirs name : forall t r t', live_resolve D dirs name t = (r, t') ->
    (t <= t')%nat /\ forall p, r = Some p -> exists s x, (t <= s < t')%nat /\ fs_canon (D s) x = inl p.
  Proof.
    induction dirs as [|d l IH]; intros t r t' E; cbn [live_resolve] in E; [injection E as <- <-; split; [lia|discriminate]|].
    unfold live_canon in E. destruct (fs_canon (D t) (path_join d name)) as [q|e] eqn:Ec.
    - injection E as <- <-. split; [lia|]. intros p X. injection X as <-. exists t, (path_join d name). split; [lia|exact Ec].
    - destruct (IH _ _ _ E) as [A B]. split; [lia|]. intros p X. destruct (B p X) as (s & x & C1 & C2). exists s, x. split; [lia|exact C2].
  Qed.
  Lemma include_clock i t r t' : live_include_path D i t = (r, t') ->
    (t <= t')%nat /\ forall p, r = inl p -> exists s x, (t <= s < t')%nat /\ fs_canon (D s) x = inl p.
  Proof.
    unfold live_include_path. destruct (live_resolve D (in_paths i) (wt_item (in_file_name i)) t) as [o t1] eqn:E1.
    destruct (resolve_clock _ _ _ _ _ E1) as [A B]. destruct o as [q|]; intros E.
    - injection E as <- <-. split; [exact A|]. intros p X. injection X as <-. apply B. reflexivity.
    - unfold live_canon in E. injection E as <- <-. split; [lia|]. intros p X. exists t1, (wt_item (in_file_name i)). split; [lia|exact X].
  Qed.
End Clock.

(** ** Loading *)
Section Load.
  Context (D : nat -> fsys) (u : list fpath) (inc : list fpath).
  Hypothesis Hu : forall t t' x p b, fs_canon (D t) x = inl p -> fs_read (D t') p = inl b -> In p u.

  (** what is stored for a file with this text: what the parser makes of it, and an I/O error for some of its includes *)
  Definition kept (k : fpath) (text : str) (v : pfile) : Prop :=
    pf_text v = text /\ pf_ctx v = None /\ pf_adiags v = []
    /\ ((exists f s ios, parse_text (include_dirs inc k) text k = ROk f s /\ pf_file v = Some f /\ pf_pdiags v = ps_diags s ++ ios
           /\ Forall (fun d => exists i e, In (PDirective (AInclude i)) (fl_elements f) /\ d = mkDiag IOError (include_span i) (include_source i) e) ios)
        \/ (exists d s, parse_text (include_dirs inc k) text k = RErr d s /\ pf_file v = None /\ pf_pdiags v = [d])).
  (** a file that was on the disk at one moment between [t] and [t'] *)
  Definition read_at (t t' : nat) (k : fpath) (v : pfile) : Prop :=
    pf_type v = file_type_of_path k /\ exists s text, (t <= s < t')%nat /\ read_to_string (D s) k = inl text /\ kept k text v.
  Definition grown (t : nat) (a : list (fpath * pfile)) (t' : nat) (b : list (fpath * pfile)) : Prop :=
    (t <= t')%nat /\ (forall k, In k (keys a) -> fget k b = fget k a) /\ (NoDup (keys a) -> NoDup (keys b))
    /\ forall k v, fget k b = Some v -> ~ In k (keys a) -> read_at t t' k v.
  Lemma read_at_wider s t t' s' k v : (s <= t)%nat -> (t' <= s')%nat -> read_at t t' k v -> read_at s s' k v.
  Proof. intros A B (C & r & x & E & F). split; [exact C|]. exists r, x. split; [lia|exact F]. Qed.
  Lemma grown_more t a t' b : grown t a t' b -> more a b.
  Proof.
    intros (_ & H & _) k Hk. pose proof (H k Hk) as E. destruct (m_get_some_key str_eq_dec k a Hk) as [v Hv]. rewrite Hv in E. eapply m_get_key, E.
  Qed.
  Lemma grown_refl t a : grown t a t a.
  Proof. split; [lia|]. split; [auto|]. split; [auto|]. intros k v H1 H2. destruct H2. eapply m_get_key, H1. Qed.
  Lemma grown_trans t a t1 b t2 c : grown t a t1 b -> grown t1 b t2 c -> grown t a t2 c.
  Proof.
    intros H1 H2. pose proof (grown_more _ _ _ _ H1) as M. destruct H1 as (L1 & A1 & N1 & B1), H2 as (L2 & A2 & N2 & B2).
    split; [lia|]. split; [|split; [auto|]].
    - intros k Hk. rewrite A2 by (apply M, Hk). apply A1, Hk.
    - intros k v Hv Hk. destruct (in_dec str_eq_dec k (keys b)) as [Hb|Hb].
      + rewrite A2 in Hv by exact Hb. eapply read_at_wider; [|exact L2|exact (B1 k v Hv Hk)]. lia.
      + eapply read_at_wider; [exact L1| |exact (B2 k v Hv Hb)]. lia.
  Qed.
  Lemma grown_earlier s t a t' b : (s <= t)%nat -> grown t a t' b -> grown s a t' b.
  Proof.
    intros H (A & B & C & E). split; [lia|]. split; [exact B|]. split; [exact C|]. intros k v H1 H2. eapply read_at_wider; [exact H| |exact (E k v H1 H2)]. lia.
  Qed.

  (** parsing a file whose text is there: the file itself is stored, the files of its includes are read *)
  Definition parsed_at (t : nat) (name : fpath) (text : str) (ft : file_type) (a : list (fpath * pfile)) (t' : nat) (b : list (fpath * pfile)) : Prop :=
    (t <= t')%nat /\ (forall k, In k (keys a) -> k <> name -> fget k b = fget k a) /\ (NoDup (keys a) -> NoDup (keys b))
    /\ (exists v, fget name b = Some v /\ pf_type v = ft /\ kept name text v)
    /\ forall k v, fget k b = Some v -> ~ In k (keys a) -> k <> name -> read_at t t' k v.
  Definition live_ok (fl : nat) : Prop := forall name text ft cur t, valid_utf8 text = true -> (missing u (m_insert str_eq_dec name pf_default cur) < fl)%nat ->
    exists cur' t', live_parse_file D fl inc name text ft cur t = Done (cur', t') /\ parsed_at t name text ft cur t' cur'.

  Lemma live_loop_ok fl : live_ok fl -> forall is ds cur t, (missing u cur <= fl)%nat ->
    exists ios cur' t', live_loop D (live_parse_file D fl inc) is ds cur t = Done ((ds ++ ios, cur'), t') /\ grown t cur t' cur'
      /\ Forall (fun d => exists i e, In i is /\ d = mkDiag IOError (include_span i) (include_source i) e) ios.
  Proof.
    intros Hrec. induction is as [|i is IH]; intros ds cur t Hm.
    - exists [], cur, t. cbn. rewrite app_nil_r. split; [reflexivity|]. split; [apply grown_refl|constructor].
    - assert (W : forall ios, Forall (fun d => exists j e, In j is /\ d = mkDiag IOError (include_span j) (include_source j) e) ios ->
        Forall (fun d => exists j e, In j (i :: is) /\ d = mkDiag IOError (include_span j) (include_source j) e) ios).
      { intros ios. apply Forall_impl. intros d (j & e & X & Y). exists j, e. split; [right; exact X|exact Y]. }
      assert (Q : forall e t1, (t <= t1)%nat -> exists ios cur' t',
        live_loop D (live_parse_file D fl inc) is (ds ++ [diag_io_error (include_span i) (include_source i) e]) cur t1 = Done ((ds ++ ios, cur'), t')
        /\ grown t cur t' cur' /\ Forall (fun d => exists j e, In j (i :: is) /\ d = mkDiag IOError (include_span j) (include_source j) e) ios).
      { intros e t1 L. destruct (IH (ds ++ [diag_io_error (include_span i) (include_source i) e]) cur t1 Hm) as (ios & cur' & t' & E & G & F).
        exists (diag_io_error (include_span i) (include_source i) e :: ios), cur', t'. split; [rewrite E, <- app_assoc; reflexivity|].
        split; [exact (grown_earlier _ _ _ _ _ L G)|]. constructor; [|exact (W _ F)]. exists i, e. split; [left; reflexivity|reflexivity]. }
      cbn [live_loop]. destruct (live_include_path D i t) as [[p|e] t1] eqn:Ei; destruct (include_clock _ _ _ _ _ Ei) as [L1 C]; [|exact (Q e t1 L1)].
      destruct (m_mem str_eq_dec p cur) eqn:Em.
      { destruct (IH ds cur t1 Hm) as (ios & cur' & t' & E & G & F). exists ios, cur', t'. split; [exact E|]. split; [exact (grown_earlier _ _ _ _ _ L1 G)|exact (W _ F)]. }
      unfold live_read. destruct (read_to_string (D t1) p) as [text|e] eqn:Er; [|apply Q; lia].
      assert (Hp : ~ In p (keys cur)). { intros H. apply (m_mem_spec str_eq_dec) in H. congruence. }
      destruct (read_valid (D t1) p text Er) as [Hv Hb].
      destruct (C p eq_refl) as (s & x & _ & Cx). pose proof (Hu _ _ _ _ _ Cx Hb) as Hin.
      pose proof (missing_insert u cur p pf_default Hin Hp) as M1.
      destruct (Hrec p text (file_type_of_path p) cur (S t1) Hv) as (c1 & t2 & E1 & A1 & A2 & A3 & (v & A4 & A5 & A6) & A7); [lia|].
      assert (G1 : grown t1 cur t2 c1).
      { split; [lia|]. split; [|split; [exact A3|]].
        - intros k Hk. apply A2; [exact Hk|]. intros ->. contradiction.
        - intros k w Hw Hk. destruct (str_eq_dec k p) as [->|Hne].
          + assert (w = v) as -> by congruence. split; [exact A5|]. exists t1, text. split; [lia|]. split; [exact Er|exact A6].
          + eapply read_at_wider; [|apply le_n|exact (A7 k w Hw Hk Hne)]. lia. }
      pose proof (missing_more u _ _ (grown_more _ _ _ _ G1)) as M2.
      destruct (IH ds c1 t2) as (ios & cur' & t' & E & G & F); [lia|].
      exists ios, cur', t'. rewrite E1. cbn [obind]. split; [exact E|]. split; [|exact (W _ F)].
      eapply grown_earlier; [exact L1|]. eapply grown_trans; eassumption.
  Qed.
  Lemma live_parse_ok fl : live_ok fl.
  Proof.
    induction fl as [|fl IH]; intros name text ft cur t Hv Hm; [lia|]. cbn [live_parse_file].
    destruct (parse_total (include_dirs inc name) text name Hv) as [(f & s & E)|(d & s & E)]; rewrite E.
    - destruct (live_loop_ok fl IH (includes_of f) (ps_diags s) (m_insert str_eq_dec name pf_default cur) t) as (ios & c1 & t1 & E1 & (G1 & G2 & G3 & G4) & F); [lia|].
      rewrite E1. cbn [obind]. eexists _, t1. split; [reflexivity|]. split; [exact G1|]. split; [|split; [|split]].
      + intros k Hk Hn. rewrite m_get_insert_neq by exact Hn. rewrite G2 by (apply m_keys_insert; auto). apply m_get_insert_neq, Hn.
      + intros N. apply (m_nodup_insert str_eq_dec), G3, (m_nodup_insert str_eq_dec), N.
      + eexists. split; [apply m_get_insert_eq|]. split; [reflexivity|]. repeat split. left. exists f, s, ios. repeat split; [exact E|].
        eapply Forall_impl; [|exact F]. intros d (i & e & X & Y). exists i, e. split; [apply includes_of_in, X|exact Y].
      + intros k v Hk Hc Hn. rewrite m_get_insert_neq in Hk by exact Hn. apply (G4 k v Hk). intros H. apply m_keys_insert in H. tauto.
    - eexists _, t. split; [reflexivity|]. split; [lia|]. split; [|split; [|split]].
      + intros k Hk Hn. apply m_get_insert_neq, Hn.
      + apply (m_nodup_insert str_eq_dec).
      + eexists. split; [apply m_get_insert_eq|]. split; [reflexivity|]. repeat split. right. eauto.
      + intros k v Hk Hc Hn. rewrite m_get_insert_neq in Hk by exact Hn. destruct Hc. eapply m_get_key, Hk.
  Qed.
End Load.

(** ** The order *)
Section Order.
  Context (D : nat -> fsys).
  (** an include of a stored file that leads to [q] at a moment from [t] on *)
  Definition leads (files : list (fpath * pfile)) (t : nat) (q : fpath) : Prop :=
    exists p v f i s t', In (p, v) files /\ pf_file v = Some f /\ In (PDirective (AInclude i)) (fl_elements f) /\ (t <= s)%nat /\ live_include_path D i s = (inl q, t').
  Lemma resolved_clock is : forall t ps t', live_resolved D is t = (ps, t') -> (t <= t')%nat
    /\ forall q, In q ps -> exists i s s', In i is /\ (t <= s)%nat /\ live_include_path D i s = (inl q, s').
  Proof.
    induction is as [|i is IH]; intros t ps t' E; cbn [live_resolved] in E; [injection E as <- <-; split; [lia|intros q []]|].
    destruct (live_include_path D i t) as [r t1] eqn:Ei. destruct (live_resolved D is t1) as [qs t2] eqn:Er. injection E as <- <-.
    destruct (include_clock _ _ _ _ _ Ei) as [L1 _]. destruct (IH _ _ _ Er) as [L2 F]. split; [lia|].
    assert (G : forall q, In q qs -> exists j s s', In j (i :: is) /\ (t <= s)%nat /\ live_include_path D j s = (inl q, s')).
    { intros q Hq. destruct (F q Hq) as (j & s & s' & A & B & C). exists j, s, s'. split; [right; exact A|]. split; [lia|exact C]. }
    destruct r as [q0|e]; [|exact G]. intros q [<-|Hq]; [|exact (G q Hq)]. exists i, t, t1. split; [left; reflexivity|]. split; [lia|exact Ei].
  Qed.
  Lemma map_clock files : forall m t m' t', live_includer_map D files m t = (m', t') -> (t <= t')%nat
    /\ (NoDup (m_keys m) -> NoDup (m_keys m'))
    /\ (forall k x, In x (entry k m') -> In x (entry k m) \/ In x (keys files))
    /\ (forall k, In k (m_keys m') -> In k (m_keys m) \/ In k (keys files) \/ leads files t k).
  Proof.
    induction files as [|[p v] files IH]; intros m t m' t' E; cbn [live_includer_map fst snd] in E; [injection E as <- <-; auto|].
    assert (W : forall s q, (t <= s)%nat -> leads files s q -> leads ((p, v) :: files) t q).
    { intros s q L (p' & v' & f & i & r & r' & A1 & A2 & A3 & A4 & A5). exists p', v', f, i, r, r'. split; [right; exact A1|]. repeat split; try assumption. lia. }
    destruct (pf_file v) as [f|] eqn:Ef.
    - destruct (live_resolved D (includes_of f) t) as [ps t1] eqn:Er. destruct (resolved_clock _ _ _ _ Er) as [L1 F].
      destruct (IH _ _ _ _ E) as (L2 & N & A & B). destruct (pushes_spec p ps (map_touch p m)) as (A1 & B1 & C1).
      split; [lia|]. split; [|split].
      + intros H. apply N, C1, touch_nodup, H.
      + intros k x Hx. destruct (A k x Hx) as [H|H]; [|right; right; exact H]. apply A1 in H. rewrite touch_entry in H. destruct H as [H|[_ ->]]; [left; exact H|right; left; reflexivity].
      + intros k Hk. destruct (B k Hk) as [H|[H|H]]; [|right; left; right; exact H|right; right; exact (W t1 k L1 H)].
        apply B1 in H. rewrite touch_keys in H. destruct H as [H|[->|H]]; [|right; left; left; reflexivity|left; exact H].
        right. right. destruct (F k H) as (i & s & s' & X1 & X2 & X3). exists p, v, f, i, s, s'. split; [left; reflexivity|]. split; [exact Ef|].
        split; [apply includes_of_in, X1|]. split; [exact X2|exact X3].
    - destruct (IH _ _ _ _ E) as (L2 & N & A & B). split; [exact L2|]. split; [exact N|]. split.
      + intros k x Hx. destruct (A k x Hx) as [H|H]; [left; exact H|right; right; exact H].
      + intros k Hk. destruct (B k Hk) as [H|[H|H]]; [left; exact H|right; left; right; exact H|right; right; exact (W t k (le_n _) H)].
  Qed.
  Lemma order_panics m : forall order, order_loop m order = Panic -> exists k vs, In (k, vs) m /\ (~ In k order \/ exists x, In x vs /\ ~ In x order).
  Proof.
    intros order E. destruct (Exists_dec (fun kv : fpath * list fpath => ~ (In (fst kv) order /\ incl (snd kv) order)) m) as [H|H].
    - intros [k vs]. cbn [fst snd]. destruct (in_dec str_eq_dec k order) as [A|A]; [|left; tauto].
      destruct (incl_dec str_eq_dec vs order) as [B|B]; [right|left]; tauto.
    - apply Exists_exists in H. destruct H as ([k vs] & A & B). exists k, vs. split; [exact A|]. cbn [fst snd] in B.
      destruct (in_dec str_eq_dec k order) as [C|C]; [right|left; exact C].
      destruct (Exists_dec (fun x => ~ In x order) vs) as [X|X]; [intros x; destruct (in_dec str_eq_dec x order); [right|left]; tauto| |].
      + apply Exists_exists in X. exact X.
      + exfalso. apply B. split; [exact C|]. intros x Hx. destruct (in_dec str_eq_dec x order) as [Y|Y]; [exact Y|]. exfalso. apply X, Exists_exists. eauto.
    - exfalso. destruct (order_loop_done m order) as [o' Eo]; [|congruence]. intros k vs Hin.
      destruct (in_dec str_eq_dec k order) as [A|A]; [|exfalso; apply H, Exists_exists; exists (k, vs); split; [exact Hin|tauto]].
      destruct (incl_dec str_eq_dec vs order) as [B|B]; [split; assumption|exfalso; apply H, Exists_exists; exists (k, vs); split; [exact Hin|cbn; tauto]].
  Qed.
  Lemma order_any o files t : order_ok o -> NoDup (keys files) ->
    (exists order t', live_key_order D o files t = Done (order, t') /\ Permutation order (keys files) /\ (t <= t')%nat)
    \/ (live_key_order D o files t = Panic /\ exists q, leads files t q /\ ~ In q (keys files)).
  Proof.
    intros (O1 & O2 & _) N. unfold live_key_order. destruct (live_includer_map D (o_files o files) [] t) as [m t1] eqn:E.
    destruct (map_clock _ _ _ _ _ E) as (L & Nm & A & B).
    assert (P : Permutation (m_keys (o_files o files)) (keys files)) by (apply Permutation_map, O1).
    destruct (order_loop (o_map o m) (m_keys (o_files o files))) as [order| |] eqn:Eo; cbn [obind].
    - left. exists order, t1. split; [reflexivity|]. split; [|exact L]. apply order_loop_perm in Eo. rewrite Eo. exact P.
    - right. split; [reflexivity|]. destruct (order_panics _ _ Eo) as (k & vs & Hin & H). apply (Permutation_in _ (O2 _)) in Hin.
      assert (Hk : In k (m_keys m)) by (apply (in_map fst) in Hin; exact Hin).
      assert (He : entry k m = vs). { unfold entry. rewrite (m_in_get str_eq_dec k vs m (Nm (NoDup_nil _)) Hin). reflexivity. }
      destruct H as [H|(x & Hx & H)].
      + exists k. destruct (B k Hk) as [[]|[X|(p & v & f & i & s & s' & X1 & X)]]; [contradiction|]. split.
        * exists p, v, f, i, s, s'. split; [exact (Permutation_in _ (O1 _) X1)|exact X].
        * intros Y. apply H. exact (Permutation_in _ (Permutation_sym P) Y).
      + exfalso. rewrite <- He in Hx. destruct (A k x Hx) as [[]|X]. exact (H X).
    - exfalso. eapply order_loop_fuel, Eo.
  Qed.
End Order.

(** ** The analysis *)
(** one include is analysed as an include with the same place and another name is on some disk that stands still *)
Lemma include_stands D o pj file i a c t : exists fs i', tracks t (live_analyze_include D o pj file i a c t) (analyze_include o fs pj file i' a c).
Proof.
  destruct (live_include_path D i t) as [r t1] eqn:Ei. destruct (include_clock _ _ _ _ _ Ei) as [L _].
  set (n := match r with inl p => 0 :: p | inr _ => [] end).
  exists (mkFs (fun x => if str_eq_dec x n then r else fs_canon (D t1) x) (fs_read (D t1))), (mkInclude (in_token i) (mkWT n (wt_tok (in_file_name i))) []).
  unfold live_analyze_include, analyze_include. rewrite Ei. unfold include_path. cbn [in_paths in_file_name wt_item resolve_in fs_canon].
  destruct (str_eq_dec n n) as [_|X]; [|destruct X; reflexivity].
  destruct r as [p|e]; [|cbn; auto].
  destruct (guard_add str_eq_dec (o_guard o (an_tick a)) p [fl_source file] (an_guard a)) as [[[cy|] g]| |]; cbn [obind tracks]; auto.
  unfold live_get_file, get_file, live_canon. cbn [fs_canon].
  assert (Hne : p <> n). { unfold n. intros X. apply (f_equal (@length N)) in X. cbn [length] in X. revert X. apply n_Sn. }
  destruct (str_eq_dec p n) as [X|_]; [contradiction|]. destruct (fs_canon (D t1) p) as [q|e]; [|cbn [tracks]; auto].
  destruct (fget q (pj_files pj)) as [v|]; [|cbn [tracks]; auto]. destruct (pf_ctx v); cbn [tracks]; auto.
Qed.
Lemma primary_any D o pj file ft ps ds h p a c t : oracle_ok o -> project_ok pj -> flags_ok ft ps c -> rep ds c -> an_guard a = guard_after str_eq_dec h ->
  exists p' dp h' a' c' t', live_primary D o pj file p a c t = Done ((a', c'), t') /\ (t <= t')%nat
    /\ flags_ok ft (ps ++ [p']) c' /\ rep (ds ++ dp) c' /\ an_guard a' = guard_after str_eq_dec h'.
Proof.
  intros Ho Hp F R G.
  assert (K : exists fs p', tracks t (live_primary D o pj file p a c t) (analyze_primary o fs pj file p' a c)).
  { destruct p as [[x|x|x y|i|x r|x r]|n|r|s];
      try (exists (D t); eexists; cbn [live_primary]; destruct (analyze_primary o (D t) pj file _ a c) as [z| |] eqn:E in |- *; cbn [obind tracks];
           rewrite E; cbn [tracks]; auto; fail).
    destruct (include_stands D o pj file i a c t) as (fs & i' & T). exists fs, (PDirective (AInclude i')). exact T. }
  destruct K as (fs & p' & T). destruct (primary_spec o fs pj file ft Ho Hp ps ds h p' a c F R G) as (a' & c' & dp & h' & es & E & _ & _ & R' & F' & G').
  rewrite E in T. destruct (live_primary D o pj file p a c t) as [[x t']| |]; try contradiction. destruct T as [-> L].
  exists p', dp, h', a', c', t'. auto.
Qed.
Lemma primaries_any D o pj file ft l : oracle_ok o -> project_ok pj -> forall ps ds h a c t, flags_ok ft ps c -> rep ds c -> an_guard a = guard_after str_eq_dec h ->
  exists ds' h' a' c' t', live_primaries D o pj file l a c t = Done ((a', c'), t') /\ (t <= t')%nat /\ rep ds' c' /\ an_guard a' = guard_after str_eq_dec h'.
Proof.
  intros Ho Hp. induction l as [|p l IH]; intros ps ds h a c t F R G; cbn [live_primaries].
  - exists ds, h, a, c, t. auto.
  - destruct (primary_any D o pj file ft ps ds h p a c t Ho Hp F R G) as (p' & dp & h' & a' & c' & t' & E & L & F' & R' & G').
    rewrite E. cbn [obind]. destruct (IH _ _ _ _ _ t' F' R' G') as (ds2 & h2 & a2 & c2 & t2 & E2 & L2 & X).
    exists ds2, h2, a2, c2, t2. split; [exact E2|]. split; [lia|exact X].
Qed.
Lemma tables_kept file c : fc_labels (resolve_references (check_header file c)) = fc_labels c /\ fc_flat (resolve_references (check_header file c)) = fc_flat c.
Proof.
  assert (U : forall r x, fc_labels (unresolved_error r x) = fc_labels x /\ fc_flat (unresolved_error r x) = fc_flat x).
  { intros r x. unfold unresolved_error. destruct (_ && _); split; reflexivity. }
  assert (O : forall x r, fc_labels (resolve_one x r) = fc_labels x /\ fc_flat (resolve_one x r) = fc_flat x).
  { intros x r. unfold resolve_one. destruct (wt_item r); [destruct (m_mem str_eq_dec _ _)|destruct (m_mem npath_eq_dec _ _)]; auto. }
  assert (L : forall l x, fc_labels (fold_left resolve_one l x) = fc_labels x /\ fc_flat (fold_left resolve_one l x) = fc_flat x).
  { induction l as [|r l IH]; intros x; [auto|]. cbn [fold_left]. destruct (IH (resolve_one x r)) as [-> ->]. apply O. }
  unfold resolve_references. destruct (L (fc_unres (check_header file c)) (check_header file c)) as [-> ->]. unfold check_header. destruct (_ && _); auto.
Qed.
Lemma file_any D o pj file ft h a t : oracle_ok o -> project_ok pj -> an_guard a = guard_after str_eq_dec h ->
  exists ac es a' h' t', live_analyze_file D o pj file ft a t = Done (((ac, es), a'), t') /\ (t <= t')%nat /\ ctx_ok ac /\ an_guard a' = guard_after str_eq_dec h'.
Proof.
  intros Ho Hp G. destruct (primaries_any D o pj file ft (fl_elements file) Ho Hp [] [] h a (fctx_new ft) t (flags_new ft) (rep_new ft) G) as (ds & h' & a' & c & t' & E & L & R & G').
  unfold live_analyze_file. rewrite E. cbn [obind]. do 5 eexists. split; [reflexivity|]. split; [exact L|]. split; [|exact G'].
  destruct (tables_kept file c) as [-> ->]. destruct R as (R1 & R2 & _). split; [exact R1|exact R2].
Qed.

(** the tree, the text and the type of each file stay; a file without tree gets nothing *)
Definition same_files (a b : list (fpath * pfile)) : Prop :=
  m_keys a = m_keys b /\ forall k, match fget k a, fget k b with
    | Some v, Some w => same_source v w /\ (pf_file w = None -> v = w)
    | None, None => True
    | _, _ => False
    end.
Lemma same_files_trans a b c : same_files a b -> same_files b c -> same_files a c.
Proof.
  intros [A1 A2] [B1 B2]. split; [congruence|]. intros k. specialize (A2 k). specialize (B2 k).
  destruct (fget k a), (fget k b), (fget k c); try contradiction; try exact I. destruct A2 as [(X1 & X2 & X3 & X4) X5], B2 as [(Y1 & Y2 & Y3 & Y4) Y5].
  split; [repeat split; congruence|]. intros N. assert (pf_file p0 = None) by congruence. rewrite X5 by assumption. apply Y5, N.
Qed.
Lemma keys_any D o : oracle_ok o -> forall order a pj h t, project_ok pj -> (forall k, In k order -> In k (keys (pj_files pj))) -> an_guard a = guard_after str_eq_dec h ->
  exists pj' t', live_keys D o order a pj t = Done (pj', t') /\ (t <= t')%nat /\ project_ok pj' /\ pj_incl pj' = pj_incl pj /\ pj_sev pj' = pj_sev pj
    /\ same_files (pj_files pj') (pj_files pj).
Proof.
  intros Ho. induction order as [|k order IH]; intros a pj h t Hp Hin G; cbn [live_keys].
  - exists pj, t. split; [reflexivity|]. split; [lia|]. split; [exact Hp|]. split; [reflexivity|]. split; [reflexivity|]. split; [reflexivity|].
    intros q. destruct (fget q (pj_files pj)); [repeat split|exact I].
  - destruct (m_get_some_key str_eq_dec k (pj_files pj) (Hin k (or_introl eq_refl))) as [v Hv]. rewrite Hv.
    assert (Hin' : forall q, In q order -> In q (keys (pj_files pj))) by (intros q Hq; apply Hin; right; exact Hq).
    destruct (pf_file v) as [f|] eqn:Ef; [|exact (IH a pj h t Hp Hin' G)].
    destruct (file_any D o pj f (pf_type v) h a t Ho Hp G) as (ac & es & a' & h' & t1 & E & L & C & G'). rewrite E. cbn [obind].
    destruct (IH a' (set_files (m_update k (store_result (ac, es) v) (pj_files pj)) pj) h' t1) as (pj' & t' & E' & L' & P1 & P2 & P3 & S).
    { apply project_ok_update; assumption. }
    { intros q Hq. cbn [pj_files set_files]. rewrite update_keys. apply Hin', Hq. }
    { exact G'. }
    exists pj', t'. split; [exact E'|]. split; [lia|]. split; [exact P1|]. split; [exact P2|]. split; [exact P3|].
    eapply same_files_trans; [exact S|]. cbn [pj_files set_files]. split; [apply update_keys|]. intros q. rewrite update_get.
    destruct (str_eq_dec k q) as [<-|Hne].
    + rewrite Hv. split; [repeat split|]. intros N. congruence.
    + destruct (fget q (pj_files pj)); [repeat split|exact I].
Qed.
