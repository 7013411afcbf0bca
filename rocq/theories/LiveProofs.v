(** What happens on a changing disk is what happens on a disk that stands still (for C117) *)
From Verif Require Import Base Parser Analysis Project Cli Server Session ProjectSpec ProjectProofs Live.

(** the same outcome, the clock not running back *)
Definition tracks {A} (t : nat) (x : outcome (A * nat)) (y : outcome A) : Prop :=
  match x, y with
  | Done (a, t'), Done b => a = b /\ (t <= t')%nat
  | Panic, Panic => True
  | NoFuel, NoFuel => True
  | _, _ => False
  end.
Lemma tracks_later {A} s t (x : outcome (A * nat)) y : (s <= t)%nat -> tracks t x y -> tracks s x y.
Proof. destruct x as [[a t']| |], y; cbn; intros; try assumption. destruct H0; split; [assumption|lia]. Qed.
Lemma tracks_bind {A B} t (x : outcome (A * nat)) y (f : A * nat -> outcome (B * nat)) g : tracks t x y ->
  (forall a t1, (t <= t1)%nat -> y = Done a -> tracks t1 (f (a, t1)) (g a)) -> tracks t (obind x f) (obind y g).
Proof.
  intros H K. destruct x as [[a t1]| |], y as [b| |]; try contradiction; cbn [obind]; try exact I. destruct H as [<- H].
  eapply tracks_later; [exact H|apply K; [exact H|reflexivity]].
Qed.

Section Still.
  Context (D : nat -> fsys) (fs : fsys).
  Hypothesis Hn : forall t p, fs_canon (D t) p = fs_canon fs p.

  Lemma still_resolve dirs name : forall t, exists t', live_resolve D dirs name t = (resolve_in fs dirs name, t') /\ (t <= t')%nat.
  Proof.
    induction dirs as [|d l IH]; intros t; cbn [live_resolve resolve_in]; [eauto|]. unfold live_canon. rewrite Hn.
    destruct (fs_canon fs (path_join d name)); [eauto|]. destruct (IH (S t)) as (t' & E & L). exists t'. split; [exact E|lia].
  Qed.
  Lemma still_include i t : exists t', live_include_path D i t = (include_path fs i, t') /\ (t <= t')%nat.
  Proof.
    unfold live_include_path, include_path. destruct (still_resolve (in_paths i) (wt_item (in_file_name i)) t) as (t1 & -> & L).
    destruct (resolve_in fs _ _); [eauto|]. unfold live_canon. rewrite Hn. eauto.
  Qed.
  Lemma still_resolved is : forall t, exists t',
    live_resolved D is t = (fold_right (fun i acc => match include_path fs i with inl p => p :: acc | inr _ => acc end) [] is, t') /\ (t <= t')%nat.
  Proof.
    induction is as [|i is IH]; intros t; cbn [live_resolved fold_right]; [eauto|]. destruct (still_include i t) as (t1 & -> & L1).
    destruct (IH t1) as (t2 & -> & L2). destruct (include_path fs i); (eexists; split; [reflexivity|lia]).
  Qed.
  Lemma still_map files : forall m t, exists t', live_includer_map D files m t
    = (fold_left (fun m kv =>
         match pf_file (snd kv) with
         | None => m
         | Some f => fold_left (fun m i => map_push i (fst kv) m) (resolved_includes fs f) (map_touch (fst kv) m)
         end) files m, t') /\ (t <= t')%nat.
  Proof.
    induction files as [|kv l IH]; intros m t; cbn [live_includer_map fold_left]; [eauto|].
    destruct (pf_file (snd kv)) as [f|]; [|apply IH]. destruct (still_resolved (includes_of f) t) as (t1 & -> & L1).
    destruct (IH (fold_left (fun m i => map_push i (fst kv) m) (resolved_includes fs f) (map_touch (fst kv) m)) t1) as (t2 & E & L2).
    exists t2. split; [exact E|lia].
  Qed.
  Lemma still_order o files t : tracks t (live_key_order D o files t) (compute_key_order o fs files).
  Proof.
    unfold live_key_order, compute_key_order. destruct (still_map (o_files o files) [] t) as (t' & -> & L). fold (includer_map fs (o_files o files)).
    destruct (order_loop _ _); cbn [obind tracks]; auto.
  Qed.
  Lemma still_get pj p t : live_get_file D pj p t = (get_file fs pj p, S t).
  Proof. unfold live_get_file, get_file, live_canon. rewrite Hn. destruct (fs_canon fs p); reflexivity. Qed.
  Lemma still_analyze_include o pj f i a c t : tracks t (live_analyze_include D o pj f i a c t) (analyze_include o fs pj f i a c).
  Proof.
    unfold live_analyze_include, analyze_include. destruct (still_include i t) as (t1 & -> & L). destruct (include_path fs i) as [p|e]; [|cbn; auto].
    destruct (guard_add str_eq_dec (o_guard o (an_tick a)) p [fl_source f] (an_guard a)) as [[[cy|] g]| |]; cbn [obind tracks]; auto.
    rewrite still_get. destruct (get_file fs pj p) as [v|]; [|cbn [tracks]; auto]. destruct (pf_ctx v); cbn [tracks]; auto.
  Qed.
  Lemma still_primary o pj f p a c t : tracks t (live_primary D o pj f p a c t) (analyze_primary o fs pj f p a c).
  Proof.
    destruct p as [[x|x|x y|i|x r|x r]|n|r|s]; cbn [live_primary]; try apply still_analyze_include; cbn [analyze_primary obind tracks]; auto.
    destruct (analyze_referenced_node o r a c). cbn [obind tracks]. auto.
  Qed.
  Lemma still_primaries o pj f ps : forall a c t, tracks t (live_primaries D o pj f ps a c t) (analyze_primaries o fs pj f ps a c).
  Proof.
    induction ps as [|p ps IH]; intros a c t; cbn [live_primaries analyze_primaries]; [cbn; auto|].
    apply tracks_bind; [apply still_primary|]. intros [a' c'] t1 _ _. apply IH.
  Qed.
  Lemma still_file o pj f ft a t : tracks t (live_analyze_file D o pj f ft a t) (analyze_file o fs pj f ft a).
  Proof. unfold live_analyze_file, analyze_file. apply tracks_bind; [apply still_primaries|]. intros [a' c'] t1 _ _. cbn; auto. Qed.
  Lemma still_keys o ks : forall a pj t, tracks t (live_keys D o ks a pj t) (analyze_keys o fs ks a pj).
  Proof.
    induction ks as [|k ks IH]; intros a pj t; cbn [live_keys analyze_keys]; [cbn; auto|].
    destruct (m_get str_eq_dec k (pj_files pj)) as [v|]; [|exact I]. destruct (pf_file v) as [f|]; [|apply IH].
    apply tracks_bind; [apply still_file|]. intros [r a'] t1 _ _. apply IH.
  Qed.
  Lemma still_dirs ps pj : forall t, exists t', live_set_include_paths D ps pj t = (set_include_paths fs ps pj, t') /\ (t <= t')%nat.
  Proof.
    intros t. unfold live_set_include_paths, set_include_paths.
    assert (H : forall t, exists t', live_dirs D ps t = (map (fun p => match fs_canon fs p with inl q => q | inr _ => [] end) ps, t') /\ (t <= t')%nat).
    { clear t. induction ps as [|p ps IH]; intros t; cbn [live_dirs map]; [eauto|]. unfold live_canon. rewrite Hn.
      destruct (IH (S t)) as (t' & -> & L). eexists. split; [reflexivity|lia]. }
    destruct (H t) as (t' & -> & L). eauto.
  Qed.
  Lemma still_remove p pj t : live_remove_file D p pj t = (remove_file fs p pj, S t).
  Proof. unfold live_remove_file, remove_file, live_canon. rewrite Hn. destruct (fs_canon fs p); reflexivity. Qed.
  Lemma still_publish_all pj files : forall t, tracks t (live_publish_all D pj files t) (publish_all fs pj files).
  Proof.
    induction files as [|f r IH]; intros t; cbn [live_publish_all publish_all]; [cbn; auto|]. rewrite still_get.
    destruct (from_file_path f); [|exact I]. apply tracks_later with (S t); [lia|]. apply tracks_bind; [apply IH|].
    intros ps t1 _ _. cbn. unfold get_diagnostics. destruct (get_file fs pj f); auto.
  Qed.
  Lemma still_publish ok sv t : tracks t (live_publish D ok sv t) (publish ok fs sv).
  Proof. unfold live_publish, publish. apply tracks_bind; [apply still_publish_all|]. intros ps t1 _ _. cbn. auto. Qed.
End Still.

(** ** The texts a run reads *)
Section Snap.
  Context (D : nat -> fsys).
  (** the disk that has each text as it was at a moment of its own *)
  Definition snap (tau : fpath -> nat) : fsys := mkFs (fs_canon (D 0)) (fun p => fs_read (D (tau p)) p).
  Hypothesis Hn : forall t p, fs_canon (D t) p = fs_canon (D 0) p.
  Hypothesis Hr : forall t p e, read_to_string (D t) p = inr e -> forall t', read_to_string (D t') p = inr e.

  Lemma snap_read tau p : read_to_string (snap tau) p = read_to_string (D (tau p)) p.
  Proof. reflexivity. Qed.

  Lemma snap_include tau i : include_path (snap tau) i = include_path (D 0) i.
  Proof.
    unfold include_path. assert (H : forall dirs name, resolve_in (snap tau) dirs name = resolve_in (D 0) dirs name).
    { induction dirs as [|d l IH]; intros name; [reflexivity|]. cbn [resolve_in snap fs_canon]. rewrite IH. reflexivity. }
    rewrite H. reflexivity.
  Qed.

  (** [X] holds on every disk that has, for the files read between [K] and [K'], the texts of certain moments between [t] and [t'] *)
  Definition snapped (K : list fpath) (t : nat) (K' : list fpath) (t' : nat) (X : fsys -> Prop) : Prop :=
    (t <= t')%nat /\ incl K K'
    /\ exists tau, (forall p, t <= tau p <= t')%nat
       /\ forall tau', (forall p, In p K' -> ~ In p K -> tau' p = tau p) -> X (snap tau').

  Lemma snapped_all K t K' t' (X : fsys -> Prop) : (t <= t')%nat -> incl K K' -> (forall tau, X (snap tau)) -> snapped K t K' t' X.
  Proof. intros H1 H2 H3. split; [exact H1|]. split; [exact H2|]. exists (fun _ => t). split; [lia|]. auto. Qed.
  Lemma snapped_earlier K s t K' t' (X : fsys -> Prop) : (s <= t)%nat -> snapped K t K' t' X -> snapped K s K' t' X.
  Proof.
    intros H (H1 & H2 & tau & H3 & H4). split; [lia|]. split; [exact H2|]. exists tau. split; [intros p; specialize (H3 p); lia|exact H4].
  Qed.
  Lemma snapped_weak K t K' t' (X Y : fsys -> Prop) : (forall tau, X (snap tau) -> Y (snap tau)) -> snapped K t K' t' X -> snapped K t K' t' Y.
  Proof.
    intros H (H1 & H2 & tau & H3 & H4). split; [exact H1|]. split; [exact H2|]. exists tau. split; [exact H3|]. intros tau' Ht. apply H, H4, Ht.
  Qed.
  Lemma snapped_trans K1 t1 K2 t2 K3 t3 X Y : snapped K1 t1 K2 t2 X -> snapped K2 t2 K3 t3 Y -> snapped K1 t1 K3 t3 (fun f => X f /\ Y f).
  Proof.
    intros (A1 & A2 & s & A3 & A4) (B1 & B2 & r & B3 & B4). split; [lia|]. split; [eapply incl_tran; eassumption|].
    exists (fun p => if in_dec str_eq_dec p K2 then s p else r p). split.
    - intros p. specialize (A3 p). specialize (B3 p). destruct (in_dec _ _ _); lia.
    - intros tau' H. split.
      + apply A4. intros p P1 P2. rewrite (H p (B2 p P1) P2). destruct (in_dec str_eq_dec p K2); [reflexivity|contradiction].
      + apply B4. intros p P1 P2. rewrite H; [|exact P1|intros P; apply P2, A2, P]. destruct (in_dec str_eq_dec p K2); [contradiction|reflexivity].
  Qed.

  Definition parse_snaps (fl : nat) (incl : list fpath) : Prop := forall name text ft files t files' t',
    live_parse_file D fl incl name text ft files t = Done (files', t') ->
    snapped (name :: keys files) t (keys files') t' (fun f => parse_file fl f incl name text ft files = Done files').

  Lemma snap_loop fl inc : parse_snaps fl inc -> forall is ds files t ds' files' t',
    live_loop D (live_parse_file D fl inc) is ds files t = Done ((ds', files'), t') ->
    snapped (keys files) t (keys files') t' (fun f => inc_loop f (parse_file fl f inc) is ds files = Done (ds', files')).
  Proof.
    intros Hp. induction is as [|i is IH]; intros ds files t ds' files' t' E; cbn [live_loop] in E.
    - injection E as <- <- <-. apply snapped_all; [lia|apply incl_refl|reflexivity].
    - destruct (still_include D (D 0) Hn i t) as (t1 & E1 & L1). rewrite E1 in E.
      assert (Ei : forall tau, include_path (snap tau) i = include_path (D 0) i) by (intros tau; apply snap_include).
      destruct (include_path (D 0) i) as [p|e] eqn:Ep.
      + destruct (m_mem str_eq_dec p files) eqn:Em.
        * eapply snapped_earlier, snapped_weak; [exact L1| |exact (IH _ _ _ _ _ _ E)].
          intros tau X. cbn [inc_loop]. rewrite Ei, Em. exact X.
        * unfold live_read in E. destruct (read_to_string (D t1) p) as [text|e] eqn:Er.
          -- destruct (live_parse_file D fl inc p text (file_type_of_path p) files (S t1)) as [[files1 t2]| |] eqn:E2; try discriminate E. cbn [obind] in E.
             pose proof (Hp _ _ _ _ _ _ _ E2) as A. pose proof (IH _ _ _ _ _ _ E) as B.
             apply (snapped_earlier _ t1) in A; [|lia].
             destruct (snapped_trans _ _ _ _ _ _ _ _ A B) as (C1 & C2 & tau & C3 & C4).
             split; [lia|]. split; [intros x Hx; apply C2; right; exact Hx|].
             exists (fun q => if str_eq_dec q p then t1 else tau q). split; [intros q; specialize (C3 q); destruct (str_eq_dec q p); lia|].
             intros tau' H. cbn [inc_loop]. rewrite Ei, Em, snap_read.
             assert (Hk : ~ In p (keys files)). { intros X. apply (m_mem_spec str_eq_dec) in X. congruence. }
             rewrite (H p); [|apply C2; left; reflexivity|exact Hk]. destruct (str_eq_dec p p) as [_|X]; [|destruct X; reflexivity]. rewrite Er.
             destruct (C4 tau') as [X Y]; [|rewrite X; exact Y].
             intros q Q1 Q2. rewrite H; [|exact Q1|intros Q; apply Q2; right; exact Q]. destruct (str_eq_dec q p) as [->|_]; [|reflexivity].
             destruct Q2. left. reflexivity.
          -- eapply snapped_earlier, snapped_weak; [|  |exact (IH _ _ _ _ _ _ E)]; [lia|].
             intros tau X. cbn [inc_loop]. rewrite Ei, Em, snap_read, (Hr _ _ _ Er). exact X.
      + eapply snapped_earlier, snapped_weak; [exact L1| |exact (IH _ _ _ _ _ _ E)].
        intros tau X. cbn [inc_loop]. rewrite Ei. exact X.
  Qed.
  Lemma keys_insert k v (m : list (fpath * pfile)) : forall x, In x (keys (m_insert str_eq_dec k v m)) <-> In x (k :: keys m).
  Proof. intros x. rewrite m_keys_insert. cbn [In]. split; (intros [H|H]; [left; congruence|right; exact H]). Qed.
  Lemma snapped_keys K1 K2 t K1' K2' t' X : (forall x, In x K1 <-> In x K2) -> (forall x, In x K1' <-> In x K2') -> snapped K1 t K1' t' X -> snapped K2 t K2' t' X.
  Proof.
    intros H H' (A1 & A2 & tau & A3 & A4). split; [exact A1|]. split; [intros x Hx; apply H', A2, H, Hx|]. exists tau. split; [exact A3|].
    intros tau' T. apply A4. intros p P1 P2. apply T; [apply H', P1|rewrite <- H; exact P2].
  Qed.
  Lemma snap_parse inc : forall fl, parse_snaps fl inc.
  Proof.
    induction fl as [|fl IH]; intros name text ft files t files' t' E; [discriminate E|]. cbn [live_parse_file] in E.
    destruct (parse_text (include_dirs inc name) text name) as [f st|d st| |] eqn:Ep; try discriminate E.
    - destruct (live_loop D (live_parse_file D fl inc) (includes_of f) (ps_diags st) (m_insert str_eq_dec name pf_default files) t) as [[[ds files1] t1]| |] eqn:El; try discriminate E.
      cbn [obind] in E. injection E as <- <-. pose proof (snap_loop fl inc IH _ _ _ _ _ _ _ El) as A.
      assert (Hk : incl (name :: keys files) (keys files1)). { intros x Hx. apply A. apply keys_insert, Hx. }
      eapply snapped_keys; [apply keys_insert| |eapply snapped_weak; [|exact A]].
      + intros x. rewrite keys_insert. cbn [In]. split; [tauto|]. intros [<-|H]; [apply Hk; left; reflexivity|exact H].
      + intros tau X. cbn beta in X |- *. rewrite parse_file_unfold, Ep, X. reflexivity.
    - injection E as <- <-. apply snapped_all; [lia| |].
      + intros x Hx. apply keys_insert, Hx.
      + intros tau. rewrite parse_file_unfold, Ep. reflexivity.
  Qed.
End Snap.
