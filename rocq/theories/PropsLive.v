(** C117: other programs may write files while an operation runs. C118: whatever happens to the disk meanwhile. *)
From Verif Require Import Base Parser Analysis Project Cli Server Session AnalysisSpec AnalysisProofs GuardProofs ProjectSpec ProjectProofs ProjectProofs2
  ProjectHistory PropsProject ServerProofs PropsServer PropsProject3 Live LiveProofs LiveAny Tests.
From Coq Require Import Permutation.

(** ** C117 *)
(** the names lead to the same paths all the time *)
Definition names_stand (D : nat -> fsys) : Prop := forall t p, fs_canon (D t) p = fs_canon (D O) p.
(** a file that cannot be read at one moment cannot be read at any, for the same reason; a file that can be read may have another text at every moment *)
Definition faults_stand (D : nat -> fsys) : Prop := forall t p e, read_to_string (D t) p = inr e -> forall t', read_to_string (D t') p = inr e.
(** there are finitely many files *)
Definition finite_disks (D : nat -> fsys) (u : list fpath) : Prop :=
  forall t t' x p b, fs_canon (D t) x = inl p -> fs_read (D t') p = inl b -> In p u.
(** the same paths, and for each file what is read from it at some moment that [when] allows *)
Definition picture (D : nat -> fsys) (when : nat -> Prop) (fs : fsys) : Prop :=
  (forall p, fs_canon fs p = fs_canon (D O) p) /\ forall p, exists s, when s /\ fs_read fs p = fs_read (D s) p.
(** an operation that began at [t] and came out as [x] is one on a disk that stands still: a picture taken during the operation *)
Definition as_on {A} (D : nat -> fsys) (t : nat) (x : outcome (A * nat)) (still : fsys -> outcome A) : Prop :=
  exists fs,
    match x with
    | Done (a, t') => (t <= t')%nat /\ still fs = Done a /\ picture D (fun s => t <= s <= t')%nat fs
    | Panic => still fs = Panic /\ picture D (fun s => t <= s)%nat fs
    | NoFuel => still fs = NoFuel /\ picture D (fun s => t <= s)%nat fs
    end.

Lemma snap_picture D tau (when : nat -> Prop) : (forall p, when (tau p)) -> picture D when (snap D tau).
Proof. intros H. split; [reflexivity|]. intros p. exists (tau p). split; [apply H|reflexivity]. Qed.

Section Pictures.
  Context (D : nat -> fsys).
  (** the texts a run reads are those of certain moments; the text of the added file itself is not read *)
  Definition moments {A} (root : fpath) (t : nat) (x : outcome (A * nat)) (still : fsys -> outcome A) : Prop :=
    exists tau t2, (forall p, t <= tau p <= t2)%nat /\ (t <= t2)%nat
      /\ forall tau', (forall p, p <> root -> tau' p = tau p) -> tracks t2 x (still (snap D tau')).

  Lemma moments_bind {A B} root t (x : outcome (A * nat)) y (f : A * nat -> outcome (B * nat)) g : moments root t x y ->
    (forall a t1 tau, (t <= t1)%nat -> tracks t1 (f (a, t1)) (g (snap D tau) a)) ->
    moments root t (obind x f) (fun fs => obind (y fs) (g fs)).
  Proof.
    intros (tau & t2 & H1 & H2 & H3) K. exists tau, t2. split; [exact H1|]. split; [exact H2|]. intros tau' T.
    apply tracks_bind; [exact (H3 tau' T)|]. intros a t1 L _. apply K. lia.
  Qed.
  (** for one choice of moments the outcome is that on the picture *)
  Definition at_moments {A} (t : nat) (x : outcome (A * nat)) (y : fsys -> outcome A) : Prop :=
    exists tau t2, (forall p, t <= tau p <= t2)%nat /\ (t <= t2)%nat /\ tracks t2 x (y (snap D tau)).
  Lemma at_as {A} t (x : outcome (A * nat)) y : at_moments t x y -> as_on D t x y.
  Proof.
    intros (tau & t2 & H1 & H2 & H3). exists (snap D tau).
    destruct x as [[a t']| |], (y (snap D tau)) as [b| |]; try contradiction.
    - destruct H3 as [-> L]. split; [lia|]. split; [reflexivity|]. apply snap_picture. intros p. specialize (H1 p). lia.
    - split; [reflexivity|]. apply snap_picture. intros p. apply H1.
    - split; [reflexivity|]. apply snap_picture. intros p. apply H1.
  Qed.
  Lemma moments_at {A} root t (x : outcome (A * nat)) y : moments root t x y -> at_moments t x y.
  Proof. intros (tau & t2 & H1 & H2 & H3). exists tau, t2. split; [exact H1|]. split; [exact H2|]. exact (H3 tau (fun _ _ => eq_refl)). Qed.
  (** an operation that reads nothing *)
  Lemma always_at {A} t (x : outcome (A * nat)) y : (forall tau, tracks t x (y (snap D tau))) -> at_moments t x y.
  Proof. intros H. exists (fun _ => t), t. split; [lia|]. split; [lia|]. apply H. Qed.
  Lemma later_at {A} s t (x : outcome (A * nat)) y : (s <= t)%nat -> at_moments t x y -> at_moments s x y.
  Proof. intros L (tau & t2 & H1 & H2 & H3). exists tau, t2. split; [intros p; specialize (H1 p); lia|]. split; [lia|exact H3]. Qed.
End Pictures.
Section Moments.
  Context (D : nat -> fsys) (u : list fpath) (fuel : nat).
  Hypothesis Hn : names_stand D.
  Hypothesis Hr : faults_stand D.
  Hypothesis Hu : finite_disks D u.
  Hypothesis Hl : (length u < fuel)%nat.

  Lemma snap_stands tau t p : fs_canon (D t) p = fs_canon (snap D tau) p.
  Proof. apply Hn. Qed.
  Lemma missing_bound m : (missing u m <= length u)%nat.
  Proof.
    unfold missing. pose proof (filter_length_le (fun p => negb (m_mem str_eq_dec p m)) (fun _ => true) (nodup str_eq_dec u) (fun x _ _ => eq_refl)) as A.
    assert (E : forall (T : Type) (l : list T), length (filter (fun _ => true) l) = length l).
    { clear. intros T l. induction l as [|x l IH]; [reflexivity|]. cbn [filter length]. rewrite IH. reflexivity. }
    rewrite E in A. eapply Nat.le_trans; [exact A|]. apply NoDup_incl_length; [apply NoDup_nodup|]. intros x. apply nodup_In.
  Qed.

  Lemma add_moments o name root text ft pj t : fs_canon (D O) name = inl root -> valid_utf8 text = true ->
    moments D root t (live_add_text D fuel o name text ft pj t) (fun fs => add_file_with_text fuel o fs name text ft pj).
  Proof.
    intros Hc Hv. unfold live_add_text, live_canon. rewrite (Hn t name), Hc.
    destruct (live_parse_ok D u (pj_incl pj) Hu fuel root text ft (pj_files pj) (S t) Hv) as (files & t2 & E & _).
    { pose proof (missing_bound (m_insert str_eq_dec root pf_default (pj_files pj))). lia. }
    rewrite E. cbn [obind]. destruct (snap_parse D Hn Hr (pj_incl pj) fuel root text ft (pj_files pj) (S t) files t2 E) as (L & _ & tau & B & X).
    exists tau, t2. split; [intros p; specialize (B p); lia|]. split; [lia|].
    intros tau' Ht. unfold add_file_with_text. cbn [snap fs_canon]. rewrite Hc. rewrite X; [|intros p _ P; apply Ht; intros ->; apply P; left; reflexivity].
    cbn [obind]. apply tracks_bind; [apply still_order; apply snap_stands|]. intros ks t3 _ _. apply still_keys. apply snap_stands.
  Qed.
  (** the same when more follows that reads no text *)
  Lemma add_then {B} o name text ft pj t (f : project * nat -> outcome (B * nat)) g : valid_utf8 text = true ->
    (forall a t1 tau, (t <= t1)%nat -> tracks t1 (f (a, t1)) (g (snap D tau) a)) ->
    at_moments D t (obind (live_add_text D fuel o name text ft pj t) f) (fun fs => obind (add_file_with_text fuel o fs name text ft pj) (g fs)).
  Proof.
    intros Hv K. destruct (fs_canon (D O) name) as [root|e] eqn:Ec.
    - apply (moments_at D root), moments_bind; [apply add_moments; assumption|exact K].
    - apply always_at. intros tau. unfold live_add_text, live_canon, add_file_with_text. rewrite (Hn t name). cbn [snap fs_canon]. rewrite Ec. exact I.
  Qed.
  (** [add_file] reads the file itself first *)
  Lemma file_then {B} o name pj t (f : (str + project) * nat -> outcome (B * nat)) g : canon_stable (D O) ->
    (forall a t1 tau, (t <= t1)%nat -> tracks t1 (f (a, t1)) (g (snap D tau) a)) ->
    at_moments D t (obind (live_add_file D fuel o name pj t) f) (fun fs => obind (add_file fuel o fs name pj) (g fs)).
  Proof.
    intros Hs K. unfold live_add_file, live_canon, live_read. rewrite (Hn t name). destruct (fs_canon (D O) name) as [root|e] eqn:Ec.
    - destruct (read_to_string (D (S t)) root) as [text|e] eqn:Er.
      + destruct (add_moments o root root text (file_type_of_path root) pj (S (S t)) (Hs _ _ Ec) (proj1 (read_valid _ _ _ Er))) as (tau & t2 & H1 & H2 & H3).
        exists (fun p => if str_eq_dec p root then S t else tau p), t2; split; [intros p; specialize (H1 p); destruct (str_eq_dec p root); lia|split; [lia|]].
        unfold add_file. match goal with |- context [fs_canon ?a name] => change (fs_canon a name) with (fs_canon (D O) name) end. rewrite Ec, snap_read. destruct (str_eq_dec root root) as [_|X]; [|destruct X; reflexivity]. rewrite Er.
        apply tracks_bind; [apply tracks_bind|].
        * apply H3. intros p Hp. destruct (str_eq_dec p root); [contradiction|reflexivity].
        * intros a t1 L _. cbn. auto.
        * intros a t1 L _. apply K. lia.
      + apply always_at. intros tau. unfold add_file. change (fs_canon (snap D tau) name) with (fs_canon (D O) name). rewrite Ec, snap_read, (Hr _ _ _ Er). cbn [obind].
        eapply tracks_later; [|apply K]; lia.
    - apply always_at. intros tau. unfold add_file. cbn [snap fs_canon]. rewrite Ec. cbn [obind]. eapply tracks_later; [|apply K]; lia.
  Qed.
  Lemma cli_at dbg o ofiles dirs file t : canon_stable (D O) ->
    at_moments D t (live_cli D dbg fuel o ofiles dirs file t) (fun fs => cli_main dbg fuel o ofiles fs dirs file).
  Proof.
    intros Hs. unfold live_cli, cli_main. destruct (still_dirs D (D O) Hn dirs project_new t) as (t1 & E & L). rewrite E.
    eapply later_at; [exact L|]. change (fun fs => obind (add_file fuel o fs file (set_include_paths fs dirs project_new)) _)
      with (fun fs => obind (add_file fuel o fs file (set_include_paths fs dirs project_new)) ((fun _ r => match r with
        | inl _ => Done (1, [])
        | inr pj' => obind (print_files dbg (ofiles (pj_files pj'))) (fun '(errs, out) => if errs then Done (0, out ++ ok_message) else Done (1, out))
        end) fs)).
    destruct (file_then o file (set_include_paths (D O) dirs project_new) t1 (fun '(r, t2) =>
      match r with
      | inl _ => Done ((1, []), t2)
      | inr pj' =>
        obind (print_files dbg (ofiles (pj_files pj'))) (fun '(errs, out) =>
          if errs then Done ((0, out ++ ok_message), t2) else Done ((1, out), t2))
      end) (fun _ r => match r with
        | inl _ => Done (1, [])
        | inr pj' => obind (print_files dbg (ofiles (pj_files pj'))) (fun '(errs, out) => if errs then Done (0, out ++ ok_message) else Done (1, out))
        end) Hs) as (tau & t2 & H1 & H2 & H3).
    - intros r t2 tau _. destruct r as [e|pj']; [cbn; auto|]. destruct (print_files dbg (ofiles (pj_files pj'))) as [[[|] out]| |]; cbn; auto.
    - exists tau, t2. split; [exact H1|]. split; [exact H2|]. exact H3.
  Qed.
  Lemma handle_at o ok n sv t : note_valid n -> at_moments D t (live_handle D fuel o ok n sv t) (fun fs => handle fuel o ok fs n sv).
  Proof.
    assert (Q : forall p text, valid_utf8 text = true -> at_moments D t (live_edit D fuel o ok p text sv t)
      (fun fs => obind (add_file_with_text fuel o fs p text (file_type_of_path p) (sv_project sv)) (fun pj => publish ok fs (mkServer pj (sv_sent sv))))).
    { intros p text Hv. unfold live_edit.
      apply (add_then o p text (file_type_of_path p) (sv_project sv) t _ (fun fs pj => publish ok fs (mkServer pj (sv_sent sv))) Hv).
      intros pj t1 tau _. apply still_publish, snap_stands. }
    destruct n as [dirs|dirs|v text|v texts|v]; cbn [live_handle handle note_valid]; intros Hv.
    - apply always_at. intros tau. destruct (still_dirs D (snap D tau) (snap_stands tau) dirs (sv_project sv) t) as (t1 & -> & L). cbn. auto.
    - apply always_at. intros tau. destruct (still_dirs D (snap D tau) (snap_stands tau) dirs (sv_project sv) t) as (t1 & -> & L).
      eapply tracks_later; [exact L|]. apply still_publish, snap_stands.
    - unfold did_open. destruct (to_file_path v) as [p|]; [exact (Q p text Hv)|]. apply always_at. intros tau. cbn. auto.
    - unfold did_change. destruct (to_file_path v) as [p|]; [|apply always_at; intros tau; cbn; auto].
      destruct texts as [|text r]; [apply always_at; intros tau; exact I|]. apply Q. inversion Hv; assumption.
    - apply always_at. intros tau. unfold did_close. destruct (to_file_path v) as [p|]; [|cbn; auto].
      rewrite (still_remove D (snap D tau) (snap_stands tau)). cbn. auto.
  Qed.
End Moments.

(** the disk as it was, each file at a moment during the operation *)
Theorem C117_text : forall D u fuel o name text ft pj t, names_stand D -> faults_stand D -> finite_disks D u -> (length u < fuel)%nat -> valid_utf8 text = true ->
  as_on D t (live_add_text D fuel o name text ft pj t) (fun fs => add_file_with_text fuel o fs name text ft pj).
Proof.
  intros D u fuel o name text ft pj t Hn Hr Hu Hl Hv. apply at_as. destruct (fs_canon (D O) name) as [root|e] eqn:Ec.
  - apply (moments_at D root). eapply add_moments; eassumption.
  - apply always_at. intros tau. unfold live_add_text, live_canon, add_file_with_text. rewrite (Hn t name). cbn [snap fs_canon]. rewrite Ec. exact I.
Qed.
Theorem C117_file : forall D u fuel o name pj t, names_stand D -> faults_stand D -> finite_disks D u -> (length u < fuel)%nat -> canon_stable (D O) ->
  as_on D t (live_add_file D fuel o name pj t) (fun fs => add_file fuel o fs name pj).
Proof.
  intros D u fuel o name pj t Hn Hr Hu Hl Hs. apply at_as.
  destruct (file_then D u fuel Hn Hr Hu Hl o name pj t (fun r => Done r) (fun _ r => Done r) Hs) as (tau & t2 & H1 & H2 & H3).
  { intros a t1 tau _. cbn. auto. }
  exists tau, t2. split; [exact H1|]. split; [exact H2|]. destruct (live_add_file D fuel o name pj t) as [[? ?]| |], (add_file fuel o (snap D tau) name pj); exact H3.
Qed.
Theorem C117_tool : forall D u fuel dbg o ofiles dirs file t, names_stand D -> faults_stand D -> finite_disks D u -> (length u < fuel)%nat -> canon_stable (D O) ->
  as_on D t (live_cli D dbg fuel o ofiles dirs file t) (fun fs => cli_main dbg fuel o ofiles fs dirs file).
Proof. intros D u fuel dbg o ofiles dirs file t Hn Hr Hu Hl Hs. apply at_as. eapply cli_at; eassumption. Qed.
Theorem C117_message : forall D u fuel o ok n sv t, names_stand D -> faults_stand D -> finite_disks D u -> (length u < fuel)%nat -> note_valid n ->
  as_on D t (live_handle D fuel o ok n sv t) (fun fs => handle fuel o ok fs n sv).
Proof. intros D u fuel o ok n sv t Hn Hr Hu Hl Hv. apply at_as. eapply handle_at; eassumption. Qed.

(** a whole session: the disk changes between the messages and while they are handled *)
Inductive live_conversation (fuel : nat) : list ((nat -> fsys) * note) -> server -> Prop :=
| lc_start : live_conversation fuel [] server_new
| lc_next ms sv D n o ok sv' t' : live_conversation fuel ms sv -> order_ok o -> shuffle ok -> live_handle D fuel o ok n sv O = Done (sv', t') ->
    live_conversation fuel (ms ++ [(D, n)]) sv'.
(** during one message the names stand and faults stay *)
Definition calm (fuel : nat) (m : (nat -> fsys) * note) : Prop :=
  names_stand (fst m) /\ faults_stand (fst m) /\ (exists u, finite_disks (fst m) u /\ (length u < fuel)%nat) /\ note_valid (snd m).
Theorem C117_session : forall fuel ms sv, live_conversation fuel ms sv -> Forall (calm fuel) ms ->
  exists ss, conversation fuel ss sv /\ Forall2 (fun m s => snd s = snd m /\ exists t', picture (fst m) (fun r => r <= t')%nat (fst s)) ms ss.
Proof.
  intros fuel ms sv H. induction H as [|ms sv D n o ok sv' t' H IH Ho Hk E]; intros F.
  - exists []. split; constructor.
  - apply Forall_app in F. destruct F as [F1 F2]. inversion F2 as [|? ? (C1 & C2 & (u & C3 & C4) & C5) _]; subst. cbn [fst snd] in *.
    destruct (IH F1) as (ss & A & B). destruct (C117_message D u fuel o ok n sv O C1 C2 C3 C4 C5) as (fs & X). rewrite E in X. destruct X as (_ & X & Y).
    exists (ss ++ [(fs, n)]). split; [exact (cv_next fuel ss sv fs n o ok sv' A Ho Hk X)|].
    apply Forall2_app; [exact B|]. constructor; [|constructor]. split; [reflexivity|]. exists t'. destruct Y as [Y1 Y2]. split; [exact Y1|].
    intros p. destruct (Y2 p) as (s & Z1 & Z2). exists s. split; [apply Z1|exact Z2].
Qed.

(** on a disk that does not change: the same as on it *)
Theorem C117_still : forall fs u fuel o ok dbg ofiles dirs name n sv t, finite_fs fs u -> (length u < fuel)%nat -> canon_stable fs -> note_valid n ->
  (forall r, (exists t', live_cli (fun _ => fs) dbg fuel o ofiles dirs name t = Done (r, t')) <-> cli_main dbg fuel o ofiles fs dirs name = Done r)
  /\ (forall r, (exists t', live_handle (fun _ => fs) fuel o ok n sv t = Done (r, t')) <-> handle fuel o ok fs n sv = Done r).
Proof.
  intros fs u fuel o ok dbg ofiles dirs name n sv t Hf Hl Hs Hv.
  assert (Hn : names_stand (fun _ => fs)) by (intros ? ?; reflexivity).
  assert (Hr : faults_stand (fun _ => fs)) by (intros ? ? ? H ?; exact H).
  assert (Hu : finite_disks (fun _ => fs) u) by (intros _ _; exact Hf).
  assert (E : forall tau, snap (fun _ => fs) tau = fs) by (intros tau; destruct fs; reflexivity).
  assert (K : forall A (x : outcome (A * nat)) y, at_moments (fun _ => fs) t x y -> forall r, (exists t', x = Done (r, t')) <-> y fs = Done r).
  { intros A x y (tau & t2 & _ & _ & H) r. rewrite E in H. destruct x as [[a t']| |], (y fs) as [b| |]; try contradiction.
    - destruct H as [-> _]. split; [intros [t1 X]; congruence|intros X; injection X as ->; eauto].
    - split; [intros [t1 X]; discriminate|discriminate].
    - split; [intros [t1 X]; discriminate|discriminate]. }
  split.
  - apply (K _ _ (fun fs => cli_main dbg fuel o ofiles fs dirs name)). apply (cli_at _ u); assumption.
  - apply (K _ _ (fun fs => handle fuel o ok fs n sv)). apply (handle_at _ u); assumption.
Qed.

(** two files change while a third one that includes both is added: the first one is read before, the second one after *)
Definition disk117 (x y : str) : fsys := mem_fs [(bs "/a.dts", bs "/dts-v1/; /include/ ""/b.dtsi"" /include/ ""/c.dtsi"""); (bs "/b.dtsi", x); (bs "/c.dtsi", y)].
Definition D117 (t : nat) : fsys := if (t <=? 4)%nat then disk117 (bs "/ { old; };") (bs "/ { p = <1> };") else disk117 (bs "/ { new };") (bs "/ { p = <1>; };").
Definition names117 := [bs "/a.dts"; bs "/b.dtsi"; bs "/c.dtsi"].
Lemma mem_canon l l' p : m_keys l = m_keys l' -> fs_canon (mem_fs l) p = fs_canon (mem_fs l') p.
Proof.
  intros H. unfold mem_fs. cbn [fs_canon]. destruct (m_mem str_eq_dec p l) eqn:E, (m_mem str_eq_dec p l') eqn:E'; try reflexivity.
  - assert (I : In p (m_keys l)) by (apply (m_mem_spec str_eq_dec), E). rewrite H in I. apply (m_mem_spec str_eq_dec) in I. congruence.
  - assert (I : In p (m_keys l')) by (apply (m_mem_spec str_eq_dec), E'). rewrite <- H in I. apply (m_mem_spec str_eq_dec) in I. congruence.
Qed.
Lemma mem_read l p : Forall (fun kv => valid_utf8 (snd kv) = true) l -> (exists b, read_to_string (mem_fs l) p = inl b /\ In p (m_keys l))
  \/ (read_to_string (mem_fs l) p = inr (bs "not found") /\ ~ In p (m_keys l)).
Proof.
  intros F. unfold read_to_string, mem_fs. cbn [fs_read]. destruct (m_get str_eq_dec p l) as [b|] eqn:E.
  - left. exists b. rewrite Forall_forall in F. pose proof (F (p, b) (m_get_in _ _ _ _ E)) as V. cbn [snd] in V. rewrite V. split; [reflexivity|eapply m_get_key, E].
  - right. split; [reflexivity|]. intros H. destruct (m_get_some_key str_eq_dec _ _ H). congruence.
Qed.
Lemma D117_mem t : exists l, D117 t = mem_fs l /\ m_keys l = names117 /\ Forall (fun kv => valid_utf8 (snd kv) = true) l.
Proof.
  unfold D117. destruct (t <=? 4)%nat; unfold disk117; eexists; (split; [reflexivity|]); (split; [reflexivity|]); repeat constructor.
Qed.
Lemma D117_stands : names_stand D117.
Proof. intros t p. destruct (D117_mem t) as (l & -> & E & _), (D117_mem O) as (l' & -> & E' & _). apply mem_canon. congruence. Qed.
Lemma D117_faults : faults_stand D117.
Proof.
  intros t p e H t'. destruct (D117_mem t) as (l & El & Kl & Fl), (D117_mem t') as (l' & El' & Kl' & Fl'). rewrite El in H. rewrite El'.
  destruct (mem_read l p Fl) as [(b & R & _)|[R N]]; [congruence|]. destruct (mem_read l' p Fl') as [(b & _ & I)|[R' _]]; [rewrite Kl' in I; rewrite Kl in N; contradiction|]. congruence.
Qed.
Lemma D117_finite : finite_disks D117 names117.
Proof.
  intros t t' x p b H _. destruct (D117_mem t) as (l & El & Kl & _). rewrite El in H. unfold mem_fs in H. cbn [fs_canon] in H.
  destruct (m_mem str_eq_dec x l) eqn:E; [|discriminate]. injection H as <-. rewrite <- Kl. apply (m_mem_spec str_eq_dec), E.
Qed.
Lemma D117_stable : canon_stable (D117 O).
Proof.
  destruct (D117_mem O) as (l & -> & _). intros x p H. unfold mem_fs in *. cbn [fs_canon] in *.
  destruct (m_mem str_eq_dec x l) eqn:E; [|discriminate]. injection H as <-. rewrite E. reflexivity.
Qed.
Definition text117 : str := bs "/dts-v1/; /include/ ""/b.dtsi"" /include/ ""/c.dtsi""".
(** the tool reports nothing, as on the disk with the old first file and the new second one, although there was an error on the disk all the time *)
Example C117_case : names_stand D117 /\ faults_stand D117 /\ finite_disks D117 names117 /\ (length names117 < 4)%nat /\ canon_stable (D117 O)
  /\ (exists t', live_cli D117 true 4 id_oracle (fun l => l) [] (bs "/a.dts") O = Done ((1, []), t'))
  /\ cli_main true 4 id_oracle (fun l => l) (disk117 (bs "/ { old; };") (bs "/ { p = <1>; };")) [] (bs "/a.dts") = Done (1, [])
  /\ (exists out, cli_main true 4 id_oracle (fun l => l) (D117 O) [] (bs "/a.dts") = Done (0, out))
  /\ (exists out, cli_main true 4 id_oracle (fun l => l) (D117 9%nat) [] (bs "/a.dts") = Done (0, out)).
Proof.
  split; [exact D117_stands|]. split; [exact D117_faults|]. split; [exact D117_finite|]. split; [cbn; lia|]. split; [exact D117_stable|].
  split; [eexists; vm_compute; reflexivity|]. split; [vm_compute; reflexivity|]. split; eexists; vm_compute; reflexivity.
Qed.
Example C117_session_case : exists sv, live_conversation 4 [(D117, NOpen (FileUri (bs "/a.dts")) text117)] sv
  /\ Forall (calm 4) [(D117, NOpen (FileUri (bs "/a.dts")) text117)]
  /\ map (fun kv => pf_text (snd kv)) (pj_files (sv_project sv)) <> [].
Proof.
  assert (E : exists sv t', live_handle D117 4 id_oracle (fun l => l) (NOpen (FileUri (bs "/a.dts")) text117) server_new O = Done (sv, t')
    /\ length (pj_files (sv_project sv)) = 3%nat).
  { destruct (live_handle D117 4 id_oracle (fun l => l) (NOpen (FileUri (bs "/a.dts")) text117) server_new O) as [[sv t']| |] eqn:E; [|vm_compute in E; discriminate|vm_compute in E; discriminate].
    exists sv, t'. split; [reflexivity|]. vm_compute in E. injection E as <- <-. reflexivity. }
  destruct E as (sv & t' & E & L). exists sv. split; [|split].
  - apply (lc_next 4 [] server_new D117 _ id_oracle (fun l => l) sv t'); [constructor|apply id_order_ok|apply id_shuffle|exact E].
  - constructor; [|constructor]. split; [exact D117_stands|]. split; [exact D117_faults|]. split; [|reflexivity]. exists names117. split; [exact D117_finite|cbn; lia].
  - destruct (pj_files (sv_project sv)); [discriminate L|discriminate].
Qed.

(** ** The condition on the faults is needed *)
(** a file is no text at first; it is included twice, and by the second time it is a text *)
Definition D117b (t : nat) : fsys :=
  mem_fs [(bs "/a.dts", []); (bs "/b.dtsi", if (t <=? 3)%nat then [255] else []); (bs "/c.dtsi", bs "/include/ ""/b.dtsi""")].
Definition run117b := live_add_text D117b 4 id_oracle (bs "/a.dts") text117 DtSource project_new O.
Definition pj117b : project := match run117b with Done (pj, _) => pj | _ => project_new end.
Definition t117b : nat := match run117b with Done (_, t) => t | _ => O end.
Definition parse117 := parse_text (include_dirs [] (bs "/a.dts")) text117 (bs "/a.dts").
Lemma run117b_eq : live_add_text D117b 4 id_oracle (bs "/a.dts") text117 DtSource project_new O = Done (pj117b, t117b).
Proof. vm_compute. reflexivity. Qed.
Lemma first117 : match fget (bs "/a.dts") (pj_files pj117b) with Some v => map (fun d => span_start (dg_span d)) (pf_pdiags v) = [mkPos 0 10] | None => False end.
Proof. vm_compute. reflexivity. Qed.
Lemma second117 : In (bs "/b.dtsi") (keys (pj_files pj117b)).
Proof. vm_compute. auto. Qed.
Lemma parse117_eq : match parse117 with
  | ROk f s => ps_diags s = []
    /\ match fl_elements f with
       | [PDirective (ADtsHeader _); PDirective (AInclude i); PDirective (AInclude j)] => include_path (D117b O) i = inl (bs "/b.dtsi") /\ span_start (include_span j) = mkPos 0 30
       | _ => False
       end
  | _ => False
  end.
Proof. vm_compute. auto. Qed.
Lemma parse117_done : exists f s h i j, parse117 = ROk f s /\ ps_diags s = []
  /\ fl_elements f = [PDirective (ADtsHeader h); PDirective (AInclude i); PDirective (AInclude j)]
  /\ include_path (D117b O) i = inl (bs "/b.dtsi") /\ span_start (include_span j) = mkPos 0 30.
Proof.
  pose proof parse117_eq as F. remember parse117 as p eqn:Ep. clear Ep. destruct p as [f s| | |]; try contradiction. destruct F as [D0 F].
  exists f, s. remember (fl_elements f) as l eqn:El. clear El.
  destruct l as [|[[h|x1|x1 x2|x1|x1 x2|x1 x2]|x1|x1|x1] [|[[y1|y1|y1 y2|i|y1 y2|y1 y2]|y1|y1|y1] [|[[z1|z1|z1 z2|j|z1 z2|z1 z2]|z1|z1|z1] [|]]]]; try contradiction.
  exists h, i, j. split; [reflexivity|]. split; [exact D0|]. split; [reflexivity|exact F].
Qed.
Lemma first117_done : exists v d l, fget (bs "/a.dts") (pj_files pj117b) = Some v /\ pf_pdiags v = d :: l /\ span_start (dg_span d) = mkPos 0 10.
Proof.
  pose proof first117 as F. remember (fget (bs "/a.dts") (pj_files pj117b)) as x eqn:Ex. clear Ex. destruct x as [v|]; [|contradiction].
  destruct (pf_pdiags v) as [|d l] eqn:E; [discriminate F|]. exists v, d, l. cbn [map] in F. injection F as F _. auto.
Qed.
Lemma include_names fs fs' i : (forall p, fs_canon fs p = fs_canon fs' p) -> include_path fs i = include_path fs' i.
Proof.
  intros H. unfold include_path. assert (K : forall dirs name, resolve_in fs dirs name = resolve_in fs' dirs name).
  { induction dirs as [|d l IH]; intros name; [reflexivity|]. cbn [resolve_in]. rewrite H, IH. reflexivity. }
  rewrite K, H. reflexivity.
Qed.
(** on a disk that stands still a file that is loaded is not reported as one that cannot be read *)
Lemma loaded_read fs u fuel o name a b text ft pj' f s i j h : finite_fs fs u -> (length u < fuel)%nat -> order_ok o -> fs_canon fs name = inl a ->
  valid_utf8 text = true -> add_file_with_text fuel o fs name text ft project_new = Done pj' ->
  parse_text (include_dirs [] a) text a = ROk f s -> ps_diags s = [] ->
  fl_elements f = [PDirective (ADtsHeader h); PDirective (AInclude i); PDirective (AInclude j)] -> include_path fs i = inl b -> b <> a ->
  In b (keys (pj_files pj')) -> forall v, fget a (pj_files pj') = Some v -> forall d, In d (pf_pdiags v) -> span_start (dg_span d) = span_start (include_span j).
Proof.
  intros Hf Hl Ho Hc Hv A P1 P2 P3 Pi Nb Hb v Hk d Hd.
  apply (C36_closure fs u fuel o name a text ft project_new pj' Hf Hl Ho Hc Hv re_new A) in Hb.
  destruct (C39_frame fs u fuel o name a text ft project_new pj' Hf Hl Ho Hc Hv re_new A) as [(w & V1 & _ & _ & V2) _].
  assert (w = v) as -> by congruence. cbn [pj_incl pj_files project_new m_keys map] in *. rewrite P1 in V2. destruct V2 as [_ V2].
  assert (R : exists x, read_to_string fs b = inl x).
  { destruct Hb as [[]|I]. inversion I as [X|p q _ _ _ R X]; [congruence|exact R]. }
  destruct R as [x R]. rewrite V2, P2, P3 in Hd. cbn [app flat_map element_diags] in Hd. rewrite app_nil_r in Hd. apply in_app_iff in Hd. destruct Hd as [Hd|Hd].
  - exfalso. unfold include_diags in Hd. rewrite Pi in Hd. destruct (in_dec str_eq_dec b _); [exact Hd|]. rewrite R in Hd. exact Hd.
  - unfold include_diags in Hd. destruct (include_path fs j) as [q|e].
    + destruct (in_dec str_eq_dec q _); [destruct Hd|]. destruct (read_to_string fs q); [destruct Hd|]. destruct Hd as [<-|[]]. reflexivity.
    + destruct Hd as [<-|[]]. reflexivity.
Qed.
Lemma D117b_stands : names_stand D117b.
Proof. intros t p. apply mem_canon. reflexivity. Qed.
Lemma D117b_finite : finite_disks D117b names117.
Proof.
  intros s s' x p b H _. unfold D117b, mem_fs in H. cbn [fs_canon] in H. destruct (m_mem str_eq_dec x _) eqn:X; [|discriminate]. injection H as <-.
  change names117 with (m_keys [(bs "/a.dts", @nil N); (bs "/b.dtsi", if (s <=? 3)%nat then [255] else []); (bs "/c.dtsi", bs "/include/ ""/b.dtsi""")]).
  apply (m_mem_spec str_eq_dec), X.
Qed.
Lemma text117_valid : valid_utf8 text117 = true.
Proof. vm_compute. reflexivity. Qed.
Lemma D117b_name : fs_canon (D117b O) (bs "/a.dts") = inl (bs "/a.dts").
Proof. vm_compute. reflexivity. Qed.
Lemma parse117_at : parse_text (include_dirs [] (bs "/a.dts")) text117 (bs "/a.dts") = parse117.
Proof. vm_compute. reflexivity. Qed.
Lemma never117 fs o fuel : (forall p, fs_canon fs p = fs_canon (D117b O) p) -> finite_fs fs names117 -> (length names117 < fuel)%nat -> order_ok o ->
  add_file_with_text fuel o fs (bs "/a.dts") text117 DtSource project_new <> Done pj117b.
Proof.
  intros Hc Hf Hl Ho A. pose proof (Hc (bs "/a.dts")) as Ec. rewrite D117b_name in Ec.
  destruct parse117_done as (f & s & h & i & j & Ep & D0 & Ef & F3 & F4). rewrite <- (include_names fs (D117b O) i Hc) in F3.
  assert (Nb : bs "/b.dtsi" <> bs "/a.dts") by (vm_compute; discriminate).
  destruct first117_done as (v & d & l & Ev & El & Ed).
  pose proof (loaded_read fs names117 fuel o (bs "/a.dts") (bs "/a.dts") (bs "/b.dtsi") text117 DtSource pj117b f s i j h Hf Hl Ho Ec text117_valid A (eq_trans parse117_at Ep) D0 Ef F3 Nb second117 v Ev d) as K.
  rewrite El in K. specialize (K (or_introl eq_refl)). rewrite Ed, F4 in K. discriminate K.
Qed.
Theorem C117_condition_needed : exists D u fuel o name text ft pj' t', names_stand D /\ finite_disks D u /\ (length u < fuel)%nat /\ order_ok o /\ valid_utf8 text = true
  /\ live_add_text D fuel o name text ft project_new O = Done (pj', t')
  /\ forall fs o' fuel', (forall p, fs_canon fs p = fs_canon (D O) p) -> finite_fs fs u -> (length u < fuel')%nat -> order_ok o' ->
     add_file_with_text fuel' o' fs name text ft project_new <> Done pj'.
Proof.
  exists D117b, names117, 4%nat, id_oracle, (bs "/a.dts"), text117, DtSource, pj117b, t117b.
  split; [exact D117b_stands|]. split; [exact D117b_finite|]. split; [cbn; lia|]. split; [apply id_order_ok|]. split; [exact text117_valid|].
  split; [exact run117b_eq|]. intros fs o' fuel'. apply never117.
Qed.

(** ** C118 *)
(** the tree and the diagnostics that are stored with a text: what the parser makes of it, and I/O errors at includes *)
Definition text_of_file (inc : list fpath) (k : fpath) (text : str) (v : pfile) : Prop :=
  pf_text v = text /\ valid_utf8 text = true
  /\ match parse_text (include_dirs inc k) text k with
     | ROk f s => pf_file v = Some f
         /\ exists ios, pf_pdiags v = ps_diags s ++ ios
            /\ Forall (fun d => exists i e, In (PDirective (AInclude i)) (fl_elements f) /\ d = mkDiag IOError (include_span i) (include_source i) e) ios
     | RErr d s => pf_file v = None /\ pf_pdiags v = [d]
     | _ => False
     end.
(** what an addition leaves when anything may happen to the disk *)
Definition left_by (D : nat -> fsys) (t t' : nat) (root : fpath) (text : str) (ft : file_type) (pj pj' : project) : Prop :=
  pj_incl pj' = pj_incl pj /\ pj_sev pj' = pj_sev pj
  /\ (exists v, fget root (pj_files pj') = Some v /\ pf_type v = ft /\ text_of_file (pj_incl pj) root text v)
  /\ (forall k v, fget k (pj_files pj) = Some v -> k <> root -> exists v', fget k (pj_files pj') = Some v' /\ same_source v' v)
  /\ (forall k v', fget k (pj_files pj') = Some v' -> k <> root -> ~ In k (keys (pj_files pj)) ->
        pf_type v' = file_type_of_path k /\ exists s text', (t <= s <= t')%nat /\ read_to_string (D s) k = inl text' /\ text_of_file (pj_incl pj) k text' v').

Lemma kept_text inc k text v w : valid_utf8 text = true -> kept inc k text w -> same_source v w -> text_of_file inc k text v.
Proof.
  intros Hv (A1 & _ & _ & A) (S1 & S2 & S3 & S4). split; [congruence|]. split; [exact Hv|].
  destruct A as [(f & s & ios & P & F1 & F2 & F3)|(d & s & P & F1 & F2)]; rewrite P.
  - split; [congruence|]. exists ios. split; [congruence|exact F3].
  - split; congruence.
Qed.

Section Any.
  Context (D : nat -> fsys) (u : list fpath) (fuel : nat) (o : oracle).
  Hypothesis Hu : finite_disks D u.
  Hypothesis Hl : (length u < fuel)%nat.
  Hypothesis Ho : order_ok o.

  Lemma parsed_inv t name text ft pj t' files : valid_utf8 text = true -> project_inv pj -> parsed_at D (pj_incl pj) t name text ft (pj_files pj) t' files ->
    project_inv (set_files files pj).
  Proof.
    intros Hv [P1 P2 P3 P4] (L & A & N & (v & V1 & V2 & V3) & B).
    assert (K : forall k w, fget k files = Some w -> (k <> name /\ fget k (pj_files pj) = Some w) \/ exists x, valid_utf8 x = true /\ kept (pj_incl pj) k x w).
    { intros k w Hk. destruct (str_eq_dec k name) as [->|Hne]; [right; exists text; split; [exact Hv|congruence]|].
      destruct (in_dec str_eq_dec k (keys (pj_files pj))) as [H|H].
      - left. split; [exact Hne|]. rewrite <- (A k H Hne). exact Hk.
      - right. destruct (B k w Hk H Hne) as (_ & s & x & _ & R & X). exists x. split; [apply (read_valid _ _ _ R)|exact X]. }
    constructor; cbn [pj_files set_files].
    - apply N, P1.
    - intros k w c Hin Hc. cbn [pj_files set_files] in Hin. apply (m_in_get str_eq_dec) in Hin; [|apply N, P1].
      destruct (K k w Hin) as [[_ H]|(x & _ & H)]; [apply (P2 k w c); [apply m_get_in in H; exact H|exact Hc]|]. destruct H as (_ & H & _). congruence.
    - intros k w f Hk Hf. destruct (K k w Hk) as [[_ H]|(x & Hx & H)]; [eapply P3; eassumption|].
      destruct H as (_ & _ & _ & [(g & s & ios & S1 & S2 & _)|(d & s & _ & S2 & _)]); [|congruence].
      assert (g = f) as -> by congruence. eapply parse_source; eassumption.
    - intros k w Hk Hf. destruct (K k w Hk) as [[_ H]|(x & Hx & H)]; [eapply P4; eassumption|]. destruct H as (_ & S1 & S2 & _). auto.
  Qed.
  Lemma same_inv pj pj' : project_inv pj -> project_ok pj' -> same_files (pj_files pj') (pj_files pj) -> project_inv pj'.
  Proof.
    intros [P1 P2 P3 P4] Hok [E S]. constructor.
    - rewrite E. exact P1.
    - exact Hok.
    - intros k v f Hk Hf. specialize (S k). rewrite Hk in S. destruct (fget k (pj_files pj)) as [w|] eqn:Ew; [|contradiction].
      destruct S as [(_ & S2 & _) _]. apply (P3 k w f Ew). congruence.
    - intros k v Hk Hf. specialize (S k). rewrite Hk in S. destruct (fget k (pj_files pj)) as [w|] eqn:Ew; [|contradiction].
      destruct S as [(_ & S2 & _) S]. assert (N : pf_file w = None) by congruence. rewrite (S N). apply (P4 k w Ew N).
  Qed.

  (** an include of the added text, of a file that was there, or of a file as it was on the disk, that leads to a file that is not loaded *)
  Definition stray (t : nat) (pj : project) (root : fpath) (text : str) : Prop :=
    exists k f i s s' q, In (PDirective (AInclude i)) (fl_elements f)
      /\ ((k = root /\ exists st, parse_text (include_dirs (pj_incl pj) root) text root = ROk f st)
          \/ (k <> root /\ exists v, fget k (pj_files pj) = Some v /\ pf_file v = Some f)
          \/ (k <> root /\ ~ In k (keys (pj_files pj)) /\ exists r x st, (t <= r)%nat /\ read_to_string (D r) k = inl x
              /\ parse_text (include_dirs (pj_incl pj) k) x k = ROk f st))
      /\ (t <= s)%nat /\ live_include_path D i s = (inl q, s') /\ q <> root /\ ~ In q (keys (pj_files pj)).
  Lemma add_any name text ft pj t : valid_utf8 text = true -> project_inv pj ->
    match live_add_text D fuel o name text ft pj t with
    | Done (pj', t') => exists root, fs_canon (D t) name = inl root /\ project_inv pj' /\ (t <= t')%nat /\ left_by D t t' root text ft pj pj'
    | Panic => (exists e, fs_canon (D t) name = inr e) \/ exists root, fs_canon (D t) name = inl root /\ stray t pj root text
    | NoFuel => False
    end.
  Proof.
    intros Hv Hp. unfold live_add_text, live_canon. destruct (fs_canon (D t) name) as [root|e] eqn:Ec; [|left; eauto].
    destruct (live_parse_ok D u (pj_incl pj) Hu fuel root text ft (pj_files pj) (S t) Hv) as (files & t2 & E & P).
    { pose proof (missing_bound u (m_insert str_eq_dec root pf_default (pj_files pj))). lia. }
    rewrite E. cbn [obind]. pose proof (parsed_inv _ _ _ _ _ _ _ Hv Hp P) as Q.
    destruct P as (L & A & N & (v & V1 & V2 & V3) & B).
    destruct (order_any D o files t2 Ho (pi_nodup _ Q)) as [(order & t3 & Eo & Po & L3)|(Eo & q & (k & w & f & i & s & s' & X1 & X2 & X3 & X4 & X5) & X6)]; rewrite Eo; cbn [obind].
    - assert (Ho' : oracle_ok (o_an o)) by apply Ho.
      destruct (keys_any D (o_an o) Ho' order analysis_new (set_files files pj) [] t3 (pi_ok _ Q)) as (pj' & t' & Ek & L' & K1 & K2 & K3 & K4).
      { intros k Hk. cbn [pj_files set_files]. eapply Permutation_in; eassumption. }
      { reflexivity. }
      rewrite Ek. exists root. split; [reflexivity|]. split; [exact (same_inv _ _ Q K1 K4)|]. split; [lia|].
      cbn [pj_files set_files pj_incl pj_sev] in *. destruct K4 as [Kk K4].
      split; [exact K2|]. split; [exact K3|]. split; [|split].
      + pose proof (K4 root) as S. rewrite V1 in S. destruct (fget root (pj_files pj')) as [v'|]; [|contradiction]. destruct S as [S _]. exists v'.
        split; [reflexivity|]. split; [destruct S as (_ & _ & S & _); congruence|]. eapply kept_text; eassumption.
      + intros k w Hk Hne. pose proof (K4 k) as S. rewrite (A k (m_get_key _ _ _ _ Hk) Hne), Hk in S. destruct (fget k (pj_files pj')) as [w'|]; [|contradiction].
        destruct S as [S _]. eauto.
      + intros k w' Hk Hne Hnew. pose proof (K4 k) as S. rewrite Hk in S. destruct (fget k files) as [w|] eqn:Ew; [|contradiction]. destruct S as [S _].
        destruct (B k w Ew Hnew Hne) as (T & s & x & Y1 & Y2 & Y3). split; [destruct S as (_ & _ & S & _); congruence|].
        exists s, x. split; [lia|]. split; [exact Y2|]. eapply kept_text; [apply (read_valid _ _ _ Y2)|exact Y3|exact S].
    - right. exists root. split; [reflexivity|]. exists k, f, i, s, s', q. split; [exact X3|]. split; [|split; [lia|]; split; [exact X5|]; split].
      + apply (m_in_get str_eq_dec) in X1; [|exact (pi_nodup _ Q)]. cbn [pj_files set_files] in X1.
        assert (T : forall x w, kept (pj_incl pj) k x w -> pf_file w = Some f -> exists st, parse_text (include_dirs (pj_incl pj) k) x k = ROk f st).
        { clear. intros x w (_ & _ & _ & [(g & st & ios & S1 & S2 & _)|(d & st & _ & S2 & _)]) H; [|congruence]. exists st. congruence. }
        destruct (str_eq_dec k root) as [->|Hne]; [left; split; [reflexivity|]; assert (w = v) as -> by congruence; exact (T _ _ V3 X2)|]. right.
        destruct (in_dec str_eq_dec k (keys (pj_files pj))) as [Hin|Hin].
        * left. split; [exact Hne|]. exists w. split; [|exact X2]. rewrite <- (A k Hin Hne). exact X1.
        * right. split; [exact Hne|]. split; [exact Hin|]. destruct (B k w X1 Hin Hne) as (_ & r & x & Y1 & Y2 & Y3).
          destruct (T _ _ Y3 X2) as [st Y4]. exists r, x, st. split; [lia|]. auto.
      + intros ->. apply X6. eapply m_get_key, V1.
      + intros H. apply X6. destruct (str_eq_dec q root) as [->|Hne]; [eapply m_get_key, V1|].
        destruct (m_get_some_key str_eq_dec _ _ H) as [x Hx]. rewrite <- (A q H Hne) in Hx. eapply m_get_key, Hx.
  Qed.
End Any.

(** the projects reached while anything may happen to the disk, between operations and during them *)
Inductive live_reached : project -> Prop :=
| lr_new : live_reached project_new
| lr_dirs D dirs pj t : live_reached pj -> live_reached (fst (live_set_include_paths D dirs pj t))
| lr_add D u fuel o name text ft pj pj' t t' : live_reached pj -> finite_disks D u -> (length u < fuel)%nat -> order_ok o -> valid_utf8 text = true ->
    live_add_text D fuel o name text ft pj t = Done (pj', t') -> live_reached pj'
| lr_remove D p pj t : live_reached pj -> live_reached (fst (live_remove_file D p pj t)).
Lemma live_remove_at D p pj t : fst (live_remove_file D p pj t) = remove_file (D t) p pj.
Proof. unfold live_remove_file, remove_file, live_canon. destruct (fs_canon (D t) p); reflexivity. Qed.
Lemma live_inv pj : live_reached pj -> project_inv pj.
Proof.
  induction 1 as [|D dirs pj t H IH|D u fuel o name text ft pj pj' t t' H IH Hu Hl Ho Hv E|D p pj t H IH].
  - apply new_inv.
  - unfold live_set_include_paths. destruct (live_dirs D dirs t). cbn [fst]. destruct IH as [A B C E]. constructor; assumption.
  - pose proof (add_any D u fuel o Hu Hl Ho name text ft pj t Hv IH) as K. rewrite E in K. destruct K as (root & _ & K & _). exact K.
  - rewrite live_remove_at. apply remove_keeps, IH.
Qed.

(** an addition ends; what it leaves is made of texts that were on the disk meanwhile; and the panics are these *)
Theorem C118_any_partial : forall D u fuel o name text ft pj t, finite_disks D u -> (length u < fuel)%nat -> order_ok o -> valid_utf8 text = true -> live_reached pj ->
  match live_add_text D fuel o name text ft pj t with
  | Done (pj', t') => exists root, fs_canon (D t) name = inl root /\ (t <= t')%nat /\ left_by D t t' root text ft pj pj'
  | Panic => (exists e, fs_canon (D t) name = inr e) \/ exists root, fs_canon (D t) name = inl root /\ stray D t pj root text
  | NoFuel => False
  end.
Proof.
  intros D u fuel o name text ft pj t Hu Hl Ho Hv Hp. pose proof (add_any D u fuel o Hu Hl Ho name text ft pj t Hv (live_inv _ Hp)) as K.
  destruct (live_add_text D fuel o name text ft pj t) as [[pj' t']| |]; [|exact K|exact K]. destruct K as (root & K1 & _ & K2). eauto.
Qed.
(** every stored file, whatever has happened, belongs to one text: its tree and its diagnostics are those of the text stored with it *)
Theorem C118_one_text : forall pj, live_reached pj -> forall k v, fget k (pj_files pj) = Some v -> exists inc, text_of_file inc k (pf_text v) v.
Proof.
  intros pj H. induction H as [|D dirs pj t H IH|D u fuel o name text ft pj pj' t t' H IH Hu Hl Ho Hv E|D p pj t H IH]; intros k v Hk.
  - discriminate Hk.
  - unfold live_set_include_paths in Hk. destruct (live_dirs D dirs t). exact (IH k v Hk).
  - pose proof (C118_any_partial D u fuel o name text ft pj t Hu Hl Ho Hv H) as K. rewrite E in K. destruct K as (root & _ & _ & _ & _ & (w & W1 & W2 & W3) & A & B).
    destruct (str_eq_dec k root) as [->|Hne].
    + assert (w = v) as -> by congruence. exists (pj_incl pj). pose proof W3 as [<- _]. exact W3.
    + destruct (in_dec str_eq_dec k (keys (pj_files pj))) as [Hin|Hin].
      * destruct (m_get_some_key str_eq_dec _ _ Hin) as [x Hx]. destruct (A k x Hx Hne) as (v' & V1 & S). assert (v' = v) as -> by congruence.
        destruct (IH k x Hx) as [inc (T1 & T2 & T3)]. exists inc. destruct S as (S1 & S2 & S3 & S4). split; [reflexivity|]. rewrite S4. split; [exact T2|].
        rewrite S1, S2. exact T3.
      * destruct (B k v Hk Hne Hin) as (_ & s & x & _ & _ & T). exists (pj_incl pj). pose proof T as [<- _]. exact T.
  - rewrite live_remove_at in Hk. destruct (fs_canon (D t) p) as [q|e] eqn:Ec.
    + rewrite (remove_get _ _ _ _ Ec) in Hk. destruct (str_eq_dec k q); [discriminate|]. exact (IH k v Hk).
    + unfold remove_file in Hk. rewrite Ec in Hk. exact (IH k v Hk).
Qed.
(** afterwards, on a disk that stands still, an addition reports for its file exactly what it should *)
Theorem C118_after : forall fs u fuel o name root text ft pj pj', finite_fs fs u -> (length u < fuel)%nat -> order_ok o ->
  fs_canon fs name = inl root -> valid_utf8 text = true -> live_reached pj -> add_file_with_text fuel o fs name text ft pj = Done pj' ->
  exists v, fget root (pj_files pj') = Some v /\ pf_text v = text /\ pf_type v = ft
    /\ match parse_text (include_dirs (pj_incl pj) root) text root with
       | ROk f s => pf_file v = Some f /\ pf_pdiags v = ps_diags s ++ flat_map (element_diags fs root (keys (pj_files pj))) (fl_elements f)
       | RErr d s => pf_file v = None /\ pf_pdiags v = [d]
       | _ => False
       end.
Proof.
  intros fs u fuel o name root text ft pj pj' Hf Hl Ho Hc Hv Hp E.
  destruct (add_spec fs u fuel o name root text ft pj Hf Hl Ho Hc Hv (live_inv _ Hp)) as (files' & L & [[_ X]|(_ & order & pj2 & X & _ & P & _ & _ & _ & A)]); [congruence|].
  assert (pj2 = pj') as -> by congruence.
  assert (S : forall k, match fget k (pj_files pj'), fget k files' with Some v, Some w => same_source v w | None, None => True | _, _ => False end).
  { eapply analysed_source; [|exact A]. intros k. split; apply Permutation_in; [exact P|apply Permutation_sym, P]. }
  destruct (li_root _ _ _ _ _ _ _ L) as (w & W1 & W2). specialize (S root). rewrite W1 in S.
  destruct (fget root (pj_files pj')) as [v|]; [|contradiction]. exists v. split; [reflexivity|].
  destruct S as (S1 & S2 & S3 & S4), W2 as (T1 & T2 & _ & _ & T3). split; [congruence|]. split; [congruence|].
  destruct T3 as [(f & s & T3 & T4 & T5)|(d & s & T3 & T4 & T5)]; rewrite T3; split; congruence.
Qed.

(** what is wanted: no panic if the addition succeeds on the disk before and on the disk after. It is false: an included file is written while the text is parsed *)
Definition text118 : str := bs "/dts-v1/; /include/ ""/b.dtsi""".
Definition D118 (t : nat) : fsys := if (t <=? 2)%nat then mem_fs [(bs "/a.dts", [])] else mem_fs [(bs "/a.dts", []); (bs "/b.dtsi", bs "/ { };")].
Lemma D118_finite : finite_disks D118 names117.
Proof.
  intros t t' x p b H _. unfold D118 in H.
  assert (K : forall l, incl (m_keys l) names117 -> fs_canon (mem_fs l) x = inl p -> In p names117).
  { intros l I X. unfold mem_fs in X. cbn [fs_canon] in X. destruct (m_mem str_eq_dec x l) eqn:E; [|discriminate]. injection X as <-. apply I, (m_mem_spec str_eq_dec), E. }
  destruct (t <=? 2)%nat; (eapply K; [|exact H]); unfold names117; intros z Hz; cbn [m_keys map fst In] in *; tauto.
Qed.
Theorem C118_refuted : exists D u fuel o name text ft pj, finite_disks D u /\ (length u < fuel)%nat /\ order_ok o /\ valid_utf8 text = true /\ live_reached pj
  /\ (exists n before after, (forall t, D t = if (t <=? n)%nat then before else after)
      /\ (exists pj', add_file_with_text fuel o before name text ft pj = Done pj') /\ (exists pj', add_file_with_text fuel o after name text ft pj = Done pj'))
  /\ live_add_text D fuel o name text ft pj O = Panic.
Proof.
  exists D118, names117, 4%nat, id_oracle, (bs "/a.dts"), text118, DtSource, project_new. split; [exact D118_finite|]. split; [cbn; lia|]. split; [apply id_order_ok|].
  split; [vm_compute; reflexivity|]. split; [constructor|]. split.
  - eexists 2%nat, _, _. split; [intros t; reflexivity|]. split; eexists; vm_compute; reflexivity.
  - vm_compute. reflexivity.
Qed.
(** the file itself vanishes after it was read: a panic, although the file can be added before and is an error after *)
Definition D118b (t : nat) : fsys := if (t <=? 1)%nat then mem_fs [(bs "/a.dts", bs "/dts-v1/;")] else mem_fs [].
Theorem C118_vanish_refuted : exists D u fuel o name pj, finite_disks D u /\ (length u < fuel)%nat /\ order_ok o /\ live_reached pj
  /\ (exists n before after, (forall t, D t = if (t <=? n)%nat then before else after)
      /\ (exists pj', add_file fuel o before name pj = Done (inr pj')) /\ (exists e, add_file fuel o after name pj = Done (inl e)))
  /\ live_add_file D fuel o name pj O = Panic.
Proof.
  exists D118b, names117, 4%nat, id_oracle, (bs "/a.dts"), project_new. split.
  { intros t t' x p b H _. unfold D118b in H. destruct (t <=? 1)%nat; unfold mem_fs in H; cbn [fs_canon] in H.
    - destruct (m_mem str_eq_dec x _) eqn:E; [|discriminate]. injection H as <-. left.
      assert (I : In x (m_keys [(bs "/a.dts", bs "/dts-v1/;")])) by (apply (m_mem_spec str_eq_dec), E). destruct I as [I|[]]. exact I.
    - discriminate. }
  split; [cbn; lia|]. split; [apply id_order_ok|]. split; [constructor|]. split; [|vm_compute; reflexivity].
  eexists 1%nat, _, _. split; [intros t; reflexivity|]. split; eexists; vm_compute; reflexivity.
Qed.

(** a file that is no text at first and one later: loaded with the text it has then, and the addition goes on *)
Example C118_case : finite_disks D117b names117 /\ (length names117 < 4)%nat /\ live_reached pj117b
  /\ live_add_text D117b 4 id_oracle (bs "/a.dts") text117 DtSource project_new O = Done (pj117b, t117b)
  /\ (exists v, fget (bs "/b.dtsi") (pj_files pj117b) = Some v /\ pf_text v = [])
  /\ exists pj', add_file_with_text 4 id_oracle (D117b 9%nat) (bs "/a.dts") text117 DtSource pj117b = Done pj'.
Proof.
  split; [exact D117b_finite|]. split; [cbn; lia|]. split.
  { apply (lr_add D117b names117 4 id_oracle (bs "/a.dts") text117 DtSource project_new pj117b O t117b); [constructor|exact D117b_finite|cbn; lia|apply id_order_ok|exact text117_valid|exact run117b_eq]. }
  split; [exact run117b_eq|]. split; eexists; [split|]; vm_compute; reflexivity.
Qed.

Print Assumptions C117_text. Print Assumptions C117_file. Print Assumptions C117_tool. Print Assumptions C117_message.
Print Assumptions C117_session. Print Assumptions C117_still. Print Assumptions C117_condition_needed.
Print Assumptions C118_any_partial. Print Assumptions C118_one_text. Print Assumptions C118_after. Print Assumptions C118_refuted. Print Assumptions C118_vanish_refuted.
