(** C104: what the client shows when all handlers have finished *)
From Coq Require Import Permutation.
From Verif Require Import Parser Analysis Project ProjectProofs ProjectProofs2 ProjectHistory PropsProject Server ServerProofs Locks Tests PropsServer PropsLocks.

(** ** The names of the files of a project are canonical *)
Definition canonical (fs : fsys) (files : list (fpath * pfile)) : Prop := forall k, In k (m_keys files) -> fs_canon fs k = inl k.
Lemma canonical_insert fs k v files : fs_canon fs k = inl k -> canonical fs files -> canonical fs (m_insert str_eq_dec k v files).
Proof. intros E H j Hj. apply (m_keys_insert str_eq_dec) in Hj. destruct Hj as [->|Hj]; [exact E|exact (H j Hj)]. Qed.
Lemma parse_canonical fs incl : canon_stable fs -> forall fl name text ft files files', fs_canon fs name = inl name -> canonical fs files ->
  parse_file fl fs incl name text ft files = Done files' -> canonical fs files'.
Proof.
  intros Hst. induction fl as [|fl IH]; intros name text ft files files' En Hf E; [discriminate|]. rewrite parse_file_unfold in E.
  destruct (parse_text (include_dirs incl name) text name) as [file st|d st| |]; try discriminate.
  - assert (L : forall is ds c ds' c', inc_loop fs (parse_file fl fs incl) is ds c = Done (ds', c') -> canonical fs c -> canonical fs c').
    { induction is as [|i is IHl]; intros ds c ds' c' F Hc; cbn [inc_loop] in F; [injection F as <- <-; exact Hc|].
      destruct (include_path fs i) as [p|e] eqn:Ei; [|exact (IHl _ _ _ _ F Hc)]. destruct (m_mem str_eq_dec p c); [exact (IHl _ _ _ _ F Hc)|].
      destruct (read_to_string fs p) as [t|e]; [|exact (IHl _ _ _ _ F Hc)].
      destruct (parse_file fl fs incl p t (file_type_of_path p) c) as [c1| |] eqn:E1; try discriminate. cbn [obind] in F.
      apply (IHl _ _ _ _ F). apply (IH _ _ _ _ _ ltac:(destruct (include_canon _ _ _ Ei) as [x Hx]; exact (Hst _ _ Hx)) Hc E1). }
    destruct (inc_loop fs (parse_file fl fs incl) _ _ _) as [[ds c]| |] eqn:E1; try discriminate. cbn [obind] in E. injection E as <-.
    apply canonical_insert; [exact En|]. apply (L _ _ _ _ _ E1). apply canonical_insert; assumption.
  - injection E as <-. apply canonical_insert; assumption.
Qed.
Lemma analyse_keys_same o fs : forall keys a pj pj', analyze_keys o fs keys a pj = Done pj' -> m_keys (pj_files pj') = m_keys (pj_files pj).
Proof.
  induction keys as [|k r IH]; intros a pj pj' E; cbn [analyze_keys] in E; [injection E as <-; reflexivity|].
  destruct (m_get str_eq_dec k (pj_files pj)) as [f|]; [|discriminate]. destruct (pf_file f) as [file|]; [|exact (IH _ _ _ E)].
  destruct (analyze_file o fs pj file (pf_type f) a) as [[res a']| |]; cbn [obind] in E; try discriminate.
  rewrite (IH _ _ _ E). cbn [set_files pj_files]. apply update_keys.
Qed.
Lemma add_canonical fuel o fs name text ft pj pj' : canon_stable fs -> canonical fs (pj_files pj) ->
  add_file_with_text fuel o fs name text ft pj = Done pj' -> canonical fs (pj_files pj').
Proof.
  intros Hst Hc E. unfold add_file_with_text in E. destruct (fs_canon fs name) as [q|] eqn:Eq; [|discriminate].
  destruct (parse_file fuel fs (pj_incl pj) q text ft (pj_files pj)) as [files| |] eqn:Ep; cbn [obind] in E; try discriminate.
  destruct (compute_key_order o fs files) as [order| |]; cbn [obind] in E; try discriminate.
  unfold canonical. rewrite (analyse_keys_same _ _ _ _ _ _ E). exact (parse_canonical fs _ Hst _ _ _ _ _ _ (Hst _ _ Eq) Hc Ep).
Qed.
Lemma remove_canonical fs p pj : canonical fs (pj_files pj) -> canonical fs (pj_files (remove_file fs p pj)).
Proof.
  intros H. unfold remove_file. destruct (fs_canon fs p) as [q|]; [|exact H]. cbn [set_files pj_files]. intros k Hk. apply H.
  revert Hk. generalize (pj_files pj). clear. induction l as [|[a v] l IH]; cbn; [auto|].
  destruct (str_eq_dec q a); cbn; intros; tauto.
Qed.

(** ** The opening of a handler: it will publish everything, or the diagnostics of the files that stay do not change *)
Definition orders_ok (j : job) : Prop :=
  match j with JConfigure ok _ | JOpen _ ok _ _ | JChange _ ok _ _ => shuffle ok | _ => True end.
Definition keeps (fs : fsys) (pj pj' : project) : Prop :=
  forall k, In k (m_keys (pj_files pj')) -> In k (m_keys (pj_files pj)) /\ get_diagnostics fs pj' k = get_diagnostics fs pj k.
Lemma keeps_refl fs pj : keeps fs pj pj.
Proof. intros k Hk. auto. Qed.
Lemma remove_keeps fs p pj : canonical fs (pj_files pj) -> keeps fs pj (remove_file fs p pj).
Proof.
  intros C k Hk. pose proof (remove_canonical fs p pj C k Hk) as Ek. unfold get_diagnostics, get_file. rewrite Ek. unfold remove_file in *.
  destruct (fs_canon fs p) as [q|]; [|auto]. cbn [set_files pj_files] in *. apply in_map_iff in Hk. destruct Hk as ([k' v] & E & Hk). cbn in E. subst k'.
  unfold m_remove in Hk. apply filter_In in Hk. destruct Hk as [Hk Hq]. cbn [fst] in Hq. destruct (str_eq_dec q k) as [|Hne]; [discriminate|].
  split; [apply in_map_iff; exists (k, v); auto|]. rewrite (m_get_remove_neq str_eq_dec); [reflexivity|congruence].
Qed.
Lemma job_effect fuel fs j w p pj : canon_stable fs -> orders_ok j -> canonical fs (pj_files pj) -> job_prog fuel fs j = Lock w p ->
  snd (section p pj) = Crash \/ (canonical fs (pj_files (fst (section p pj)))
    /\ ((exists ok, shuffle ok /\ snd (section p pj) = publish_prog ok fs) \/ ((exists x, snd (section p pj) = Return x) /\ keeps fs pj (fst (section p pj))))).
Proof.
  intros Hst Hj Hc E.
  assert (K : forall id r, exists x, snd (section (answer id r) pj) = Return x) by (intros; eexists; reflexivity).
  destruct j; cbn [job_prog orders_ok] in *; unfold with_path in E.
  - injection E as <- <-. right. cbn [section fst snd]. split; [exact Hc|]. right. split; [eexists; reflexivity|]. intros k Hk. split; [exact Hk|reflexivity].
  - injection E as <- <-. right. cbn [section fst snd]. split; [exact Hc|]. left. exists ok. auto.
  - destruct (to_file_path u) as [name|]; [|discriminate]. injection E as <- <-.
    pose proof (add_section fuel o fs name text (file_type_of_path name) (publish_prog ok fs) pj) as S.
    destruct (add_file_with_text _ _ _ _ _ _ _) as [pj'| |] eqn:Ea; [|left; exact S ..]. right. rewrite S. cbn [fst snd].
    split; [exact (add_canonical _ _ _ _ _ _ _ _ Hst Hc Ea)|]. left. exists ok. auto.
  - destruct (to_file_path u) as [name|]; [|discriminate]. injection E as <- <-. destruct texts as [|text r]; [left; reflexivity|].
    pose proof (add_section fuel o fs name text (file_type_of_path name) (publish_prog ok fs) pj) as S.
    destruct (add_file_with_text _ _ _ _ _ _ _) as [pj'| |] eqn:Ea; [|left; exact S ..]. right. rewrite S. cbn [fst snd].
    split; [exact (add_canonical _ _ _ _ _ _ _ _ Hst Hc Ea)|]. left. exists ok. auto.
  - destruct (to_file_path u) as [name|]; [|discriminate]. injection E as <- <-. right. cbn [section fst snd].
    split; [apply remove_canonical, Hc|]. right. split; [eexists; reflexivity|apply remove_keeps, Hc].
  - destruct (to_file_path u) as [name|]; [|discriminate]. injection E as <- <-. cbn [section].
    assert (A : forall r, snd (section (answer id r) pj) = Crash \/ (canonical fs (pj_files (fst (section (answer id r) pj)))
      /\ ((exists ok, shuffle ok /\ snd (section (answer id r) pj) = publish_prog ok fs) \/ ((exists x, snd (section (answer id r) pj) = Return x) /\ keeps fs pj (fst (section (answer id r) pj)))))).
    { intros r. right. split; [exact Hc|]. right. split; [apply K|apply keeps_refl]. }
    destruct (find_at_pos fs pj name pos) as [[r|l|i]|]; try apply A.
    + cbn [section]. destruct (get_node_position fs pj name r) as [[sp src]|]; [|apply A]. destruct (from_file_path src); [apply A|left; reflexivity].
    + destruct (include_path fs i) as [q|]; [|apply A]. destruct (from_file_path q); apply A.
  - destruct (to_file_path u) as [name|]; [|discriminate]. injection E as <- <-. cbn [section]. right.
    destruct (find_at_pos fs pj name pos) as [[r|l|i]|]; cbn [section]; (split; [exact Hc|]); right; (split; [apply K|apply keeps_refl]).
  - destruct (to_file_path u) as [name|]; [|discriminate]. injection E as <- <-. cbn [section]. right. split; [exact Hc|]. right. split; [apply K|apply keeps_refl].
Qed.

(** ** What a handler has still to publish *)
Inductive rest := RNone | RSnap | RLoop (l : list fpath) | RSend (k : fpath) (l : list fpath).
Definition after_read (fs : fsys) (pj : project) (f : fpath) (r : list fpath) : prog :=
  match from_file_path f with
  | None => Crash
  | Some u => Send (u, map shown (get_diagnostics fs pj f)) (publish_each fs r)
  end.
Definition resth (fs : fsys) (pj : project) (h : handler) (r : rest) : Prop :=
  match r with
  | RNone => h_hold h = None /\ exists x, h_prog h = Return x
  | RSnap => exists ok, shuffle ok /\
    match h_hold h with
    | None => h_prog h = publish_prog ok fs
    | Some w => w = false /\ section (h_prog h) pj = (pj, publish_each fs (ok (m_keys (pj_files pj))))
    end
  | RLoop l =>
    match h_hold h with
    | None => h_prog h = publish_each fs l
    | Some w => w = false /\ exists f r, l = f :: r /\ section (h_prog h) pj = (pj, after_read fs pj f r)
    end
  | RSend k l => h_on h = true /\ h_hold h = None /\ h_prog h = Send (FileUri k, map shown (get_diagnostics fs pj k)) (publish_each fs l)
  end.
Definition will (k : fpath) (r : rest) : Prop :=
  match r with RNone => False | RSnap => True | RLoop l => In k l | RSend f l => k = f \/ In k l end.
Definition all_shown (fs : fsys) (pj : project) (sent : list publication) (rs : list rest) : Prop :=
  forall k, In k (m_keys (pj_files pj)) -> current_view fs (mkServer pj sent) k \/ Exists (will k) rs.

Lemma off_rest fs pj pj' l rs : Forall tidy_h l -> Forall off l -> Forall2 (resth fs pj) l rs -> Forall2 (resth fs pj') l rs.
Proof.
  intros T O H. revert T O. induction H as [|h r l rs Hr _ IH]; intros T O; [constructor|]. inversion T as [|? ? [_ T2]]; inversion O; subst.
  constructor; [|auto]. unfold off in *.
  assert (Eh : h_hold h = None) by (destruct (h_hold h); [rewrite T2 in *; discriminate|reflexivity]).
  unfold resth in *. rewrite Eh in *. destruct r; try exact Hr. destruct Hr as [Hr _]. congruence.
Qed.
Lemma exists_mid {A} (P : A -> Prop) pre x post : Exists P (pre ++ x :: post) <-> P x \/ Exists P (pre ++ post).
Proof. rewrite !Exists_app, Exists_cons. tauto. Qed.
Lemma file_uri f u : from_file_path f = Some u -> u = FileUri f.
Proof.
  unfold from_file_path. destruct f as [|c f]; [discriminate|]. destruct c as [|c]; [discriminate|].
  repeat (destruct c as [c|c|]; try discriminate). intros E. injection E as <-. reflexivity.
Qed.
Lemma view_sent fs pj sent k k0 : current_view fs (mkServer pj (sent ++ [(FileUri k0, map shown (get_diagnostics fs pj k0))])) k
  <-> k = k0 \/ current_view fs (mkServer pj sent) k.
Proof.
  unfold current_view. cbn [sv_sent sv_project]. rewrite view_app. cbn [fold_left fst snd].
  destruct (uri_eq_dec (FileUri k0) (FileUri k)) as [E|E]; [injection E as ->; tauto|]. split; [auto|]. intros [->|H]; [contradiction|exact H].
Qed.

(** ** One thread: nothing happens between the reading and the sending of the diagnostics of a file *)
Definition settled_in (fs : fsys) (w : world) (rs : list rest) : Prop :=
  Forall2 (resth fs (w_pj w)) (w_hs w) rs /\ canonical fs (pj_files (w_pj w)) /\ all_shown fs (w_pj w) (w_sent w) rs.
Definition in_view (fuel : nat) (fs : fsys) (s : list job * world) : Prop :=
  let '(q, w) := s in
  Forall orders_ok q /\ (on_threads (w_hs w) <= 1)%nat /\
  (gone_wrong w
   \/ (exists rs, settled_in fs w rs)
   \/ exists j pre h post xs ys pj1, orders_ok j /\ w_hs w = pre ++ h :: post /\ opening fuel fs pj1 (w_pj w) j h /\ Forall off (pre ++ post)
        /\ Forall2 (resth fs pj1) pre xs /\ Forall2 (resth fs pj1) post ys /\ canonical fs (pj_files pj1) /\ all_shown fs pj1 (w_sent w) (xs ++ ys)).

Lemma settled_step fs refuse w w' rs : step 1 refuse w w' -> well w -> settled_in fs w rs -> gone_wrong w' \/ exists rs', settled_in fs w' rs'.
Proof.
  intros H [T _] (F & C & S). unfold settled_in.
  destruct H; cbn [w_pj w_hs w_sent] in *; rewrite mid_app in T; destruct T as [[T1 _] T]; cbn [h_hold h_prog tidy] in T1;
    destruct (F2_mid _ _ _ _ _ F) as (xs & r0 & ys & -> & F1 & Fx & F2).
  - right. exists (xs ++ r0 :: ys). split; [|auto]. apply F2_join; auto. destruct r0; cbn [resth h_hold h_prog h_on] in *; try exact Fx. destruct Fx; discriminate.
  - right. destruct r0; cbn [resth h_hold h_prog h_on] in Fx.
    + destruct Fx as (_ & x & E). discriminate.
    + destruct Fx as (ok & Hk & E). injection E as -> ->. exists (xs ++ RSnap :: ys). split; [|auto]. apply F2_join; auto.
      exists ok. cbn [h_hold h_prog section]. auto.
    + destruct l as [|f r]; [discriminate|]. cbn [publish_each] in Fx. injection Fx as -> ->. exists (xs ++ RLoop (f :: r) :: ys). split; [|auto]. apply F2_join; auto.
      cbn [resth h_hold h_prog section]. split; [reflexivity|]. exists f, r. split; reflexivity.
    + destruct Fx as (_ & _ & E). discriminate.
  - destruct hold as [w|]; [|destruct T1; contradiction]. destruct r0; cbn [resth h_hold h_prog h_on section] in Fx.
    + destruct Fx as (E & _). discriminate.
    + destruct Fx as (ok & Hk & -> & E). injection E as ->. right. exists (xs ++ RLoop (ok (m_keys (pj_files pj))) :: ys).
      split; [apply F2_join; auto; reflexivity|]. split; [exact C|]. intros k Hk'. destruct (S k Hk') as [V|V]; [auto|]. right. apply exists_mid. left. cbn [will].
      apply (Permutation_in _ (Permutation_sym (Hk _)) Hk').
    + destruct Fx as (-> & f & r & -> & E). injection E as E. unfold after_read in E. destruct (from_file_path f) as [u|] eqn:Eu; subst p.
      * right. apply file_uri in Eu. subst u. exists (xs ++ RSend f r :: ys). split; [apply F2_join; auto; repeat split|]. split; [exact C|].
        intros k Hk'. destruct (S k Hk') as [V|V]; [auto|]. right. apply exists_mid. apply exists_mid in V. cbn [will In] in *. intuition.
      * left. right. eexists. split; [apply in_elt|reflexivity].
    + destruct Fx as (_ & E & _). discriminate.
  - destruct hold as [w|]; [|destruct T1; contradiction]. right. exists (xs ++ r0 :: ys). split; [|auto]. apply F2_join; auto.
    destruct r0; cbn [resth h_hold h_prog h_on section] in *; [destruct Fx; discriminate|exact Fx|exact Fx|destruct Fx as (_ & E & _); discriminate].
  - destruct T1 as [-> _]. exfalso. destruct r0; cbn [resth h_hold h_prog] in Fx.
    + destruct Fx; discriminate.
    + destruct Fx as (ok & _ & E & _). discriminate.
    + destruct Fx; discriminate.
    + destruct Fx as (_ & E & _). discriminate.
  - destruct T1 as [-> _]. right. destruct r0; cbn [resth h_hold h_prog] in Fx.
    + destruct Fx as (_ & x & E). discriminate.
    + destruct Fx as (ok & _ & E). discriminate.
    + destruct l; discriminate.
    + destruct Fx as (_ & _ & E). injection E as -> ->. exists (xs ++ RLoop l :: ys). split; [apply F2_join; auto; reflexivity|]. split; [exact C|].
      intros j Hj. rewrite view_sent, exists_mid. destruct (S j Hj) as [V|V]; [auto|]. apply exists_mid in V. cbn [will] in V |- *. tauto.
  - exfalso. destruct T1 as [-> _]. destruct r0; cbn [resth h_hold h_prog] in Fx.
    + destruct Fx as (_ & x & E). discriminate.
    + destruct Fx as (ok & _ & E). discriminate.
    + destruct l; discriminate.
    + destruct Fx as (_ & _ & E). discriminate.
  - right. subst hold. exists (xs ++ ys). split; [apply Forall2_app; auto|]. split; [exact C|]. intros k Hk. destruct (S k Hk) as [V|V]; [auto|].
    apply exists_mid in V. destruct V as [V|V]; [|auto]. exfalso. destruct r0; cbn [resth will h_hold h_prog] in *.
    + exact V.
    + destruct Fx as (ok & _ & E). discriminate.
    + destruct l; [destruct V|discriminate].
    + destruct Fx as (_ & _ & E). discriminate.
  - left. left. reflexivity.
Qed.

Lemma view_step fuel fs refuse s s' : canon_stable fs -> qstep fuel fs 1 refuse s s' -> well (snd s) -> in_view fuel fs s -> in_view fuel fs s'.
Proof.
  intros Hst H W. destruct H as [j q w Hn|q w w' H]; unfold in_view; intros (Q & L & O); cbn [snd] in W.
  - inversion Q as [|? ? Qj Qq]; subst. split; [exact Qq|]. cbn [w_hs w_pj w_sent]. split; [rewrite on_app; cbn; lia|].
    destruct O as [[D|(x & Hx & D)]|[(rs & F & C & S)|O]].
    + left. left. exact D.
    + left. right. exists x. split; [cbn [w_hs]; apply in_or_app; left; exact Hx|exact D].
    + right. right. exists j, (w_hs w), (mkH true None (job_prog fuel fs j)), [], rs, [], (w_pj w). cbn [w_hs w_pj].
      split; [exact Qj|]. split; [reflexivity|]. split; [split; [reflexivity|split; reflexivity]|].
      split; [rewrite app_nil_r; apply on_none; lia|]. split; [exact F|]. split; [constructor|]. split; [exact C|]. rewrite app_nil_r. exact S.
    + destruct O as (i & pre & h & post & xs & ys & pj1 & _ & E & [Hh _] & _). rewrite E, on_mid, Hh in Hn. lia.
  - split; [exact Q|]. split; [exact (step_threads _ _ _ _ H L)|]. destruct O as [D|[(rs & S)|O]].
    + left. exact (wrong_step _ _ _ _ H D).
    + destruct (settled_step _ _ _ _ _ H W S) as [D|D]; auto.
    + destruct O as (j & pre & h & post & xs & ys & pj1 & Qj & Eh & [Hon Hop] & Off & F1 & F2 & C & S).
      assert (Tw : Forall tidy_h (pre ++ post)) by (destruct W as [T _]; rewrite Eh, mid_app in T; apply T).
      assert (Th : tidy_h h) by (destruct W as [T _]; rewrite Eh, mid_app in T; apply T).
      assert (Mv : forall pj', Forall2 (resth fs pj') pre xs /\ Forall2 (resth fs pj') post ys).
      { intros pj'. apply Forall_app in Tw, Off. destruct Tw, Off. split; apply (off_rest fs pj1); assumption. }
      destruct H; cbn [w_pj w_hs w_sent] in *;
        [|destruct (same_split _ _ _ _ _ _ (eq_sym Eh) Off ltac:(reflexivity)) as (-> & -> & ->) ..];
        cbn [h_on h_hold h_prog] in *; try (destruct Th as [Th _]; cbn [h_hold h_prog tidy] in Th).
      * match goal with Hc : (on_threads _ < 1)%nat |- _ => rewrite Eh, on_mid, Hon in Hc end. lia.
      * destruct Hop as [Hop ->]. right. right. exists j, pre0, (mkH true (Some w) p), post0, xs, ys, pj.
        split; [exact Qj|]. split; [reflexivity|]. split; [split; [reflexivity|exists p; auto]|]. auto.
      * destruct hold as [w|]; [|destruct Th; contradiction]. destruct Hop as (q' & Ej & Es). cbn [section] in Es.
        pose proof (job_effect fuel fs j w q' pj1 Hst Qj C Ej) as G. rewrite Es in G. cbn [fst snd] in G. destruct (Mv pj) as [G1 G2].
        destruct G as [->|(C' & [(ok & Hk & ->)|((x & ->) & Kp)])].
        -- left. right. eexists. split; [apply in_elt|reflexivity].
        -- right. left. exists (xs ++ RSnap :: ys). split; [apply F2_join; [exact G1|exists ok; split; [exact Hk|reflexivity]|exact G2]|]. split; [exact C'|]. intros k _. right. apply exists_mid. left. exact I.
        -- right. left. exists (xs ++ RNone :: ys). split; [apply F2_join; auto; cbn; eauto|]. split; [exact C'|]. intros k Hk. destruct (Kp k Hk) as [Hk1 Ek].
           destruct (S k Hk1) as [V|V]; [left; unfold current_view in *; cbn [sv_sent sv_project w_pj w_sent] in *; rewrite Ek; exact V|right; apply exists_mid; auto].
      * destruct hold as [w|]; [|destruct Th; contradiction]. destruct Hop as (q' & Ej & Es). cbn [section] in Es. right. right.
        exists j, pre0, (mkH true (Some w) (k pj)), post0, xs, ys, pj1.
        split; [exact Qj|]. split; [reflexivity|]. split; [split; [reflexivity|exists q'; auto]|]. auto.
      * destruct Th as [-> Th]. destruct Hop as (q' & Ej & Es). cbn [section] in Es. right. right.
        exists j, pre0, (mkH true (Some true) p), post0, xs, ys, pj1.
        split; [exact Qj|]. split; [reflexivity|]. split; [split; [reflexivity|exists q'; auto]|]. auto.
      * destruct Th as [-> Th]. destruct Hop as [Hop _]. destruct (job_opens fuel fs j) as [(x & Ej' & _)|(w' & p' & Ej' & G)]; rewrite <- Hop in Ej'; discriminate.
      * destruct Th as [-> Th]. destruct Hop as [Hop ->]. destruct (job_opens fuel fs j) as [(x & Ej' & G)|(w' & p' & Ej' & G)]; rewrite <- Hop in Ej'; [|discriminate].
        injection Ej' as ->. right. left. exists (xs ++ RNone :: ys). split; [apply F2_join; auto; cbn; eauto|]. split; [exact C|]. intros k Hk.
        destruct (S k Hk) as [V|V]; [auto|right; apply exists_mid; auto].
      * subst hold. destruct Hop as [Hop _]. destruct (job_opens fuel fs j) as [(x & Ej' & _)|(w' & p' & Ej' & G)]; rewrite <- Hop in Ej'; discriminate.
      * left. left. reflexivity.
Qed.

(** Any messages, in any interleaving of their handlers on one thread: when all have finished, the client shows for every
    file of the project the diagnostics the project has for it. *)
Theorem C104_one_thread : forall fuel fs refuse js w, canon_stable fs -> Forall orders_ok js ->
  qsteps fuel fs 1 refuse (js, mkW project_new [] [] false []) ([], w) -> w_hs w = [] -> w_crashed w = false ->
  up_to_date fs (mkServer (w_pj w) (w_sent w)).
Proof.
  intros fuel fs refuse js w Hst Hj H E C.
  assert (I : well (snd ([] : list job, w)) /\ in_view fuel fs ([], w)).
  { remember ([] : list job, w) as s' eqn:Es. clear Es E C w. remember (js, mkW project_new [] [] false []) as s eqn:Es.
    induction H as [x|x y z H IH Hs].
    - subst x. split; [split; [constructor|left; reflexivity]|]. split; [exact Hj|]. split; [cbn; lia|]. right. left. exists [].
      split; [constructor|]. split; [intros k []|intros k []].
    - destruct (IH Es) as [W V]. split; [|exact (view_step _ _ _ _ _ Hst Hs W V)].
      destruct Hs as [j q v Hn|q v v' Hs]; cbn [snd] in *; [|exact (step_well _ _ _ _ Hs W)].
      destruct W as [T X]. split; cbn [w_hs].
      + apply Forall_app. split; [exact T|]. constructor; [|constructor]. split; [apply job_tidy|contradiction].
      + unfold exclusive in *. rewrite !count_app. cbn. rewrite !Nat.add_0_r. exact X. }
  destruct I as (_ & _ & _ & [[D|(x & Hx & _)]|[(rs & F & _ & S)|(j & pre & h & post & xs & ys & pj1 & _ & Eh & _)]]).
  - congruence.
  - rewrite E in Hx. destruct Hx.
  - rewrite E in F. inversion F; subst. intros k Hk. destruct (S k Hk) as [V|V]; [exact V|inversion V].
  - rewrite E in Eh. destruct pre; discriminate.
Qed.
Print Assumptions C104_one_thread.

(** ** Cases *)
Definition ex104 : list (fpath * str) := [(bs "/a.dts", bs ""); (bs "/b.dtsi", bs "/ { q = <&m>; };")].
Definition jobs104 : list job :=
  [JOpen id_oracle (fun l => l) (FileUri (bs "/a.dts")) (bs "/dts-v1/; /include/ ""b.dtsi"" / { p = <&l>; };");
   JChange id_oracle (fun l => rev l) (FileUri (bs "/a.dts")) [bs "/dts-v1/; / { };"]; JClose (FileUri (bs "/b.dtsi"))].
Lemma ex104_stable : canon_stable (mem_fs ex104).
Proof. intros x p H. unfold mem_fs in *. cbn [fs_canon] in *. destruct (m_mem str_eq_dec x _) eqn:E; [|discriminate]. injection H as <-. rewrite E. reflexivity. Qed.
(** the second handler updates and publishes while the first one is in the middle of its publications, and a file is
    closed before both are finished *)
Example C104_case : exists w, Forall orders_ok jobs104 /\ canon_stable (mem_fs ex104)
  /\ qsteps 5 (mem_fs ex104) 1 (fun _ => false) (jobs104, mkW project_new [] [] false []) ([], w)
  /\ w_hs w = [] /\ w_crashed w = false /\ m_keys (pj_files (w_pj w)) = [bs "/a.dts"]
  /\ map (fun m => (fst m, length (snd m))) (w_sent w) =
     [(FileUri (bs "/a.dts"), 1%nat); (FileUri (bs "/b.dtsi"), 0%nat); (FileUri (bs "/b.dtsi"), 0%nat); (FileUri (bs "/a.dts"), 0%nat)].
Proof.
  set (is := None :: repeat (Some 0%nat) 16 ++ None :: repeat (Some 1%nat) 16 ++ repeat (Some 0%nat) 5 ++ None :: repeat (Some 2%nat) 4 ++ repeat (Some 1%nat) 7 ++ repeat (Some 0%nat) 2).
  destruct (qplay 5 (mem_fs ex104) 1 (jobs104, mkW project_new [] [] false []) is) as [[q w]|] eqn:E; [|vm_compute in E; discriminate E].
  assert (K : match qplay 5 (mem_fs ex104) 1 (jobs104, mkW project_new [] [] false []) is with
    | Some (q, w) => q = [] /\ w_hs w = [] /\ w_crashed w = false /\ m_keys (pj_files (w_pj w)) = [bs "/a.dts"]
      /\ map (fun m => (fst m, length (snd m))) (w_sent w) =
         [(FileUri (bs "/a.dts"), 1%nat); (FileUri (bs "/b.dtsi"), 0%nat); (FileUri (bs "/b.dtsi"), 0%nat); (FileUri (bs "/a.dts"), 0%nat)]
    | None => False end) by (vm_compute; auto 10).
  rewrite E in K. destruct K as (-> & K). exists w. split; [|split; [exact ex104_stable|split; [exact (qplay_steps _ _ _ _ _ _ E)|exact K]]].
  constructor; [intros l; reflexivity|]. constructor; [intros l; apply Permutation_sym, Permutation_rev|]. constructor; [exact I|constructor].
Qed.
(** on two threads it is false: the second handler comes between the reading and the sending of the first one *)
Theorem C104_refuted : exists fs js w, canon_stable fs /\ Forall orders_ok js
  /\ qsteps 5 fs 2 (fun _ => false) (js, mkW project_new [] [] false []) ([], w) /\ w_hs w = [] /\ w_crashed w = false
  /\ ~ up_to_date fs (mkServer (w_pj w) (w_sent w)).
Proof.
  set (is := None :: repeat (Some 0%nat) 15 ++ None :: repeat (Some 1%nat) 23 ++ repeat (Some 0%nat) 8 ++ None :: repeat (Some 0%nat) 4).
  exists (mem_fs ex104), jobs104.
  destruct (qplay 5 (mem_fs ex104) 2 (jobs104, mkW project_new [] [] false []) is) as [[q w]|] eqn:E; [|vm_compute in E; discriminate E].
  assert (K : match qplay 5 (mem_fs ex104) 2 (jobs104, mkW project_new [] [] false []) is with
    | Some (q, w) => q = [] /\ w_hs w = [] /\ w_crashed w = false /\ m_keys (pj_files (w_pj w)) = [bs "/a.dts"]
      /\ get_diagnostics (mem_fs ex104) (w_pj w) (bs "/a.dts") = [] /\ length (client_view (w_sent w) (FileUri (bs "/a.dts"))) = 1%nat
    | None => False end) by (vm_compute; auto 10).
  rewrite E in K. destruct K as (-> & K1 & K2 & K3 & K4 & K5). exists w. split; [exact ex104_stable|]. split.
  - constructor; [intros l; reflexivity|]. constructor; [intros l; apply Permutation_sym, Permutation_rev|]. constructor; [exact I|constructor].
  - split; [exact (qplay_steps _ _ _ _ _ _ E)|]. split; [exact K1|]. split; [exact K2|]. intros U.
    specialize (U (bs "/a.dts")). cbn [sv_project sv_sent] in U. rewrite K4 in U. specialize (U ltac:(rewrite K3; left; reflexivity)).
    rewrite U in K5. discriminate K5.
Qed.
Print Assumptions C104_refuted.
