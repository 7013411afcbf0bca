(** Loading files: termination and the files stored *)
From Verif Require Export ProjectSpec AnalysisProofs.
From Verif Require Import PropsParser.
From Coq Require Import ListDec.

Notation fget := (m_get str_eq_dec).
Notation keys := (@m_keys fpath pfile).

Lemma includes_of_in f i : In i (includes_of f) <-> In (PDirective (AInclude i)) (fl_elements f).
Proof.
  unfold includes_of. induction (fl_elements f) as [|p l IH]; [tauto|]. cbn [fold_right In].
  destruct p as [[t|t|a b|j|t r|t r]|n|r|s]; cbn [as_include];
    try (rewrite IH; split; [tauto|intros [H|H]; [discriminate|exact H]]).
  cbn [In]. rewrite IH. split; (intros [H|H]; [left|right; exact H]); congruence.
Qed.

Section Parse.
  Context (fs : fsys) (incl : list fpath).

  (** the loop over the includes *)
  Section Loop.
    Variable rec : fpath -> str -> file_type -> list (fpath * pfile) -> outcome (list (fpath * pfile)).
    Fixpoint inc_loop (is : list include) (ds : list diag) (files : list (fpath * pfile))
      : outcome (list diag * list (fpath * pfile)) :=
      match is with
      | [] => Done (ds, files)
      | i :: r =>
        match include_path fs i with
        | inr e => inc_loop r (ds ++ [diag_io_error (include_span i) (include_source i) e]) files
        | inl p =>
          if m_mem str_eq_dec p files then inc_loop r ds files
          else
            match read_to_string fs p with
            | inl t => obind (rec p t (file_type_of_path p) files) (inc_loop r ds)
            | inr e => inc_loop r (ds ++ [diag_io_error (include_span i) (include_source i) e]) files
            end
        end
      end.
  End Loop.
  Lemma parse_file_unfold fl name text ft files :
    parse_file (S fl) fs incl name text ft files =
    match parse_text (include_dirs incl name) text name with
    | RPanic => Panic
    | RNoFuel => NoFuel
    | RErr d _ => Done (m_insert str_eq_dec name (pf_unrecoverable d text ft) files)
    | ROk file st =>
      obind (inc_loop (parse_file fl fs incl) (includes_of file) (ps_diags st) (m_insert str_eq_dec name pf_default files))
        (fun '(ds, files') => Done (m_insert str_eq_dec name (pf_parsed ds file ft text) files'))
    end.
  Proof.
    cbn [parse_file]. destruct (parse_text _ _ _); reflexivity.
  Qed.

  Context (u : list fpath).
  Hypothesis Hfin : finite_fs fs u.
  Context (root : fpath) (text : str) (present : list fpath).
  Notation loaded := (loaded fs incl root text present).
  Notation stored := (stored fs incl root present).
  Notation includes := (includes fs incl root text).
  Notation include_diags := (include_diags fs root present).

  Definition missing (files : list (fpath * pfile)) : nat :=
    length (filter (fun p => negb (m_mem str_eq_dec p files)) (nodup str_eq_dec u)).
  Lemma filter_length_le {A} (f g : A -> bool) l : (forall x, In x l -> f x = true -> g x = true) ->
    (length (filter f l) <= length (filter g l))%nat.
  Proof.
    induction l as [|x l IH]; intros H; [auto|]. cbn [filter].
    assert (IH' := IH (fun y Hy => H y (or_intror Hy))). specialize (H x (or_introl eq_refl)).
    destruct (f x), (g x); cbn [length]; lia.
  Qed.
  Lemma filter_length_lt {A} (f g : A -> bool) l x : (forall x, In x l -> f x = true -> g x = true) ->
    In x l -> f x = false -> g x = true -> (length (filter f l) < length (filter g l))%nat.
  Proof.
    induction l as [|y l IH]; intros H Hx Ef Eg; [contradiction|]. cbn [filter].
    assert (L := filter_length_le f g l (fun y Hy => H y (or_intror Hy))).
    assert (H1 := H y (or_introl eq_refl)). destruct Hx as [->|Hx].
    - rewrite Ef, Eg. cbn [length]. lia.
    - assert (IH' := IH (fun y Hy => H y (or_intror Hy)) Hx Ef Eg).
      destruct (f y), (g y); cbn [length]; lia.
  Qed.
  Definition more (a b : list (fpath * pfile)) : Prop := forall k, In k (keys a) -> In k (keys b).
  Lemma missing_more a b : more a b -> (missing b <= missing a)%nat.
  Proof.
    intros H. apply filter_length_le. intros x _ E. apply negb_true_iff in E. apply negb_true_iff.
    destruct (m_mem str_eq_dec x a) eqn:F; [|reflexivity]. apply m_mem_spec, H in F. apply (m_mem_spec str_eq_dec) in F. congruence.
  Qed.
  Lemma missing_insert a p v : In p u -> ~ In p (keys a) -> (missing (m_insert str_eq_dec p v a) < missing a)%nat.
  Proof.
    intros Hu Hp. apply filter_length_lt with p.
    - intros x _ E. apply negb_true_iff in E. apply negb_true_iff.
      destruct (m_mem str_eq_dec x a) eqn:F; [|reflexivity]. exfalso. apply m_mem_spec in F.
      assert (m_mem str_eq_dec x (m_insert str_eq_dec p v a) = true) by (apply m_mem_spec, m_keys_insert; auto). congruence.
    - apply nodup_In, Hu.
    - apply negb_false_iff, m_mem_spec, m_keys_insert. auto.
    - apply negb_true_iff. destruct (m_mem str_eq_dec p a) eqn:F; [|reflexivity]. apply m_mem_spec in F. contradiction.
  Qed.

  (** a followed include is closed *)
  Definition followed (p : fpath) (files : list (fpath * pfile)) : Prop :=
    forall q, includes p q -> readable fs q -> In q (keys files).
  Definition ext (a b : list (fpath * pfile)) : Prop :=
    (forall k, In k (keys a) -> fget k b = fget k a)
    /\ (forall k v, fget k b = Some v -> ~ In k (keys a) ->
          loaded k /\ followed k b
          /\ exists t, read_to_string fs k = inl t /\ stored k t (file_type_of_path k) v).
  Lemma ext_more a b : ext a b -> more a b.
  Proof.
    intros [H _] k Hk. pose proof (H k Hk) as E. destruct (m_get_some_key str_eq_dec k a Hk) as [v Hv].
    rewrite Hv in E. eapply m_get_key, E.
  Qed.
  Lemma ext_refl a : ext a a.
  Proof. split; [auto|]. intros k v H1 H2. exfalso. eapply H2, m_get_key, H1. Qed.
  Lemma followed_more p a b : more a b -> followed p a -> followed p b.
  Proof. intros H F q Hq Hr. apply H, F; assumption. Qed.
  Lemma ext_trans a b c : ext a b -> ext b c -> ext a c.
  Proof.
    intros H1 H2. assert (M1 := ext_more _ _ H1). assert (M2 := ext_more _ _ H2).
    destruct H1 as [A1 B1], H2 as [A2 B2]. split.
    - intros k Hk. rewrite A2 by (apply M1, Hk). apply A1, Hk.
    - intros k v Hv Hk. destruct (in_dec str_eq_dec k (keys b)) as [Hb|Hb]; [|exact (B2 k v Hv Hb)].
      rewrite A2 in Hv by exact Hb. destruct (B1 k v Hv Hk) as (L & F & T). split; [exact L|]. split; [|exact T].
      exact (followed_more _ _ _ M2 F).
  Qed.

  (** all that is present or the root is there, everything else was read *)
  Definition inv (cur : list (fpath * pfile)) : Prop :=
    In root (keys cur) /\ (forall k, In k present -> In k (keys cur))
    /\ (forall k, In k (keys cur) -> k = root \/ In k present \/ readable fs k).
  Lemma inv_ext a b : inv a -> ext a b -> inv b.
  Proof.
    intros (I1 & I2 & I3) H. pose proof (ext_more _ _ H) as M. split; [apply M, I1|]. split; [intros k Hk; apply M, I2, Hk|].
    intros k Hk. destruct (in_dec str_eq_dec k (keys a)) as [Ha|Ha]; [apply I3, Ha|].
    destruct (m_get_some_key str_eq_dec k b Hk) as [v Hv]. destruct H as [_ H].
    destruct (H k v Hv Ha) as (_ & _ & t & Ht & _). right. right. exists t. exact Ht.
  Qed.

  Lemma resolve_in_canon dirs name p : resolve_in fs dirs name = Some p -> exists x, fs_canon fs x = inl p.
  Proof.
    induction dirs as [|d l IH]; [discriminate|]. cbn [resolve_in]. destruct (fs_canon fs (path_join d name)) as [q|] eqn:E; [|exact IH].
    intros H. injection H as ->. eauto.
  Qed.
  Lemma include_canon i p : include_path fs i = inl p -> exists x, fs_canon fs x = inl p.
  Proof.
    unfold include_path. destruct (resolve_in fs (in_paths i) (wt_item (in_file_name i))) as [q|] eqn:E; intros H.
    - injection H as ->. eapply resolve_in_canon, E.
    - eauto.
  Qed.
  Lemma read_valid p t : read_to_string fs p = inl t -> valid_utf8 t = true /\ fs_read fs p = inl t.
  Proof.
    unfold read_to_string. destruct (fs_read fs p) as [b|]; [|discriminate]. destruct (valid_utf8 b) eqn:E; [|discriminate].
    intros H. injection H as ->. auto.
  Qed.

  Definition parse_ok (fl : nat) : Prop := forall p t cur, inv cur -> loaded p -> ~ In p (keys cur) ->
    read_to_string fs p = inl t -> (missing (m_insert str_eq_dec p pf_default cur) < fl)%nat ->
    exists cur', parse_file fl fs incl p t (file_type_of_path p) cur = Done cur' /\ ext cur cur'
      /\ In p (keys cur').

  Lemma loop_ok fl name : parse_ok fl -> loaded name -> forall is ds cur, inv cur ->
    (forall i q, In i is -> include_path fs i = inl q -> includes name q) ->
    (missing cur <= fl)%nat ->
    exists cur', inc_loop (parse_file fl fs incl) is ds cur = Done (ds ++ flat_map include_diags is, cur')
      /\ ext cur cur'
      /\ (forall i q, In i is -> include_path fs i = inl q -> readable fs q -> In q (keys cur')).
  Proof.
    intros Hrec Hname. induction is as [|i is IH]; intros ds cur Hinv His Hm.
    - exists cur. cbn. rewrite app_nil_r. split; [reflexivity|]. split; [apply ext_refl|]. intros i q [].
    - assert (His' : forall j q, In j is -> include_path fs j = inl q -> includes name q) by (intros j q Hj; apply His; right; exact Hj).
      cbn [inc_loop flat_map]. set (R := flat_map include_diags is) in *. unfold include_diags. destruct (include_path fs i) as [p|e] eqn:Ei.
      2:{ destruct (IH (ds ++ [diag_io_error (include_span i) (include_source i) e]) cur Hinv His' Hm) as (cur' & E & X & F).
          exists cur'. split; [rewrite E, <- app_assoc; reflexivity|]. split; [exact X|].
          intros j q [<-|Hj] Hq Hr; [congruence|exact (F j q Hj Hq Hr)]. }
      assert (Hmem := m_mem_spec str_eq_dec p cur). destruct (m_mem str_eq_dec p cur) eqn:Em.
      + destruct (IH ds cur Hinv His' Hm) as (cur' & E & X & F). exists cur'. split; [|split; [exact X|]].
        * rewrite E. do 3 f_equal. destruct (in_dec str_eq_dec p (root :: present)) as [Hp|Hp]; [reflexivity|].
          destruct Hinv as (_ & _ & I3). destruct (I3 p) as [->|[Hp2|(t & ->)]]; [tauto| | |reflexivity].
          -- exfalso. apply Hp. left. reflexivity.
          -- exfalso. apply Hp. right. exact Hp2.
        * intros j q [<-|Hj] Hq Hr; [|exact (F j q Hj Hq Hr)]. assert (q = p) as -> by congruence.
          apply (ext_more _ _ X). tauto.
      + assert (Hp : ~ In p (keys cur)) by (intros H; apply Hmem in H; discriminate).
        destruct Hinv as (I1 & I2 & I3).
        destruct (in_dec str_eq_dec p (root :: present)) as [[<-|Hp2]|Hp2]; [contradiction| |].
        { exfalso. apply Hp, I2, Hp2. }
        destruct (read_to_string fs p) as [t|e] eqn:Er.
        * assert (Lp : loaded p).
          { eapply ld_include; [exact Hname|apply (His i p (or_introl eq_refl) Ei)| |exists t; exact Er].
            intros H. apply Hp2. right. exact H. }
          assert (Hu : In p u).
          { destruct (include_canon _ _ Ei) as [x Hx]. eapply Hfin; [exact Hx|apply read_valid, Er]. }
          destruct (Hrec p t cur (conj I1 (conj I2 I3)) Lp Hp Er) as (c1 & E1 & X1 & K1).
          { assert (missing (m_insert str_eq_dec p pf_default cur) < missing cur)%nat by (apply missing_insert; assumption). lia. }
          assert (M1 := ext_more _ _ X1). assert (L1 := missing_more _ _ M1).
          destruct (IH ds c1) as (cur' & E & X & F); [eapply inv_ext; [split; eauto|exact X1]|exact His'|lia|].
          exists cur'. rewrite E1. cbn [obind app]. split; [exact E|]. split; [eapply ext_trans; eassumption|].
          intros j q [<-|Hj] Hq Hr; [|exact (F j q Hj Hq Hr)]. assert (q = p) as -> by congruence.
          apply (ext_more _ _ X), K1.
        * destruct (IH (ds ++ [diag_io_error (include_span i) (include_source i) e]) cur (conj I1 (conj I2 I3)) His' Hm) as (cur' & E & X & F).
          exists cur'. split; [rewrite E, <- app_assoc; reflexivity|]. split; [exact X|].
          intros j q [<-|Hj] Hq (t & Ht); [|exact (F j q Hj Hq (ex_intro _ t Ht))]. congruence.
  Qed.

  Lemma flat_includes f : flat_map include_diags (includes_of f) = flat_map (element_diags fs root present) (fl_elements f).
  Proof.
    unfold includes_of. induction (fl_elements f) as [|p l IH]; [reflexivity|]. cbn [fold_right flat_map].
    destruct p as [[t|t|a b|j|t r|t r]|n|r|s]; cbn [as_include flat_map element_diags app]; rewrite IH; reflexivity.
  Qed.

  Lemma parse_total dirs t p : valid_utf8 t = true ->
    (exists f s, parse_text dirs t p = ROk f s) \/ (exists d s, parse_text dirs t p = RErr d s).
  Proof. apply C09_parse_total. Qed.

  Lemma text_of_root : text_of fs root text root = Some text.
  Proof. unfold text_of. destruct (str_eq_dec root root); congruence. Qed.
  Lemma text_of_other p t : p <> root -> read_to_string fs p = inl t -> text_of fs root text p = Some t.
  Proof. intros H E. unfold text_of. destruct (str_eq_dec p root); [contradiction|]. rewrite E. reflexivity. Qed.

  (** parsing a file once its include loop is known; [cur] lacks the file or has it as the root *)
  Lemma parse_body fl p t ft cur : parse_ok fl -> inv (m_insert str_eq_dec p pf_default cur) -> loaded p ->
    text_of fs root text p = Some t -> valid_utf8 t = true ->
    (missing (m_insert str_eq_dec p pf_default cur) < S fl)%nat ->
    exists cur', parse_file (S fl) fs incl p t ft cur = Done cur'
      /\ (forall k, In k (keys cur) -> k <> p -> fget k cur' = fget k cur)
      /\ (exists v, fget p cur' = Some v /\ stored p t ft v)
      /\ followed p cur'
      /\ (forall k v, fget k cur' = Some v -> ~ In k (keys cur) -> k <> p ->
          loaded k /\ followed k cur'
          /\ exists t, read_to_string fs k = inl t /\ stored k t (file_type_of_path k) v).
  Proof.
    intros Hrec Hinv Lp Et Hv Hm. rewrite parse_file_unfold.
    destruct (parse_total (include_dirs incl p) t p Hv) as [(f & s & E)|(d & s & E)]; rewrite E.
    - destruct (loop_ok fl p Hrec Lp (includes_of f) (ps_diags s) _ Hinv) as (c1 & E1 & X & F).
      { intros i q Hi Hq. exists t, f, s, i. rewrite <- includes_of_in. auto. }
      { lia. }
      rewrite E1. cbn [obind]. eexists. split; [reflexivity|].
      assert (Hmore : more c1 (m_insert str_eq_dec p (pf_parsed (ps_diags s ++ flat_map include_diags (includes_of f)) f ft t) c1)).
      { intros k Hk. apply m_keys_insert. auto. }
      split; [|split; [|split]].
      + intros k Hk Hn. rewrite m_get_insert_neq by exact Hn. destruct X as [X _]. rewrite X.
        * apply m_get_insert_neq, Hn.
        * apply m_keys_insert. auto.
      + eexists. split; [apply m_get_insert_eq|]. repeat split. left. exists f, s. rewrite <- flat_includes. auto.
      + intros q (t' & f' & s' & i & T1 & T2 & T3 & T4) Hr. apply Hmore.
        assert (t' = t) as -> by congruence. assert (f' = f) as -> by congruence.
        apply (F i q); [apply includes_of_in; exact T3|exact T4|exact Hr].
      + intros k v Hk Hc Hn. rewrite m_get_insert_neq in Hk by exact Hn. destruct X as [_ X].
        destruct (X k v Hk) as (A & B & C).
        { intros H. apply m_keys_insert in H. tauto. }
        split; [exact A|]. split; [exact (followed_more _ _ _ Hmore B)|exact C].
    - eexists. split; [reflexivity|]. split; [|split; [|split]].
      + intros k Hk Hn. apply m_get_insert_neq, Hn.
      + eexists. split; [apply m_get_insert_eq|]. repeat split. right. eauto.
      + intros q (t' & f' & s' & i & T1 & T2 & T3 & T4) Hr. exfalso. assert (t' = t) as -> by congruence. congruence.
      + intros k v Hk Hc Hn. rewrite m_get_insert_neq in Hk by exact Hn. exfalso. eapply Hc, m_get_key, Hk.
  Qed.

  Lemma inv_insert p cur : inv cur -> readable fs p -> inv (m_insert str_eq_dec p pf_default cur).
  Proof.
    intros (I1 & I2 & I3) Hp. split; [apply m_keys_insert; auto|]. split; [intros k Hk; apply m_keys_insert; auto|].
    intros k Hk. apply m_keys_insert in Hk. destruct Hk as [->|Hk]; auto.
  Qed.
  Lemma all_parse fl : parse_ok fl.
  Proof.
    induction fl as [|fl IH]; intros p t cur Hinv Lp Hp Er Hm; [lia|].
    assert (Hne : p <> root) by (intros ->; exact (Hp (proj1 Hinv))).
    destruct (parse_body fl p t (file_type_of_path p) cur IH) as (cur' & E & A & (v & B1 & B2) & C & D).
    - apply inv_insert; [exact Hinv|exists t; exact Er].
    - exact Lp.
    - apply text_of_other; assumption.
    - apply (read_valid p t Er).
    - exact Hm.
    - exists cur'. split; [exact E|]. split; [|eapply m_get_key, B1]. split.
      + intros k Hk. apply A; [exact Hk|]. intros ->. contradiction.
      + intros k w Hw Hk. destruct (str_eq_dec k p) as [->|Hn]; [|exact (D k w Hw Hk Hn)].
        split; [exact Lp|]. split; [exact C|]. exists t. split; [exact Er|]. assert (w = v) as -> by congruence. exact B2.
  Qed.
End Parse.
