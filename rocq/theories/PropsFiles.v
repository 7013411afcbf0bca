(** File types from paths: C53 *)
From Verif Require Import Data NameProofs.
From Coq Require Import List NArith Bool Lia.
Import ListNotations.

Definition plain (s : str) : Prop := ~ In 47 s /\ ~ In 46 s.
(** [p] ends with a dot and [e], and the dot does not start the last component *)
Definition ends_with (p : fpath) (e : str) : Prop := exists pre c, p = pre ++ c :: 46 :: e /\ c <> 47.

Lemma slash_in p : existsb (fun x => x =? cSlash) p = true <-> In 47 p.
Proof.
  rewrite existsb_exists. split.
  - intros (x & H1 & H2). apply N.eqb_eq in H2. subst. exact H1.
  - intros H. exists 47. split; [exact H|reflexivity].
Qed.
Lemma last_component_spec p : exists pre, p = pre ++ last_component p /\ ~ In 47 (last_component p)
  /\ (pre = [] \/ exists d, pre = d ++ [47]).
Proof.
  induction p as [|c p IH]; [exists []; auto|]. cbn [last_component].
  destruct (existsb (fun x => x =? cSlash) (c :: p)) eqn:E.
  - destruct IH as (pre & H1 & H2 & H3). apply slash_in in E. destruct (N.eq_dec c 47) as [->|Hc].
    + exists (47 :: pre). split; [cbn [app]; congruence|]. split; [exact H2|]. right. destruct H3 as [->|[d ->]]; [exists []; reflexivity|exists (47 :: d); reflexivity].
    + exists (c :: pre). split; [cbn [app]; congruence|]. split; [exact H2|]. right. destruct H3 as [->|[d ->]]; [|exists (c :: d); reflexivity].
      exfalso. cbn [app] in H1. destruct E as [E|E]; [congruence|]. rewrite H1 in E. exact (H2 E).
  - exists []. split; [reflexivity|]. split; [|auto]. intros H. apply slash_in in H. congruence.
Qed.
Lemma rsplit_none s : rsplit_dot s = None <-> ~ In 46 s.
Proof.
  induction s as [|c s IH]; cbn [rsplit_dot In]; [tauto|]. destruct (rsplit_dot s) as [[a b]|].
  - split; [discriminate|]. intros H. exfalso. destruct IH as [_ IH]. assert (~ In 46 s) by tauto. discriminate (IH H0).
  - destruct (c =? cDot) eqn:E.
    + split; [discriminate|]. intros H. exfalso. apply N.eqb_eq in E. apply H. left. exact E.
    + split; [|reflexivity]. intros _ [H|H]; [subst; discriminate|]. exact (proj1 IH eq_refl H).
Qed.
Lemma rsplit_spec s a b : rsplit_dot s = Some (a, b) <-> s = a ++ 46 :: b /\ ~ In 46 b.
Proof.
  revert a b. induction s as [|c s IH]; intros a b; cbn [rsplit_dot].
  - split; [discriminate|]. intros [H _]. destruct a; discriminate.
  - destruct (rsplit_dot s) as [[a' b']|] eqn:E.
    + destruct (proj1 (IH a' b') eq_refl) as [H1 H2]. split.
      * intros H. injection H as <- <-. rewrite H1. auto.
      * intros [H3 H4]. destruct a as [|c' a]; cbn [app] in H3.
        -- exfalso. injection H3 as -> ->. apply H4. rewrite H1. apply in_or_app. right. left. reflexivity.
        -- injection H3 as -> H3. assert (K : Some (a', b') = Some (a, b)) by (apply IH; auto). injection K as -> ->. reflexivity.
    + apply rsplit_none in E. destruct (c =? cDot) eqn:Ec.
      * apply N.eqb_eq in Ec. subst c. split.
        -- intros H. injection H as <- <-. auto.
        -- intros [H3 H4]. destruct a as [|c' a]; cbn [app] in H3; [injection H3 as ->; reflexivity|].
           exfalso. injection H3 as _ H3. apply E. rewrite H3. apply in_or_app. right. left. reflexivity.
      * split; [discriminate|]. intros [H3 H4]. exfalso. destruct a as [|c' a]; cbn [app] in H3.
        -- injection H3 as -> ->. discriminate.
        -- injection H3 as -> H3. apply E. rewrite H3. apply in_or_app. right. left. reflexivity.
Qed.
Lemma extension_spec p e : plain e -> e <> [] -> (path_extension p = Some e <-> ends_with p e).
Proof.
  intros [He1 He2] He3. destruct (last_component_spec p) as (pre & H1 & H2 & H3). unfold path_extension, path_file_name, ends_with.
  set (n := last_component p) in *. split.
  - destruct (str_eqb n [] || str_eqb n (bs "..")); [discriminate|]. destruct (rsplit_dot n) as [[[|b bs'] e']|] eqn:E; try discriminate.
    intros H. injection H as ->. apply rsplit_spec in E. destruct E as [E _].
    destruct (exists_last (l := b :: bs')) as (l & c & El); [discriminate|]. exists (pre ++ l), c. split.
    + rewrite H1, E, El, <- !app_assoc. reflexivity.
    + intros ->. apply H2. rewrite E, El. apply in_or_app. left. apply in_or_app. right. left. reflexivity.
  - intros (q & c & Ep & Hc).
    assert (K : exists l, n = l ++ c :: 46 :: e).
    { rewrite H1 in Ep. clear - H2 H3 Ep Hc He1. revert q Ep. induction pre as [|x pre IH] using rev_ind; intros q Ep; [exists q; exact Ep|].
      destruct H3 as [H3|[d H3]]; [destruct pre; discriminate|]. apply app_inj_tail in H3. destruct H3 as [-> ->].
      rewrite <- app_assoc in Ep. cbn [app] in Ep. clear IH. revert d Ep. induction q as [|y q IH]; intros d Ep.
      - exfalso. destruct d as [|z [|z2 d]]; cbn [app] in Ep.
        + injection Ep as E1 _. congruence.
        + injection Ep as _ E1 _. discriminate.
        + injection Ep as _ _ E1. apply He1. rewrite <- E1. apply in_or_app. right. left. reflexivity.
      - destruct d as [|z d]; cbn [app] in Ep.
        + injection Ep as <- E1. exists q. exact E1.
        + injection Ep as <- E1. exact (IH d E1). }
    destruct K as [l El].
    assert (N1 : str_eqb n [] || str_eqb n (bs "..") = false).
    { apply orb_false_intro.
      - destruct (str_eqb n []) eqn:X; [|reflexivity]. apply str_eqb_spec in X. rewrite X in El. destruct l; discriminate.
      - destruct (str_eqb n (bs "..")) eqn:X; [|reflexivity]. apply str_eqb_spec in X. rewrite X in El. exfalso.
        apply (f_equal (@rev N)) in El. rewrite rev_app_distr in El. cbn [rev] in El. rewrite <- !app_assoc in El. cbn in El.
        destruct (exists_last He3) as (e1 & x & ->). rewrite rev_app_distr in El. cbn in El. injection El as <- _.
        apply He2. apply in_or_app. right. left. reflexivity. }
    rewrite N1. assert (E : rsplit_dot n = Some (l ++ [c], e)).
    { apply rsplit_spec. split; [rewrite El, <- app_assoc; reflexivity|exact He2]. }
    rewrite E. destruct l; reflexivity.
Qed.

Lemma ending_spec e ft : ft <> FtUnknown -> (from_file_ending e = ft <->
  match ft with
  | DtSource => e = bs "dts"
  | DtSourceInclude => e = bs "dtsi"
  | DtSourceOverlay => e = bs "dtso" \/ e = bs "overlay"
  | FtUnknown => False
  end).
Proof.
  intros H. unfold from_file_ending. destruct (str_eqb e (bs "dts")) eqn:E1; [apply str_eqb_spec in E1; subst; destruct ft; split; intros K; try congruence; try discriminate; try (destruct K; discriminate); reflexivity|].
  destruct (str_eqb e (bs "dtsi")) eqn:E2; [apply str_eqb_spec in E2; subst; destruct ft; split; intros K; try congruence; try discriminate; try (destruct K; discriminate); reflexivity|].
  destruct (str_eqb e (bs "dtso")) eqn:E3; [apply str_eqb_spec in E3; subst; destruct ft; split; intros K; try congruence; try discriminate; auto|].
  destruct (str_eqb e (bs "overlay")) eqn:E4; [apply str_eqb_spec in E4; subst; destruct ft; split; intros K; try congruence; try discriminate; auto|].
  cbn [orb]. assert (N : forall s, str_eqb e s = false -> e <> s).
  { intros s X ->. assert (str_eqb s s = true) by (apply str_eqb_spec; reflexivity). congruence. }
  destruct ft; split; intros K; try congruence.
  - destruct (N _ E1 K).
  - destruct (N _ E2 K).
  - destruct K as [K|K]; [destruct (N _ E3 K)|destruct (N _ E4 K)].
Qed.

Theorem C53_file_type : forall p,
  (file_type_of_path p = DtSource <-> ends_with p (bs "dts"))
  /\ (file_type_of_path p = DtSourceInclude <-> ends_with p (bs "dtsi"))
  /\ (file_type_of_path p = DtSourceOverlay <-> ends_with p (bs "dtso") \/ ends_with p (bs "overlay"))
  /\ (file_type_of_path p = FtUnknown <-> forall e, In e [bs "dts"; bs "dtsi"; bs "dtso"; bs "overlay"] -> ~ ends_with p e).
Proof.
  intros p.
  assert (X : forall e, In e [bs "dts"; bs "dtsi"; bs "dtso"; bs "overlay"] -> (path_extension p = Some e <-> ends_with p e)).
  { intros e He. apply extension_spec; cbn [In] in He; destruct He as [<-|[<-|[<-|[<-|[]]]]]; try discriminate;
      split; intros H; vm_compute in H; intuition discriminate. }
  unfold file_type_of_path. rewrite <- !X by (cbn [In]; auto).
  assert (Y : forall ft, ft <> FtUnknown -> (match path_extension p with Some e => from_file_ending e | None => FtUnknown end = ft <->
     exists e, path_extension p = Some e /\ from_file_ending e = ft)).
  { intros ft Hft. destruct (path_extension p) as [e|]; split; [eauto|intros (e' & E & K); congruence|congruence|intros (e' & E & _); discriminate]. }
  split; [|split; [|split]].
  - rewrite Y by discriminate. split; [intros (e & E & K)|intros E; eexists; split; [exact E|reflexivity]].
    apply ending_spec in K; [|discriminate]. congruence.
  - rewrite Y by discriminate. split; [intros (e & E & K)|intros E; eexists; split; [exact E|reflexivity]].
    apply ending_spec in K; [|discriminate]. congruence.
  - rewrite Y by discriminate. split; [intros (e & E & K)|intros [E|E]; eexists; (split; [exact E|reflexivity])].
    apply ending_spec in K; [|discriminate]. destruct K as [-> | ->]; auto.
  - split.
    + intros K e He E. apply X in E; [|exact He]. rewrite E in K. cbn [In] in He. destruct He as [<-|[<-|[<-|[<-|[]]]]]; discriminate K.
    + intros K. destruct (path_extension p) as [e|] eqn:E; [|reflexivity]. destruct (from_file_ending e) eqn:F; [| | |reflexivity]; exfalso;
        (apply ending_spec in F; [|discriminate]).
      * subst. apply (K (bs "dts")); [left; reflexivity|]. apply X; [left; reflexivity|reflexivity].
      * subst. apply (K (bs "dtsi")); [cbn; auto|]. apply X; [cbn; auto|reflexivity].
      * destruct F as [-> | ->]; [apply (K (bs "dtso"))|apply (K (bs "overlay"))]; try (cbn; tauto); apply X; try (cbn; tauto); reflexivity.
Qed.
Print Assumptions C53_file_type.
Example C53_case : map file_type_of_path [bs "/x/a.dts"; bs "/x/.dts"; bs "b.v1.dtsi"; bs "/x.dts/c.overlay"; bs "/x.dts/d"; bs "..dts"]
  = [DtSource; FtUnknown; DtSourceInclude; DtSourceOverlay; FtUnknown; DtSource].
Proof. reflexivity. Qed.
