(** C38, exactly: for which include graphs every hash order leads to an analysis of the included files first *)
From Verif Require Import ParserBase ProjectSpec ProjectProofs ProjectProofs2 ProjectOrder ProjectHistory PropsProject PropsProject2 PropsProject3 PropsHistory PropsOrder Tests.
From Coq Require Import Permutation.

(** ** A hash order that lists given keys first *)
Definition has_key {A} (k : fpath) (kv : fpath * A) : bool := if str_eq_dec (fst kv) k then true else false.
Fixpoint arrange {A} (ks : list fpath) (l : list (fpath * A)) : list (fpath * A) :=
  match ks with
  | [] => l
  | k :: r => filter (has_key k) l ++ arrange r (filter (fun kv => negb (has_key k kv)) l)
  end.
Lemma filter_split {A} (f : A -> bool) l : Permutation (filter f l ++ filter (fun x => negb (f x)) l) l.
Proof.
  induction l as [|x l IH]; [constructor|]. cbn [filter]. destruct (f x); cbn [negb app].
  - constructor. exact IH.
  - apply Permutation_sym. apply Permutation_cons_app. apply Permutation_sym, IH.
Qed.
Lemma arrange_perm {A} ks : forall l : list (fpath * A), Permutation (arrange ks l) l.
Proof.
  induction ks as [|k ks IH]; intros l; cbn [arrange]; [apply Permutation_refl|].
  eapply perm_trans; [apply Permutation_app_head, IH|apply filter_split].
Qed.
Lemma filter_one {A} k (l : list (fpath * A)) : NoDup (m_keys l) -> In k (m_keys l) ->
  exists v, filter (has_key k) l = [(k, v)].
Proof.
  induction l as [|[j v] l IH]; intros Hn Hk; [destruct Hk|]. cbn [m_keys map fst] in Hn, Hk. inversion Hn as [|? ? H1 H2]; subst.
  cbn [filter]. unfold has_key at 1. cbn [fst]. destruct (str_eq_dec j k) as [->|E].
  - exists v. f_equal. clear - H1. induction l as [|[i w] l IH]; [reflexivity|]. cbn [filter]. unfold has_key at 1. cbn [fst].
    destruct (str_eq_dec i k) as [->|E]; [exfalso; apply H1; left; reflexivity|]. apply IH. intros H. apply H1. right. exact H.
  - destruct Hk as [Hk|Hk]; [contradiction|]. apply IH; assumption.
Qed.
Lemma others_keys {A} k (l : list (fpath * A)) x : In x (m_keys (filter (fun kv => negb (has_key k kv)) l)) <-> In x (m_keys l) /\ x <> k.
Proof.
  unfold m_keys. rewrite !in_map_iff. split.
  - intros ([j v] & <- & H). apply filter_In in H. destruct H as [H1 H2]. unfold has_key in H2. cbn [fst] in *.
    destruct (str_eq_dec j k); [discriminate|]. split; [exists (j, v); auto|assumption].
  - intros [([j v] & <- & H) E]. exists (j, v). split; [reflexivity|]. apply filter_In. split; [exact H|]. unfold has_key. cbn [fst] in *.
    destruct (str_eq_dec j k); [contradiction|reflexivity].
Qed.
Lemma filter_nodup {A} (f : fpath * A -> bool) l : NoDup (m_keys l) -> NoDup (m_keys (filter f l)).
Proof.
  induction l as [|[j v] l IH]; intros Hn; [constructor|]. cbn [m_keys map fst] in Hn. inversion Hn as [|? ? H1 H2]; subst.
  cbn [filter]. destruct (f (j, v)); [|apply IH, H2]. cbn [m_keys map fst]. constructor; [|apply IH, H2].
  intros H. apply H1. unfold m_keys in H. apply in_map_iff in H. destruct H as (y & E & H). apply filter_In in H. rewrite <- E. apply in_map, H.
Qed.
Lemma arrange_keys {A} ks : forall l : list (fpath * A), NoDup ks -> NoDup (m_keys l) -> (forall x, In x (m_keys l) <-> In x ks) ->
  m_keys (arrange ks l) = ks.
Proof.
  induction ks as [|k ks IH]; intros l Hk Hl E; cbn [arrange].
  - destruct l as [|[j v] l]; [reflexivity|]. exfalso. apply (E j). left. reflexivity.
  - inversion Hk as [|? ? H1 H2]; subst. destruct (filter_one k l Hl) as [v Ev]; [apply E; left; reflexivity|]. rewrite Ev.
    unfold m_keys. rewrite map_app. cbn [map fst app]. f_equal. apply IH; [exact H2|apply filter_nodup, Hl|].
    intros x. rewrite others_keys, E. split.
    + intros [[->|H] N]; [contradiction|exact H].
    + intros H. split; [right; exact H|]. intros ->. contradiction.
Qed.
Definition arranged (ks js : list fpath) : oracle := mkPOracle (arrange ks) (arrange js) (mkOracle (fun _ _ l => l) (fun _ l => l)).
Lemma arranged_ok ks js : order_ok (arranged ks js).
Proof. repeat split; intros; cbn; try apply Permutation_refl; apply arrange_perm. Qed.

(** ** Steps of the loops *)
Lemma swap_values_app K vs ws order : swap_values K (vs ++ ws) order = obind (swap_values K vs order) (swap_values K ws).
Proof.
  revert order. induction vs as [|v vs IH]; intros order; cbn [app swap_values]; [reflexivity|].
  destruct (position_of v order); [apply IH|reflexivity].
Qed.
Lemma order_loop_app a b order : order_loop (a ++ b) order = obind (order_loop a order) (order_loop b).
Proof.
  revert order. induction a as [|[k vs] a IH]; intros order; cbn [app order_loop]; [reflexivity|].
  destruct (position_of k order); [|reflexivity]. destruct (swap_values n vs order); cbn [obind]; [apply IH|reflexivity|reflexivity].
Qed.

Lemma order_loop_perm m : forall order order', order_loop m order = Done order' -> Permutation order' order.
Proof.
  induction m as [|[k vs] m IH]; intros order order' H; cbn [order_loop] in H; [injection H as <-; apply Permutation_refl|].
  destruct (position_of k order); [|discriminate]. destruct (swap_values n vs order) as [o1| |] eqn:E; try discriminate. cbn [obind] in H.
  eapply perm_trans; [apply IH, H|eapply swap_values_perm, E].
Qed.

(** an entry behind the key stays *)
Lemma swap_values_behind vs : forall K order order' x, NoDup order -> swap_values K vs order = Done order' ->
  In x order -> (K < idx x order)%nat -> idx x order' = idx x order.
Proof.
  induction vs as [|v vs IH]; intros K order order' x Hn E Hx L; cbn [swap_values] in E; [injection E as <-; reflexivity|].
  destruct (position_of v order) as [i|] eqn:Ei; [|discriminate]. pose proof (position_nth _ _ _ Ei) as Ni.
  destruct (Nat.ltb_spec i K) as [Lt|Ge]; [|eapply IH; eassumption].
  destruct (idx_in x order Hx) as (Nx & _ & Lx).
  destruct (nth_error order K) as [y|] eqn:EK; [|apply nth_error_None in EK; lia].
  assert (S : idx x (swap_nth K i order) = idx x order).
  { apply idx_at; [apply swap_nodup, Hn|]. rewrite (swap_get _ _ _ y v) by assumption.
    destruct (Nat.eqb_spec K (idx x order)) as [e|_]; [lia|]. destruct (Nat.eqb_spec i (idx x order)) as [e|_]; [lia|]. exact Nx. }
  rewrite (IH K (swap_nth K i order) order' x); [exact S|apply swap_nodup, Hn|exact E|apply swap_in, Hx|rewrite S; exact L].
Qed.
(** the file in the last place stays there until its turn comes *)
Lemma order_loop_last m : forall order order' x, NoDup order -> order_loop m order = Done order' -> In x order ->
  idx x order = (length order - 1)%nat -> ~ In x (m_keys m) -> idx x order' = idx x order.
Proof.
  induction m as [|[k vs] m IH]; intros order order' x Hn E Hx Hl Hk; cbn [order_loop] in E; [injection E as <-; reflexivity|].
  destruct (position_of k order) as [i|] eqn:Ei; [|discriminate]. pose proof (position_nth _ _ _ Ei) as Ni.
  destruct (swap_values i vs order) as [o1| |] eqn:E1; try discriminate. cbn [obind] in E.
  assert (Li : (i < length order)%nat) by (apply nth_error_Some; congruence).
  assert (Lt : (i < idx x order)%nat).
  { destruct (Nat.eq_dec i (idx x order)) as [e|ne]; [|lia]. exfalso. apply Hk. left.
    destruct (idx_in x order Hx) as (Nx & _). cbn [fst]. congruence. }
  pose proof (swap_values_behind vs i order o1 x Hn E1 Hx Lt) as S.
  pose proof (swap_values_perm _ _ _ _ E1) as P.
  rewrite (IH o1 order' x); [exact S| |exact E| | |].
  - eapply Permutation_NoDup; [apply Permutation_sym, P|exact Hn].
  - eapply Permutation_in; [apply Permutation_sym, P|exact Hx].
  - rewrite (Permutation_length P). congruence.
  - intros H. apply Hk. right. exact H.
Qed.
(** then its last includer takes the place *)
Lemma swap_values_last vs q order order' : NoDup order -> In q order ->
  swap_values (length order - 1) (vs ++ [q]) order = Done order' -> idx q order' = (length order - 1)%nat.
Proof.
  intros Hn Hq E. rewrite swap_values_app in E. destruct (swap_values (length order - 1) vs order) as [o1| |] eqn:E1; try discriminate.
  cbn [obind swap_values] in E. pose proof (swap_values_perm _ _ _ _ E1) as P.
  assert (Hn1 : NoDup o1) by (eapply Permutation_NoDup; [apply Permutation_sym, P|exact Hn]).
  assert (Hq1 : In q o1) by (eapply Permutation_in; [apply Permutation_sym, P|exact Hq]).
  rewrite <- (Permutation_length P) in *. destruct (idx_in q o1 Hq1) as (N & Ei & L). rewrite Ei in E.
  destruct (Nat.ltb_spec (idx q o1) (length o1 - 1)) as [Lt|Ge]; injection E as <-; [|lia].
  destruct (nth_error o1 (length o1 - 1)) as [y|] eqn:EK; [|apply nth_error_None in EK; lia].
  apply idx_at; [apply swap_nodup, Hn1|]. rewrite (swap_get _ _ _ y q) by assumption. rewrite Nat.eqb_refl. reflexivity.
Qed.
(** one includer before the key *)
Lemma swap_values_one vs : forall k p order, NoDup order -> In k order -> (forall v, In v vs -> In v order) -> In p vs ->
  (idx p order < idx k order)%nat -> (forall v, In v vs -> v = p \/ (idx k order < idx v order)%nat) ->
  swap_values (idx k order) vs order = Done (swap_nth (idx k order) (idx p order) order).
Proof.
  induction vs as [|v vs IH]; intros k p order Hn Hk Hi Hp L Ho; [destruct Hp|]. cbn [swap_values].
  destruct (idx_in v order (Hi v (or_introl eq_refl))) as (N & E & _). rewrite E.
  destruct (Ho v (or_introl eq_refl)) as [->|Lv].
  - destruct (Nat.ltb_spec (idx p order) (idx k order)) as [_|X]; [|lia].
    assert (Hkp : k <> p) by (intros ->; lia). assert (Hpo : In p order) by (apply Hi; left; reflexivity).
    destruct (swap_idx order k p Hn Hk Hpo Hkp) as (S1 & S2 & S3).
    apply late_no_swap; intros w Hw; [apply swap_in, Hi; right; exact Hw|].
    destruct (Ho w (or_intror Hw)) as [->|Lw]; [lia|].
    rewrite S3; [lia| | |apply Hi; right; exact Hw]; intros ->; lia.
  - destruct (Nat.ltb_spec (idx v order) (idx k order)) as [X|_]; [lia|]. apply IH; try assumption.
    + intros w Hw. apply Hi. right. exact Hw.
    + destruct Hp as [->|Hp]; [lia|exact Hp].
    + intros w Hw. apply Ho. right. exact Hw.
Qed.
Lemma order_loop_idle m : forall order, (forall k vs, In (k, vs) m -> In k order /\ forall v, In v vs -> In v order /\ (idx k order <= idx v order)%nat) ->
  order_loop m order = Done order.
Proof.
  induction m as [|[k vs] m IH]; intros order H; cbn [order_loop]; [reflexivity|].
  destruct (H k vs (or_introl eq_refl)) as [Hk Hv]. destruct (idx_in k order Hk) as (_ & E & _). rewrite E.
  rewrite late_no_swap; [cbn [obind]; apply IH; intros j ws Hj; apply H; right; exact Hj|apply Hv|apply Hv].
Qed.

Lemma in_split_first (x : fpath) l : In x l -> exists a b, l = a ++ x :: b /\ ~ In x a.
Proof.
  induction l as [|y l IH]; intros H; [destruct H|]. destruct (str_eq_dec y x) as [->|N].
  - exists [], l. split; [reflexivity|intros []].
  - destruct H as [H|H]; [contradiction|]. destruct (IH H) as (a & b & -> & Ha). exists (y :: a), b. split; [reflexivity|].
    intros [X|X]; contradiction.
Qed.
(** the last of the includers *)
Lemma sorted_app ref a b x y : sorted ref (a ++ b) -> In x a -> In y b -> y = x \/ (ref x < ref y)%nat.
Proof.
  induction a as [|z a IH]; intros H Hx Hy; [destruct Hx|]. cbn [app] in H. inversion H as [|? ? H1 H2]; subst.
  destruct Hx as [->|Hx]; [apply H1; apply in_or_app; right; exact Hy|apply IH; assumption].
Qed.
Lemma sorted_last ref vs q : sorted ref vs -> In q vs -> (forall w, In w vs -> (ref w <= ref q)%nat) -> exists pre, vs = pre ++ [q].
Proof.
  intros Hs Hq Hm. destruct (exists_last (l := vs)) as (pre & x & ->); [intros ->; destruct Hq|]. exists pre.
  apply in_app_or in Hq. destruct Hq as [Hq|[->|[]]]; [|reflexivity].
  destruct (sorted_app ref pre [x] q x Hs Hq (or_introl eq_refl)) as [->|L]; [reflexivity|].
  specialize (Hm x). rewrite in_app_iff in Hm. specialize (Hm (or_intror (or_introl eq_refl))). lia.
Qed.

(** ** What the loop is given *)
Section Graph.
  Context (fs : fsys) (files : list (fpath * pfile)) (Hn : NoDup (keys files)) (Hc : closed_files fs files).
  Notation inc := (stored_includes fs files).
  Lemma inc_in p q : inc p q -> In p (keys files) /\ In q (keys files).
  Proof. intros H. split; [|exact (Hc p q H)]. destruct H as (w & _ & _ & X & _). eapply (m_get_key str_eq_dec), X. Qed.

  (** the map for a given order of the files *)
  Lemma map_facts ks : NoDup ks -> (forall x, In x (keys files) <-> In x ks) ->
    let fl := arrange ks files in let m := includer_map fs fl in
    m_keys fl = ks /\ NoDup (m_keys m)
    /\ (forall k vs, In (k, vs) m -> forall v, In v vs <-> inc v k)
    /\ (forall k vs, In (k, vs) m -> sorted (fun x => idx x ks) vs)
    /\ (forall p q, inc p q -> In q (m_keys m))
    /\ (forall k, In k (m_keys m) -> In k (keys files)).
  Proof.
    intros Hk E fl m. assert (Ek : m_keys fl = ks) by (apply arrange_keys; assumption).
    assert (I : forall x v, In (x, v) fl <-> In (x, v) files).
    { intros x v. split; apply Permutation_in; [|apply Permutation_sym]; apply arrange_perm. }
    destruct (includer_map_spec fs fl) as (A & B & C). fold m in A, B, C.
    assert (Inc : forall k vs v, In (k, vs) m -> (In v vs <-> inc v k)).
    { intros k vs v H. apply (m_in_get str_eq_dec) in H; [|exact C]. specialize (A k v). unfold entry in A. rewrite H in A. rewrite A.
      rewrite (stored_includes_in fs files v k Hn). split; intros (w & X & Y); exists w; (split; [apply I, X|exact Y]). }
    split; [exact Ek|]. split; [exact C|]. split; [intros k vs H v; apply (Inc k vs v H)|]. split; [|split].
    - intros k vs H. apply (m_in_get str_eq_dec) in H; [|exact C].
      assert (S : sorted (fun x => idx x ks) (entry k m)).
      { unfold m, includer_map. apply includer_sorted.
        - intros l1 p v l2 El q w Hq. apply in_split in Hq. destruct Hq as (l3 & l4 & ->).
          assert (El' : ks = map fst l3 ++ q :: map fst l4 ++ p :: map fst l2).
          { rewrite <- Ek. unfold m_keys. rewrite El, !map_app. cbn [map fst]. rewrite <- app_assoc. reflexivity. }
          rewrite El'. apply idx_lt. rewrite <- El'. exact Hk.
        - intros i. constructor.
        - intros p v _ i w []. }
      unfold entry in S. rewrite H in S. exact S.
    - intros p q H. apply B. right. apply stored_includes_in in H; [|exact Hn]. destruct H as (v & X & Y). exists p, v. split; [apply I, X|exact Y].
    - intros k H. apply B in H. destruct H as [(v & X & _)|(x & v & X & Y)].
      + apply I, (in_map fst) in X. exact X.
      + apply (Hc x k), stored_includes_in; [exact Hn|]. exists v. split; [apply I, X|exact Y].
  Qed.

  Definition without (xs l : list fpath) : list fpath := filter (fun x => if in_dec str_eq_dec x xs then false else true) l.
  Lemma without_in xs l x : In x (without xs l) <-> In x l /\ ~ In x xs.
  Proof. unfold without. rewrite filter_In. destruct (in_dec str_eq_dec x xs); intuition discriminate. Qed.
  Lemma nodup_app {A} (a b : list A) : NoDup a -> NoDup b -> (forall x, In x a -> ~ In x b) -> NoDup (a ++ b).
  Proof.
    induction a as [|x a IH]; intros Ha Hb H; [exact Hb|]. inversion Ha as [|? ? H1 H2]; subst. cbn [app]. constructor.
    - rewrite in_app_iff. intros [X|X]; [contradiction|]. apply (H x (or_introl eq_refl) X).
    - apply IH; [exact H2|exact Hb|]. intros y Hy. apply H. right. exact Hy.
  Qed.
  Lemma split_last {A} (m : list (fpath * A)) a k : m_keys m = a ++ [k] -> exists m1 v, m = m1 ++ [(k, v)] /\ m_keys m1 = a.
  Proof.
    intros E. unfold m_keys in E. apply map_eq_app in E. destruct E as (m1 & m2 & -> & E1 & E2).
    destruct m2 as [|[j v] [|? ?]]; cbn in E2; try discriminate. injection E2 as ->. exists m1, v. auto.
  Qed.

  (** an includer that is itself included *)
  Lemma deep_bad p q r : inc p q -> inc q r -> exists o, order_ok o /\
    forall order, compute_key_order o fs files = Done order -> exists a b, inc a b /\ (idx a order <= idx b order)%nat.
  Proof.
    intros Hpq Hqr. destruct (str_eq_dec p q) as [->|Npq].
    { exists id_oracle. split; [apply id_order_ok|]. intros order _. exists q, q. auto. }
    destruct (str_eq_dec q r) as [->|Nqr].
    { exists id_oracle. split; [apply id_order_ok|]. intros order _. exists r, r. auto. }
    set (ks := without [q; r] (keys files) ++ [q; r]).
    destruct (inc_in _ _ Hpq) as [Ip Iq]. destruct (inc_in _ _ Hqr) as [_ Ir].
    assert (Hk : NoDup ks).
    { apply nodup_app; [apply NoDup_filter, Hn|repeat constructor; cbn; intuition congruence|]. intros x Hx. apply without_in in Hx. apply Hx. }
    assert (E : forall x, In x (keys files) <-> In x ks).
    { intros x. unfold ks. rewrite in_app_iff, without_in. split; [|intros [[X _]|[<-|[<-|[]]]]; assumption].
      intros X. destruct (in_dec str_eq_dec x [q; r]); auto. }
    destruct (map_facts ks Hk E) as (F1 & F2 & F3 & F4 & F5 & F6). set (m := includer_map fs (arrange ks files)) in *.
    set (js := without [r] (m_keys m) ++ [r]).
    exists (arranged ks js). split; [apply arranged_ok|]. intros order Eo.
    unfold compute_key_order in Eo. cbn [arranged o_files o_map] in Eo. fold m in Eo. rewrite F1 in Eo.
    assert (Ej : m_keys (arrange js m) = js).
    { apply arrange_keys; [|exact F2|].
      - apply nodup_app; [apply NoDup_filter, F2|repeat constructor; intros []|]. intros x Hx. apply without_in in Hx. apply Hx.
      - intros x. unfold js. rewrite in_app_iff, without_in. split; [|intros [[X _]|[<-|[]]]; [assumption|exact (F5 q r Hqr)]].
        intros X. destruct (in_dec str_eq_dec x [r]); auto. }
    destruct (split_last _ _ _ Ej) as (m1 & vs & Em & Em1). rewrite Em, order_loop_app in Eo.
    destruct (order_loop m1 ks) as [o1| |] eqn:E1; try discriminate. cbn [obind order_loop] in Eo.
    assert (Hin : In (r, vs) m).
    { apply (Permutation_in _ (arrange_perm js m)). rewrite Em. apply in_or_app. right. left. reflexivity. }
    assert (Lr : idx r ks = (length ks - 1)%nat).
    { unfold ks. change [q; r] with ([q] ++ [r]). rewrite app_assoc. rewrite (idx_split _ r []).
      - rewrite !app_length. cbn. lia.
      - rewrite <- app_assoc. exact Hk. }
    pose proof (order_loop_perm _ _ _ E1) as P1.
    assert (Lr1 : idx r o1 = (length o1 - 1)%nat).
    { rewrite (order_loop_last m1 ks o1 r Hk E1); [rewrite (Permutation_length P1); exact Lr|apply E, Ir|exact Lr|].
      rewrite Em1. rewrite without_in. cbn. tauto. }
    assert (Hk1 : NoDup o1) by (eapply Permutation_NoDup; [apply Permutation_sym, P1|exact Hk]).
    assert (I1 : forall x, In x ks -> In x o1) by (intros x; apply Permutation_in, Permutation_sym, P1).
    destruct (idx_in r o1 (I1 r (proj1 (E r) Ir))) as (_ & Er & _). rewrite Er, Lr1 in Eo.
    destruct (in_dec str_eq_dec r vs) as [Hrr|Hrr].
    { exists r, r. split; [apply (F3 r vs Hin), Hrr|lia]. }
    exists p, q. split; [exact Hpq|].
    destruct (sorted_last (fun x => idx x ks) vs q (F4 r vs Hin)) as (pre & Evs).
    { apply (F3 r vs Hin), Hqr. }
    { intros w Hw. assert (Nw : w <> r) by (intros ->; contradiction).
      apply (F3 r vs Hin) in Hw. destruct (inc_in _ _ Hw) as [Iw _]. apply E in Iw.
      destruct (idx_in _ _ Iw) as (_ & _ & L).
      assert (Lw : idx w ks <> idx r ks) by (intros X; apply Nw, (idx_inj w r ks Iw); [apply E, Ir|exact X]).
      assert (Lq : idx q ks = (length ks - 2)%nat).
      { unfold ks. rewrite (idx_split _ q [r] Hk), app_length. cbn. lia. }
      lia. }
    rewrite Evs in Eo. destruct (swap_values (length o1 - 1) (pre ++ [q]) o1) as [o2| |] eqn:E2; try discriminate.
    cbn [obind] in Eo. injection Eo as <-. rewrite (swap_values_last pre q o1 o2 Hk1 (I1 q (proj1 (E q) Iq)) E2).
    pose proof (swap_values_perm _ _ _ _ E2) as P2. rewrite <- (Permutation_length P2).
    assert (Ip2 : In p o2) by (eapply Permutation_in; [apply Permutation_sym, P2|apply I1, E, Ip]).
    destruct (idx_in p o2 Ip2) as (_ & _ & L). lia.
  Qed.

  (** a file included by some of the includers of another one only *)
  Lemma shared_bad p p' q q' : (forall a b c, inc a b -> ~ inc b c) -> inc p q -> inc p q' -> inc p' q -> ~ inc p' q' ->
    exists o, order_ok o /\
      forall order, compute_key_order o fs files = Done order -> exists a b, inc a b /\ (idx a order <= idx b order)%nat.
  Proof.
    intros Flat Hpq Hpq' Hp'q Hn'.
    assert (Npp : p <> p') by (intros ->; contradiction). assert (Nqq : q <> q') by (intros ->; contradiction).
    assert (Npq : forall a b c d, inc a b -> inc c d -> a <> d) by (intros a b c d H1 H2 ->; exact (Flat c d b H2 H1)).
    destruct (inc_in _ _ Hpq) as [Ip Iq]. destruct (inc_in _ _ Hpq') as [_ Iq']. destruct (inc_in _ _ Hp'q) as [Ip' _].
    set (four := [p; p'; q'; q]).
    set (incd := fun x : fpath => existsb (fun kv => if in_dec str_eq_dec x (targets_of fs (snd kv)) then true else false) files).
    assert (Hincd : forall x, incd x = true <-> exists y, inc y x).
    { intros x. unfold incd. rewrite existsb_exists. split.
      - intros ([y v] & X & Y). exists y. apply stored_includes_in; [exact Hn|]. exists v. split; [exact X|]. cbn [snd] in Y.
        destruct (in_dec str_eq_dec x (targets_of fs v)); [assumption|discriminate].
      - intros (y & Y). apply stored_includes_in in Y; [|exact Hn]. destruct Y as (v & X & Y). exists (y, v). split; [exact X|]. cbn [snd].
        destruct (in_dec str_eq_dec x (targets_of fs v)); [reflexivity|contradiction]. }
    set (low := filter incd (without four (keys files))). set (high := filter (fun x => negb (incd x)) (without four (keys files))).
    set (ks := low ++ p :: p' :: q' :: q :: high).
    assert (N4 : NoDup four).
    { unfold four. repeat constructor; cbn; intuition (subst; try congruence; eauto using Npq). }
    assert (Hk : NoDup ks).
    { change ks with (low ++ four ++ high). apply nodup_app; [apply NoDup_filter, NoDup_filter, Hn| |].
      - apply nodup_app; [exact N4|apply NoDup_filter, NoDup_filter, Hn|]. intros x Hx Hy. apply filter_In in Hy. destruct Hy as [Hy _].
        apply without_in in Hy. tauto.
      - intros x Hx Hy. apply filter_In in Hx. destruct Hx as [Hx1 Hx2]. apply without_in in Hx1. apply in_app_or in Hy.
        destruct Hy as [Hy|Hy]; [tauto|]. apply filter_In in Hy. destruct Hy as [_ Hy]. rewrite Hx2 in Hy. discriminate. }
    assert (E : forall x, In x (keys files) <-> In x ks).
    { intros x. change ks with (low ++ four ++ high). rewrite !in_app_iff. unfold low, high. rewrite !filter_In, !without_in. split.
      - intros X. destruct (in_dec str_eq_dec x four); [auto|]. destruct (incd x); auto 6.
      - intros [[[X _] _]|[X|[[X _] _]]]; try exact X. destruct X as [<-|[<-|[<-|[<-|[]]]]]; assumption. }
    (* places in this order *)
    assert (Lp : idx p ks = length low) by (apply idx_split, Hk).
    assert (Lp' : idx p' ks = S (length low)).
    { unfold ks. change (p :: p' :: q' :: q :: high) with ([p] ++ p' :: q' :: q :: high). rewrite app_assoc, idx_split.
      - rewrite app_length. cbn [length]. lia.
      - rewrite <- app_assoc. exact Hk. }
    assert (Lq' : idx q' ks = S (S (length low))).
    { unfold ks. change (p :: p' :: q' :: q :: high) with ([p; p'] ++ q' :: q :: high). rewrite app_assoc, idx_split.
      - rewrite app_length. cbn [length]. lia.
      - rewrite <- app_assoc. exact Hk. }
    assert (Lq : idx q ks = S (S (S (length low)))).
    { unfold ks. change (p :: p' :: q' :: q :: high) with ([p; p'; q'] ++ q :: high). rewrite app_assoc, idx_split.
      - rewrite app_length. cbn [length]. lia.
      - rewrite <- app_assoc. exact Hk. }
    assert (Lhigh : forall x, In x high -> (idx q ks < idx x ks)%nat).
    { intros x Hx. apply in_split in Hx. destruct Hx as (h1 & h2 & Eh). rewrite Lq. unfold ks. rewrite Eh.
      change (p :: p' :: q' :: q :: h1 ++ x :: h2) with (four ++ h1 ++ x :: h2). rewrite !app_assoc, idx_split.
      - rewrite !app_length. unfold four. cbn [length]. lia.
      - rewrite <- !app_assoc. rewrite <- Eh. exact Hk. }
    assert (Llow : forall x, In x low -> (idx x ks < length low)%nat).
    { intros x Hx. apply in_split in Hx. destruct Hx as (h1 & h2 & Eh). unfold ks. rewrite Eh, <- app_assoc. cbn [app]. rewrite idx_split.
      - rewrite app_length. cbn [length]. lia.
      - revert Hk; unfold ks; rewrite Eh, <- app_assoc; exact (fun H => H). }
    (* an includer is one of the two or among the last *)
    assert (Src : forall a b, inc a b -> a = p \/ a = p' \/ In a high).
    { intros a b Hab. destruct (inc_in _ _ Hab) as [Ia _]. apply E in Ia. unfold ks in Ia. apply in_app_or in Ia.
      destruct Ia as [Ia|[Ia|[Ia|[Ia|[Ia|Ia]]]]]; auto; exfalso.
      - apply filter_In in Ia. destruct Ia as [_ Ia]. apply Hincd in Ia. destruct Ia as [y Y]. exact (Flat y a b Y Hab).
      - subst a. exact (Flat _ _ _ Hpq' Hab).
      - subst a. exact (Flat _ _ _ Hpq Hab). }
    destruct (map_facts ks Hk E) as (F1 & F2 & F3 & F4 & F5 & F6). set (m := includer_map fs (arrange ks files)) in *.
    set (js := (without [q'; q] (m_keys m) ++ [q']) ++ [q]).
    exists (arranged ks js). split; [apply arranged_ok|]. intros order Eo. exists p, q. split; [exact Hpq|].
    unfold compute_key_order in Eo. cbn [arranged o_files o_map] in Eo. fold m in Eo. rewrite F1 in Eo.
    assert (Ej : m_keys (arrange js m) = js).
    { apply arrange_keys; [|exact F2|]; unfold js; rewrite <- app_assoc; cbn [app].
      - apply nodup_app; [apply NoDup_filter, F2|repeat constructor; cbn; intuition congruence|]. intros x Hx. apply without_in in Hx. apply Hx.
      - intros x. rewrite in_app_iff, without_in. split; [|intros [[X _]|[<-|[<-|[]]]]; [assumption|exact (F5 p q' Hpq')|exact (F5 p q Hpq)]].
        intros X. destruct (in_dec str_eq_dec x [q'; q]); auto. }
    destruct (split_last _ _ _ Ej) as (m2 & vs & Em & Em2). destruct (split_last _ _ _ Em2) as (m1 & vs' & -> & Em1).
    assert (Sub : forall k ws, In (k, ws) ((m1 ++ [(q', vs')]) ++ [(q, vs)]) -> In (k, ws) m).
    { intros k ws H. rewrite <- Em in H. exact (Permutation_in _ (arrange_perm js m) H). }
    assert (Hq : In (q, vs) m) by (apply Sub; apply in_or_app; right; left; reflexivity).
    assert (Hq' : In (q', vs') m) by (apply Sub; apply in_or_app; left; apply in_or_app; right; left; reflexivity).
    rewrite Em, !order_loop_app in Eo.
    (* nothing happens for the other keys *)
    rewrite (order_loop_idle m1 ks) in Eo.
    2:{ intros k ws Hkw. assert (Hm : In (k, ws) m) by (apply Sub; apply in_or_app; left; apply in_or_app; left; exact Hkw).
        assert (Kin : In k (keys files)) by (apply F6; apply (in_map fst) in Hm; exact Hm).
        split; [apply E, Kin|]. intros v Hv. apply (F3 k ws Hm) in Hv. destruct (inc_in _ _ Hv) as [Iv _]. split; [apply E, Iv|].
        assert (Kl : In k low).
        { apply filter_In. split; [|apply Hincd; exists v; exact Hv]. apply without_in. split; [exact Kin|].
          apply (in_map fst) in Hkw. cbn [fst] in Hkw. change (map fst m1) with (m_keys m1) in Hkw. rewrite Em1 in Hkw. apply without_in in Hkw. destruct Hkw as [_ Hkw].
          intros [X|[X|[X|[X|[]]]]]; subst k.
          - exact (Flat _ _ _ Hv Hpq).
          - exact (Flat _ _ _ Hv Hp'q).
          - apply Hkw. left. reflexivity.
          - apply Hkw. right. left. reflexivity. }
        specialize (Llow k Kl). destruct (Src v k Hv) as [->|[->|Hv']]; [lia|lia|specialize (Lhigh v Hv'); lia]. }
    cbn [obind order_loop] in Eo.
    assert (Kp : In p ks) by (apply E, Ip). assert (Kp' : In p' ks) by (apply E, Ip'). assert (Kq : In q ks) by (apply E, Iq). assert (Kq' : In q' ks) by (apply E, Iq').
    assert (Kin : forall k ws v, In (k, ws) m -> In v ws -> In v ks) by (intros k ws v Hm Hv; apply (F3 k ws Hm) in Hv; apply E, (inc_in _ _ Hv)).
    destruct (idx_in q' ks Kq') as (_ & Ei & _). rewrite Ei in Eo.
    rewrite (swap_values_one vs' q' p ks) in Eo; [|exact Hk|exact Kq'|intros v; apply (Kin q' vs' v Hq')|apply (F3 q' vs' Hq'), Hpq'|lia|].
    2:{ intros v Hv. apply (F3 q' vs' Hq') in Hv. destruct (Src v q' Hv) as [->|[->|Hv']]; [auto|contradiction|right; specialize (Lhigh v Hv'); lia]. }
    cbn [obind] in Eo. set (l1 := swap_nth (idx q' ks) (idx p ks) ks) in *.
    assert (Nq'p : q' <> p) by (intros X; symmetry in X; exact (Npq _ _ _ _ Hpq Hpq' X)).
    destruct (swap_idx ks q' p Hk Kq' Kp Nq'p) as (S1 & S2 & S3). fold l1 in S1, S2, S3.
    assert (Np'q' : p' <> q') by exact (Npq _ _ _ _ Hp'q Hpq'). assert (Np'q : p' <> q) by exact (Npq _ _ _ _ Hp'q Hpq).
    assert (Np_q : p <> q) by exact (Npq _ _ _ _ Hpq Hpq).
    assert (Hk1 : NoDup l1) by (apply swap_nodup, Hk).
    assert (A1 : idx p' l1 = idx p' ks) by (apply S3; [exact Np'q'|congruence|exact Kp']).
    assert (A2 : idx q l1 = idx q ks) by (apply S3; [exact Nqq|congruence|exact Kq]).
    assert (A3 : forall x, In x high -> idx x l1 = idx x ks).
    { intros x Hx. specialize (Lhigh x Hx). apply S3; [intros ->; lia|intros ->; lia|]. unfold ks. apply in_or_app. right. do 4 right. exact Hx. }
    assert (J1 : forall x, In x l1 <-> In x ks) by (intros x; apply swap_in).
    destruct (idx_in q l1 (proj2 (J1 q) Kq)) as (_ & Ei1 & _). rewrite Ei1 in Eo.
    (* the includers of q, in the order of the files *)
    assert (Hpv : In p vs) by (apply (F3 q vs Hq), Hpq). assert (Hp'v : In p' vs) by (apply (F3 q vs Hq), Hp'q).
    destruct (in_split_first p' vs Hp'v) as (a & b & Evs & Ha).
    assert (So := F4 q vs Hq). rewrite Evs in So.
    assert (Aonly : forall x, In x a -> x = p).
    { intros x Hx. assert (Hxv : In x vs) by (rewrite Evs; apply in_or_app; auto). assert (Hxq := Hxv). apply (F3 q vs Hq) in Hxq.
      destruct (Src x q Hxq) as [->|[->|Hh]]; [reflexivity|contradiction|]. specialize (Lhigh x Hh).
      destruct (sorted_app _ a (p' :: b) x p' So Hx (or_introl eq_refl)) as [X|X]; [subst x; lia|]. lia. }
    assert (Hpa : In p a).
    { rewrite Evs in Hpv. apply in_app_or in Hpv. destruct Hpv as [X|X]; [exact X|]. exfalso. destruct X as [X|X]; [congruence|].
      assert (So' : sorted (fun x => idx x ks) (([p'] ++ b))) by (clear - So; induction a as [|y a IH]; [exact So|inversion So; apply IH; assumption]).
      destruct (sorted_app _ [p'] b p' p So' (or_introl eq_refl) X) as [Y|Y]; [congruence|lia]. }
    assert (Bonly : forall x, In x (p' :: b) -> x = p' \/ In x high).
    { intros x Hx. assert (Hxv : In x vs) by (rewrite Evs; apply in_or_app; auto). apply (F3 q vs Hq) in Hxv.
      destruct (Src x q Hxv) as [->|[->|Hh]]; auto. exfalso.
      assert (So' : sorted (fun x => idx x ks) (([p'] ++ b))) by (clear - So; induction a as [|y a IH]; [exact So|inversion So; apply IH; assumption]).
      destruct Hx as [X|X]; [congruence|]. destruct (sorted_app _ [p'] b p' p So' (or_introl eq_refl) X) as [Y|Y]; [congruence|lia]. }
    rewrite Evs, swap_values_app in Eo.
    rewrite (swap_values_one a q p l1) in Eo; [|exact Hk1|apply J1, Kq|intros v Hv; rewrite (Aonly v Hv); apply J1, Kp|exact Hpa|lia|intros v Hv; left; exact (Aonly v Hv)].
    cbn [obind] in Eo. set (l2 := swap_nth (idx q l1) (idx p l1) l1) in *.
    destruct (swap_idx l1 q p Hk1 (proj2 (J1 q) Kq) (proj2 (J1 p) Kp) (fun e => Np_q (eq_sym e))) as (T1 & T2 & T3). fold l2 in T1, T2, T3.
    assert (Hk2 : NoDup l2) by (apply swap_nodup, Hk1).
    assert (J2 : forall x, In x l2 <-> In x ks) by (intros x; unfold l2; rewrite swap_in; apply J1).
    assert (B1 : idx p' l2 = idx p' ks) by (rewrite T3; [exact A1|exact Np'q|congruence|apply J1, Kp']).
    assert (B3 : forall x, In x high -> idx x l2 = idx x ks).
    { intros x Hx. assert (L := Lhigh x Hx). rewrite T3; [apply A3, Hx|intros ->; lia|intros ->; lia|]. apply J1. unfold ks. apply in_or_app. right. do 4 right. exact Hx. }
    rewrite <- T2 in Eo.
    rewrite (swap_values_one (p' :: b) p p' l2) in Eo; [|exact Hk2|apply J2, Kp| |left; reflexivity|lia|].
    2:{ intros v Hv. apply J2. destruct (Bonly v Hv) as [->|Hh]; [exact Kp'|]. unfold ks. apply in_or_app. right. do 4 right. exact Hh. }
    2:{ intros v Hv. destruct (Bonly v Hv) as [->|Hh]; [auto|]. right. rewrite (B3 v Hh). specialize (Lhigh v Hh). lia. }
    cbn [obind] in Eo. injection Eo as <-.
    destruct (swap_idx l2 p p' Hk2 (proj2 (J2 p) Kp) (proj2 (J2 p') Kp') Npp) as (U1 & U2 & U3).
    rewrite U1, (U3 q); [lia|congruence|congruence|apply J2, Kq].
  Qed.
End Graph.

Lemma includes_dec fs files p q : NoDup (keys files) -> {stored_includes fs files p q} + {~ stored_includes fs files p q}.
Proof.
  intros Hn. destruct (fget p files) as [v|] eqn:F.
  - destruct (in_dec str_eq_dec q (targets_of fs v)) as [H|H].
    + left. apply stored_includes_in; [exact Hn|]. exists v. split; [apply (m_get_in str_eq_dec), F|exact H].
    + right. intros X. apply stored_includes_in in X; [|exact Hn]. destruct X as (w & A & B). apply (m_in_get str_eq_dec) in A; [|exact Hn]. change (fget p files = Some w) in A. rewrite F in A. injection A as ->. contradiction.
  - right. intros (w & f & i & A & _). change (fget p files = Some w) in A. congruence.
Qed.

(** included files come first for every hash order, exactly if the graph is flat in this sense *)
Lemma key_order_exact fs files : NoDup (keys files) -> closed_files fs files ->
  ((forall o order, order_ok o -> compute_key_order o fs files = Done order -> includes_first fs files order) <-> two_level fs files).
Proof.
  intros Hn Hc.
  assert (First : forall order, NoDup order -> (forall x, In x (keys files) -> In x order) -> includes_first fs files order ->
    forall p q, stored_includes fs files p q -> (idx q order < idx p order)%nat).
  { intros order Hno Hin H p q Hpq. destruct (inc_in fs files Hc p q Hpq) as [Ip _]. apply Hin in Ip. apply in_split in Ip. destruct Ip as (k1 & k2 & E).
    specialize (H k1 p k2 q E Hpq). apply in_split in H. destruct H as (a & b & ->). rewrite E, <- app_assoc. cbn [app].
    apply idx_lt. rewrite E, <- app_assoc in Hno. exact Hno. }
  split.
  - intros H.
    assert (Bad : ~ exists o, order_ok o /\ forall order, compute_key_order o fs files = Done order -> exists a b, stored_includes fs files a b /\ (idx a order <= idx b order)%nat).
    { intros (o & Ho & B). destruct (compute_key_order o fs files) as [order| |] eqn:E.
      - destruct (B order eq_refl) as (a & b & Hab & L). pose proof (key_order_perm _ _ _ _ Ho E) as P.
        assert (X : (idx b order < idx a order)%nat); [|lia]. apply (First order); [| |exact (H o order Ho E)|exact Hab].
        + eapply Permutation_NoDup; [apply Permutation_sym, P|exact Hn].
        + intros x. apply Permutation_in, Permutation_sym, P.
      - apply (key_order_panic o fs files Ho Hn) in E. contradiction.
      - unfold compute_key_order in E. exact (order_loop_fuel _ _ E). }
    assert (Flat : forall p q r, stored_includes fs files p q -> ~ stored_includes fs files q r).
    { intros p q r Hpq Hqr. apply Bad. exact (deep_bad fs files Hn Hc p q r Hpq Hqr). }
    split; [exact Flat|]. intros p p' q q' H1 H2 H3. destruct (includes_dec fs files p' q' Hn) as [Y|N]; [exact Y|]. exfalso. apply Bad.
    exact (shared_bad fs files Hn Hc p p' q q' Flat H1 H2 H3 N).
  - intros Hf o order Ho E. destruct (key_order_flat o fs files Ho Hn Hc Hf) as (order' & E' & L).
    assert (order' = order) as -> by congruence. pose proof (key_order_perm _ _ _ _ Ho E) as P.
    assert (Hno : NoDup order) by (eapply Permutation_NoDup; [apply Permutation_sym, P|exact Hn]).
    intros k1 k k2 q Ek Hkq. specialize (L k q Hkq). destruct (inc_in fs files Hc k q Hkq) as [_ Iq].
    apply (Permutation_in _ (Permutation_sym P)) in Iq. rewrite Ek in Iq. apply in_app_or in Iq. destruct Iq as [Iq|[->|Iq]]; [exact Iq|lia|].
    exfalso. apply in_split in Iq. destruct Iq as (a & b & ->). rewrite Ek in L, Hno. pose proof (idx_lt k1 k a q b Hno). lia.
Qed.

(** ** C38 *)
(** An addition analyses included files first whatever the hash order is, exactly if no included file includes and files with a common
    includer have the same includers. *)
Theorem C38_exact : forall fs u fuel o0 name root text ft pj pj', finite_fs fs u -> (length u < fuel)%nat -> order_ok o0 ->
  fs_canon fs name = inl root -> valid_utf8 text = true -> reached pj -> add_file_with_text fuel o0 fs name text ft pj = Done pj' ->
  ((forall o, order_ok o -> in_order fuel o fs root text ft pj) <-> two_level fs (pj_files pj')).
Proof.
  intros fs u fuel o0 name root text ft pj pj' Hf Hl Ho Hc Hv Hp E.
  destruct (add_done_at _ _ _ _ _ _ _ _ _ _ Hf Hl Ho Hc Hv Hp E) as (files & order & Pf & L & Hcl & _ & _ & _ & _ & _ & _ & S).
  pose proof (same_includes fs files (pj_files pj') S) as SI.
  assert (T : two_level fs (pj_files pj') <-> two_level fs files).
  { split; intros [X Y].
    - split; [intros x y z; rewrite <- !SI; apply X|intros x x' y y'; rewrite <- !SI; apply Y].
    - split; [intros x y z; rewrite !SI; apply X|intros x x' y y'; rewrite !SI; apply Y]. }
  rewrite T, <- (key_order_exact fs files (li_nodup _ _ _ _ _ _ _ L) Hcl). split.
  - intros H o order' Ho' Eo. exact (H o Ho' files order' Pf Eo).
  - intros H o Ho' files' order' Pf' Eo. rewrite Pf in Pf'. injection Pf' as <-. exact (H o order' Ho' Eo).
Qed.
Print Assumptions C38_exact.

(** both sides hold for the project of C38_case, neither does for the chain of C38_refuted *)
Definition pj38 : project := unwrap (add_file_with_text 4 id_oracle (mem_fs ex38) (bs "/a.dts") text38 DtSource project_new).
Lemma pj38_added : add_file_with_text 4 id_oracle (mem_fs ex38) (bs "/a.dts") text38 DtSource project_new = Done pj38.
Proof. vm_compute. reflexivity. Qed.
Example C38_exact_case :
  (forall o, order_ok o -> in_order 4 o (mem_fs ex38c) (bs "/a.dts") text38c DtSource project_new)
  /\ ~ (forall o, order_ok o -> in_order 4 o (mem_fs ex38) (bs "/a.dts") text38 DtSource project_new).
Proof.
  split.
  - apply (C38_exact (mem_fs ex38c) (m_keys ex38c) 4 id_oracle (bs "/a.dts") (bs "/a.dts") text38c DtSource project_new pj38c);
      [apply mem_fs_finite|cbn; lia|apply id_order_ok|vm_compute; reflexivity|vm_compute; reflexivity|constructor|apply pj38c_added|apply C38_case].
  - intros H. assert (T : two_level (mem_fs ex38) (pj_files pj38)).
    { apply (C38_exact (mem_fs ex38) (m_keys ex38) 4 id_oracle (bs "/a.dts") (bs "/a.dts") text38 DtSource project_new pj38);
      [apply mem_fs_finite|cbn; lia|apply id_order_ok|vm_compute; reflexivity|vm_compute; reflexivity|constructor|apply pj38_added|exact H]. }
    assert (N : NoDup (keys (pj_files pj38))).
    { assert (E : m_keys (pj_files pj38) = [bs "/a.dts"; bs "/b.dtsi"; bs "/c.dtsi"]) by (vm_compute; reflexivity). rewrite E.
      repeat constructor; cbn; intuition discriminate. }
    assert (Tb : map (fun kv => (fst kv, targets_of (mem_fs ex38) (snd kv))) (pj_files pj38)
      = [(bs "/a.dts", [bs "/b.dtsi"]); (bs "/b.dtsi", [bs "/c.dtsi"]); (bs "/c.dtsi", [])]) by (vm_compute; reflexivity).
    apply (proj1 T (bs "/a.dts") (bs "/b.dtsi") (bs "/c.dtsi")); apply (stored_by_table _ _ _ N Tb).
    + exists [bs "/b.dtsi"]. split; [left; reflexivity|left; reflexivity].
    + exists [bs "/c.dtsi"]. split; [right; left; reflexivity|left; reflexivity].
Qed.
