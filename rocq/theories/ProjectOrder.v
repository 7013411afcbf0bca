(** The order of the analysis where the include graph is flat *)
From Verif Require Export ProjectProofs2.

(** place of a file in a list, its length for a file not in it *)
Definition idx (x : fpath) (l : list fpath) : nat :=
  match position_of x l with Some i => i | None => length l end.

Lemma idx_in x l : In x l -> nth_error l (idx x l) = Some x /\ position_of x l = Some (idx x l) /\ (idx x l < length l)%nat.
Proof.
  intros H. destruct (position_in x l H) as [i E]. unfold idx. rewrite E. pose proof (position_nth _ _ _ E) as N.
  split; [exact N|]. split; [reflexivity|]. apply nth_error_Some. congruence.
Qed.
Lemma idx_at x l i : NoDup l -> nth_error l i = Some x -> idx x l = i.
Proof.
  intros Hn Hi. assert (H : In x l) by (eapply nth_error_In, Hi). destruct (idx_in x l H) as (A & _ & B).
  eapply (proj1 (NoDup_nth_error l) Hn); [exact B|congruence].
Qed.
Lemma idx_inj x y l : In x l -> In y l -> idx x l = idx y l -> x = y.
Proof. intros Hx Hy E. destruct (idx_in x l Hx) as [A _]. destruct (idx_in y l Hy) as [B _]. congruence. Qed.

(** the two entries that are swapped *)
Lemma swap_idx l a b : NoDup l -> In a l -> In b l -> a <> b ->
  let l' := swap_nth (idx a l) (idx b l) l in
  idx a l' = idx b l /\ idx b l' = idx a l /\ forall x, x <> a -> x <> b -> In x l -> idx x l' = idx x l.
Proof.
  intros Hn Ha Hb Hab. cbv zeta. destruct (idx_in a l Ha) as (A1 & _ & A2). destruct (idx_in b l Hb) as (B1 & _ & B2).
  assert (Hn' : NoDup (swap_nth (idx a l) (idx b l) l)).
  { eapply Permutation_NoDup; [apply Permutation_sym, swap_perm|exact Hn]. }
  assert (Hne : idx a l <> idx b l) by (intros E; apply Hab, (idx_inj _ _ l); assumption).
  split; [|split].
  - apply idx_at; [exact Hn'|]. rewrite (swap_get _ _ _ a b) by assumption.
    rewrite (proj2 (Nat.eqb_neq _ _) Hne), Nat.eqb_refl. reflexivity.
  - apply idx_at; [exact Hn'|]. rewrite (swap_get _ _ _ a b) by assumption. rewrite Nat.eqb_refl. reflexivity.
  - intros x Hxa Hxb Hx. destruct (idx_in x l Hx) as (X1 & _ & _). apply idx_at; [exact Hn'|].
    rewrite (swap_get _ _ _ a b) by assumption.
    destruct (Nat.eqb (idx a l) (idx x l)) eqn:E1.
    { apply Nat.eqb_eq in E1. exfalso. apply Hxa. symmetry. eapply idx_inj; eassumption. }
    destruct (Nat.eqb (idx b l) (idx x l)) eqn:E2.
    { apply Nat.eqb_eq in E2. exfalso. apply Hxb. symmetry. eapply idx_inj; eassumption. }
    exact X1.
Qed.
Lemma swap_nodup i j l : NoDup l -> NoDup (swap_nth i j l).
Proof. intros H. eapply Permutation_NoDup; [apply Permutation_sym, swap_perm|exact H]. Qed.
Lemma swap_in i j l x : In x (swap_nth i j l) <-> In x l.
Proof. split; apply Permutation_in; [|apply Permutation_sym]; apply swap_perm. Qed.

Section Inner.
  (** a fixed order of reference *)
  Context (ref : fpath -> nat).
  (** [order] agrees with it on the files of [vs] *)
  Definition agrees (vs order : list fpath) : Prop :=
    forall a b, In a vs -> In b vs -> (ref a < ref b)%nat -> (idx a order < idx b order)%nat.
  Inductive sorted : list fpath -> Prop :=
  | so_nil : sorted []
  | so_cons v vs : (forall w, In w vs -> w = v \/ (ref v < ref w)%nat) -> sorted vs -> sorted (v :: vs).

  Lemma late_no_swap K vs order : (forall v, In v vs -> In v order) -> (forall v, In v vs -> (K <= idx v order)%nat) ->
    swap_values K vs order = Done order.
  Proof.
    revert order. induction vs as [|v vs IH]; intros order Hi Hl; cbn [swap_values]; [reflexivity|].
    destruct (idx_in v order (Hi v (or_introl eq_refl))) as (_ & E & _). rewrite E.
    specialize (Hl v (or_introl eq_refl)) as Hv. destruct (Nat.ltb_spec (idx v order) K) as [L|L]; [lia|].
    apply IH; intros w Hw; [apply Hi|apply Hl]; right; exact Hw.
  Qed.

  (** after the first swap: [w] has been moved to the place [K] *)
  Lemma second_stage vs : forall K w order lo, NoDup order -> (forall v, In v (w :: vs) -> In v order) ->
    idx w order = K -> sorted (w :: vs) ->
    (forall a b, In a vs -> In b vs -> a <> w -> (ref a < ref b)%nat -> (idx a order < idx b order)%nat) ->
    (lo < K)%nat ->
    (forall v, In v vs -> v <> w -> (lo < idx v order)%nat) ->
    exists order', swap_values K vs order = Done order'
      /\ (forall x, In x order -> ~ In x (w :: vs) -> idx x order' = idx x order)
      /\ (forall v, In v vs -> v <> w -> (idx v order <= idx v order')%nat)
      /\ (lo < idx w order')%nat
      /\ agrees (w :: vs) order'.
  Proof.
    induction vs as [|v vs IH]; intros K w order lo Hn Hi Hw Hs Ha Hlo Hlow.
    - exists order. split; [reflexivity|]. split; [auto|]. split; [intros v []|]. split; [lia|].
      intros a b [<-|[]] [<-|[]]. lia.
    - cbn [swap_values]. assert (Hv : In v order) by (apply Hi; right; left; reflexivity).
      destruct (idx_in v order Hv) as (N & E & L). rewrite E.
      assert (Hs' : sorted (v :: vs)) by (inversion Hs; assumption).
      assert (Hwv : forall x, In x (v :: vs) -> x = w \/ (ref w < ref x)%nat) by (inversion Hs; assumption).
      assert (Hvs : forall x, In x vs -> x = v \/ (ref v < ref x)%nat) by (inversion Hs'; assumption).
      destruct (str_eq_dec v w) as [->|Hne].
      + rewrite Hw. destruct (Nat.ltb_spec K K) as [X|_]; [lia|].
        destruct (IH K w order lo Hn) as (o' & A & B & C & D & F).
        { intros x [<-|Hx]; apply Hi; [left; reflexivity|right; right; exact Hx]. }
        { exact Hw. } { exact Hs'. }
        { intros a b X Y. apply Ha; right; assumption. }
        { exact Hlo. }
        { intros x Hx. apply Hlow. right. exact Hx. }
        exists o'. split; [exact A|]. split; [intros x Hx Hnx; apply B; [exact Hx|intros [H|H]; apply Hnx; [left; exact H|right; right; exact H]]|].
        split; [intros x [<-|Hx] Hxw; [congruence|apply C; assumption]|]. split; [exact D|].
        intros a b Xa Xb R. apply F; try exact R; [destruct Xa as [Xa|[Xa|Xa]]|destruct Xb as [Xb|[Xb|Xb]]];
          first [left; assumption|right; assumption].
      + assert (Rwv : (ref w < ref v)%nat) by (destruct (Hwv v (or_introl eq_refl)); [contradiction|assumption]).
        assert (Hwin : In w order) by (apply Hi; left; reflexivity).
        assert (Hnw : ~ In w vs).
        { intros H. destruct (Hvs w H) as [->|]; [congruence|lia]. }
        assert (Hafter : forall x, In x vs -> x <> v -> (idx v order < idx x order)%nat).
        { intros x Hx Hxv. apply Ha; [left; reflexivity|right; exact Hx|exact Hne|].
          destruct (Hvs x Hx); [contradiction|assumption]. }
        destruct (Nat.ltb_spec (idx v order) K) as [Lt|Ge].
        * set (o1 := swap_nth K (idx v order) order).
          assert (So : o1 = swap_nth (idx w order) (idx v order) order) by (rewrite Hw; reflexivity).
          destruct (swap_idx order w v Hn Hwin Hv (fun e => Hne (eq_sym e))) as (S1 & S2 & S3). rewrite <- So in S1, S2, S3.
          assert (Hrest : forall x, In x vs -> x <> v -> idx x o1 = idx x order).
          { intros x Hx Hxv. apply S3; [intros ->; contradiction|exact Hxv|apply Hi; right; right; exact Hx]. }
          destruct (IH K v o1 (idx v order)) as (o' & A & B & C & D & F).
          { unfold o1. apply swap_nodup, Hn. }
          { intros x [<-|Hx]; apply swap_in; [exact Hv|apply Hi; right; right; exact Hx]. }
          { rewrite S2. exact Hw. }
          { exact Hs'. }
          { intros a b Xa Xb Hav R. assert (Lab : (idx a order < idx b order)%nat).
            { apply Ha; [right; exact Xa|right; exact Xb|intros ->; contradiction|exact R]. }
            destruct (str_eq_dec b v) as [->|Hbv].
            - exfalso. destruct (Hvs a Xa) as [->|]; lia.
            - rewrite !Hrest by assumption. exact Lab. }
          { exact Lt. }
          { intros x Hx Hxv. rewrite Hrest by assumption. apply Hafter; assumption. }
          assert (W : idx w o' = idx v order).
          { rewrite B; [exact S1|apply swap_in, Hwin|]. intros [H|H]; [congruence|contradiction]. }
          assert (G : forall x, In x (v :: vs) -> (idx v order < idx x o')%nat).
          { intros x [<-|Hx]; [exact D|]. destruct (str_eq_dec x v) as [->|Hxv]; [exact D|].
            specialize (C x Hx Hxv). rewrite Hrest in C by assumption. specialize (Hafter x Hx Hxv). lia. }
          exists o'. split; [exact A|]. split; [|split; [|split]].
          -- intros x Hx Hnx. rewrite B.
             ++ apply S3; [intros ->; apply Hnx; left; reflexivity|intros ->; apply Hnx; right; left; reflexivity|exact Hx].
             ++ apply swap_in, Hx.
             ++ intros H. apply Hnx. right. exact H.
          -- intros x Hx Hxw. specialize (G x Hx). destruct (str_eq_dec x v) as [->|Hxv]; [lia|].
             destruct Hx as [->|Hx]; [congruence|]. specialize (C x Hx Hxv). rewrite Hrest in C by assumption. exact C.
          -- rewrite W. apply Hlow; [left; reflexivity|exact Hne].
          -- intros a b [<-|Xa] [<-|Xb] R; [lia| | |apply F; assumption].
             ++ rewrite W. apply G, Xb.
             ++ exfalso. destruct (Hwv a Xa) as [->|]; lia.
        * assert (Hvw : idx v order <> K).
          { intros Ek. apply Hne. apply (idx_inj v w order); [assumption|assumption|congruence]. }
          assert (NS : swap_values K vs order = Done order).
          { apply late_no_swap; [intros x Hx; apply Hi; right; right; exact Hx|]. intros x Hx.
            destruct (str_eq_dec x v) as [->|Hxv]; [lia|]. specialize (Hafter x Hx Hxv). lia. }
          rewrite NS. exists order. split; [reflexivity|]. split; [auto|]. split; [auto|]. split; [lia|].
          assert (G : forall x, In x (v :: vs) -> (K < idx x order)%nat).
          { intros x [<-|Hx]; [lia|]. destruct (str_eq_dec x v) as [->|Hxv]; [lia|]. specialize (Hafter x Hx Hxv). lia. }
          intros a b [<-|Xa] [<-|Xb] R; [lia| | |apply Ha; try assumption].
          -- rewrite Hw. apply G, Xb.
          -- exfalso. destruct (Hwv a Xa) as [->|]; lia.
          -- intros ->. destruct Xa as [Xa|Xa]; [congruence|contradiction].
  Qed.

  (** one key with its includers *)
  Lemma inner_spec k vs order : NoDup order -> In k order -> (forall v, In v vs -> In v order) -> ~ In k vs ->
    sorted vs -> agrees vs order ->
    exists order', swap_values (idx k order) vs order = Done order'
      /\ (forall x, In x order -> x <> k -> ~ In x vs -> idx x order' = idx x order)
      /\ (forall v, In v vs -> (idx v order <= idx v order')%nat)
      /\ (forall v, In v vs -> (idx k order' < idx v order')%nat)
      /\ agrees vs order'.
  Proof.
    intros Hn Hk Hi Hkv Hs Ha. destruct vs as [|v vs].
    { exists order. split; [reflexivity|]. split; [auto|]. split; [intros v []|]. split; [intros v []|]. exact Ha. }
    assert (Hv : In v order) by (apply Hi; left; reflexivity).
    assert (Hne : k <> v) by (intros ->; apply Hkv; left; reflexivity).
    destruct (idx_in v order Hv) as (N & E & L). cbn [swap_values]. rewrite E.
    assert (Hvs : forall x, In x vs -> x = v \/ (ref v < ref x)%nat) by (inversion Hs; assumption).
    assert (Hafter : forall x, In x vs -> x <> v -> (idx v order < idx x order)%nat).
    { intros x Hx Hxv. apply Ha; [left; reflexivity|right; exact Hx|]. destruct (Hvs x Hx); [contradiction|assumption]. }
    destruct (Nat.ltb_spec (idx v order) (idx k order)) as [Lt|Ge].
    - set (o1 := swap_nth (idx k order) (idx v order) order).
      destruct (swap_idx order k v Hn Hk Hv Hne) as (S1 & S2 & S3). fold o1 in S1, S2, S3.
      assert (Hrest : forall x, In x vs -> x <> v -> idx x o1 = idx x order).
      { intros x Hx Hxv. apply S3; [intros ->; apply Hkv; right; exact Hx|exact Hxv|apply Hi; right; exact Hx]. }
      destruct (second_stage vs (idx k order) v o1 (idx v order)) as (o' & A & B & C & D & F).
      { unfold o1. apply swap_nodup, Hn. }
      { intros x Hx. apply swap_in, Hi, Hx. }
      { exact S2. } { exact Hs. }
      { intros a b Xa Xb Hav R. destruct (str_eq_dec b v) as [->|Hbv].
        - exfalso. destruct (Hvs a Xa) as [->|]; lia.
        - rewrite !Hrest by assumption. apply Ha; [right; exact Xa|right; exact Xb|exact R]. }
      { exact Lt. }
      { intros x Hx Hxv. rewrite Hrest by assumption. apply Hafter; assumption. }
      assert (W : idx k o' = idx v order).
      { rewrite B; [exact S1|apply swap_in, Hk|exact Hkv]. }
      assert (G : forall x, In x (v :: vs) -> (idx v order < idx x o')%nat).
      { intros x [<-|Hx]; [exact D|]. destruct (str_eq_dec x v) as [->|Hxv]; [exact D|].
        specialize (C x Hx Hxv). rewrite Hrest in C by assumption. specialize (Hafter x Hx Hxv). lia. }
      exists o'. split; [exact A|]. split; [|split; [|split; [|exact F]]].
      + intros x Hx Hxk Hnx. rewrite B; [apply S3; [exact Hxk|intros ->; apply Hnx; left; reflexivity|exact Hx]|apply swap_in, Hx|exact Hnx].
      + intros x Hx. specialize (G x Hx). destruct (str_eq_dec x v) as [->|Hxv]; [lia|].
        destruct Hx as [->|Hx]; [congruence|]. specialize (C x Hx Hxv). rewrite Hrest in C by assumption. exact C.
      + intros x Hx. rewrite W. apply G, Hx.
    - assert (Hvk : idx v order <> idx k order).
      { intros Ek. apply Hne. symmetry. apply (idx_inj v k order); assumption. }
      assert (G : forall x, In x (v :: vs) -> (idx k order < idx x order)%nat).
      { intros x [<-|Hx]; [lia|]. destruct (str_eq_dec x v) as [->|Hxv]; [lia|]. specialize (Hafter x Hx Hxv). lia. }
      rewrite late_no_swap.
      + exists order. split; [reflexivity|]. auto.
      + intros x Hx. apply Hi. right. exact Hx.
      + intros x Hx. apply Nat.lt_le_incl, G. right. exact Hx.
  Qed.
End Inner.

(** the whole loop: no file is both included and includer, two lists of includers are equal or disjoint *)
Section Outer.
  Context (ref : fpath -> nat) (all : list (fpath * list fpath)).
  Context (Hflat : forall k vs j ws, In (k, vs) all -> In (j, ws) all -> vs <> [] -> ~ In k ws).
  Context (Hcls : forall k vs j ws v, In (k, vs) all -> In (j, ws) all -> In v vs -> In v ws -> incl vs ws).
  Context (Hsort : forall k vs, In (k, vs) all -> sorted ref vs).

  Lemma order_loop_spec todo : forall order, NoDup order -> (forall k vs, In (k, vs) todo -> In (k, vs) all) ->
    NoDup (map fst todo) ->
    (forall k vs, In (k, vs) all -> In k order /\ incl vs order) ->
    (forall k vs, In (k, vs) all -> agrees ref vs order) ->
    exists order', order_loop todo order = Done order'
      /\ (forall k vs v, In (k, vs) todo -> In v vs -> (idx k order' < idx v order')%nat)
      /\ (forall k vs v, In (k, vs) all -> ~ In k (map fst todo) -> In v vs ->
            (idx k order < idx v order)%nat -> (idx k order' < idx v order')%nat).
  Proof.
    induction todo as [|[k vs] todo IH]; intros order Hn Hsub Hnd Hin Hag; cbn [order_loop].
    - exists order. split; [reflexivity|]. split; [intros k vs v []|auto].
    - assert (Hk : In (k, vs) all) by (apply Hsub; left; reflexivity).
      destruct (Hin k vs Hk) as [K1 K2]. destruct (idx_in k order K1) as (_ & E & _). rewrite E.
      assert (Hkv : ~ In k vs).
      { destruct vs as [|v0 vs0]; [intros []|]. apply (Hflat k (v0 :: vs0) k (v0 :: vs0) Hk Hk). discriminate. }
      destruct (inner_spec ref k vs order Hn K1 (fun v H => K2 v H) Hkv (Hsort k vs Hk) (Hag k vs Hk)) as (o1 & A & B & C & D & F).
      rewrite A. cbn [obind].
      pose proof (swap_values_perm _ _ _ _ A) as P.
      inversion Hnd as [|? ? Hnk Hnd']; subst.
      (* a file with includers that is not [k] does not move *)
      assert (Stay : forall j ws, In (j, ws) all -> ws <> [] -> j <> k -> idx j o1 = idx j order).
      { intros j ws Hj Hw Hjk. apply B; [exact (proj1 (Hin j ws Hj))|exact Hjk|]. exact (Hflat j ws k vs Hj Hk Hw). }
      destruct (IH o1) as (o' & G1 & G2 & G3).
      { eapply Permutation_NoDup; [apply Permutation_sym, P|exact Hn]. }
      { intros j ws H. apply Hsub. right. exact H. }
      { exact Hnd'. }
      { intros j ws H. destruct (Hin j ws H) as [X Y]. split; [eapply Permutation_in; [apply Permutation_sym, P|exact X]|].
        intros x Hx. eapply Permutation_in; [apply Permutation_sym, P|apply Y, Hx]. }
      { intros j ws Hj a b Xa Xb R.
        destruct vs as [|v0 vs0]; [cbn [swap_values] in A; injection A as <-; apply (Hag j ws Hj); assumption|].
        destruct (in_dec str_eq_dec a (v0 :: vs0)) as [Va|Va].
        - assert (Vb : In b (v0 :: vs0)) by (apply (Hcls j ws k (v0 :: vs0) a Hj Hk Xa Va b Xb)).
          apply F; assumption.
        - destruct (in_dec str_eq_dec b (v0 :: vs0)) as [Vb|Vb].
          + exfalso. apply Va. apply (Hcls j ws k (v0 :: vs0) b Hj Hk Xb Vb a Xa).
          + assert (Nk : forall x, In x ws -> x <> k).
            { intros x Hx ->. apply (Hflat k (v0 :: vs0) j ws Hk Hj); [discriminate|exact Hx]. }
            rewrite !B; try (apply (proj2 (Hin j ws Hj)); assumption); try (apply Nk; assumption); try assumption.
            apply (Hag j ws Hj); assumption. }
      exists o'. split; [exact G1|]. split.
      + intros j ws v [H|H] Hv; [|eapply G2; eassumption]. injection H as <- <-.
        apply (G3 k vs v Hk Hnk Hv). apply D, Hv.
      + intros j ws v Hj Hnj Hv Lt. cbn [map fst] in Hnj.
        apply (G3 j ws v Hj); [intros H; apply Hnj; right; exact H|exact Hv|].
        assert (Hjk : j <> k) by (intros ->; apply Hnj; left; reflexivity).
        assert (Hw : ws <> []) by (intros ->; contradiction).
        rewrite (Stay j ws Hj Hw Hjk).
        destruct (in_dec str_eq_dec v vs) as [Hvv|Hvv]; [specialize (C v Hvv); lia|].
        destruct (str_eq_dec v k) as [->|Hvk].
        * (* an includer that is itself a key: its list is empty *)
          destruct vs as [|v0 vs0]; [cbn [swap_values] in A; injection A as <-; exact Lt|].
          exfalso. apply (Hflat k (v0 :: vs0) j ws Hk Hj); [discriminate|exact Hv].
        * rewrite (B v); [exact Lt|apply (proj2 (Hin j ws Hj)), Hv|exact Hvk|exact Hvv].
  Qed.
End Outer.

(** ** The lists of includers follow the order of the files *)
Section Sorted.
  Context (fs : fsys) (ref : fpath -> nat).
  Lemma sorted_snoc l v : sorted ref l -> (forall w, In w l -> w = v \/ (ref w < ref v)%nat) -> sorted ref (l ++ [v]).
  Proof.
    induction l as [|x l IH]; intros Hs Hl; cbn [app].
    - constructor; [intros w []|constructor].
    - inversion Hs as [|? ? H1 H2]; subst. constructor.
      + intros w Hw. apply in_app_or in Hw. destruct Hw as [Hw|[<-|[]]]; [apply H1, Hw|].
        destruct (Hl x (or_introl eq_refl)) as [->|]; auto.
      + apply IH; [exact H2|]. intros w Hw. apply Hl. right. exact Hw.
  Qed.
  Definition all_sorted (m : list (fpath * list fpath)) (p : fpath) : Prop :=
    forall j, sorted ref (entry j m) /\ forall w, In w (entry j m) -> w = p \/ (ref w < ref p)%nat.
  Lemma push_sorted k p m : all_sorted m p -> all_sorted (map_push k p m) p.
  Proof.
    intros H j. destruct (H j) as [A B]. unfold map_push. destruct (str_eq_dec j k) as [->|E].
    - destruct (H k) as [A' B']. unfold entry in *. rewrite m_get_insert_eq. split.
      + apply sorted_snoc; assumption.
      + intros w Hw. apply in_app_or in Hw. destruct Hw as [Hw|[<-|[]]]; auto.
    - unfold entry in *. rewrite m_get_insert_neq by exact E. auto.
  Qed.
  Lemma touch_sorted k p m : all_sorted m p -> all_sorted (map_touch k m) p.
  Proof.
    intros H j. unfold map_touch. destruct (fget k m) eqn:F; [apply H|]. unfold entry. destruct (str_eq_dec j k) as [->|E].
    - rewrite m_get_insert_eq. split; [constructor|intros w []].
    - rewrite m_get_insert_neq by exact E. apply (H j).
  Qed.
  Lemma includer_sorted files : forall m,
    (forall l1 p v l2, files = l1 ++ (p, v) :: l2 -> forall q w, In (q, w) l1 -> (ref q < ref p)%nat) ->
    (forall j, sorted ref (entry j m)) ->
    (forall p v, In (p, v) files -> forall j w, In w (entry j m) -> (ref w < ref p)%nat) ->
    forall j, sorted ref (entry j (fold_left (fun m kv =>
      match pf_file (snd kv) with
      | None => m
      | Some f => fold_left (fun m i => map_push i (fst kv) m) (resolved_includes fs f) (map_touch (fst kv) m)
      end) files m)).
  Proof.
    induction files as [|[p v] files IH]; intros m Hf Hm Hlt j; cbn [fold_left fst snd]; [apply Hm|].
    assert (Hf' : forall l1 p v l2, files = l1 ++ (p, v) :: l2 -> forall q w, In (q, w) l1 -> (ref q < ref p)%nat).
    { intros l1 p' v' l2 E q w Hq. apply (Hf ((p, v) :: l1) p' v' l2) with (w := w); [cbn [app]; rewrite E; reflexivity|right; exact Hq]. }
    assert (Hpf : forall q w, In (q, w) files -> (ref p < ref q)%nat).
    { intros q w Hq. apply in_split in Hq. destruct Hq as (l1 & l2 & E). apply (Hf ((p, v) :: l1) q w l2) with (w := v).
      - rewrite E. reflexivity.
      - left. reflexivity. }
    destruct (pf_file v) as [f|].
    - assert (All : all_sorted (fold_left (fun m i => map_push i p m) (resolved_includes fs f) (map_touch p m)) p).
      { assert (A0 : all_sorted (map_touch p m) p).
        { apply touch_sorted. intros i. split; [apply Hm|]. intros w Hw. right. eapply Hlt; [left; reflexivity|exact Hw]. }
        revert A0. generalize (map_touch p m). induction (resolved_includes fs f) as [|i is IHi]; intros m0 A0; [exact A0|].
        cbn [fold_left]. apply IHi, push_sorted, A0. }
      apply IH; [exact Hf'|intros i; apply All|].
      intros q w Hq i x Hx. specialize (Hpf q w Hq). destruct (proj2 (All i) x Hx) as [->|]; lia.
    - apply IH; [exact Hf'|exact Hm|]. intros q w Hq i x Hx. specialize (Hpf q w Hq).
      specialize (Hlt p v (or_introl eq_refl) i x Hx). lia.
  Qed.
End Sorted.

Lemma idx_split l1 x l2 : NoDup (l1 ++ x :: l2) -> idx x (l1 ++ x :: l2) = length l1.
Proof.
  intros H. apply idx_at; [exact H|]. rewrite nth_error_app2, Nat.sub_diag by lia. reflexivity.
Qed.

Lemma idx_lt l1 q l2 p l3 : NoDup (l1 ++ q :: l2 ++ p :: l3) ->
  (idx q (l1 ++ q :: l2 ++ p :: l3) < idx p (l1 ++ q :: l2 ++ p :: l3))%nat.
Proof.
  intros H. rewrite (idx_split l1 q _ H).
  assert (E : l1 ++ q :: l2 ++ p :: l3 = (l1 ++ q :: l2) ++ p :: l3) by (rewrite <- app_assoc; reflexivity).
  rewrite E in *. rewrite (idx_split _ p _ H), app_length. cbn. lia.
Qed.

(** no included file includes, and two files with a common includer have the same includers *)
Definition two_level (fs : fsys) (files : list (fpath * pfile)) : Prop :=
  (forall p q r, stored_includes fs files p q -> ~ stored_includes fs files q r)
  /\ (forall p p' q q', stored_includes fs files p q -> stored_includes fs files p q' ->
        stored_includes fs files p' q -> stored_includes fs files p' q').

Lemma key_order_flat o fs files : order_ok o -> NoDup (keys files) -> closed_files fs files -> two_level fs files ->
  exists order, compute_key_order o fs files = Done order
    /\ forall p q, stored_includes fs files p q -> (idx q order < idx p order)%nat.
Proof.
  intros (H1 & H2 & _) Hn Hc [Hf1 Hf2]. unfold compute_key_order.
  set (fl := o_files o files). set (m := includer_map fs fl). set (ref := fun x => idx x (m_keys fl)).
  assert (Hn' : NoDup (keys fl)).
  { eapply Permutation_NoDup; [|exact Hn]. apply Permutation_sym, Permutation_map, H1. }
  assert (I : forall x v, In (x, v) fl <-> In (x, v) files).
  { intros x v. split; apply Permutation_in; [|apply Permutation_sym]; apply H1. }
  assert (P : forall x, In x (m_keys fl) <-> In x (keys files)).
  { intros x. unfold m_keys. split; apply Permutation_in; [|apply Permutation_sym]; apply Permutation_map, H1. }
  destruct (includer_map_spec fs fl) as (A & B & C). fold m in A, B, C.
  assert (Em : forall k vs, In (k, vs) (o_map o m) <-> fget k m = Some vs).
  { intros k vs. split.
    - intros H. apply (Permutation_in _ (H2 _)) in H. apply m_in_get; assumption.
    - intros H. apply m_get_in in H. eapply Permutation_in; [apply Permutation_sym, H2|exact H]. }
  assert (Inc : forall k vs v, In (k, vs) (o_map o m) -> (In v vs <-> stored_includes fs files v k)).
  { intros k vs v H. apply Em in H. specialize (A k v). unfold entry in A. rewrite H in A. rewrite A.
    rewrite (stored_includes_in fs files v k Hn). split; intros (w & X & Y); exists w; (split; [apply I, X|exact Y]). }
  destruct (order_loop_spec ref (o_map o m)) with (todo := o_map o m) (order := m_keys fl) as (order & O1 & O2 & _).
  - intros k vs j ws Hk Hj Hv Hw. destruct vs as [|v vs]; [congruence|].
    apply (Inc j ws k Hj) in Hw. apply (Hf1 v k j); [apply (Inc k (v :: vs) v Hk); left; reflexivity|exact Hw].
  - intros k vs j ws v Hk Hj Hv Hw x Hx. apply (Inc j ws x Hj). apply (Inc k vs x Hk) in Hx.
    apply (Inc k vs v Hk) in Hv. apply (Inc j ws v Hj) in Hw. exact (Hf2 v x k j Hv Hw Hx).
  - intros k vs Hk. apply Em in Hk.
    assert (S : sorted ref (entry k m)).
    { unfold m, includer_map. apply includer_sorted.
      - intros l1 p v l2 E q w Hq. apply in_split in Hq. destruct Hq as (l3 & l4 & ->).
        unfold ref. assert (Ek : m_keys fl = map fst l3 ++ q :: map fst l4 ++ p :: map fst l2).
        { unfold m_keys. rewrite E, !map_app. cbn [map fst]. rewrite <- app_assoc. reflexivity. }
        rewrite Ek. apply idx_lt. rewrite <- Ek. exact Hn'.
      - intros i. constructor.
      - intros p v _ i w []. }
    unfold entry in S. rewrite Hk in S. exact S.
  - exact Hn'.
  - auto.
  - eapply Permutation_NoDup; [|exact C]. apply Permutation_sym, Permutation_map, H2.
  - intros k vs Hk. split.
    + apply P. apply Em in Hk. apply m_get_key in Hk. apply B in Hk. destruct Hk as [(v & X & _)|(x & v & X & Y)].
      * apply I, (in_map fst) in X. exact X.
      * apply (Hc x k), stored_includes_in; [exact Hn|]. exists v. split; [apply I, X|exact Y].
    + intros v Hv. apply P. apply (Inc k vs v Hk) in Hv. destruct Hv as (w & _ & _ & X & _). eapply m_get_key, X.
  - intros k vs Hk a b _ _ R. exact R.
  - exists order. split; [exact O1|]. intros p q Hpq.
    assert (Hq : In q (m_keys m)).
    { apply B. right. apply stored_includes_in in Hpq; [|exact Hn]. destruct Hpq as (v & X & Y). exists p, v. split; [apply I, X|exact Y]. }
    destruct (m_get_some_key str_eq_dec q m Hq) as [vs Hvs]. apply Em in Hvs. apply (O2 q vs p Hvs). apply (Inc q vs p Hvs), Hpq.
Qed.
