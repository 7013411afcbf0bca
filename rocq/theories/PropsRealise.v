(** C98: the results of an analysis, over all iteration orders, are the ones that the specification allows *)
From Verif Require Import AnalysisProofs GuardSteer PropsAnalysis.
From Coq Require Import Permutation.

(** the entries of a path come first *)
Definition at_path (p : npath) (e : npath * node) : bool := if npath_eq_dec (fst e) p then true else false.
Definition front (p : npath) (m : list (npath * node)) : list (npath * node) :=
  filter (at_path p) m ++ filter (fun e => negb (at_path p e)) m.
Lemma front_perm p m : Permutation (front p m) m.
Proof. eapply Permutation_trans; [apply Permutation_app_comm|apply filter_both]. Qed.
Lemma front_find l p n m : NoDup (map fst m) -> In (p, n) m -> label_is (nd_label n) l -> find_label l (front p m) = Some p.
Proof.
  intros N Hi Hl. unfold front. assert (X : In (p, n) (filter (at_path p) m)).
  { apply filter_In. split; [exact Hi|]. unfold at_path. cbn [fst]. destruct (npath_eq_dec p p); [reflexivity|contradiction]. }
  assert (Y : forall q k, In (q, k) (filter (at_path p) m) -> q = p /\ k = n).
  { intros q k K. apply filter_In in K. destruct K as [K1 K2]. unfold at_path in K2. cbn [fst] in K2.
    destruct (npath_eq_dec q p) as [->|]; [|discriminate]. split; [reflexivity|].
    apply (m_in_get npath_eq_dec) in K1; [|exact N]. apply (m_in_get npath_eq_dec) in Hi; [|exact N]. congruence. }
  destruct (filter (at_path p) m) as [|[q k] r]; [destruct X|]. destruct (Y q k (or_introl eq_refl)) as [-> ->].
  cbn [app find_label]. rewrite (proj2 (has_label_spec l n) Hl). reflexivity.
Qed.

Definition same_at (o o' : an_oracle) (t : nat) : Prop := o_guard o t = o_guard o' t /\ o_flat o t = o_flat o' t.
Definition one (g : fpath -> list fpath -> list fpath) (f : list (npath * node) -> list (npath * node)) : an_oracle :=
  mkOracle (fun _ => g) (fun _ => f).
Lemma resolve_local o o' r a c : same_at o o' (an_tick a) -> resolve_reference o r a c = resolve_reference o' r a c.
Proof. intros [_ E]. unfold resolve_reference. rewrite E. reflexivity. Qed.
Lemma primary_local o o' fs pj file p a c : same_at o o' (an_tick a) ->
  analyze_primary o fs pj file p a c = analyze_primary o' fs pj file p a c.
Proof.
  intros E. destruct p as [[t|t|x l|i|t r|t r]|n|r|s]; cbn [analyze_primary]; try reflexivity.
  - unfold analyze_include. destruct (include_path fs i); [|reflexivity]. rewrite (proj1 E). reflexivity.
  - rewrite (resolve_local o o' _ _ _ E). reflexivity.
  - unfold analyze_referenced_node. rewrite (resolve_local o o' _ _ _ E). reflexivity.
Qed.
(** an element asks for at most one order *)
Lemma resolve_tick o r a c p a' c' : resolve_reference o r a c = (p, (a', c')) ->
  an_tick a' = S (an_tick a) \/ an_tick a' = an_tick a /\ forall o', resolve_reference o' r a c = (p, (a', c')).
Proof.
  unfold resolve_reference. destruct (wt_item r) as [l|q].
  - destruct (find_label l _); intros E; injection E as <- <- <-; left; reflexivity.
  - intros E. injection E as <- <- <-. right. split; reflexivity.
Qed.
Lemma primary_tick o fs pj file p a c a' c' : analyze_primary o fs pj file p a c = Done (a', c') ->
  an_tick a' = S (an_tick a)
  \/ an_tick a' = an_tick a /\ forall o', analyze_primary o' fs pj file p a c = Done (a', c').
Proof.
  destruct p as [[t|t|x l|i|t r|t r]|n|r|s]; cbn [analyze_primary]; intros E;
    try (injection E as <- <-; right; split; reflexivity).
  - unfold analyze_include in *. destruct (include_path fs i) as [p|e]; [|injection E as <- <-; right; split; reflexivity].
    left. destruct (guard_add str_eq_dec _ p _ _) as [[r g]| |]; cbn [obind] in E; try discriminate E. 
    destruct r; [injection E as <- _; reflexivity|]. destruct (get_file fs pj p) as [f|]; [|injection E as <- _; reflexivity].
    destruct (pf_ctx f); injection E as <- _; reflexivity.
  - injection E as E. destruct (resolve_reference o r a c) as [p [a1 c1]] eqn:K. cbn [snd] in E. injection E as -> ->.
    destruct (resolve_tick _ _ _ _ _ _ _ K) as [T|[T U]]; [left; exact T|right; split; [exact T|]]. intros o'. rewrite U. reflexivity.
  - destruct (analyze_referenced_node o r a c) as [a1 c1] eqn:K. injection E as <- <-. unfold analyze_referenced_node in *.
    destruct (file_type_eqb (fc_type c) DtSource); [|injection K as <- <-; right; split; reflexivity].
    destruct (resolve_reference o (rn_reference r) a c) as [p [a2 c2]] eqn:L. injection K as <- <-.
    destruct (resolve_tick _ _ _ _ _ _ _ L) as [T|[T U]]; [left; exact T|right; split; [exact T|]]. intros o'. rewrite U. reflexivity.
Qed.
Lemma primaries_local o o' fs pj file l : forall a c, (forall t, (an_tick a <= t)%nat -> same_at o o' t) ->
  analyze_primaries o fs pj file l a c = analyze_primaries o' fs pj file l a c.
Proof.
  induction l as [|p l IH]; intros a c H; cbn [analyze_primaries]; [reflexivity|].
  rewrite (primary_local o o' fs pj file p a c) by (apply H; lia).
  destruct (analyze_primary o' fs pj file p a c) as [[a' c']| |] eqn:E; cbn [obind]; try reflexivity.
  apply IH. intros t Ht. apply H. apply primary_tick in E. destruct E as [E|[E _]]; lia.
Qed.

Lemma alike_eq a b : alike a b -> dg_kind a <> CyclicDependencyError -> a = b.
Proof. intros (H1 & H2 & H3 & H4) K. specialize (H4 K). destruct a, b. cbn in *. congruence. Qed.
Lemma alikes_eq l l' : Forall2 alike l l' -> (forall d, In d l -> dg_kind d <> CyclicDependencyError) -> l = l'.
Proof.
  induction 1 as [|a b l l' H _ IH]; intros K; [reflexivity|]. rewrite (alike_eq a b H) by (apply K; left; reflexivity).
  f_equal. apply IH. intros d Hd. apply K. right. exact Hd.
Qed.

Section Real.
  Context (fs : fsys) (pj : project) (file : dts_file) (ft : file_type) (Hpj : project_ok pj).
  Notation src := (fl_source file).
  Notation flags_ok := (flags_ok ft).

  Definition realised o ps ds p dp h' es a c : Prop :=
    exists a' c', analyze_primary o fs pj file p a c = Done (a', c')
      /\ adds c c' es (all_references [p]) /\ rep (ds ++ dp) c' /\ flags_ok (ps ++ [p]) c'
      /\ an_guard a' = guard_after str_eq_dec h'.

  (** where there is nothing to choose any order does *)
  Lemma forced ps ds h p dp h' es a c : flags_ok ps c -> rep ds c -> an_guard a = guard_after str_eq_dec h ->
    element fs pj src ft ps ds h p dp h' es ->
    (forall r l q n q' m, p = PReferencedNode r -> wt_item (rn_reference r) = RefLabel l -> ft = DtSource ->
       path_means ds q n -> path_means ds q' m -> label_is (nd_label n) l -> label_is (nd_label m) l -> q = q') ->
    (forall d, In d es -> dg_kind d <> CyclicDependencyError) ->
    realised o_id ps ds p dp h' es a c.
  Proof.
    intros F R G H U K.
    destruct (primary_spec o_id fs pj file ft o_id_ok Hpj ps ds h p a c F R G) as (a' & c' & dp2 & h2 & es2 & E & H2 & A & R2 & F2 & G2).
    assert (X1 : elements fs pj src ft ps ds h [p] (ds ++ dp) h' (es ++ [])) by (econstructor; [exact H|constructor]).
    assert (X2 : elements fs pj src ft ps ds h [p] (ds ++ dp2) h2 (es2 ++ [])) by (econstructor; [exact H2|constructor]).
    destruct (elements_fun _ _ _ _ _ _ _ _ _ _ _ _ _ _ X1 X2) as (Ed & <- & Ee).
    - intros l1 r l2 k El Er Et ds' h1 e1 Hl q n q' m. destruct l1 as [|x l1]; [|destruct l1; discriminate El].
      injection El as -> _. apply elements_nil_inv in Hl. destruct Hl as (-> & _ & _). eapply U; [reflexivity|exact Er|exact Et].
    - apply app_inv_head in Ed. subst dp2. rewrite !app_nil_r in Ee. apply alikes_eq in Ee; [|exact K]. subst es2.
      exists a', c'. split; [exact E|]. split; [exact A|]. split; [exact R2|]. split; [exact F2|exact G2].
  Qed.

  Lemma primary_real ps ds h p dp h' es a c : flags_ok ps c -> rep ds c -> an_guard a = guard_after str_eq_dec h ->
    element fs pj src ft ps ds h p dp h' es ->
    exists g f, (forall n s, Permutation (g n s) s) /\ (forall m, Permutation (f m) m) /\ realised (one g f) ps ds p dp h' es a c.
  Proof.
    intros F R G H.
    assert (Free : (forall r l q n q' m, p = PReferencedNode r -> wt_item (rn_reference r) = RefLabel l -> ft = DtSource ->
       path_means ds q n -> path_means ds q' m -> label_is (nd_label n) l -> label_is (nd_label m) l -> q = q') ->
      (forall d, In d es -> dg_kind d <> CyclicDependencyError) ->
      exists g f, (forall n s, Permutation (g n s) s) /\ (forall m, Permutation (f m) m) /\ realised (one g f) ps ds p dp h' es a c).
    { intros U K. exists (fun _ s => s), (fun m => m). split; [intros; apply Permutation_refl|]. split; [intros; apply Permutation_refl|].
      apply (forced ps ds h p dp h' es a c); assumption. }
    inversion H as [t e X|t|x l|t r|s|i ds1 h1 e X|t r q found e X Y|n|r q found e T X Y|r T]; subst;
      lazymatch goal with K : included _ _ _ _ _ _ _ _ |- _ => idtac | _ => try (apply Free; [intros; discriminate|]) end.
    - intros d Hd. inversion X; subst; try (destruct Hd as [<-|[]]; discriminate); destruct Hd.
    - intros d [].
    - intros d [].
    - intros d [].
    - intros d [].
    - inversion X as [e0 X1|q cycle X1 X2|q X1 X2 X3|q f0 d0 e1 X1 X2 X3 X4 X5]; subst.
      + apply Free; [intros; discriminate|]. intros d [<-|[]]. discriminate.
      + exists (steer str_eq_dec cycle), (fun m => m). split; [apply steer_perm|]. split; [intros; apply Permutation_refl|].
        do 2 eexists. cbn [analyze_primary]. unfold analyze_include. rewrite X1, G. cbn [o_guard one].
        rewrite (guard_add_named str_eq_dec h q [src] cycle X2). cbn [obind]. split; [reflexivity|].
        split; [unfold adds; cbn; rewrite app_nil_r; auto|]. split; [rewrite app_nil_r; exact R|]. split; [|reflexivity].
        destruct F as (F1 & F2 & F3 & F4). eapply flags_snoc; [repeat split; try apply F2; try apply F3; try apply F4; exact F1| | | |]; reflexivity.
      + apply Free; [intros; discriminate|]. intros d [].
      + apply Free; [intros; discriminate|]. intros d Hd. destruct X5 as [[_ ->]|[_ ->]]; [destruct Hd as [<-|[]]; discriminate|destruct Hd].
    - intros d Hd. inversion Y; subst; try destruct Hd as [<-|[]]; try discriminate; destruct Hd.
    - intros d Hd. apply in_flat_map in Hd. destruct Hd as (pr & _ & Hd). unfold compatible_diags in Hd. destruct (str_eq_dec _ _); [|destruct Hd].
      apply in_map_iff in Hd. destruct Hd as (v & <- & _). discriminate.
    - assert (K : forall d, In d (e ++ flat_map compatible_diags (element_properties (PReferencedNode r))) -> dg_kind d <> CyclicDependencyError).
      { intros d Hd. apply in_app_or in Hd. destruct Hd as [Hd|Hd].
        - inversion Y; subst; try destruct Hd as [<-|[]]; try discriminate; destruct Hd.
        - apply in_flat_map in Hd. destruct Hd as (pr & _ & Hd). unfold compatible_diags in Hd. destruct (str_eq_dec _ _); [|destruct Hd].
          apply in_map_iff in Hd. destruct Hd as (v & <- & _). discriminate. }
      inversion X as [q' n X1 X2|q' X1 X2|l q' n X1 X2 X3|l X1 X2]; subst.
      + apply Free; [|exact K]. intros r0 l q0 n0 q' m E1 E2. injection E1 as <-. congruence.
      + apply Free; [|exact K]. intros r0 l q0 n0 q' m E1 E2. injection E1 as <-. congruence.
      + exists (fun _ s => s), (front q). split; [intros; apply Permutation_refl|]. split; [apply front_perm|].
        inversion Y; subst. unfold realised. cbn [analyze_primary]. unfold analyze_referenced_node.
        pose proof F as (F1 & _). rewrite F1, (proj2 (type_eqb _ _) T). unfold resolve_reference. rewrite <- X3. cbn [o_flat one].
        rewrite (front_find l q n); [|apply R|apply (m_get_in npath_eq_dec); apply R; exact X1|exact X2].
        rewrite payload_all. destruct (steps_grow c (items_defs q (pl_items (rn_payload r)))) as (S1 & S2 & S3).
        do 2 eexists. split; [reflexivity|]. split.
        { rewrite <- element_refs. cbn [element_properties]. split; cbn [fc_diags fc_unres set_first_non_include app].
          - rewrite S1, (items_path _ q []). reflexivity.
          - rewrite S2, (items_path _ q []). reflexivity. }
        split.
        { eapply rep_same; [|apply rep_steps; [exact R|apply items_ok]]. reflexivity. }
        split; [|exact G]. apply flags_eqs in S3. destruct S3 as (K1 & K2 & K3 & K4).
        eapply flags_snoc; [exact F| | | |]; cbn; auto.
      + apply Free; [|exact K]. intros r0 l0 q0 n0 q' m E1 E2 _ E3 _ E4 _. injection E1 as <-. exfalso.
        assert (l = l0) as <- by congruence. exact (X1 _ _ E3 E4).
    - apply Free.
      + intros r0 l q n q' m E1 _ E3. congruence.
      + intros d Hd. apply in_flat_map in Hd. destruct Hd as (pr & _ & Hd). unfold compatible_diags in Hd. destruct (str_eq_dec _ _); [|destruct Hd].
        apply in_map_iff in Hd. destruct Hd as (v & <- & _). discriminate.
  Qed.

  (** an order for one query, then others *)
  Definition at_tick (t : nat) (g : fpath -> list fpath -> list fpath) (f : list (npath * node) -> list (npath * node)) (o : an_oracle) : an_oracle :=
    mkOracle (fun t' => if Nat.eq_dec t' t then g else o_guard o t') (fun t' => if Nat.eq_dec t' t then f else o_flat o t').

  Lemma primaries_real l : forall ps ds h ds' h' es a c, flags_ok ps c -> rep ds c -> an_guard a = guard_after str_eq_dec h ->
    elements fs pj src ft ps ds h l ds' h' es ->
    exists o a' c', oracle_ok o /\ analyze_primaries o fs pj file l a c = Done (a', c')
      /\ adds c c' es (all_references l) /\ rep ds' c' /\ flags_ok (ps ++ l) c' /\ an_guard a' = guard_after str_eq_dec h'.
  Proof.
    induction l as [|p l IH]; intros ps ds h ds' h' es a c F R G H.
    - apply elements_nil_inv in H. destruct H as (-> & -> & ->). exists o_id, a, c. split; [exact o_id_ok|]. split; [reflexivity|].
      split; [unfold adds; cbn; rewrite !app_nil_r; auto|]. rewrite app_nil_r. auto.
    - apply elements_cons_inv in H. destruct H as (dp & h1 & ep & e2 & A & B & ->).
      destruct (primary_real ps ds h p dp h1 ep a c F R G A) as (g & f & Pg & Pf & a1 & c1 & E & (H2 & H3) & H4 & H5 & H6).
      destruct (IH _ _ _ _ _ _ _ _ H5 H4 H6 B) as (o & a' & c' & Ho & E' & (K2 & K3) & K4 & K5 & K6).
      assert (X : exists o2, oracle_ok o2 /\ analyze_primaries o2 fs pj file (p :: l) a c = Done (a', c')).
      { destruct (primary_tick _ _ _ _ _ _ _ _ _ E) as [T|[T U]].
        - exists (at_tick (an_tick a) g f o). split.
          + split; intros t; cbn [o_guard o_flat at_tick]; destruct (Nat.eq_dec t (an_tick a)); [exact Pg|apply Ho|exact Pf|apply Ho].
          + cbn [analyze_primaries]. rewrite (primary_local _ (one g f)), E.
            * cbn [obind]. rewrite <- E'. apply primaries_local. intros t Ht. unfold same_at. cbn [o_guard o_flat at_tick].
              destruct (Nat.eq_dec t (an_tick a)); [lia|split; reflexivity].
            * unfold same_at. cbn [o_guard o_flat at_tick one]. destruct (Nat.eq_dec (an_tick a) (an_tick a)); [split; reflexivity|contradiction].
        - exists o. split; [exact Ho|]. cbn [analyze_primaries]. rewrite U. exact E'. }
      destruct X as (o2 & Ho2 & E2). exists o2, a', c'. split; [exact Ho2|]. split; [exact E2|]. split.
      { split; [rewrite K2, H2, app_assoc; reflexivity|]. rewrite K3, H3, <- app_assoc. f_equal.
        unfold all_references, all_properties. cbn [flat_map]. rewrite app_nil_r, flat_map_app. reflexivity. }
      split; [exact K4|]. split; [|exact K6]. rewrite <- app_assoc in K5. exact K5.
  Qed.
End Real.

(** ** C98: the results that are possible with some iteration orders are exactly those that the specification allows. [L] and [P] are
    the lookups of labels and of paths. The orders may be queried from any point on. *)
Theorem C98_results_exact : forall fs pj file ft h a es (L : str -> option labeled) (P : npath -> option node), project_ok pj ->
  an_guard a = guard_after str_eq_dec h ->
  (exists o ac a', oracle_ok o /\ analyze_file o fs pj file ft a = Done ((ac, es), a')
     /\ (forall l, m_get str_eq_dec l (ac_labels ac) = L l) /\ (forall p, m_get npath_eq_dec p (ac_flat ac) = P p))
  <-> (exists ds h', analysis_of fs pj (fl_source file) ft h (fl_elements file) ds h' es
     /\ (forall l x, L l = Some x <-> label_means ds l x) /\ (forall p n, P p = Some n <-> path_means ds p n)).
Proof.
  intros fs pj file ft h a es L P Hpj G. split.
  - intros (o & ac & a' & Ho & E & HL & HP).
    destruct (file_spec o fs pj file ft Ho Hpj h a G) as (ac2 & es2 & a2 & ds & h' & E2 & An & _ & ML & MP & _).
    rewrite E in E2. injection E2 as <- <- <-. exists ds, h'. split; [exact An|].
    split; intros; [rewrite <- HL; apply ML|rewrite <- HP; apply MP].
  - intros (ds & h' & An & HL & HP). inversion An as [? ? e1 vs rs H1 H2 H3]; subst.
    destruct (primaries_real fs pj file ft Hpj _ _ _ _ _ _ _ a _ (flags_new ft) (rep_new ft) G H1) as (o & a' & c' & Ho & E & A & R & F & _).
    destruct (finish_spec o fs pj file ft a a' c' ds e1 E A R F) as (ac & v2 & r2 & K1 & K2 & K3 & _ & ML & MP).
    rewrite (version_fun _ _ _ _ _ K2 H2), (references_fun _ _ _ _ _ _ K3 H3) in K1.
    exists o, ac, a'. split; [exact Ho|]. split; [exact K1|]. split.
    + intros l. destruct (L l) as [x|] eqn:El; [apply ML, HL, El|].
      destruct (m_get str_eq_dec l (ac_labels ac)) as [x|] eqn:K; [|reflexivity]. apply ML, HL in K. congruence.
    + intros p. destruct (P p) as [x|] eqn:El; [apply MP, HP, El|].
      destruct (m_get npath_eq_dec p (ac_flat ac)) as [x|] eqn:K; [|reflexivity]. apply MP, HP in K. congruence.
Qed.
Print Assumptions C98_results_exact.

(** the label [l] of [ex32] is on two nodes; both choices are made *)
Definition zpath (s : str) : npath := map (fun x => mkNN x None) [s; match s with [97] => bs "x" | _ => bs "y" end; bs "z"].
Example C98_case :
  project_ok empty_project /\ an_guard analysis_new = guard_after str_eq_dec []
  /\ (exists ds h', analysis_of no_fs empty_project (fl_source ex32) DtSource [] (fl_elements ex32) ds h' []
      /\ exists n, path_means ds (zpath (bs "a")) n)
  /\ (exists ds h' es, analysis_of no_fs empty_project (fl_source ex32) DtSource [] (fl_elements ex32) ds h' es
      /\ kinds es = [UnresolvedReference] /\ exists n, path_means ds (zpath (bs "b")) n).
Proof.
  split; [exact empty_ok|]. split; [reflexivity|]. split.
  - assert (E1 : exists ac a', analyze_file o_rev no_fs empty_project ex32 DtSource analysis_new = Done ((ac, []), a')
      /\ exists n, m_get npath_eq_dec (zpath (bs "a")) (ac_flat ac) = Some n).
    { do 2 eexists. split; [vm_compute; reflexivity|]. eexists. vm_compute. reflexivity. }
    destruct E1 as (ac & a' & E & n & Hn).
    destruct (analysed_spec _ _ _ _ _ _ _ empty_ok (run_analysed _ _ _ _ _ _ o_rev_ok E)) as (ds & h' & K1 & _ & _ & K2).
    exists ds, h'. split; [exact K1|]. exists n. apply K2, Hn.
  - assert (E1 : exists ac es a', analyze_file o_id no_fs empty_project ex32 DtSource analysis_new = Done ((ac, es), a')
      /\ kinds es = [UnresolvedReference] /\ exists n, m_get npath_eq_dec (zpath (bs "b")) (ac_flat ac) = Some n).
    { do 3 eexists. split; [vm_compute; reflexivity|]. split; [vm_compute; reflexivity|]. eexists. vm_compute. reflexivity. }
    destruct E1 as (ac & es & a' & E & Hk & n & Hn).
    destruct (analysed_spec _ _ _ _ _ _ _ empty_ok (run_analysed _ _ _ _ _ _ o_id_ok E)) as (ds & h' & K1 & _ & _ & K2).
    exists ds, h', es. split; [exact K1|]. split; [exact Hk|]. exists n. apply K2, Hn.
Qed.
