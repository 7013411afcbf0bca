(** Looking up the item at a cursor: C44, C45 *)
From Verif Require Import Parser Visitor LexSpec ReaderProofs ParserBase ParserSafe ParserSafe2 TreeSpec TreeProofs PropsParser PropsReport.
From Coq Require Import ZifyBool.

(** ** The things a cursor can be on, in source order *)
Inductive spot :=
| SLabel (l : wtok str)
| SRef (r : wtok reference)
| SInclude (i : include).
Definition spot_item (s : spot) : item_at_cursor :=
  match s with SLabel l => AtLabel l | SRef r => AtReference (wt_item r) | SInclude i => AtInclude i end.
Definition spot_span (s : spot) : span :=
  match s with SLabel l => wt_span l | SRef r => wt_span r | SInclude i => include_span i end.
(** the position [c] is on the spot: not before its start, and before its end *)
Definition on_spot (c : position) (s : spot) : Prop :=
  pos_le (span_start (spot_span s)) c /\ pos_lt c (span_end (spot_span s)).

Definition label_spots (l : option (wtok str)) : list spot := match l with Some l => [SLabel l] | None => [] end.
Definition cell_spots (c : cell) : list spot := match c with CReference r => [SRef r] | _ => [] end.
Definition value_spots (v : prop_value) : list spot :=
  match v with
  | PVCells _ cs _ => flat_map cell_spots cs
  | PVReference r => [SRef r]
  | _ => []
  end.
Definition property_spots (p : property) : list spot := label_spots (pr_label p) ++ flat_map value_spots (pr_values p).
Fixpoint node_spots (n : node) : list spot :=
  match n with
  | mkNode l _ (mkPayload its _) _ =>
    label_spots l ++ flat_map (fun i => match i with
                                        | IProperty p => property_spots p
                                        | INode n => node_spots n
                                        | _ => []
                                        end) its
  end.
Definition item_spots (i : item) : list spot :=
  match i with IProperty p => property_spots p | INode n => node_spots n | _ => [] end.
Definition primary_spots (p : primary) : list spot :=
  match p with
  | PDirective (AInclude i) => [SInclude i]
  | PDirective (ADeletedNode _ r) | PDirective (AOmitIfNoRef _ r) => [SRef r]
  | PDirective _ => []
  | PRoot n => node_spots n
  | PReferencedNode r => SRef (rn_reference r) :: flat_map item_spots (pl_items (rn_payload r))
  | PCStyleInclude _ => []
  end.
Definition file_spots (f : dts_file) : list spot := flat_map primary_spots (fl_elements f).

(** directives for which the code does not compare positions *)
Definition blind (p : primary) : option (wtok reference) :=
  match p with
  | PDirective (ADeletedNode _ r) | PDirective (AOmitIfNoRef _ r) => Some r
  | _ => None
  end.

(** ** The code returns the first spot the cursor is on *)
Lemma contains_spec s c : span_contains s c = true <-> pos_le (span_start s) c /\ pos_lt c (span_end s).
Proof. unfold span_contains, pos_leb, pos_ltb, pos_le, pos_lt. lia. Qed.
Definition first_at (c : position) (l : list spot) : option item_at_cursor :=
  find_map (fun s => if span_contains (spot_span s) c then Some (spot_item s) else None) l.
Lemma first_app c a b : first_at c (a ++ b) = match first_at c a with Some x => Some x | None => first_at c b end.
Proof.
  unfold first_at. induction a as [|s a IH]; [reflexivity|]. cbn [app find_map]. destruct (span_contains _ _); [reflexivity|exact IH].
Qed.
Lemma first_flat {A} c (f : A -> list spot) (g : A -> option item_at_cursor) l :
  Forall (fun x => g x = first_at c (f x)) l -> find_map g l = first_at c (flat_map f l).
Proof.
  induction 1 as [|x l Hx _ IH]; [reflexivity|]. cbn [find_map flat_map]. rewrite first_app, Hx, IH. reflexivity.
Qed.
Lemma first_in c l x : first_at c l = Some x -> exists s, In s l /\ spot_item s = x /\ on_spot c s.
Proof.
  unfold first_at. induction l as [|s l IH]; cbn [find_map]; [discriminate|].
  destruct (span_contains (spot_span s) c) eqn:E.
  - intros H. injection H as <-. apply contains_spec in E. exists s. split; [left; reflexivity|auto].
  - intros H. destruct (IH H) as (s' & H1 & H2). exists s'. split; [right; exact H1|exact H2].
Qed.
Lemma first_none c l : (forall s, In s l -> ~ on_spot c s) -> first_at c l = None.
Proof.
  intros H. destruct (first_at c l) as [x|] eqn:E; [|reflexivity]. apply first_in in E. destruct E as (s & H1 & _ & H2).
  destruct (H s H1 H2).
Qed.

Lemma first_one c s : first_at c [s] = if span_contains (spot_span s) c then Some (spot_item s) else None.
Proof. unfold first_at. cbn [find_map]. destruct (span_contains _ _); reflexivity. Qed.
Lemma label_first c l : label_at l c = first_at c (label_spots l).
Proof. destruct l; [symmetry; apply first_one|reflexivity]. Qed.
Lemma value_first c v : value_at c v = first_at c (value_spots v).
Proof.
  destruct v as [s|a cs b|r|a ss b]; cbn [value_at value_spots]; try reflexivity; [|symmetry; apply first_one].
  apply first_flat. apply Forall_forall. intros [n|r|] _; try reflexivity. symmetry. apply first_one.
Qed.
Lemma property_first c p : property_at c p = first_at c (property_spots p).
Proof.
  unfold property_at, property_spots. rewrite first_app, label_first.
  rewrite <- (first_flat c value_spots (value_at c)) by (apply Forall_forall; intros v _; apply value_first). reflexivity.
Qed.
Lemma payload_find c its e : payload_at c (mkPayload its e) = find_map (nitem_at c) its.
Proof. cbn [payload_at]. induction its as [|i its IH]; [reflexivity|]. cbn [find_map]. rewrite <- IH. reflexivity. Qed.
Lemma node_first c n : node_at c n = first_at c (node_spots n).
Proof.
  apply (node_rect' (fun n => node_at c n = first_at c (node_spots n)) (fun i => nitem_at c i = first_at c (item_spots i))); clear n.
  - intros l nm its e o H. cbn [node_at node_spots]. rewrite payload_find, first_app, label_first.
    change (fun i : item => match i with IProperty p => property_spots p | INode n => node_spots n | _ => [] end) with item_spots.
    rewrite (first_flat c item_spots (nitem_at c) its H). reflexivity.
  - intros p. apply property_first.
  - intros n H. exact H.
  - reflexivity.
  - reflexivity.
Qed.
Lemma item_first c i : nitem_at c i = first_at c (item_spots i).
Proof. destruct i as [p|n|t n|t n]; cbn [nitem_at item_spots]; [apply property_first|apply node_first|reflexivity|reflexivity]. Qed.
Lemma primary_first c p : blind p = None -> primary_at c p = first_at c (primary_spots p).
Proof.
  intros H. destruct p as [d|n|[r [its e]]|s]; cbn [primary_at primary_spots].
  - destruct d; try discriminate; try reflexivity. symmetry. apply first_one.
  - apply node_first.
  - unfold ref_node_at, first_at, ref_at. cbn [rn_reference rn_payload pl_items find_map spot_span spot_item].
    destruct (span_contains _ _); [reflexivity|]. rewrite payload_find. apply first_flat, Forall_forall. intros i _. apply item_first.
  - reflexivity.
Qed.
Lemma find_map_app {A B} (f : A -> option B) a b : find_map f (a ++ b) = match find_map f a with Some x => Some x | None => find_map f b end.
Proof. induction a as [|x a IH]; [reflexivity|]. cbn [app find_map]. destruct (f x); [reflexivity|exact IH]. Qed.
Lemma sighted_first c ps : Forall (fun p => blind p = None) ps -> find_map (primary_at c) ps = first_at c (flat_map primary_spots ps).
Proof. intros H. apply first_flat. eapply Forall_impl; [|exact H]. intros p. apply primary_first. Qed.
Lemma blind_split ps : Forall (fun p => blind p = None) ps
  \/ exists pre p r post, ps = pre ++ p :: post /\ Forall (fun p => blind p = None) pre /\ blind p = Some r.
Proof.
  induction ps as [|p ps IH]; [left; constructor|]. destruct (blind p) as [r|] eqn:E.
  - right. exists [], p, r, ps. auto.
  - destruct IH as [IH|(pre & q & r & post & -> & H1 & H2)]; [left; constructor; assumption|].
    right. exists (p :: pre), q, r, post. split; [reflexivity|]. split; [constructor; assumption|exact H2].
Qed.
Lemma blind_at c p r : blind p = Some r -> primary_at c p = Some (AtReference (wt_item r)).
Proof. destruct p as [d| | |]; try discriminate. destruct d; try discriminate; intros H; injection H as ->; reflexivity. Qed.

(** ** C44: what is found is an item the cursor is on, or the reference of the first deletion or omission of the file. *)
Theorem C44_found : forall f c x, file_at f c = Some x ->
  (exists s, In s (file_spots f) /\ spot_item s = x /\ on_spot c s)
  \/ (exists pre p r post, fl_elements f = pre ++ p :: post /\ Forall (fun p => blind p = None) pre /\ blind p = Some r
        /\ x = AtReference (wt_item r) /\ forall s, In s (flat_map primary_spots pre) -> ~ on_spot c s).
Proof.
  intros f c x E. unfold file_at in E. destruct (blind_split (fl_elements f)) as [H|(pre & p & r & post & Hf & H1 & H2)].
  - left. rewrite (sighted_first _ _ H) in E. apply first_in in E. exact E.
  - rewrite Hf, find_map_app, (sighted_first _ _ H1) in E. destruct (first_at c (flat_map primary_spots pre)) as [y|] eqn:Ef.
    + injection E as ->. left. apply first_in in Ef. destruct Ef as (s & K1 & K2). exists s. split; [|exact K2].
      unfold file_spots. rewrite Hf, flat_map_app. apply in_or_app. left. exact K1.
    + right. cbn [find_map] in E. rewrite (blind_at _ _ _ H2) in E. injection E as <-. exists pre, p, r, post.
      repeat (split; [assumption || reflexivity|]). intros s Hs Ho. clear - Ef Hs Ho. revert Ef. unfold first_at.
      induction (flat_map primary_spots pre) as [|s' l IH]; [destruct Hs|]. cbn [find_map].
      destruct (span_contains (spot_span s') c) eqn:Ec; [discriminate|]. destruct Hs as [->|Hs]; [|auto].
      apply contains_spec in Ho. congruence.
Qed.
Print Assumptions C44_found.

(** without deletions and omissions at the top level the claim holds *)
Theorem C44_sound_partial : forall f c x, Forall (fun p => blind p = None) (fl_elements f) -> file_at f c = Some x ->
  exists s, In s (file_spots f) /\ spot_item s = x /\ on_spot c s.
Proof.
  intros f c x H E. destruct (C44_found f c x E) as [K|(pre & p & r & post & Hf & _ & H2 & _)]; [exact K|].
  rewrite Hf in H. apply Forall_app in H. destruct H as [_ H]. inversion H. congruence.
Qed.
Print Assumptions C44_sound_partial.

Definition tree44 (text : str) : dts_file :=
  match parse_text [] text (bs "f") with ROk f _ => f | _ => mkFile [] [] end.
Definition onb (c : position) (s : spot) : bool := span_contains (spot_span s) c.
(** Any position of a file with a deletion is on the deleted reference, even one past the end of the file. *)
Definition text44 : str := bs "/dts-v1/; /delete-node/ &a;".
Theorem C44_refuted : exists text f s c x, parse_text [] text (bs "f") = ROk f s /\ ps_diags s = []
  /\ file_at f c = Some x /\ forall s, In s (file_spots f) -> ~ on_spot c s.
Proof.
  exists text44, (tree44 text44).
  assert (E : exists s, parse_text [] text44 (bs "f") = ROk (tree44 text44) s /\ ps_diags s = []) by (eexists; split; vm_compute; reflexivity).
  destruct E as (s & E1 & E2). exists s, (mkPos 7 7), (AtReference (RefLabel (bs "a"))).
  split; [exact E1|]. split; [exact E2|]. split; [vm_compute; reflexivity|].
  assert (F : forallb (fun s => negb (onb (mkPos 7 7) s)) (file_spots (tree44 text44)) = true) by (vm_compute; reflexivity).
  rewrite forallb_forall in F. intros x Hx Ho. apply F in Hx. unfold onb in Hx. apply contains_spec in Ho. rewrite Ho in Hx. discriminate.
Qed.
Print Assumptions C44_refuted.

Definition text44b : str := bs "/dts-v1/; /include/ ""x"" / { m: n { p = <1 &l>, &{/n}; }; }; &m { };".
Example C44_case : file_at (tree44 text44b) (mkPos 0 42) = Some (AtReference (RefLabel (bs "l")))
  /\ (exists w, file_at (tree44 text44b) (mkPos 0 28) = Some (AtLabel w) /\ wt_item w = bs "m")
  /\ Forall (fun p => blind p = None) (fl_elements (tree44 text44b))
  /\ length (file_spots (tree44 text44b)) = 5%nat.
Proof.
  split; [vm_compute; reflexivity|]. split; [eexists; split; vm_compute; reflexivity|].
  split; [vm_compute; repeat constructor|vm_compute; reflexivity].
Qed.

(** ** C45 *)
Definition spot_toks (s : spot) : list token :=
  match s with SLabel l => [wt_tok l] | SRef r => [wt_tok r] | SInclude i => [in_token i; wt_tok (in_file_name i)] end.
Lemma spot_spanned s : spanned spot_toks spot_span s.
Proof.
  intros lo hi H. destruct s as [l|r|i]; cbn [spot_toks spot_span seq] in *; [le_chain|le_chain|].
  destruct H as (H1 & H2 & H3 & H4 & H5). unfold include_span, wt_span in *. le_chain.
Qed.
Lemma sub_label l : sub (flat_map spot_toks (label_spots l)) (opt_tok l).
Proof. destruct l; apply sub_refl. Qed.
Lemma sub_flat {A} (f : A -> list spot) (g : A -> list token) l :
  Forall (fun x => sub (flat_map spot_toks (f x)) (g x)) l -> sub (flat_map spot_toks (flat_map f l)) (flat_map g l).
Proof. induction 1 as [|x l Hx _ IH]; [constructor|]. cbn [flat_map]. rewrite flat_map_app. apply sub_app; assumption. Qed.
Lemma sub_vspots v : sub (flat_map spot_toks (value_spots v)) (value_toks v).
Proof.
  destruct v as [s|a cs b|r|a ss b]; cbn [value_spots value_toks]; try (apply sub_nil_l); [|apply sub_refl].
  apply sub_app_r, sub_app_l. apply sub_flat, Forall_forall. intros [n|r|] _; [apply sub_nil_l|apply sub_refl|apply sub_nil_l].
Qed.
Lemma sub_pspots p : sub (flat_map spot_toks (property_spots p)) (prop_toks p).
Proof.
  unfold property_spots, prop_toks. rewrite flat_map_app. apply sub_app; [apply sub_label|]. apply sub_app_r.
  assert (H : sub (flat_map spot_toks (flat_map value_spots (pr_values p))) (flat_map value_toks (pr_values p))).
  { apply sub_flat, Forall_forall. intros v _. apply sub_vspots. }
  destruct (tk_kind (pr_end p)); try (apply sub_app_l, H). apply sub_app_r, H.
Qed.
Lemma sub_nspots n : sub (flat_map spot_toks (node_spots n)) (node_toks n).
Proof.
  apply (node_rect' (fun n => sub (flat_map spot_toks (node_spots n)) (node_toks n)) (fun i => sub (flat_map spot_toks (item_spots i)) (item_toks i))); clear n.
  - intros l nm its e o H. cbn [node_spots node_toks payload_toks].
    change (fun i : item => match i with IProperty p => property_spots p | INode n => node_spots n | _ => [] end) with item_spots.
    rewrite flat_map_app. apply sub_app_r. apply sub_app; [apply sub_label|]. apply sub_app_r, sub_app_l, sub_flat, H.
  - apply sub_pspots.
  - intros n H. exact H.
  - intros. apply sub_nil_l.
  - intros. apply sub_nil_l.
Qed.
Lemma sub_ispots i : sub (flat_map spot_toks (item_spots i)) (item_toks i).
Proof. destruct i as [p|n|t n|t n]; [apply sub_pspots|apply sub_nspots|apply sub_nil_l|apply sub_nil_l]. Qed.
Lemma sub_fspots f : sub (flat_map spot_toks (file_spots f)) (file_toks f).
Proof.
  unfold file_spots, file_toks. apply sub_flat, Forall_forall. intros p _.
  destruct p as [d|n|[r [its e]]|s]; cbn [primary_spots primary_toks]; try (apply sub_nil_l).
  - destruct d; try (apply sub_nil_l); try apply sub_refl; apply sub_skip, sub_refl.
  - apply sub_nspots.
  - cbn. apply sub_keep, sub_app_l, sub_flat, Forall_forall. intros i _. apply sub_ispots.
Qed.

Lemma fop_split {A} (R : A -> A -> Prop) a x b : ForallOrdPairs R (a ++ x :: b) -> (forall y, In y a -> R y x).
Proof.
  induction a as [|z a IH]; cbn [app]; intros H y Hy; [destruct Hy|]. inversion H as [|? ? Hz Hr]; subst.
  destruct Hy as [->|Hy]; [|apply IH; assumption]. rewrite Forall_forall in Hz. apply Hz, in_or_app. right. left. reflexivity.
Qed.
Lemma first_unique c l s : ForallOrdPairs before (map spot_span l) -> In s l -> on_spot c s -> first_at c l = Some (spot_item s).
Proof.
  intros Ho Hs Hc. apply in_split in Hs. destruct Hs as (a & b & ->). rewrite map_app in Ho. cbn [map] in Ho.
  rewrite first_app, first_none.
  - unfold first_at. cbn [find_map]. rewrite (proj2 (contains_spec _ _) Hc). reflexivity.
  - intros s' Hs' Hc'. pose proof (fop_split _ _ _ _ Ho (spot_span s') (in_map _ _ _ Hs')) as K. unfold on_spot in *. le_chain.
Qed.

(** The spots of a parsed file do not overlap, *)
Theorem C45_spots_disjoint : forall incl text src f s, valid_utf8 text = true -> parse_text incl text src = ROk f s ->
  in_order (map spot_span (file_spots f)).
Proof.
  intros incl text src f s Hv E. destruct (tree_tokens _ _ _ _ _ Hv E) as (p & _ & Hs & _).
  eapply (spanned_bounds spot_toks spot_span); [apply Forall_forall; intros x _; apply spot_spanned|].
  eapply sub_seq; [apply sub_fspots|exact Hs].
Qed.
Print Assumptions C45_spots_disjoint.

(** so the one the cursor is on is found, unless a deletion or omission comes before its element. *)
Theorem C45_complete_partial : forall incl text src f s pre p post x c,
  valid_utf8 text = true -> parse_text incl text src = ROk f s ->
  fl_elements f = pre ++ p :: post -> Forall (fun p => blind p = None) pre ->
  In x (primary_spots p) -> on_spot c x -> file_at f c = Some (spot_item x).
Proof.
  intros incl text src f s pre p post x c Hv E Hf Hb Hx Hc.
  destruct (C45_spots_disjoint _ _ _ _ _ Hv E) as [_ Ho]. unfold file_spots in Ho. rewrite Hf, flat_map_app in Ho. cbn [flat_map] in Ho.
  unfold file_at. rewrite Hf, find_map_app, (sighted_first _ _ Hb). cbn [find_map].
  assert (Ho2 : ForallOrdPairs before (map spot_span (flat_map primary_spots pre ++ primary_spots p))).
  { rewrite app_assoc, map_app in Ho. revert Ho. generalize (map spot_span (flat_map primary_spots post)).
    generalize (map spot_span (flat_map primary_spots pre ++ primary_spots p)).
    induction l as [|y l IH]; intros l' H; [constructor|]. cbn [app] in H. inversion H as [|? ? H1 H2]; subst.
    constructor; [apply Forall_app in H1; apply H1|apply (IH _ H2)]. }
  pose proof (first_unique c _ x Ho2 (in_or_app _ _ _ (or_intror Hx)) Hc) as F. rewrite first_app in F.
  destruct (first_at c (flat_map primary_spots pre)) as [y|]; [exact F|].
  destruct (blind p) as [r|] eqn:Er.
  - rewrite (blind_at _ _ _ Er). destruct p as [d| | |]; try discriminate. destruct d; try discriminate; injection Er as ->;
      destruct Hx as [<-|[]]; reflexivity.
  - rewrite (primary_first _ _ Er), F. reflexivity.
Qed.
Print Assumptions C45_complete_partial.
Example C45_case : exists w, In (SLabel w) (file_spots (tree44 text44b)) /\ on_spot (mkPos 0 28) (SLabel w) /\ wt_item w = bs "m".
Proof.
  exists (match nth 1 (file_spots (tree44 text44b)) (SRef (mkWT (RefLabel []) (mkToken Semicolon (as_span pos_zero) []))) with SLabel w => w | _ => mkWT [] (mkToken Semicolon (as_span pos_zero) []) end).
  split; [vm_compute; auto|]. split; [apply contains_spec; vm_compute; reflexivity|vm_compute; reflexivity].
Qed.

(** Behind a deletion nothing is found but the deleted reference. *)
Definition text45 : str := bs "/dts-v1/; /delete-node/ &a; / { p = <&b>; };".
Theorem C45_refuted : exists text f s x c, parse_text [] text (bs "f") = ROk f s /\ ps_diags s = []
  /\ In x (file_spots f) /\ on_spot c x /\ spot_item x = AtReference (RefLabel (bs "b"))
  /\ file_at f c = Some (AtReference (RefLabel (bs "a"))).
Proof.
  exists text45, (tree44 text45).
  assert (E : exists s, parse_text [] text45 (bs "f") = ROk (tree44 text45) s /\ ps_diags s = []) by (eexists; split; vm_compute; reflexivity).
  destruct E as (s & E1 & E2). exists s, (nth 1 (file_spots (tree44 text45)) (SRef (mkWT (RefLabel []) (mkToken Semicolon (as_span pos_zero) [])))), (mkPos 0 38).
  split; [exact E1|]. split; [exact E2|]. split; [vm_compute; auto|].
  split; [apply contains_spec; vm_compute; reflexivity|]. split; vm_compute; reflexivity.
Qed.
Print Assumptions C45_refuted.

(** ** Exactly what is found *)
Inductive finds (f : dts_file) (c : position) : option item_at_cursor -> Prop :=
| finds_spot pre p post x : fl_elements f = pre ++ p :: post -> Forall (fun p => blind p = None) pre ->
    In x (primary_spots p) -> on_spot c x -> finds f c (Some (spot_item x))
| finds_blind pre p r post : fl_elements f = pre ++ p :: post -> Forall (fun p => blind p = None) pre -> blind p = Some r ->
    (forall x, In x (flat_map primary_spots pre) -> ~ on_spot c x) -> finds f c (Some (AtReference (wt_item r)))
| finds_none : Forall (fun p => blind p = None) (fl_elements f) -> (forall x, In x (file_spots f) -> ~ on_spot c x) -> finds f c None.
Lemma finds_some f c a : finds f c a -> forall incl text src s, valid_utf8 text = true -> parse_text incl text src = ROk f s -> file_at f c = a.
Proof.
  intros H incl text src s Hv E. destruct H as [pre p post x Hf Hb Hx Hc|pre p r post Hf Hb Hr Hn|Hb Hn].
  - eapply C45_complete_partial; eassumption.
  - unfold file_at. rewrite Hf, find_map_app, (sighted_first _ _ Hb), (first_none _ _ Hn). cbn [find_map]. rewrite (blind_at _ _ _ Hr). reflexivity.
  - unfold file_at. rewrite (sighted_first _ _ Hb). apply first_none. exact Hn.
Qed.
Lemma finds_total f c : exists a, finds f c a.
Proof.
  assert (D : forall l, (exists x, In x l /\ on_spot c x) \/ forall x, In x l -> ~ on_spot c x).
  { induction l as [|x l [(y & H1 & H2)|IH]]; [right; intros x []|left; exists y; split; [right; exact H1|exact H2]|].
    destruct (span_contains (spot_span x) c) eqn:Ec; [left; exists x; split; [left; reflexivity|apply contains_spec; exact Ec]|].
    right. intros y [<-|Hy]; [|auto]. intros Ho. apply contains_spec in Ho. congruence. }
  assert (S : forall ps x, In x (flat_map primary_spots ps) -> exists pre p post, ps = pre ++ p :: post /\ In x (primary_spots p)).
  { intros ps x Hx. apply in_flat_map in Hx. destruct Hx as (p & Hp & Hx). apply in_split in Hp. destruct Hp as (a & b & ->). eauto. }
  destruct (blind_split (fl_elements f)) as [H|(pre & p & r & post & Hf & H1 & H2)].
  - destruct (D (file_spots f)) as [(x & Hx & Ho)|N]; [|exists None; constructor; assumption].
    destruct (S _ _ Hx) as (pre & p & post & Hf & Hp). exists (Some (spot_item x)). apply (finds_spot f c pre p post x Hf); [|exact Hp|exact Ho].
    rewrite Hf in H. apply Forall_app in H. apply H.
  - destruct (D (flat_map primary_spots pre)) as [(x & Hx & Ho)|N]; [|exists (Some (AtReference (wt_item r))); eapply finds_blind; eassumption].
    destruct (S _ _ Hx) as (pre' & q & post' & -> & Hp). exists (Some (spot_item x)). apply (finds_spot f c pre' q (post' ++ p :: post) x); [|apply Forall_app in H1; apply H1|exact Hp|exact Ho].
    rewrite Hf, <- app_assoc. reflexivity.
Qed.
Theorem C45_exact : forall incl text src f s, valid_utf8 text = true -> parse_text incl text src = ROk f s ->
  forall c a, file_at f c = a <-> finds f c a.
Proof.
  intros incl text src f s Hv E c a. split; [|intros H; exact (finds_some f c a H incl text src s Hv E)].
  intros <-. destruct (finds_total f c) as [b Hb]. rewrite (finds_some f c b Hb incl text src s Hv E). exact Hb.
Qed.
Print Assumptions C45_exact.
(** behind the deletion, in front of it, and in a text without one *)
Example C45_exact_case : finds (tree44 text45) (mkPos 0 38) (Some (AtReference (RefLabel (bs "a")))) /\ finds (tree44 text44b) (mkPos 9 9) None.
Proof.
  assert (E : forall t, t = text45 \/ t = text44b -> exists s, parse_text [] t (bs "f") = ROk (tree44 t) s).
  { intros t [->| ->]; eexists; vm_compute; reflexivity. }
  split.
  - destruct (E text45 (or_introl eq_refl)) as [s Es]. refine (proj1 (C45_exact [] text45 (bs "f") _ s _ Es _ _) _); vm_compute; reflexivity.
  - destruct (E text44b (or_intror eq_refl)) as [s Es]. refine (proj1 (C45_exact [] text44b (bs "f") _ s _ Es _ _) _); vm_compute; reflexivity.
Qed.
