(** C120 A label nobody refers to can be left out *)
From Verif Require Import Lexer LexSpec LexerProofs LexerProofs2 Parser Utf8 Project Visitor Server Session AnalysisSpec AnalysisProofs TreeProofs PropsParser CrLf CrLfProject PropsCrLf Unlabel UnlabelProject Tests ProjectProofs2.
From Coq Require Import Lia List.
Import ListNotations.

(** ** Labels written over with spaces *)
Definition from_source (src : fpath) (t : token) : token := mkToken (tk_kind t) (tk_span t) src.
Lemma lexed_source src src' m pre t toks : lexed src m pre t toks -> lexed src' m pre t (map (from_source src') toks).
Proof.
  induction 1 as [m pre t H|m pre g u H U|m pre g k u rest toks G S L IH]; cbn [map].
  - apply lx_end, H.
  - apply lx_unterminated; assumption.
  - apply lx_token; assumption.
Qed.
Lemma stays_source drop src toks : filter (stays drop) (map (from_source src) toks) = map (from_source src) (filter (stays drop) toks).
Proof.
  induction toks as [|t toks IH]; [reflexivity|]. cbn [map filter].
  change (stays drop (from_source src t)) with (stays drop t). destruct (stays drop t); cbn [map]; rewrite IH; reflexivity.
Qed.
Lemma over_high a b : over a b -> 128 <= a -> b = a.
Proof.
  intros [->|[_ H]] L; [reflexivity|]. exfalso. destruct H as [[H|[H|H]]|H]; [unfold letter in H; lia|unfold digit in H; lia| |lia].
  cbn [In] in H. repeat (destruct H as [H|H]; [lia|]). destruct H.
Qed.
Lemma over_low a b : over a b -> a < 128 -> b < 128.
Proof. intros [->|[-> _]] L; [exact L|reflexivity]. Qed.
Ltac high H := unfold utf8_two, utf8_three, utf8_four, is_cont, in_rng in H;
  rewrite ?andb_true_iff, ?orb_true_iff, ?andb_true_iff, ?N.leb_le, ?N.eqb_eq in H; lia.
Lemma two_high b c : utf8_two b c = true -> 128 <= c.
Proof. intros H. high H. Qed.
Lemma three_high b c d : utf8_three b c d = true -> 128 <= c /\ 128 <= d.
Proof. intros H. high H. Qed.
Lemma four_high b c d e : utf8_four b c d e = true -> 128 <= c /\ 128 <= d /\ 128 <= e.
Proof. intros H. high H. Qed.
Lemma over_head b l t' : Forall2 over (b :: l) t' -> 128 <= b -> exists l', t' = b :: l' /\ Forall2 over l l'.
Proof. intros H L. inversion H as [|? c ? l' O R]; subst. rewrite (over_high _ _ O L). eauto. Qed.
Lemma over_valid t t' : Forall2 over t t' -> valid_utf8 t = true -> valid_utf8 t' = true.
Proof.
  assert (G : forall n t t', (length t < n)%nat -> Forall2 over t t' -> valid_utf8 t = true -> valid_utf8 t' = true).
  2:{ apply (G (S (length t))). lia. }
  clear. induction n as [|n IH]; intros t t' L H V; [lia|].
  destruct t as [|b l]; [inversion H; reflexivity|]. cbn [length] in L.
  destruct (valid_inv _ _ V) as [(B & V1) | [(b1 & r & B & -> & T & V1) | [(b1 & b2 & r & B & -> & T2 & T & V1)
    | (b1 & b2 & b3 & r & B & -> & T2 & T3 & T & V1)]]].
  - inversion H as [|? c ? l' O R]; subst. rewrite valid_one by exact (over_low _ _ O B). apply (IH l); [lia|assumption|assumption].
  - apply over_head in H; [|exact B]. destruct H as (l1 & -> & H).
    apply over_head in H; [|exact (two_high _ _ T)]. destruct H as (l2 & -> & H).
    rewrite valid_two by assumption. apply (IH r); [cbn in L; lia|assumption|assumption].
  - destruct (three_high _ _ _ T) as [N1 N2].
    apply over_head in H; [|exact B]. destruct H as (l1 & -> & H).
    apply over_head in H; [|exact N1]. destruct H as (l2 & -> & H).
    apply over_head in H; [|exact N2]. destruct H as (l3 & -> & H).
    rewrite valid_three by assumption. apply (IH r); [cbn in L; lia|assumption|assumption].
  - destruct (four_high _ _ _ _ T) as (N1 & N2 & N3).
    apply over_head in H; [|exact B]. destruct H as (l1 & -> & H).
    apply over_head in H; [|exact N1]. destruct H as (l2 & -> & H).
    apply over_head in H; [|exact N2]. destruct H as (l3 & -> & H).
    apply over_head in H; [|exact N3]. destruct H as (l4 & -> & H).
    rewrite valid_four by assumption. apply (IH r); [cbn in L; lia|assumption|assumption].
Qed.

(** ** C120 *)
(** Whichever labels of a text are to go: they can be written over with spaces, and then all the other tokens are the same, at the same places. *)
Theorem C120_blank : forall drop t, valid_utf8 t = true ->
  exists t', valid_utf8 t' = true /\ Forall2 over t t'
  /\ forall src toks, tokenize t src = Done toks -> tokenize t' src = Done (filter (stays drop) toks).
Proof.
  intros drop t V. destruct (tokenize_total t [] V) as [toks T]. apply (tokenize_iff t [] toks V) in T.
  destruct (un_lexed drop _ _ _ _ _ T [] (Forall2_nil _)) as (t' & O & L).
  pose proof (over_valid _ _ O V) as V'. exists t'. split; [exact V'|]. split; [exact O|].
  intros src toks2 T2. pose proof (proj2 (tokenize_iff t src _ V) (lexed_source [] src _ _ _ _ T)) as T3.
  rewrite T2 in T3. injection T3 as ->. rewrite stays_source.
  apply (tokenize_iff t' src _ V'). exact (lexed_source [] src _ _ _ _ L).
Qed.
Print Assumptions C120_blank.

(** Without these labels a text that the parser has no complaint about is one again, with the same tree but for them. *)
Theorem C120_tree : forall drop incl src t t' toks f s, valid_utf8 t = true -> valid_utf8 t' = true ->
  tokenize t src = Done toks -> tokenize t' src = Done (filter (stays drop) toks) ->
  parse_text incl t src = ROk f s -> ps_diags s = [] ->
  exists s', parse_text incl t' src = ROk (un_file drop f) s' /\ ps_diags s' = [].
Proof. exact un_parse. Qed.
Print Assumptions C120_tree.

Section Drop.
Context (drop : str -> bool) (fs fs' : fsys) (SD : disk_without drop fs fs').
Notation like_project := (like_project drop).

Lemma like_add_text fuel o name t t' ft pj pj' : by_name (o_files o) -> by_path (o_an o) ->
  without drop t t' -> valid_utf8 t = true -> like_project pj pj' ->
  orel like_project (add_file_with_text fuel o fs name t ft pj) (add_file_with_text fuel o fs' name t' ft pj').
Proof.
  intros B B2 W V (H1 & H2 & H3). unfold add_file_with_text. rewrite (u_canon _ _ _ SD), H2.
  destruct (fs_canon fs name) as [p|e]; [|exact I].
  eapply orel_bind; [apply (parse_like _ _ _ SD); eassumption|]. intros l l' Hl.
  eapply orel_bind; [apply orel_eq; apply (like_order _ _ _ SD o _ _ B Hl)|]. intros ks ks' <-.
  apply (like_analyze_keys _ _ _ SD); [exact B2|]. split; [exact Hl|]. split; assumption.
Qed.
Lemma like_add fuel o name pj pj' : by_name (o_files o) -> by_path (o_an o) -> like_project pj pj' ->
  orel (fun x y => match x, y with
                   | inl e, inl e' => e' = e
                   | inr a, inr b => like_project a b
                   | _, _ => False
                   end)
    (add_file fuel o fs name pj) (add_file fuel o fs' name pj').
Proof.
  intros B B2 H. unfold add_file. rewrite (u_canon _ _ _ SD). destruct (fs_canon fs name) as [p|e]; [|reflexivity].
  pose proof (proj2 SD p) as Rd.
  destruct (read_to_string fs p) as [t1|e1] eqn:R1, (read_to_string fs' p) as [t2|e2] eqn:R2;
    try contradiction; [|exact Rd].
  eapply orel_bind; [apply like_add_text; try eassumption|].
  - exact (proj1 (read_valid _ _ _ R1)).
  - intros a a' Ha. exact Ha.
Qed.
Lemma like_include_paths ps pj pj' : like_project pj pj' ->
  like_project (set_include_paths fs ps pj) (set_include_paths fs' ps pj').
Proof.
  intros (H1 & H2 & H3). split; [exact H1|]. split; [|exact H3]. cbn.
  apply map_ext. intros p. rewrite (u_canon _ _ _ SD). reflexivity.
Qed.

(** ** The server *)
Definition like_server (sv sv' : server) : Prop :=
  like_project (sv_project sv) (sv_project sv') /\ sv_sent sv' = sv_sent sv.
Definition note_without (n n' : note) : Prop :=
  match n, n' with
  | NInitialize d, NInitialize d' | NConfigure d, NConfigure d' => d' = d
  | NOpen u t, NOpen u' t' => u' = u /\ without drop t t'
  | NChange u ts, NChange u' ts' => u' = u /\ Forall2 (without drop) ts ts'
  | NClose u, NClose u' => u' = u
  | _, _ => False
  end.
Lemma like_diagnostics pj pj' p : like_project pj pj' ->
  get_diagnostics fs' pj' p = get_diagnostics fs pj p.
Proof.
  intros H. pose proof (like_get _ _ _ SD _ _ p H) as G. unfold get_diagnostics.
  destruct (get_file fs pj p) as [f|], (get_file fs' pj' p) as [f'|]; try contradiction; [|reflexivity].
  unfold pf_diags. rewrite (pk_pdiags _ _ _ G), (pk_adiags _ _ _ G). reflexivity.
Qed.
Lemma like_publish ok sv sv' : like_server sv sv' ->
  orel like_server (publish ok fs sv) (publish ok fs' sv').
Proof.
  intros [H E]. unfold publish. rewrite (alike_keys _ _ _ (proj1 H)), E.
  assert (G : forall l, publish_all fs' (sv_project sv') l = publish_all fs (sv_project sv) l).
  { induction l as [|f l IH]; [reflexivity|]. cbn [publish_all].
    rewrite IH, (like_diagnostics _ _ f H). reflexivity. }
  rewrite G. destruct (publish_all fs (sv_project sv) _) as [ps| |]; cbn [obind orel]; auto.
  split; [exact H|reflexivity].
Qed.
Lemma like_remove p pj pj' : like_project pj pj' ->
  like_project (remove_file fs p pj) (remove_file fs' p pj').
Proof.
  intros H. unfold remove_file. rewrite (u_canon _ _ _ SD). destruct (fs_canon fs p); [|exact H].
  destruct H as (H1 & H2 & H3). split; [|split; assumption]. apply (UnlabelProject.alike_remove drop), H1.
Qed.
Lemma like_handle fuel o ok n n' sv sv' : by_name (o_files o) -> by_path (o_an o) -> note_without n n' ->
  note_valid n -> like_server sv sv' ->
  orel like_server (handle fuel o ok fs n sv) (handle fuel o ok fs' n' sv').
Proof.
  intros B B2 N V [H E].
  assert (C : forall d, like_server (mkServer (set_include_paths fs d (sv_project sv)) (sv_sent sv))
                          (mkServer (set_include_paths fs' d (sv_project sv')) (sv_sent sv'))).
  { intros d. split; [apply like_include_paths; assumption|exact E]. }
  assert (T : forall u t t', without drop t t' -> valid_utf8 t = true ->
    orel like_server (did_open fuel o ok fs u t sv) (did_open fuel o ok fs' u t' sv')).
  { intros u t t' F W. unfold did_open. destruct (to_file_path u) as [p|]; [|split; assumption].
    eapply orel_bind; [apply like_add_text; eassumption|]. intros a a' Ha.
    apply like_publish. split; assumption. }
  destruct n as [d|d|u t|u ts|u], n' as [d'|d'|u' t'|u' ts'|u']; cbn [note_without] in N; try contradiction;
    cbn [handle].
  - subst d'. apply C.
  - subst d'. apply like_publish, C.
  - destruct N as [-> F]. apply T; assumption.
  - destruct N as [-> F]. unfold did_change. destruct F as [|t t' ts ts' F _].
    + destruct (to_file_path u); [exact I|]. split; assumption.
    + cbn [note_valid] in V. inversion V; subst. apply (T u t t'); assumption.
  - subst u'. cbn [orel]. unfold did_close. destruct (to_file_path u); [|split; assumption].
    split; [apply like_remove, H|exact E].
Qed.

(** ** The cursor *)
(** the same is found, unless it is a label that is left out *)
Definition found_like (x x' : option item_at_cursor) : Prop :=
  x' = x \/ exists w, x = Some (AtLabel w) /\ drop (wt_item w) = true.
Lemma found_map {A} (f : A -> option item_at_cursor) (g : A -> A) l :
  Forall (fun a => found_like (f a) (f (g a))) l -> found_like (find_map f l) (find_map f (map g l)).
Proof.
  induction 1 as [|a l H _ IH]; [left; reflexivity|]. cbn [map find_map]. destruct H as [-> | (w & -> & D)].
  - destruct (f a); [left; reflexivity|exact IH].
  - right. exists w. auto.
Qed.
Lemma found_label l c x x' : found_like x x' ->
  found_like (match label_at l c with Some i => Some i | None => x end) (match label_at (un_label drop l) c with Some i => Some i | None => x' end).
Proof.
  intros H. destruct l as [w|]; [|exact H]. cbn [un_label label_at].
  destruct (drop (wt_item w)) eqn:D; cbn [label_at]; destruct (span_contains (wt_span w) c); try exact H.
  - right. exists w. auto.
  - left. reflexivity.
Qed.
Lemma payload_find c its e : payload_at c (mkPayload its e) = find_map (nitem_at c) its.
Proof. cbn [payload_at]. induction its as [|i its IH]; [reflexivity|]. cbn [find_map]. rewrite <- IH. reflexivity. Qed.
Lemma found_node_item c : (forall n, found_like (node_at c n) (node_at c (un_node drop n)))
  /\ (forall i, found_like (nitem_at c i) (nitem_at c (un_item drop i))).
Proof.
  set (P := fun n => found_like (node_at c n) (node_at c (un_node drop n))).
  set (Pi := fun i => found_like (nitem_at c i) (nitem_at c (un_item drop i))).
  assert (Hn : forall l nm its e o, Forall Pi its -> P (mkNode l nm (mkPayload its e) o)).
  { intros l nm its e o H. unfold P.
    change (found_like (match label_at l c with Some i => Some i | None => payload_at c (mkPayload its e) end)
      (match label_at (un_label drop l) c with Some i => Some i | None => payload_at c (mkPayload (map (un_item drop) its) e) end)).
    apply found_label. rewrite !payload_find. apply found_map, H. }
  assert (Hp : forall p, Pi (IProperty p)).
  { intros p. unfold Pi. cbn [un_item nitem_at]. unfold property_at. cbn [un_property pr_label pr_values]. apply found_label. left. reflexivity. }
  assert (Hi : forall n, P n -> Pi (INode n)) by (intros n H; exact H).
  assert (Hd1 : forall t n, Pi (IDeletedNode t n)) by (intros t n; left; reflexivity).
  assert (Hd2 : forall t n, Pi (IDeletedProperty t n)) by (intros t n; left; reflexivity).
  split; [exact (node_rect' P Pi Hn Hp Hi Hd1 Hd2)|exact (item_rect' P Pi Hn Hp Hi Hd1 Hd2)].
Qed.
Lemma found_file f c : found_like (file_at f c) (file_at (un_file drop f) c).
Proof.
  unfold file_at, un_file. cbn [fl_elements]. apply found_map, Forall_forall. intros p _.
  destruct p as [d|n|r|s]; cbn [un_primary primary_at]; try (left; reflexivity).
  - apply found_node_item.
  - unfold ref_node_at. cbn [rn_reference rn_payload]. destruct (ref_at (rn_reference r) c); [left; reflexivity|].
    destruct (rn_payload r) as [its e]. rewrite un_payload_items, !payload_find. apply found_map, Forall_forall. intros i _. apply found_node_item.
Qed.

(** what is found refers to no label that is left out *)
Lemma value_ref c v r : value_at c v = Some (AtReference r) -> exists w, wt_item w = r /\ In w (value_refs v).
Proof.
  assert (R : forall w, ref_at w c = Some (AtReference r) -> wt_item w = r).
  { intros w. unfold ref_at. destruct (span_contains (wt_span w) c); [|discriminate]. intros H. injection H as <-. reflexivity. }
  destruct v as [s|a cs b|w|a l b]; cbn [value_at value_refs]; try discriminate.
  - induction cs as [|x cs IH]; [discriminate|]. cbn [find_map flat_map]. destruct (cell_at c x) as [y|] eqn:E.
    + intros H. injection H as ->. destruct x as [n|w|]; try discriminate E. exists w. split; [exact (R _ E)|]. apply in_or_app. left. left. reflexivity.
    + intros H. destruct (IH H) as (w & E1 & E2). exists w. split; [exact E1|]. apply in_or_app. right. exact E2.
  - intros H. exists w. split; [exact (R _ H)|left; reflexivity].
Qed.
Lemma property_ref c p r : property_at c p = Some (AtReference r) -> exists w, wt_item w = r /\ In w (property_refs p).
Proof.
  unfold property_at, label_at. destruct (pr_label p) as [l|]; [destruct (span_contains (wt_span l) c); [discriminate|]|];
    unfold property_refs; (induction (pr_values p) as [|v vs IH]; [discriminate|]; cbn [find_map flat_map]; destruct (value_at c v) as [y|] eqn:E;
      [intros H; injection H as ->; destruct (value_ref c v r E) as (w & E1 & E2); exists w; split; [exact E1|]; apply in_or_app; left; exact E2
      |intros H; destruct (IH H) as (w & E1 & E2); exists w; split; [exact E1|]; apply in_or_app; right; exact E2]).
Qed.
Definition refs_in (ds : list def) (r : reference) : Prop := exists w, wt_item w = r /\ In w (flat_map property_refs (flat_map def_properties ds)).
Lemma refs_app a b r : refs_in a r \/ refs_in b r -> refs_in (a ++ b) r.
Proof.
  intros [(w & E & H)|(w & E & H)]; exists w; (split; [exact E|]); rewrite !flat_map_app; apply in_or_app; auto.
Qed.
Lemma items_ref c its r : Forall (fun i => forall p, nitem_at c i = Some (AtReference r) -> refs_in (items_defs p [i]) r) its ->
  forall p, find_map (nitem_at c) its = Some (AtReference r) -> refs_in (items_defs p its) r.
Proof.
  induction 1 as [|i its Hi _ IH]; intros p H; [discriminate|]. cbn [find_map] in H.
  assert (E : items_defs p (i :: its) = items_defs p [i] ++ items_defs p its).
  { unfold items_defs. destruct i; cbn [items_defs_of app]; rewrite ?app_nil_r; reflexivity. }
  rewrite E. apply refs_app. destruct (nitem_at c i) as [y|] eqn:Ei; [left; injection H as ->; apply Hi; reflexivity|right; apply IH, H].
Qed.
Lemma node_item_ref c r : (forall n p, node_at c n = Some (AtReference r) -> refs_in (node_defs p n) r)
  /\ (forall i p, nitem_at c i = Some (AtReference r) -> refs_in (items_defs p [i]) r).
Proof.
  set (P := fun n => forall p, node_at c n = Some (AtReference r) -> refs_in (node_defs p n) r).
  set (Pi := fun i => forall p, nitem_at c i = Some (AtReference r) -> refs_in (items_defs p [i]) r).
  assert (Hn : forall l nm its e o, Forall Pi its -> P (mkNode l nm (mkPayload its e) o)).
  { intros l nm its e o H p.
    change (node_at c (mkNode l nm (mkPayload its e) o)) with (match label_at l c with Some i => Some i | None => payload_at c (mkPayload its e) end).
    intros X. assert (Y : find_map (nitem_at c) its = Some (AtReference r)).
    { unfold label_at in X. destruct l as [w|]; [destruct (span_contains (wt_span w) c); [discriminate|]|]; rewrite payload_find in X; exact X. }
    change (node_defs p (mkNode l nm (mkPayload its e) o)) with ([DNode p (mkNode l nm (mkPayload its e) o)] ++ items_defs p its).
    apply refs_app. right. apply (items_ref c its r H p Y). }
  assert (Hp : forall p, Pi (IProperty p)).
  { intros p q H. cbn [nitem_at] in H. destruct (property_ref c p r H) as (w & E1 & E2). exists w. split; [exact E1|].
    cbn. rewrite app_nil_r. exact E2. }
  assert (Hi : forall n, P n -> Pi (INode n)).
  { intros n H p X. cbn [nitem_at] in X. unfold items_defs. cbn [items_defs_of]. rewrite app_nil_r. apply H, X. }
  assert (Hd1 : forall t n, Pi (IDeletedNode t n)) by (intros t n p X; discriminate X).
  assert (Hd2 : forall t n, Pi (IDeletedProperty t n)) by (intros t n p X; discriminate X).
  split; [exact (node_rect' P Pi Hn Hp Hi Hd1 Hd2)|exact (item_rect' P Pi Hn Hp Hi Hd1 Hd2)].
Qed.
Lemma found_kept f c r : unreferenced drop f -> file_at f c = Some (AtReference r) -> ref_kept drop r.
Proof.
  unfold unreferenced, file_at. induction (fl_elements f) as [|p ps IH]; intros U H; [discriminate|].
  cbn [flat_map] in U. apply Forall_app in U. destruct U as [U U2]. cbn [find_map] in H.
  destruct (primary_at c p) as [y|] eqn:E; [|apply (IH U2 H)]. injection H as ->.
  assert (X : exists w, wt_item w = r /\ In w (primary_refs p)).
  { unfold primary_refs. destruct p as [[t|t|x y|i|t w|t w]|n|n|s]; cbn [primary_at directive_at] in E; try discriminate E.
    - destruct (span_contains (include_span i) c); discriminate E.
    - injection E as <-. exists w. split; [reflexivity|left; reflexivity].
    - injection E as <-. exists w. split; [reflexivity|left; reflexivity].
    - destruct (proj1 (node_item_ref c r) n [] E) as (w & E1 & E2). exists w. split; [exact E1|exact E2].
    - unfold ref_node_at, ref_at in E. destruct (span_contains (wt_span (rn_reference n)) c).
      + injection E as <-. exists (rn_reference n). split; [reflexivity|left; reflexivity].
      + destruct (rn_payload n) as [its e] eqn:Ep. rewrite payload_find in E.
        destruct (items_ref c its r) with (p := @nil node_name) as (w & E1 & E2); [|exact E|].
        * apply Forall_forall. intros i _ p. apply node_item_ref.
        * exists w. split; [exact E1|]. apply in_or_app. right. cbn [element_properties]. rewrite Ep. exact E2. }
  destruct X as (w & <- & X). rewrite Forall_forall in U. exact (U _ X).
Qed.

(** requests with the cursor elsewhere than on a label that is left out *)
Definition off_labels (sv : server) (u : uri) (c : position) : Prop :=
  forall p w, to_file_path u = Some p -> find_at_pos fs (sv_project sv) p c = Some (AtLabel w) -> drop (wt_item w) = false.
Lemma like_answers sv sv' u c : like_server sv sv' -> off_labels sv u c ->
  goto_definition fs' u c sv' = goto_definition fs u c sv /\ hover fs' u c sv' = hover fs u c sv.
Proof.
  intros [H _] O. unfold goto_definition, hover. destruct (to_file_path u) as [p|] eqn:Eu; [|auto]. specialize (O p).
  pose proof (like_get _ _ _ SD _ _ p H) as G.
  assert (X : find_at_pos fs' (sv_project sv') p c = find_at_pos fs (sv_project sv) p c
    /\ forall r, find_at_pos fs (sv_project sv) p c = Some (AtReference r) -> ref_kept drop r).
  { unfold find_at_pos in *. destruct (get_file fs (sv_project sv) p) as [f|], (get_file fs' (sv_project sv') p) as [f'|]; try contradiction;
      [|split; [reflexivity|discriminate]].
    rewrite (pk_file _ _ _ G). destruct (pf_file f) as [file|] eqn:Ef; cbn [option_map]; [|split; [reflexivity|discriminate]].
    split; [|intros r; apply found_kept, (pk_kept _ _ _ G _ Ef)].
    destruct (found_file file c) as [X|(w & X & D)]; [exact X|]. rewrite (O w Eu X) in D. discriminate. }
  destruct X as [-> K].
  assert (A : forall r, ref_kept drop r ->
    match get_analysis fs (sv_project sv) p, get_analysis fs' (sv_project sv') p with
    | Some x, Some x' => get_referenced x' r = option_map (un_node drop) (get_referenced x r)
    | None, None => True
    | _, _ => False
    end).
  { intros r Kr. unfold get_analysis. destruct (get_file fs (sv_project sv) p) as [f|], (get_file fs' (sv_project sv') p) as [f'|]; try contradiction; [|exact I].
    rewrite (pk_ctx _ _ _ G). destruct (pf_ctx f) as [x|]; [|exact I]. cbn [option_map]. apply referenced_un, Kr. }
  destruct (find_at_pos fs (sv_project sv) p c) as [[r|l|i]|]; auto.
  - specialize (A r (K r eq_refl)). unfold get_node_position, document_reference.
    destruct (get_analysis fs (sv_project sv) p) as [x|], (get_analysis fs' (sv_project sv') p) as [x'|]; try contradiction; [|auto].
    rewrite A. destruct (get_referenced x r) as [n|]; cbn [option_map]; rewrite ?un_nd_name; auto.
  - rewrite (u_include _ _ _ SD). auto.
Qed.
End Drop.

(** A project: adding a file gives the same error, crashes likewise, or leaves a project whose every file has the same diagnostics. *)
Theorem C120_project : forall drop fs fs' fuel o name, disk_without drop fs fs' -> by_name (o_files o) -> by_path (o_an o) ->
  match add_file fuel o fs name project_new, add_file fuel o fs' name project_new with
  | Done (inr pj), Done (inr pj') =>
    m_keys (pj_files pj') = m_keys (pj_files pj) /\ forall p, get_diagnostics fs' pj' p = get_diagnostics fs pj p
  | Done (inl e), Done (inl e') => e' = e
  | Panic, Panic | NoFuel, NoFuel => True
  | _, _ => False
  end.
Proof.
  intros drop fs fs' fuel o name SD B B2.
  assert (S0 : like_project drop project_new project_new) by (repeat split; constructor).
  pose proof (like_add drop fs fs' SD fuel o name _ _ B B2 S0) as G.
  destruct (add_file fuel o fs name project_new) as [[e|pj]| |], (add_file fuel o fs' name project_new) as [[e'|pj']| |];
    cbn [orel] in G; auto.
  split; [exact (alike_keys _ _ _ (proj1 G))|]. intros p. exact (like_diagnostics drop fs fs' SD _ _ p G).
Qed.
Print Assumptions C120_project.

(** The language server: the same turn without the labels, on the disk and in the texts the editor sends *)
Definition turn_without (drop : str -> bool) (m m' : turn) : Prop :=
  disk_without drop (tn_fs m) (tn_fs m') /\ note_without drop (tn_note m) (tn_note m') /\ note_valid (tn_note m)
  /\ tn_orders m' = tn_orders m /\ tn_keys m' = tn_keys m /\ by_name (o_files (tn_orders m)) /\ by_path (o_an (tn_orders m)).
(** In every session: the same is published, in the same order; going to a definition and hovering give the same answer wherever the cursor is not on a label
    that is left out; and the server crashes in the one exactly if it does in the other. *)
Theorem C120_session : forall drop fuel ms ms', Forall2 (turn_without drop) ms ms' ->
  match serve fuel ms server_new, serve fuel ms' server_new with
  | Done sv, Done sv' =>
    sv_sent sv' = sv_sent sv
    /\ forall fs fs' u c, disk_without drop fs fs' -> off_labels drop fs sv u c ->
         goto_definition fs' u c sv' = goto_definition fs u c sv /\ hover fs' u c sv' = hover fs u c sv
  | Panic, Panic | NoFuel, NoFuel => True
  | _, _ => False
  end.
Proof.
  intros drop fuel ms ms' H.
  assert (G : forall sv sv', like_server drop sv sv' -> orel (like_server drop) (serve fuel ms sv) (serve fuel ms' sv')).
  { induction H as [|m m' ms ms' (D & N & V & Eo & Ek & B & B2) _ IH]; intros sv sv' S; [exact S|].
    cbn [serve]. rewrite Eo, Ek. eapply orel_bind; [|exact IH]. apply like_handle; assumption. }
  assert (S0 : like_server drop server_new server_new) by (split; [repeat split; constructor|reflexivity]).
  specialize (G _ _ S0). destruct (serve fuel ms server_new), (serve fuel ms' server_new); cbn [orel] in G; auto.
  split; [apply G|]. intros fs fs' u c D O. exact (like_answers drop fs fs' D _ _ u c G O).
Qed.
Print Assumptions C120_session.

(** ** The conditions can be met: two files with used and unused labels; [spare] is left out *)
Definition spare (l : str) : bool := str_eqb l (bs "spare").
Definition main120 : str := bs "/dts-v1/; /include/ ""b.dtsi"" / { spare: n { spare: p = <&used &gone>; }; };".
Definition main120' : str := bs "/dts-v1/; /include/ ""b.dtsi"" / {        n {        p = <&used &gone>; }; };".
Definition incl120 : str := bs "/ { used: m { }; };".
Definition disk120 : list (fpath * str) := [(bs "/a.dts", main120); (bs "/b.dtsi", incl120)].
Definition disk120' : list (fpath * str) := [(bs "/a.dts", main120'); (bs "/b.dtsi", incl120)].

Lemma main120_without : without spare main120 main120'.
Proof.
  apply wo_cut.
  - intros incl src. eexists _, _. split; [vm_compute; reflexivity|reflexivity].
  - reflexivity.
  - intros src toks H. vm_compute in H. injection H as <-. vm_compute. reflexivity.
  - intros incl src f s H. vm_compute in H. injection H as <- _. repeat constructor.
Qed.
Lemma incl120_without : without spare incl120 incl120.
Proof. apply wo_same; [reflexivity|]. intros incl src f s H. vm_compute in H. injection H as <- _. split; [reflexivity|repeat constructor]. Qed.
Lemma disk120_without : disk_without spare (mem_fs disk120) (mem_fs disk120').
Proof.
  split; intros p.
  - cbn [mem_fs fs_canon]. unfold m_mem, disk120, disk120'. cbn [m_get].
    destruct (str_eq_dec p (bs "/a.dts")); [reflexivity|]. destruct (str_eq_dec p (bs "/b.dtsi")); reflexivity.
  - unfold read_to_string. cbn [mem_fs fs_read]. unfold disk120, disk120'. cbn [m_get].
    destruct (str_eq_dec p (bs "/a.dts")).
    { change (valid_utf8 main120) with true. change (valid_utf8 main120') with true. exact main120_without. }
    destruct (str_eq_dec p (bs "/b.dtsi")); [|reflexivity].
    change (valid_utf8 incl120) with true. exact incl120_without.
Qed.
Fixpoint overb (a b : list N) : bool :=
  match a, b with
  | [], [] => true
  | x :: a, y :: b => ((y =? x) || ((y =? cSpace) && (is_ident_char x || (x =? cColon)))) && overb a b
  | _, _ => false
  end.
Lemma overb_ok a : forall b, overb a b = true -> Forall2 over a b.
Proof.
  induction a as [|x a IH]; intros [|y b] H; try discriminate; constructor.
  - cbn [overb] in H. apply andb_true_iff in H. destruct H as [H _]. apply orb_true_iff in H. destruct H as [H|H].
    + left. apply N.eqb_eq, H.
    + right. apply andb_true_iff in H. destruct H as [H K]. split; [apply N.eqb_eq, H|].
      apply orb_true_iff in K. destruct K as [K|K]; [left; apply is_ident_char_spec, K|right; apply N.eqb_eq, K].
  - apply IH. cbn [overb] in H. apply andb_true_iff in H. apply H.
Qed.
Example C120_blank_case : Forall2 over main120 main120' /\ main120 <> main120'.
Proof. split; [apply overb_ok; vm_compute; reflexivity|discriminate]. Qed.
Example C120_case :
  let m d t := mkTurn (mem_fs d) (NOpen (FileUri (bs "/a.dts")) t) id_oracle (fun l => l) in
  Forall2 (turn_without spare) [m disk120 main120] [m disk120' main120']
  /\ exists sv, serve 9 [m disk120 main120] server_new = Done sv /\ map (fun p => length (snd p)) (sv_sent sv) = [1; 0]%nat
     /\ off_labels spare (mem_fs disk120) sv (FileUri (bs "/a.dts")) (mkPos 0 60)
     /\ goto_definition (mem_fs disk120) (FileUri (bs "/a.dts")) (mkPos 0 60) sv <> Done None.
Proof.
  cbv zeta. split.
  - constructor; [|constructor]. split; [exact disk120_without|]. split; [split; [reflexivity|exact main120_without]|].
    repeat split. intros R l l' H. exact H.
  - eexists. split; [vm_compute; reflexivity|]. split; [vm_compute; reflexivity|]. split.
    + intros p w E F. injection E as <-. vm_compute in F. discriminate F.
    + vm_compute. discriminate.
Qed.
(** A label that is referred to cannot be left out. *)
Example C120_needed :
  let m t := mkTurn (mem_fs [(bs "/a.dts", t)]) (NOpen (FileUri (bs "/a.dts")) t) id_oracle (fun l => l) in
  let t := bs "/dts-v1/; / { spare: n { }; }; &spare { };" in let t' := bs "/dts-v1/; / {        n { }; }; &spare { };" in
  (forall src toks, tokenize t src = Done toks -> tokenize t' src = Done (filter (stays spare) toks))
  /\ exists sv sv', serve 9 [m t] server_new = Done sv /\ serve 9 [m t'] server_new = Done sv' /\ sv_sent sv' <> sv_sent sv.
Proof.
  cbv zeta. split; [intros src toks H; vm_compute in H; injection H as <-; vm_compute; reflexivity|].
  eexists _, _. split; [vm_compute; reflexivity|]. split; [vm_compute; reflexivity|]. vm_compute. discriminate.
Qed.
