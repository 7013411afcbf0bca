(** Labels left out: the tree of a text without some of its labels *)
From Verif Require Import Lexer Parser LexSpec Grammar LexerProofs2 PropsGrammar Utf8.
From Coq Require Import Lia List.
Import ListNotations.

Section Tree.
  (** the names of the labels that are left out *)
  Context (drop : str -> bool).
  Definition un_label (o : option (wtok str)) : option (wtok str) :=
    match o with Some w => if drop (wt_item w) then None else Some w | None => None end.
  Definition un_property (p : property) : property :=
    mkProp (un_label (pr_label p)) (pr_name p) (pr_values p) (pr_end p).
  Fixpoint un_item (i : item) : item :=
    match i with
    | IProperty p => IProperty (un_property p)
    | INode n => INode (un_node n)
    | _ => i
    end
  with un_node (n : node) : node :=
    match n with mkNode lb nm pl o => mkNode (un_label lb) nm (un_payload pl) o end
  with un_payload (p : payload) : payload :=
    match p with
    | mkPayload its e =>
      mkPayload ((fix go (l : list item) : list item := match l with [] => [] | i :: r => un_item i :: go r end) its) e
    end.
  Definition un_primary (p : primary) : primary :=
    match p with
    | PRoot n => PRoot (un_node n)
    | PReferencedNode r => PReferencedNode (mkRefNode (rn_reference r) (un_payload (rn_payload r)))
    | _ => p
    end.
  Definition un_file (f : dts_file) : dts_file := mkFile (map un_primary (fl_elements f)) (fl_source f).
  Lemma un_payload_items its e : un_payload (mkPayload its e) = mkPayload (map un_item its) e.
  Proof. reflexivity. Qed.

  (** the tokens that stay *)
  Definition stays (t : token) : bool := match tk_kind t with Label s => negb (drop s) | _ => true end.
  Notation F := (filter stays).
  Lemma stay_not t l : (forall s, tk_kind t <> Label s) -> F (t :: l) = t :: F l.
  Proof.
    intros H. cbn [filter]. assert (E : stays t = true); [|rewrite E; reflexivity].
    unfold stays. destruct (tk_kind t) eqn:E; try reflexivity. destruct (H _ eq_refl).
  Qed.
  Ltac stay := rewrite !stay_not by (let s := fresh in let E := fresh in intros s E; unfold is in *; congruence).

  (** ** The grammar *)
  Lemma un_opt_label l l' : opt_label l l' -> opt_label (F l) (F l').
  Proof.
    destruct 1 as [l|t s l H]; [constructor|]. cbn [filter]. destruct (stays t); [|constructor].
    econstructor. exact H.
  Qed.
  Lemma un_parens l l' : parens l l' -> parens (F l) (F l').
  Proof.
    induction 1 as [l|t l l' A B _ IH|t l u l' l'' A B _ IH _ IH2].
    - constructor.
    - cbn [filter]. destruct (stays t); [|exact IH]. constructor; assumption.
    - assert (E : forall s, tk_kind u <> Label s) by (unfold is in *; congruence).
      rewrite (stay_not u) in IH by exact E. stay. econstructor; eassumption.
  Qed.
  Lemma un_cell l c l' : g_cell l c l' -> g_cell (F l) c (F l').
  Proof.
    destruct 1 as [t s n l A B C|t r x l A B|t l u l' A B C]; stay; try (econstructor; eassumption).
    apply un_parens in C. rewrite (stay_not u) in C by (unfold is in *; congruence). econstructor; eassumption.
  Qed.
  Lemma un_cells l cs t l' : g_cells l cs t l' -> g_cells (F l) cs t (F l').
  Proof.
    induction 1 as [l t l' A B|l l1 c l2 cs t l' A B _ IH].
    - apply un_opt_label in A. rewrite (stay_not t) in A by (unfold is in *; congruence). econstructor; eassumption.
    - apply un_opt_label in A. apply un_cell in B. econstructor; eassumption.
  Qed.
  Lemma un_bytes l bs t l' : g_bytes l bs t l' -> g_bytes (F l) bs t (F l').
  Proof.
    induction 1 as [l t l' A B|l e s b l2 bs t l' A B C _ IH].
    - apply un_opt_label in A. rewrite (stay_not t) in A by (unfold is in *; congruence). econstructor; eassumption.
    - apply un_opt_label in A. rewrite (stay_not e) in A by (destruct B; unfold is in *; congruence). econstructor; eassumption.
  Qed.
  Lemma un_bits l l' : g_bits l l' -> g_bits (F l) (F l').
  Proof. destruct 1 as [l|d t s l A B]; [constructor|]. stay. econstructor; eassumption. Qed.
  Lemma un_value l v l' : g_value l v l' -> g_value (F l) v (F l').
  Proof.
    destruct 1 as [l t s l' A B|l t r x l' A B C|l t l1 cs e l' A B C|l t l1 bs e l' A B C];
      apply un_bits in A; rewrite (stay_not t) in A by (unfold is in *; congruence).
    - econstructor; eassumption.
    - econstructor; eassumption.
    - apply un_cells in C. econstructor; eassumption.
    - apply un_bytes in C. eapply gv_bytes; eassumption.
  Qed.
  Lemma un_values l vs l' : g_values l vs l' -> forall t r, l' = t :: r -> is Semicolon t -> g_values (F l) vs (F l').
  Proof.
    induction 1 as [l l1 v l2 l' A B C D|l l1 v l2 c l3 vs l' A B C D _ IH]; intros t r E S.
    - apply un_opt_label in A, C. apply un_value in B. subst l'.
      assert (X : forall s, tk_kind t <> Label s) by (unfold is in *; congruence).
      econstructor; try eassumption. rewrite (stay_not t) in * by exact X.
      exists t, (F r). split; [reflexivity|]. split; [unfold is in *; congruence|]. intros _ s K. unfold is in *. congruence.
    - apply un_opt_label in A, C. apply un_value in B. rewrite (stay_not c) in C by (unfold is in *; congruence).
      econstructor; try eassumption. eapply IH; eassumption.
  Qed.
  Lemma un_end l e l' m : g_end l e l' m -> m = 0%nat ->
    exists t, l = t :: l' /\ e = Some t /\ is Semicolon t /\ g_end (F l) e (F l') 0.
  Proof.
    destruct 1 as [t l H|l H]; intros E; [|discriminate]. exists t. repeat split; try assumption. stay. constructor. exact H.
  Qed.
  Lemma un_glabel l lb l' : g_label l lb l' -> g_label (F l) (un_label lb) (F l').
  Proof.
    destruct 1 as [l|t s l A B]; [constructor|]. unfold is in A. cbn [filter un_label wt_item]. unfold stays. rewrite A.
    destruct (drop s); cbn [negb]; constructor; assumption.
  Qed.
  Lemma un_omit l o l' : g_omit l o l' -> g_omit (F l) o (F l').
  Proof. destruct 1 as [l|t l A]; [constructor|]. stay. constructor. exact A. Qed.

  Lemma un_body_items :
    (forall l p l' n, g_body l p l' n -> n = 0%nat -> g_body (F l) (un_payload p) (F l') 0)
    /\ (forall seen l its l' n, g_items seen l its l' n -> n = 0%nat -> g_items seen (F l) (map un_item its) (F l') 0).
  Proof.
    apply g_body_items_ind.
    - intros l its n l1 o l2 lb c l3 e l4 m A IA B C D E Z. assert (n = 0 /\ m = 0)%nat as [-> ->] by lia.
      destruct (un_end _ _ _ _ E eq_refl) as (t & _ & _ & _ & E'). apply un_glabel in C. apply un_omit in B.
      rewrite (stay_not c) in C by (unfold is in *; congruence).
      rewrite un_payload_items. exact (gbo _ _ _ _ _ _ _ _ _ _ _ _ (IA eq_refl) B C D E').
    - intros. constructor.
    - intros seen d t s nm l e l1 m its l2 n A B C D E G IG Z. assert (n = 0 /\ m = 0)%nat as [-> ->] by lia.
      destruct (un_end _ _ _ _ E eq_refl) as (x & _ & _ & _ & E'). stay.
      exact (gi_delete_node _ _ _ _ _ _ _ _ _ _ _ _ A B C D E' (IG eq_refl)).
    - intros seen d t s l e l1 m its l2 n A B C E G IG Z. assert (n = 0 /\ m = 0)%nat as [-> ->] by lia.
      destruct (un_end _ _ _ _ E eq_refl) as (x & _ & _ & _ & E'). stay.
      exact (gi_delete_property _ _ _ _ _ _ _ _ _ _ _ A B C E' (IG eq_refl)).
    - intros l lb t s q l1 vs l2 e l3 m its l4 n A B C D V E G IG Z. assert (n = 0 /\ m = 0)%nat as [-> ->] by lia.
      destruct (un_end _ _ _ _ E eq_refl) as (x & Ex & _ & S & E').
      apply un_glabel in A. rewrite (stay_not t), (stay_not q) in A by (unfold is in *; congruence).
      pose proof (un_values _ _ _ V _ _ Ex S) as V'.
      exact (gi_property _ _ _ _ _ _ _ _ _ _ _ _ _ _ A B C D V' E' (IG eq_refl)).
    - intros l lb t s e l1 its l2 n A B C D G IG ->.
      apply un_glabel in A. rewrite (stay_not t), (stay_not e) in A by (unfold is in *; congruence).
      exact (gi_empty_property _ _ _ _ _ _ _ _ _ A B C D (IG eq_refl)).
    - intros seen l o l1 lb t s nm b l2 pl l3 m its l4 n A B C D E G H IH I II Z. assert (n = 0 /\ m = 0)%nat as [-> ->] by lia.
      apply un_omit in A. apply un_glabel in B. rewrite (stay_not t), (stay_not b) in B by (unfold is in *; congruence).
      exact (gi_node _ _ _ _ _ _ _ _ _ _ _ _ _ _ _ _ A B C D E G (IH eq_refl) (II eq_refl)).
  Qed.

  Lemma first_stays incl l ps n t r : g_file incl l ps n -> l = t :: r -> F l = t :: F r.
  Proof.
    intros H E. destruct H as [|l p l' m ps n H _]; [discriminate|].
    destruct H; injection E as -> ->; rewrite (stay_not t) by (unfold is in *; congruence); reflexivity.
  Qed.
  Lemma un_derives incl l ps n : g_file incl l ps n -> n = 0%nat -> g_file incl (F l) (map un_primary ps) 0.
  Proof.
    induction 1 as [|l p l' m ps n H G IH]; intros Z; [constructor|].
    assert (Zm : m = 0%nat) by lia. assert (Zn : n = 0%nat) by lia. specialize (IH Zn). clear Z Zn.
    cbn [map]. apply (gf_cons _ _ _ (F l') 0 _ 0); [|exact IH]. clear IH.
    destruct H as [t l e l' m A B|t l e l' m A B|t a sa na b sb nb l e l' m A B C D B2 C2 D2 E|t f s l A B|t f s l A B C
      |t b l pl l' m A B C|t r x b l pl l' m A B C D|d t r x l e l' m A B C D|d t r x l e l' m A B C D];
      cbn [un_primary]; stay.
    - destruct (un_end _ _ _ _ B Zm) as (u & _ & _ & _ & B'). econstructor; eassumption.
    - destruct (un_end _ _ _ _ B Zm) as (u & _ & _ & _ & B'). econstructor; eassumption.
    - destruct (un_end _ _ _ _ E Zm) as (u & _ & _ & _ & E'). econstructor; eassumption.
    - constructor; assumption.
    - econstructor; try eassumption. intros u r X. destruct l as [|v w]; [discriminate|].
      rewrite (first_stays _ _ _ _ v w G eq_refl) in X. injection X as <- _. eapply C. reflexivity.
    - exact (gp_root incl _ _ _ _ _ _ A B (proj1 un_body_items _ _ _ _ C Zm)).
    - exact (gp_ref_node incl _ _ _ _ _ _ _ _ A B C (proj1 un_body_items _ _ _ _ D Zm)).
    - destruct (un_end _ _ _ _ D Zm) as (u & _ & _ & _ & D'). econstructor; eassumption.
    - destruct (un_end _ _ _ _ D Zm) as (u & _ & _ & _ & D'). eapply gp_omit; eassumption.
  Qed.

  (** a text that is parsed without a complaint, and a text that has the same tokens without these labels *)
  Lemma un_parse incl src t t' toks f s : valid_utf8 t = true -> valid_utf8 t' = true ->
    tokenize t src = Done toks -> tokenize t' src = Done (F toks) ->
    parse_text incl t src = ROk f s -> ps_diags s = [] ->
    exists s', parse_text incl t' src = ROk (un_file f) s' /\ ps_diags s' = [].
  Proof.
    intros V V' T T' P D.
    destruct (C10_clean_parse_derives incl t src f V (ex_intro _ s (conj P D))) as (Es & toks2 & L & G).
    pose proof (proj2 (tokenize_iff t src toks2 V) L) as T2. rewrite T in T2. injection T2 as <-.
    apply un_derives in G; [|reflexivity].
    destruct (C11_grammatical_parses_clean incl t' src (F toks) _ V' (proj1 (tokenize_iff t' src _ V') T') G) as [(s' & H & H2) _].
    exists s'. unfold un_file. rewrite Es. split; assumption.
  Qed.
End Tree.

(** ** Labels written over with spaces *)
Definition over (a b : N) : Prop := b = a \/ (b = cSpace /\ (name_char a \/ a = cColon)).
Lemma over_refl l : Forall2 over l l.
Proof. induction l; constructor; [left; reflexivity|assumption]. Qed.
Lemma over_nl a b : over a b -> (cNL =? b) = (cNL =? a) /\ (b = cNL <-> a = cNL).
Proof.
  intros [->|[-> H]]; [split; reflexivity|].
  assert (a <> cNL).
  { intros ->. destruct H as [[H|[H|H]]|H]; [unfold letter in H; lia|unfold digit in H; lia| |discriminate H].
    cbn [In] in H. repeat (destruct H as [H|H]; [discriminate H|]). destruct H. }
  split; [|split; intros; [discriminate|contradiction]]. change (cNL =? cSpace) with false. symmetry. apply N.eqb_neq. congruence.
Qed.
Lemma over_pos l l' : Forall2 over l l' -> pos_after l' = pos_after l.
Proof.
  intros H.
  assert (A : forall l l', Forall2 over l l' -> count_occ N.eq_dec l' cNL = count_occ N.eq_dec l cNL).
  { induction 1 as [|a b x y O _ IH]; [reflexivity|]. cbn [count_occ]. destruct (over_nl _ _ O) as [_ O2].
    destruct (N.eq_dec b cNL), (N.eq_dec a cNL); try (exfalso; tauto); congruence. }
  assert (B : forall l l', Forall2 over l l' -> existsb (N.eqb cNL) l' = existsb (N.eqb cNL) l).
  { induction 1 as [|a b x y O _ IH]; [reflexivity|]. cbn [existsb]. rewrite IH, (proj1 (over_nl _ _ O)). reflexivity. }
  assert (C : forall l l', Forall2 over l l' -> length l' = length l).
  { induction 1; cbn [length]; congruence. }
  assert (D : length (since_nl l') = length (since_nl l)).
  { induction H as [|a b x y O R IH]; [reflexivity|]. cbn [since_nl].
    rewrite (B (a :: x) (b :: y) (Forall2_cons _ _ O R)). destruct (existsb (N.eqb cNL) (a :: x)); [exact IH|].
    cbn [length]. rewrite (C _ _ R). reflexivity. }
  unfold pos_after, count_nl. rewrite (A _ _ H), D. reflexivity.
Qed.

Lemma lexed_gap src m pre g rest toks : gap g -> lexed src m (pre ++ g) rest toks -> lexed src m pre (g ++ rest) toks.
Proof.
  intros G H. remember (pre ++ g) as p eqn:E. destruct H as [m p t H|m p h u H U|m p h k u rest toks H S L]; subst p.
  - apply lx_end. apply end_gap_app; assumption.
  - rewrite app_assoc. apply lx_unterminated; [apply gap_app; assumption|exact U].
  - pose proof (lx_token src m pre (g ++ h) k u rest toks (gap_app _ _ G H) S) as X.
    rewrite !app_assoc in X. rewrite !app_assoc. rewrite !app_assoc in L. exact (X L).
Qed.

(** [rest'] begins like [rest], or with a space *)
Definition begins_alike (rest rest' : list N) : Prop :=
  match rest, rest' with
  | [], [] => True
  | a :: _, b :: _ => b = a \/ b = cSpace
  | _, _ => False
  end.
Lemma over_begins l l' : Forall2 over l l' -> begins_alike l l'.
Proof. destruct 1 as [|a b l l' [->|[-> _]] _]; cbn; auto. Qed.
Lemma spells_alike m k u rest rest' : begins_alike rest rest' -> spells m k u rest -> spells m k u rest'.
Proof.
  intros B H.
  assert (X : forall P : N -> Prop, P cSpace -> (forall x r, rest = x :: r -> P x) -> forall x r, rest' = x :: r -> P x).
  { intros P Ps Pr x r ->. destruct rest as [|a rest]; [destruct B|]. cbn in B.
    destruct B as [-> | ->]; [eapply Pr; reflexivity|exact Ps]. }
  assert (N1 : ~ letter cSpace) by (unfold letter; lia).
  assert (N2 : ~ digit cSpace) by (unfold digit; lia).
  assert (N3 : ~ name_char cSpace).
  { intros [Y|[Y|Y]]; try tauto. cbn [In] in Y. repeat (destruct Y as [Y|Y]; [discriminate Y|]). destruct Y. }
  destruct H.
  - apply LexSpec.sp_name; try assumption. apply (X (fun x => ~ name_char x /\ x <> cColon /\ x <> cAt)); [|assumption].
    split; [exact N3|]. split; discriminate.
  - apply LexSpec.sp_name_at; try assumption. apply (X (fun x => ~ name_char x)); assumption.
  - apply LexSpec.sp_label; assumption.
  - apply LexSpec.sp_number; try assumption. apply (X (fun x => ~ (letter x \/ digit x))); [tauto|assumption].
  - apply LexSpec.sp_ref; try assumption. apply (X (fun x => ~ label_char x)); [|assumption].
    intros [Y|[Y|Y]]; try tauto. discriminate Y.
  - destruct rest' as [|y r']; [destruct B|]. apply LexSpec.sp_ref_empty; cbn in B; destruct B as [-> | ->]; try assumption.
    discriminate.
  - apply LexSpec.sp_ref_path; assumption.
  - apply LexSpec.sp_string; assumption.
  - apply LexSpec.sp_slash. apply (X (fun x => x <> cSlash /\ x <> cStar /\ ~ letter x)); [|assumption].
    split; [discriminate|]. split; [discriminate|exact N1].
  - apply LexSpec.sp_directive; assumption.
  - destruct rest' as [|y r']; [|destruct B]. apply LexSpec.sp_directive_eof; assumption.
  - apply LexSpec.sp_punct; assumption.
  - apply LexSpec.sp_unknown; assumption.
Qed.

Lemma gap_spaces n : gap (repeat cSpace n).
Proof. induction n; cbn [repeat]; constructor; [left; reflexivity|assumption]. Qed.
Lemma label_over s : Forall name_char s -> Forall2 over (s ++ [cColon]) (repeat cSpace (length (s ++ [cColon]))).
Proof.
  induction 1 as [|c s H _ IH]; cbn [app length repeat].
  - constructor; [|constructor]. right. split; [reflexivity|]. right. reflexivity.
  - constructor; [|exact IH]. right. split; [reflexivity|]. left. exact H.
Qed.

(** every label of the text that is to go can be written over with spaces *)
Lemma un_lexed drop src m pre t toks : lexed src m pre t toks -> forall pre', Forall2 over pre pre' ->
  exists t', Forall2 over t t' /\ lexed src m pre' t' (filter (stays drop) toks).
Proof.
  induction 1 as [m pre t H|m pre g u H U|m pre g k u rest toks G S L IH]; intros pre' O.
  - exists t. split; [apply over_refl|apply lx_end, H].
  - exists (g ++ u). split; [apply over_refl|apply lx_unterminated; assumption].
  - set (tok := mkToken k (mkSpan (pos_after (pre ++ g)) (pos_after (pre ++ g ++ u))) src).
    destruct (stays drop tok) eqn:K; cbn [filter]; rewrite K.
    + destruct (IH (pre' ++ g ++ u)) as (r' & Or & L').
      { apply Forall2_app; [exact O|apply over_refl]. }
      exists (g ++ u ++ r'). split; [repeat apply Forall2_app; try apply over_refl; exact Or|].
      assert (E : tok = mkToken k (mkSpan (pos_after (pre' ++ g)) (pos_after (pre' ++ g ++ u))) src).
      { unfold tok. rewrite (over_pos (pre ++ g) (pre' ++ g)), (over_pos (pre ++ g ++ u) (pre' ++ g ++ u)); [reflexivity| |];
          (apply Forall2_app; [exact O|apply over_refl]). }
      rewrite E. apply lx_token; [exact G| |exact L']. exact (spells_alike _ _ _ _ _ (over_begins _ _ Or) S).
    + unfold stays in K. cbn [tk_kind tok] in K. destruct k as [| | | | | | | | | | | | | s| | | | | |]; try discriminate K.
      inversion S as [| |c w r Hs Hc| | | | | | | | | |]; subst.
      * destruct (IH (pre' ++ g ++ repeat cSpace (length ((c :: w) ++ [cColon])))) as (r' & Or & L').
        { repeat apply Forall2_app; [exact O|apply over_refl|]. apply label_over, Hc. }
        exists (g ++ repeat cSpace (length ((c :: w) ++ [cColon])) ++ r'). split.
        { repeat apply Forall2_app; [apply over_refl| |exact Or]. apply label_over, Hc. }
        apply (lexed_gap _ _ _ g); [exact G|]. apply lexed_gap; [apply gap_spaces|].
        rewrite <- app_assoc. exact L'.
      * exfalso. match goal with H : In _ punctuation |- _ => cbn [punctuation In] in H; repeat (destruct H as [H|H]; [discriminate H|]); destruct H end.
Qed.
