(** Exact diagnostics about names, read off the syntax tree *)
From Verif Require Import Parser LexSpec Utf8 LexerProofs LexerProofs3 Grammar NameProofs NumProofs TokParser ParserSim GrammarComplete
  GrammarSound ParserReport Utf8Adequacy ParserSafe.
From Coq Require Import ZifyBool.

(** ** Specification *)
(** the names of a tree in source order; [NEnd]: the end of braces, where a label without anything may stand *)
Inductive nsite :=
| NLabel (w : wtok str)
| NProperty (w : wtok str)
| NNode (w : wtok node_name)
| NRef (w : wtok reference)
| NEnd.

Definition cell_names (c : cell) : list nsite :=
  match c with CReference r => [NRef r] | _ => [] end.
Definition value_names (v : prop_value) : list nsite :=
  match v with
  | PVCells _ cs _ => flat_map cell_names cs
  | PVReference r => [NRef r]
  | _ => []
  end.
Definition label_names (l : option (wtok str)) : list nsite :=
  match l with Some w => [NLabel w] | None => [] end.
Definition property_names (p : property) : list nsite :=
  label_names (pr_label p) ++ [NProperty (pr_name p)] ++ flat_map value_names (pr_values p).
Fixpoint item_names (i : item) : list nsite :=
  match i with
  | IProperty p => property_names p
  | INode (mkNode l n (mkPayload its _) _) => label_names l ++ [NNode n] ++ flat_map item_names its ++ [NEnd]
  | IDeletedNode _ n => [NNode n]
  | IDeletedProperty _ n => [NProperty n]
  end.
Definition payload_names (pl : payload) : list nsite := flat_map item_names (pl_items pl) ++ [NEnd].
Definition primary_names (p : primary) : list nsite :=
  match p with
  | PRoot n => payload_names (nd_payload n)
  | PReferencedNode r => NRef (rn_reference r) :: payload_names (rn_payload r)
  | PDirective (ADeletedNode _ r) | PDirective (AOmitIfNoRef _ r) => [NRef r]
  | _ => []
  end.
Definition file_names (f : dts_file) : list nsite := flat_map primary_names (fl_elements f).

Section NameSpec.
  Context (src : fpath) (at_text : token -> Prop).
  (** what has to be said about the name [s] in the token [t], called [what] in messages *)
  Inductive name_report (allowed start : N -> Prop) (what : str) (t : token) (s : str) : list diag -> Prop :=
  | nr_fine c r : s = c :: r -> Forall allowed s -> (length s <= 31)%nat -> start c -> name_report allowed start what t s []
  | nr_illegal u c v : s = u ++ encode_char c ++ v -> scalar c -> Forall allowed u -> ~ allowed c ->
      name_report allowed start what t s
        [mkDiag IllegalChar (mkSpan (pos_offset (tk_start t) (N.of_nat (length u))) (pos_offset (tk_start t) (N.of_nat (length u) + 1)))
           src (bs "Illegal char '" ++ encode_char c ++ bs "' in " ++ what)]
  | nr_long digits : Forall allowed s -> (31 < length s)%nat -> numeral 10 digits (N.of_nat (length s)) ->
      (forall r, digits <> 48 :: r) ->
      name_report allowed start what t s
        [mkDiag NameTooLong (tk_span t) src (what ++ bs " should only have 31 characters but has " ++ digits ++ bs " characters")]
  | nr_empty : s = [] -> name_report allowed start what t s [mkDiag ExpectedName (tk_span t) src (bs "Expected " ++ what)]
  | nr_start c r : s = c :: r -> Forall allowed s -> (length s <= 31)%nat -> ~ start c ->
      name_report allowed start what t s [mkDiag IllegalStart (tk_span t) src (what ++ bs " may not start with " ++ [c])].
  Definition label_report := name_report label_char (fun c => letter c \/ c = cUnder) (bs "label").
  Definition property_report := name_report name_char (fun _ => True) (bs "property").
  (** the name and the unit address *)
  Inductive node_report (t : token) (n : node_name) : list diag -> Prop :=
  | nd_symbols : n = mkNN (bs "__symbols__") None -> node_report t n []
  | nd_name ds : n <> mkNN (bs "__symbols__") None -> nn_addr n = None ->
      name_report node_char letter (bs "node name") t (nn_name n) ds -> node_report t n ds
  | nd_address a ds da : nn_addr n = Some a ->
      name_report node_char letter (bs "node name") t (nn_name n) ds ->
      name_report node_char (fun _ => True) (bs "node name") t a da -> node_report t n (ds ++ da).
  Inductive path_report (t : token) : npath -> list diag -> Prop :=
  | pr_nil : path_report t [] []
  | pr_cons n p d ds : node_report t n d -> path_report t p ds -> path_report t (n :: p) (d ++ ds).
  Inductive nsite_report : nsite -> list diag -> Prop :=
  | ns_label s t ds : is (Label s) t -> label_report t s ds -> nsite_report (NLabel (mkWT s t)) ds
  | ns_property s t ds : is (Ident s) t -> property_report t s ds -> nsite_report (NProperty (mkWT s t)) ds
  | ns_node s n t ds : is (Ident s) t -> node_text s n -> node_report t n ds -> nsite_report (NNode (mkWT n t)) ds
  | ns_ref s t ds : is (Ref (TRefSimple s)) t -> label_report t s ds -> nsite_report (NRef (mkWT (RefLabel s) t)) ds
  | ns_path s p t ds : is (Ref (TRefPath s)) t -> s <> [] -> path_text s p -> path_report t p ds ->
      nsite_report (NRef (mkWT (RefPath p) t)) ds
  | ns_empty t : is (Ref (TRefPath [])) t ->
      nsite_report (NRef (mkWT (RefPath []) t)) [mkDiag PathCannotBeEmpty (tk_span t) (tk_source t) (bs "Path cannot be empty")]
  | ns_end : nsite_report NEnd []
  | ns_end_label s t ds : at_text t -> is (Label s) t -> label_report t s ds -> nsite_report NEnd ds.
  Inductive nreport : list nsite -> list diag -> Prop :=
  | rn_nil : nreport [] []
  | rn_cons x l d ds : nsite_report x d -> nreport l ds -> nreport (x :: l) (d ++ ds).
End NameSpec.

(** the diagnostics it is about *)
Definition naming (d : diag) : bool :=
  match dg_kind d with
  | IllegalChar | NameTooLong | ExpectedName | IllegalStart | PathCannotBeEmpty => true
  | _ => false
  end.

(** ** Proofs *)
Lemma nreport_app src X a b da db : nreport src X a da -> nreport src X b db -> nreport src X (a ++ b) (da ++ db).
Proof.
  induction 1 as [|x l d ds Hx _ IH]; intros Hb; [exact Hb|]. cbn [app]. rewrite <- app_assoc. constructor; auto.
Qed.
Lemma nreport_one src X x d : nsite_report src X x d -> nreport src X [x] d.
Proof. intros H. rewrite <- (app_nil_r d). constructor; [exact H|constructor]. Qed.

Section NameReport.
  Context (src : fpath) (X : token -> Prop) (incl : list fpath) (rl : position -> list token).
  Notation good := (fun t => tok_ok t /\ X t).
  Notation ok := (Forall good).
  Notation report := (nreport src X).
  Hypothesis rl_ok : forall p, ok (rl p).
  Definition wpt {A} (m : TM A) (Q : A -> list token -> list diag -> Prop) (l : list token) : Prop :=
    forall ds, match m (mkTS l ds) with
               | TOk a s => exists new, t_diags s = ds ++ new /\ Q a (t_toks s) (filter naming new)
               | _ => True
               end.
  (** nothing reported, tokens stay fine *)
  Definition quiet {A} (m : TM A) : Prop := forall l, ok l -> wpt m (fun _ l' ds => ok l' /\ ds = []) l.
  (** the result is reported *)
  Definition says {A} (m : TM A) (sites : A -> list nsite) : Prop :=
    forall l, ok l -> wpt m (fun a l' ds => ok l' /\ report (sites a) ds) l.

  Lemma wpt_bind {A B} (m : TM A) (k : A -> TM B) Q l :
    wpt m (fun a l' d1 => wpt (k a) (fun b l'' d2 => Q b l'' (d1 ++ d2)) l') l -> wpt (t_bind m k) Q l.
  Proof.
    intros H ds. specialize (H ds). unfold t_bind. destruct (m (mkTS l ds)) as [a [l' ds']|d s|]; auto.
    destruct H as (new & E & H). cbn [t_diags t_toks] in *. specialize (H ds'). destruct (k a (mkTS l' ds')) as [b s|d s|]; auto.
    destruct H as (new' & E' & H). exists (new ++ new'). rewrite filter_app. split; [|exact H].
    rewrite E', E, app_assoc. reflexivity.
  Qed.
  Lemma wpt_conseq {A} (m : TM A) (Q Q' : A -> list token -> list diag -> Prop) l :
    wpt m Q l -> (forall a l' ds, Q a l' ds -> Q' a l' ds) -> wpt m Q' l.
  Proof.
    intros H Hq ds. specialize (H ds). destruct (m (mkTS l ds)); auto. destruct H as (new & E & H). eauto.
  Qed.
  Lemma wpt_ret {A} (a : A) (Q : A -> list token -> list diag -> Prop) l : Q a l [] -> wpt (t_ret a) Q l.
  Proof. intros H ds. exists []. rewrite app_nil_r. auto. Qed.
  Lemma quiet_says {A} (m : TM A) : quiet m -> says m (fun _ => []).
  Proof.
    intros H l Hl. eapply wpt_conseq; [apply H; exact Hl|]. cbn beta. intros a l' ds [Ho ->]. split; [exact Ho|constructor].
  Qed.

  (** sequencing *)
  Lemma says_bind {A B} (m : TM A) (k : A -> TM B) sa sb sc :
    says m sa -> (forall a, says (k a) (sb a)) -> (forall a l b d, report (sa a) d -> report (sb a b) l -> report (sc b) (d ++ l)) ->
    says (t_bind m k) sc.
  Proof.
    intros Hm Hk Hr l Hl. apply wpt_bind. eapply wpt_conseq; [apply Hm; exact Hl|]. cbn beta. intros a l' d1 [Ho H1].
    eapply wpt_conseq; [apply Hk; exact Ho|]. cbn beta. intros b l'' d2 [Ho' H2]. split; [exact Ho'|]. eapply Hr; eassumption.
  Qed.
  Lemma says_quiet {A B} (m : TM A) (k : A -> TM B) sc : quiet m -> (forall a, says (k a) sc) -> says (t_bind m k) sc.
  Proof.
    intros Hm Hk. eapply (says_bind _ _ (fun _ => []) (fun _ => sc)); [apply quiet_says; exact Hm|exact Hk|].
    intros a l b d H. inversion H; subst. auto.
  Qed.
  Lemma says_ret {A} (a : A) s : s a = [] -> says (t_ret a) s.
  Proof. intros E l Hl. apply wpt_ret. rewrite E. split; [exact Hl|constructor]. Qed.
  Lemma says_throw {A} d s : says (@t_throw A d) s.
  Proof. intros l Hl ds. exact I. Qed.
  Lemma says_nofuel {A} s : says (@t_no_fuel A) s.
  Proof. intros l Hl ds. exact I. Qed.

  Lemma quiet_bind {A B} (m : TM A) (k : A -> TM B) : quiet m -> (forall a, quiet (k a)) -> quiet (t_bind m k).
  Proof.
    intros Hm Hk l Hl. apply wpt_bind. eapply wpt_conseq; [apply Hm; exact Hl|]. cbn beta. intros a l' d1 [Ho ->].
    apply Hk. exact Ho.
  Qed.
  Lemma quiet_ret {A} (a : A) : quiet (t_ret a).
  Proof. intros l Hl. apply wpt_ret. auto. Qed.
  Lemma quiet_throw {A} d : quiet (@t_throw A d).
  Proof. intros l Hl ds. exact I. Qed.
  Lemma quiet_nofuel {A} : quiet (@t_no_fuel A).
  Proof. intros l Hl ds. exact I. Qed.
  Lemma quiet_push d : naming d = false -> quiet (t_push d).
  Proof.
    intros E l Hl ds. exists [d]. split; [reflexivity|]. cbn [filter]. rewrite E. split; [exact Hl|reflexivity].
  Qed.
  Lemma quiet_check d : (forall x, d = Some x -> naming x = false) -> quiet (t_push_opt d).
  Proof. destruct d as [x|]; intros H; [apply quiet_push; auto|apply quiet_ret]. Qed.
  Lemma quiet_peek : quiet t_peek.
  Proof. intros l Hl ds. exists []. rewrite app_nil_r. auto. Qed.
  Lemma quiet_next : quiet t_next.
  Proof.
    intros l Hl ds. exists []. rewrite app_nil_r. repeat split. destruct l; [exact Hl|]. inversion Hl; assumption.
  Qed.
  Lemma quiet_relex t : quiet (t_relex rl t).
  Proof. intros l Hl ds. exists []. rewrite app_nil_r. repeat split. apply rl_ok. Qed.

  Create HintDb quiet.
  Hint Resolve quiet_ret quiet_throw quiet_nofuel quiet_peek quiet_next quiet_relex : quiet.
  Ltac quiet_tac :=
    repeat first
      [ progress intros
      | solve [auto with quiet]
      | apply quiet_push; reflexivity
      | match goal with
        | |- quiet (t_bind _ _) => apply quiet_bind
        | |- quiet (match ?x with _ => _ end) => destruct x
        | |- quiet (if ?x then _ else _) => destruct x
        end ].
  Lemma quiet_source : quiet (t_source src). Proof. apply quiet_ret. Qed.
  Lemma quiet_cur : quiet t_cur_pos. Proof. apply quiet_ret. Qed.
  Lemma quiet_last : quiet t_last_pos. Proof. apply quiet_ret. Qed.
  Lemma quiet_incl : quiet (t_include_paths incl). Proof. apply quiet_ret. Qed.
  Hint Resolve quiet_source quiet_cur quiet_last quiet_incl : quiet.
  Lemma quiet_peek_expect : quiet (t_peek_expect src). Proof. unfold t_peek_expect. quiet_tac. Qed.
  Lemma quiet_expect k : quiet (t_expect src k). Proof. unfold t_expect. quiet_tac. Qed.
  Lemma quiet_expect_next : quiet (t_expect_next src). Proof. unfold t_expect_next. quiet_tac. Qed.
  Lemma quiet_skip : quiet t_skip_tok. Proof. unfold t_skip_tok. quiet_tac. Qed.
  Hint Resolve quiet_peek_expect quiet_expect quiet_expect_next quiet_skip : quiet.
  Lemma quiet_skip_expression f : forall d, quiet (t_skip_expression f d).
  Proof. induction f; intros d; cbn [t_skip_expression]; quiet_tac. Qed.
  Hint Resolve quiet_skip_expression : quiet.
  Lemma quiet_skip_label : quiet t_skip_optional_label. Proof. unfold t_skip_optional_label. quiet_tac. Qed.
  Lemma quiet_bits : quiet (t_bits_prefix src). Proof. unfold t_bits_prefix. quiet_tac. Qed.
  Lemma quiet_semicolon : quiet (t_expect_semicolon src rl). Proof. unfold t_expect_semicolon. quiet_tac. Qed.
  Lemma quiet_omit o : quiet (t_check_omit src o). Proof. unfold t_check_omit. quiet_tac. Qed.
  Hint Resolve quiet_skip_label quiet_bits quiet_semicolon quiet_omit : quiet.

  Lemma says_expect_next {A} (k : token -> TM A) sites :
    (forall t, good t -> says (k t) sites) -> says (let^ t := t_expect_next src in k t) sites.
  Proof.
    intros H l Hl. apply wpt_bind. intros ds. unfold t_expect_next, t_bind, t_cur_pos, t_next, t_source, t_ret, t_throw.
    cbn [t_toks t_diags]. destruct l as [|t l]; cbn [hd_error tl]; [exact I|]. inversion Hl as [|? ? Ht Hl']; subst.
    exists []. rewrite app_nil_r. split; [reflexivity|]. cbn [t_toks filter app]. apply H; assumption.
  Qed.
  Lemma says_push {A} d (k : TM A) sites : naming d = true ->
    (forall l, ok l -> wpt k (fun a l' ds => ok l' /\ report (sites a) (d :: ds)) l) -> says (t_push d ;^ k) sites.
  Proof.
    intros E H l Hl. apply wpt_bind. intros ds. exists [d]. split; [reflexivity|]. cbn [t_toks filter]. rewrite E.
    cbn [app]. apply H. exact Hl.
  Qed.

  Lemma quiet_order b p : quiet (t_check_order src b p). Proof. unfold t_check_order. quiet_tac. Qed.
  Lemma quiet_memreserve : quiet (t_memreserve_number src). Proof. unfold t_memreserve_number. quiet_tac. Qed.
  Lemma quiet_bad {A} : quiet (@t_panic A). Proof. intros l Hl ds. exact I. Qed.
  Hint Resolve quiet_bad : quiet.
  Lemma quiet_byte_string : quiet (t_byte_string src). Proof. unfold t_byte_string. quiet_tac. Qed.
  Hint Resolve quiet_order quiet_memreserve quiet_byte_string : quiet.
  Lemma quiet_bytes f : forall acc, quiet (t_bytes_loop src f acc).
  Proof. induction f; intros acc; cbn [t_bytes_loop]; quiet_tac. Qed.
  Hint Resolve quiet_bytes : quiet.

  (** *** The checks *)
  (** a check takes no token and says [R] *)
  Definition checks (m : TM unit) (R : list diag -> Prop) : Prop := forall s, exists new,
    m s = TOk tt (mkTS (t_toks s) (t_diags s ++ new)) /\ R new /\ filter naming new = new.
  Lemma check_says t s pred start allowed starts ctx what :
    valid_utf8 s = true -> (forall c, pred c = true <-> allowed c) -> (forall c, allowed c -> c < 128) ->
    (forall c, start c = true <-> starts c) -> show_name_context ctx = what ->
    checks (t_check_ident src (tk_span t) s pred start ctx) (name_report src allowed starts what t s).
  Proof.
    intros Hv Hp Ha Hs Hw st. unfold t_check_ident, t_source, t_bind, t_ret. rewrite <- Hw.
    destruct (decode_encode s Hv) as [Hsc Henc].
    assert (Hone : forall u, Forall allowed u -> encoded u = u).
    { induction 1 as [|c u Hc _ IH]; [reflexivity|]. unfold encoded in *. cbn [map concat]. rewrite IH.
      unfold encode_char. destruct (N.ltb_spec c 128); [reflexivity|]. apply Ha in Hc. lia. }
    assert (Hpush : forall d (R : list diag -> Prop), R [d] -> naming d = true -> exists new, t_push_opt (Some d) st = TOk tt (mkTS (t_toks st) (t_diags st ++ new)) /\ R new /\ filter naming new = new).
    { intros d R Hr Hn. exists [d]. split; [reflexivity|]. split; [exact Hr|]. cbn [filter]. rewrite Hn. reflexivity. }
    unfold check_ident_diag. destruct (find_bad pred 0 (chars s)) as [[i c]|] eqn:E.
    - apply Hpush; [|reflexivity].
      assert (G : forall cs i j c, find_bad pred i cs = Some (j, c) ->
        exists u v, cs = u ++ c :: v /\ j = i + N.of_nat (length u) /\ Forall (fun x => pred x = true) u /\ pred c = false).
      { induction cs as [|x cs IH]; intros i0 j c0; cbn [find_bad]; [discriminate|]. destruct (pred x) eqn:Ex.
        - intros H. destruct (IH _ _ _ H) as (u & v & -> & -> & Hu & Hc). exists (x :: u), v.
          split; [reflexivity|]. split; [cbn [length]; lia|]. split; [constructor; assumption|exact Hc].
        - intros H. injection H as <- <-. exists [], cs. split; [reflexivity|]. split; [cbn; lia|]. split; [constructor|exact Ex]. }
      destruct (G _ _ _ _ E) as (u & v & En & -> & Hu & Hc). rewrite N.add_0_l. rewrite En in Hsc, Henc.
      assert (Hu' : Forall allowed u) by (eapply Forall_impl; [|exact Hu]; intros y; apply Hp).
      unfold diag_new, as_char_span. rewrite pos_offset_add. apply (nr_illegal _ _ _ _ _ _ u c (encoded v)).
      + rewrite <- Henc. unfold encoded at 1. rewrite map_app, concat_app. cbn [map concat]. f_equal. exact (Hone u Hu').
      + apply Forall_app in Hsc. destruct Hsc as [_ Hsc]. exact (Forall_inv Hsc).
      + exact Hu'.
      + intros Hx. apply Hp in Hx. congruence.
    - apply find_bad_none in E. assert (Hu : Forall allowed (chars s)) by (eapply Forall_impl; [|exact E]; intros y; apply Hp).
      rewrite (Hone _ Hu) in Henc. rewrite Henc in Hu. rewrite Henc.
      destruct (N.ltb_spec 31 (N.of_nat (length s))) as [Hl|Hl].
      + apply Hpush; [|reflexivity]. apply nr_long; [exact Hu|lia|apply show_dec_numeral|].
        intros r. apply show_dec_long. lia.
      + destruct s as [|c r]; [apply Hpush; [apply nr_empty; reflexivity|reflexivity]|].
        destruct (start c) eqn:Es.
        * exists []. rewrite app_nil_r. split; [destruct st; reflexivity|]. split; [|reflexivity].
          eapply nr_fine; [reflexivity|exact Hu|lia|apply Hs; exact Es].
        * apply Hpush; [|reflexivity].
          replace (encode_char c) with [c]; [eapply nr_start; [reflexivity|exact Hu|lia|intros Hx; apply Hs in Hx; congruence]|].
          unfold encode_char. apply Forall_inv, Ha in Hu. destruct (N.ltb_spec c 128); [reflexivity|lia].
  Qed.
  Lemma checks_ret (R : list diag -> Prop) : R [] -> checks (t_ret tt) R.
  Proof. intros H [l ds]. exists []. rewrite app_nil_r. auto. Qed.
  Lemma checks_bind m k R1 R2 (R : list diag -> Prop) : checks m R1 -> checks k R2 -> (forall a b, R1 a -> R2 b -> R (a ++ b)) ->
    checks (m ;^ k) R.
  Proof.
    intros Hm Hk Hr st. unfold t_bind. destruct (Hm st) as (a & Ea & Ha & Fa). rewrite Ea.
    destruct (Hk (mkTS (t_toks st) (t_diags st ++ a))) as (b & Eb & Hb & Fb). rewrite Eb. exists (a ++ b). cbn [t_toks t_diags].
    rewrite app_assoc, filter_app, Fa, Fb. auto.
  Qed.
  Lemma checks_conseq m (R R' : list diag -> Prop) : checks m R -> (forall a, R a -> R' a) -> checks m R'.
  Proof. intros H Hr st. destruct (H st) as (a & Ea & Ha & Fa). exists a. auto. Qed.
  Lemma checks_push d (R : list diag -> Prop) : naming d = true -> R [d] -> checks (t_push d) R.
  Proof. intros Hn H st. exists [d]. cbn [filter]. rewrite Hn. split; [reflexivity|]. auto. Qed.
  Lemma start_label c : label_start c = true <-> letter c \/ c = cUnder.
  Proof. unfold label_start. rewrite Bool.orb_true_iff, is_alpha_spec, N.eqb_eq. tauto. Qed.
  Lemma check_label t s : valid_utf8 s = true -> checks (t_check_is_label src (tk_span t) s) (label_report src t s).
  Proof. intros Hv. apply check_says; [exact Hv|apply label_pred_spec|exact label_char_ascii|exact start_label|reflexivity]. Qed.
  Lemma check_property t s : valid_utf8 s = true -> checks (t_check_is_property_name src (tk_span t) s) (property_report src t s).
  Proof. intros Hv. apply check_says; [exact Hv|apply prop_pred_spec|exact name_char_ascii|intros c; split; auto|reflexivity]. Qed.
  Lemma check_node t n : nn_valid n -> checks (t_check_is_node_name src (tk_span t) n) (node_report src t n).
  Proof.
    intros [Hv Hva]. unfold t_check_is_node_name.
    assert (Hn : forall s start starts, valid_utf8 s = true -> (forall c, start c = true <-> starts c) ->
      checks (t_check_ident src (tk_span t) s node_pred start CtxNodeName) (name_report src node_char starts (bs "node name") t s))
      by (intros s start starts H1 H2; apply check_says; [exact H1|apply node_pred_spec|exact node_char_ascii|exact H2|reflexivity]).
    destruct n as [nm [a|]]; cbn [nn_name nn_addr] in *.
    - eapply checks_bind; [apply (Hn nm is_alpha letter Hv), is_alpha_spec|apply (Hn a any_char (fun _ => True) (Hva a eq_refl)); intros c; split; auto|].
      intros x y Hx Hy. eapply nd_address; [reflexivity|exact Hx|exact Hy].
    - destruct (str_eqb nm (bs "__symbols__")) eqn:E.
      + apply checks_ret. apply nd_symbols. apply str_eqb_spec in E. subst nm. reflexivity.
      + eapply checks_bind; [apply (Hn nm is_alpha letter Hv), is_alpha_spec|apply (checks_ret (fun d => d = [])); reflexivity|].
        intros x y Hx ->. rewrite app_nil_r. apply nd_name; [|reflexivity|exact Hx].
        intros K. injection K as ->. vm_compute in E. discriminate E.
  Qed.
  Lemma check_path t p : Forall nn_valid p -> checks (t_check_path src (tk_span t) p) (path_report src t p).
  Proof.
    induction 1 as [|n p Hn _ IH]; cbn [t_check_path]; [apply checks_ret; constructor|].
    eapply checks_bind; [apply (check_node t n Hn)|exact IH|]. intros a b Ha Hb. constructor; assumption.
  Qed.

  Lemma wpt_checks {A} (m : TM unit) (k : TM A) R Q l : checks m R ->
    (forall new, R new -> wpt k (fun b l' d => Q b l' (new ++ d)) l) -> wpt (m ;^ k) Q l.
  Proof.
    intros Hm Hk. apply wpt_bind. intros ds. destruct (Hm (mkTS l ds)) as (a & Ea & Ha & Fa). rewrite Ea.
    exists a. cbn [t_toks t_diags]. split; [reflexivity|]. rewrite Fa. apply Hk. exact Ha.
  Qed.
  Lemma wpt_quiet {A B} (m : TM A) (k : A -> TM B) Q l : quiet m -> ok l ->
    (forall a l', ok l' -> wpt (k a) Q l') -> wpt (t_bind m k) Q l.
  Proof.
    intros Hm Hl Hk. apply wpt_bind. eapply wpt_conseq; [apply Hm; exact Hl|]. cbn beta. intros a l' ds [Ho ->].
    apply Hk. exact Ho.
  Qed.
  Lemma wpt_says {A B} (m : TM A) (k : A -> TM B) sites Q l : says m sites -> ok l ->
    (forall a l' d, ok l' -> report (sites a) d -> wpt (k a) (fun b l'' d2 => Q b l'' (d ++ d2)) l') -> wpt (t_bind m k) Q l.
  Proof.
    intros Hm Hl Hk. apply wpt_bind. eapply wpt_conseq; [apply Hm; exact Hl|]. cbn beta. intros a l' ds [Ho Hr].
    apply Hk; assumption.
  Qed.

  Lemma wpt_next {A} (k : token -> TM A) Q l : ok l ->
    (forall t l', good t -> ok l' -> wpt (k t) Q l') -> wpt (let^ t := t_expect_next src in k t) Q l.
  Proof.
    intros Hl H. apply wpt_bind. intros ds. unfold t_expect_next, t_bind, t_cur_pos, t_next, t_source, t_ret, t_throw.
    cbn [t_toks t_diags]. destruct l as [|t l]; cbn [hd_error tl]; [exact I|]. inversion Hl as [|? ? Ht Hl']; subst.
    exists []. rewrite app_nil_r. split; [reflexivity|]. cbn [t_toks filter app]. apply H; assumption.
  Qed.
  Lemma says_reference t r : good t -> is (Ref r) t -> says (t_p_reference src t r) (fun w => [NRef w]).
  Proof.
    intros [Ht _] Hk l Hl. unfold tok_ok in Ht. rewrite Hk in Ht. cbn [kind_ok] in Ht. destruct r as [s|s]; cbn [t_p_reference].
    - eapply wpt_checks; [apply check_label, valid_ascii; eapply Forall_impl; [|exact Ht]; exact label_char_ascii|].
      intros new Hn. apply wpt_ret. split; [exact Hl|]. rewrite app_nil_r. apply nreport_one. apply ns_ref; assumption.
    - eapply (wpt_checks _ _ (fun new => new = match s with [] => [mkDiag PathCannotBeEmpty (tk_span t) (tk_source t) (bs "Path cannot be empty")] | _ => [] end)).
      { destruct s; [apply checks_push; reflexivity|apply checks_ret; reflexivity]. }
      intros new ->. pose proof (proj2 (path_text_iff s _) eq_refl) as Hp.
      eapply wpt_checks; [apply check_path; eapply path_valid; [exact Hp|exact Ht]|]. intros new Hn. apply wpt_ret.
      split; [exact Hl|]. rewrite app_nil_r. apply nreport_one. destruct s as [|c s].
      + cbn [npath_of] in *. change (npath_of []) with (@nil node_name) in *. inversion Hn; subst. rewrite app_nil_r. apply ns_empty. exact Hk.
      + cbn [app]. eapply ns_path; [exact Hk|discriminate|exact Hp|exact Hn].
  Qed.
  Lemma says_parse_reference : says (t_parse_reference src) (fun w => [NRef w]).
  Proof.
    unfold t_parse_reference. apply says_expect_next. intros t Ht. destruct (tk_kind t) eqn:E; try (apply says_throw).
    apply says_reference; [exact Ht|exact E].
  Qed.
  Lemma says_p_property_name : says (t_p_property_name src) (fun w => [NProperty w]).
  Proof.
    unfold t_p_property_name. apply says_expect_next. intros t [Ht _]. destruct (tk_kind t) eqn:E; try (apply says_throw).
    intros l Hl. unfold tok_ok in Ht. rewrite E in Ht. eapply wpt_checks; [apply check_property, valid_ascii; exact Ht|].
    intros new Hn. apply wpt_ret. split; [exact Hl|]. rewrite app_nil_r. apply nreport_one, ns_property; assumption.
  Qed.
  Lemma says_p_node_name : says (t_p_node_name src) (fun w => [NNode w]).
  Proof.
    unfold t_p_node_name. apply says_expect_next. intros t [Ht _]. destruct (tk_kind t) eqn:E; try (apply says_throw).
    intros l Hl. unfold tok_ok in Ht. rewrite E in Ht. eapply wpt_checks; [apply check_node, nn_valid_of, valid_ascii; exact Ht|].
    intros new Hn. apply wpt_ret. split; [exact Hl|]. rewrite app_nil_r. eapply nreport_one, ns_node; [exact E|apply node_text_iff; reflexivity|exact Hn].
  Qed.
  Lemma says_number f : says (t_number_u32 src f) cell_names.
  Proof.
    unfold t_number_u32. apply says_expect_next. intros t Ht.
    destruct (tk_kind t) eqn:E; try (apply says_throw).
    - apply says_quiet; [quiet_tac|]. intros _. apply says_quiet; [quiet_tac|]. intros o.
      apply says_quiet; [quiet_tac|]. intros _. apply says_ret. reflexivity.
    - destruct (parse_number u32_lim s) as [n|e]; [|apply says_quiet; [quiet_tac|]; intros _]; apply says_ret; reflexivity.
    - intros l Hl. eapply wpt_says; [apply (says_reference t r Ht E)|exact Hl|]. intros w l1 d H1 R. apply wpt_ret. split; [exact H1|].
      rewrite app_nil_r. exact R.
  Qed.
  Lemma number_fails f l ds d s : ok l -> t_number_u32 src f (mkTS l ds) = TErr d s ->
    t_diags s = ds /\ naming d = false /\ ok (t_toks s).
  Proof.
    intros Hl. unfold t_number_u32, t_bind at 1. unfold t_expect_next, t_bind, t_cur_pos, t_next, t_source, t_ret, t_throw.
    cbn [t_toks t_diags].
    destruct l as [|t l]; cbn [hd_error tl].
    { intros E. injection E as <- <-. repeat split. constructor. }
    inversion Hl as [|? ? Ht Hl']; subst.
    destruct (tk_kind t) eqn:E; try (intros E1; injection E1 as <- <-; repeat split; exact Hl').
    - assert (N : forall n dep s0 d' s', t_skip_expression n dep s0 <> TErr d' s').
      { induction n as [|n IH]; intros dep s0 d' s' E1; cbn [t_skip_expression] in E1; [discriminate|].
        unfold t_bind, t_peek, t_skip_tok, t_next, t_ret in E1. destruct (hd_error (t_toks s0)) as [u|]; [|discriminate].
        unfold t_bind in E1. destruct (tk_kind u); try (eapply IH; exact E1).
        destruct (dep =? 1); [discriminate|eapply IH; exact E1]. }
      destruct (t_skip_expression f 1 _) as [x s1|d1 s1|] eqn:E1; [|exfalso; eapply N; exact E1|discriminate].
      unfold t_peek. destruct (hd_error (t_toks s1)); discriminate.
    - destruct (parse_number u32_lim s0); discriminate.
    - assert (N : forall sp p s0 d' s', t_check_path src sp p s0 <> TErr d' s').
      { assert (C : forall a b c e g s0, exists s', t_check_ident src a b c e g s0 = TOk tt s').
        { intros. unfold t_check_ident, t_bind, t_source, t_ret, t_push_opt.
          destruct (check_ident_diag _ _ _ _ _ _); eexists; reflexivity. }
        intros sp p. induction p as [|n p IH]; intros s0 d' s' E1; cbn [t_check_path] in E1; [discriminate|].
        unfold t_bind, t_check_is_node_name in E1. destruct (match nn_addr n with None => _ | Some _ => _ end).
        - unfold t_ret in E1. eapply IH. exact E1.
        - unfold t_bind in E1. destruct (C sp (nn_name n) node_pred is_alpha CtxNodeName s0) as [s1 H1]. rewrite H1 in E1.
          destruct (nn_addr n) as [a|].
          + destruct (C sp a node_pred any_char CtxNodeName s1) as [s2 H2]. rewrite H2 in E1. eapply IH. exact E1.
          + unfold t_ret in E1. eapply IH. exact E1. }
      destruct (t_p_reference src t r _) as [x s1|d1 s1|] eqn:E1; [discriminate| |discriminate]. exfalso.
      unfold t_p_reference in E1. destruct r as [n|n].
      + unfold t_check_is_label, t_check_ident, t_bind, t_source, t_ret, t_push_opt in E1.
        destruct (check_ident_diag _ _ _ _ _ _); discriminate.
      + unfold t_bind at 1 in E1. destruct n; cbn in E1; unfold t_bind in E1; try discriminate;
          destruct (t_check_path _ _ _ _) as [y s2|d2 s2|] eqn:E2; try discriminate; eapply N; exact E2.
  Qed.

  Lemma cells_report f : forall acc l, ok l ->
    wpt (t_cells_loop src f acc)
      (fun r l' ds => ok l' /\ exists cs, fst r = acc ++ cs /\ report (flat_map cell_names cs) ds) l.
  Proof.
    induction f as [|f IH]; intros acc l Hl; cbn [t_cells_loop]; [intros ds; exact I|].
    apply wpt_quiet; [quiet_tac|exact Hl|]. intros _ l1 H1. apply wpt_quiet; [quiet_tac|exact H1|]. intros t l2 H2.
    destruct (kind_eqb _ _).
    - apply wpt_quiet; [quiet_tac|exact H2|]. intros e l3 H3. apply wpt_ret. split; [exact H3|].
      exists []. rewrite app_nil_r. split; [reflexivity|constructor].
    - intros ds. unfold t_catch. pose proof (says_number f l2 H2 ds) as Hn.
      pose proof (number_fails f l2 ds) as He.
      destruct (t_number_u32 src f (mkTS l2 ds)) as [c [l3 ds3]|d [l3 ds3]|]; [| |exact I].
      + destruct Hn as (new & E & H3 & Hr). cbn [t_toks t_diags] in *. pose proof (IH (acc ++ [c]) l3 H3 ds3) as G.
        destruct (t_cells_loop src f (acc ++ [c]) (mkTS l3 ds3)) as [r s|d s|]; auto.
        destruct G as (new' & E' & H4 & cs & E4 & Hr'). exists (new ++ new'). rewrite E', E, app_assoc.
        split; [reflexivity|]. split; [exact H4|]. exists (c :: cs). rewrite E4, <- app_assoc. split; [reflexivity|].
        rewrite filter_app. cbn [flat_map]. apply nreport_app; assumption.
      + destruct (He _ _ H2 eq_refl) as (E & Er & H3). cbn [t_toks t_diags] in *. subst ds3.
        unfold t_bind, t_push. cbn [t_toks t_diags]. pose proof (IH acc l3 H3 (ds ++ [d])) as G.
        destruct (t_cells_loop src f acc (mkTS l3 (ds ++ [d]))) as [r s|d' s|]; auto.
        destruct G as (new' & E' & H4 & G). exists (d :: new'). rewrite E', <- app_assoc. split; [reflexivity|].
        cbn [filter]. rewrite Er. split; [exact H4|exact G].
  Qed.
  Lemma says_value f : says (t_property_value src f) value_names.
  Proof.
    unfold t_property_value. apply says_quiet; [quiet_tac|]. intros _. apply says_expect_next. intros t Ht.
    destruct (tk_kind t) eqn:E; try (apply says_throw).
    - apply says_quiet; [quiet_tac|]. intros [ss e]. apply says_ret. reflexivity.
    - intros l Hl. apply wpt_bind. eapply wpt_conseq; [apply cells_report; exact Hl|]. cbn beta.
      intros [cs e] l1 d1 (H1 & cs' & E1 & Hr). cbn [fst app] in E1. subst cs'. apply wpt_ret.
      split; [exact H1|]. rewrite app_nil_r. exact Hr.
    - apply says_ret. reflexivity.
    - intros l Hl. eapply wpt_says; [apply (says_reference t r Ht E)|exact Hl|]. intros w l1 d H1 R. apply wpt_ret. split; [exact H1|].
      rewrite app_nil_r. exact R.
  Qed.
  Lemma values_report f : forall acc l, ok l ->
    wpt (t_property_values src f acc)
      (fun r l' ds => ok l' /\ exists vs, r = acc ++ vs /\ report (flat_map value_names vs) ds) l.
  Proof.
    induction f as [|f IH]; intros acc l Hl; cbn [t_property_values]; [intros ds; exact I|].
    apply wpt_quiet; [quiet_tac|exact Hl|]. intros _ l1 H1.
    eapply wpt_says; [apply says_value|exact H1|]. intros v l2 d H2 Hr.
    apply wpt_quiet; [quiet_tac|exact H2|]. intros _ l3 H3. apply wpt_quiet; [quiet_tac|exact H3|]. intros t l4 H4.
    destruct (kind_eqb _ _).
    - apply wpt_quiet; [quiet_tac|exact H4|]. intros _ l5 H5.
      eapply wpt_conseq; [apply IH; exact H5|]. cbn beta. intros r l6 d6 (H6 & vs & E6 & Hr6). split; [exact H6|].
      exists (v :: vs). rewrite E6, <- app_assoc. split; [reflexivity|]. cbn [flat_map]. apply nreport_app; assumption.
    - apply wpt_ret. split; [exact H4|]. exists [v]. split; [reflexivity|]. cbn [flat_map]. rewrite !app_nil_r. exact Hr.
  Qed.

  Lemma payload_report f : forall items seen l, ok l ->
    wpt (t_payload_loop src rl f items seen)
      (fun pl l' ds => ok l' /\ exists its, pl_items pl = items ++ its /\ report (flat_map item_names its ++ [NEnd]) ds) l.
  Proof.
    induction f as [|f IH]; intros items seen l Hl; cbn [t_payload_loop]; [intros ds; exact I|].
    eapply (wpt_next _ _ _ Hl). intros t l1 [Ht Hx] H1.
    destruct (kind_eqb _ _); [|destruct (kind_eqb _ _)].
    - eapply wpt_says; [apply says_p_node_name|exact H1|]. intros n l2 d2 H2 R2. apply wpt_quiet; [quiet_tac|exact H2|]. intros e l3 H3.
      eapply wpt_conseq; [apply IH; exact H3|]. cbn beta. intros pl l4 d (H4 & its & E & Hr). split; [exact H4|].
      exists (IDeletedNode t n :: its). rewrite E, <- app_assoc. split; [reflexivity|]. cbn [flat_map item_names]. 
      rewrite <- app_assoc. apply nreport_app; assumption.
    - eapply wpt_says; [apply says_p_property_name|exact H1|]. intros n l2 d2 H2 R2. apply wpt_quiet; [quiet_tac|exact H2|]. intros e l3 H3.
      eapply wpt_conseq; [apply IH; exact H3|]. cbn beta. intros pl l4 d (H4 & its & E & Hr). split; [exact H4|].
      exists (IDeletedProperty t n :: its). rewrite E, <- app_assoc. split; [reflexivity|]. cbn [flat_map item_names]. 
      rewrite <- app_assoc. apply nreport_app; assumption.
    - apply wpt_bind. apply (wpt_conseq _ (fun r l' d => ok l' /\ good (fst r) /\ d = [])).
      { destruct (kind_eqb _ _); [|apply wpt_ret; auto]. eapply (wpt_next _ _ _ H1). intros t1 l2 G H2. apply wpt_ret. auto. }
      intros [t1 omit] l2 d (H2 & G1 & ->). cbn [fst app] in *.
      apply wpt_bind. apply (wpt_conseq _ (fun r l' d => ok l' /\ good (fst r) /\ report (label_names (snd r)) d /\ nsite_report src X NEnd d)).
      { destruct (tk_kind t1) eqn:E1; try (apply wpt_ret; split; [exact H2|]; split; [exact G1|]; split; constructor).
        destruct G1 as [G1 X1]. pose proof G1 as G1'. unfold tok_ok in G1'. rewrite E1 in G1'.
        eapply wpt_checks; [apply check_label, valid_ascii; exact G1'|].
        intros new Hn. eapply (wpt_next _ _ _ H2). intros t2 l3 G2 H3. apply wpt_ret. rewrite app_nil_r.
        split; [exact H3|]. split; [exact G2|]. split; [apply nreport_one, ns_label; assumption|eapply ns_end_label; eassumption]. }
      intros [t2 label] l3 d3 (H3 & [G2 X2] & R3 & RE). cbn [fst snd] in *. unfold tok_ok in G2.
      destruct (tk_kind t2) eqn:E2; try (intros ds; exact I).
      + apply wpt_quiet; [quiet_tac|exact H3|]. intros e l4 H4. apply wpt_ret. split; [exact H4|].
        exists []. rewrite !app_nil_r. split; [reflexivity|]. apply nreport_one. exact RE.
      + apply wpt_quiet; [quiet_tac|exact H3|]. intros t3 l4 H4. 
        destruct (tk_kind t3);
          try (apply wpt_quiet; [quiet_tac|exact H4|]; intros p l5 H5; apply wpt_quiet; [quiet_tac|exact H5|];
               intros sr l6 H6 ds; exact I).
        * apply wpt_quiet; [quiet_tac|exact H4|]. intros _ l5 H5.
          eapply wpt_checks; [apply check_property, valid_ascii; exact G2|]. intros new Hn.
          apply wpt_quiet; [quiet_tac|exact H5|]. intros _ l7 H7.
          apply wpt_quiet; [quiet_tac|exact H7|]. intros _ l8 H8.
          eapply wpt_conseq; [apply IH; exact H8|]. cbn beta. intros pl l9 d9 (H9 & its & E & R9). split; [exact H9|].
          eexists (IProperty _ :: its). rewrite E, <- app_assoc. split; [reflexivity|].
          cbn [flat_map item_names property_names pr_label pr_name pr_values]. rewrite <- app_assoc. unfold property_names. cbn [pr_label pr_name pr_values flat_map].
          rewrite <- app_assoc. apply nreport_app; [exact R3|]. apply nreport_app; [|exact R9]. apply nreport_one, ns_property; assumption.
        * apply wpt_quiet; [quiet_tac|exact H4|]. intros _ l5 H5.
          eapply wpt_checks; [apply check_property, valid_ascii; exact G2|]. intros new Hn.
          apply wpt_bind. eapply wpt_conseq; [apply values_report; exact H5|]. cbn beta.
          intros vs l7 d7 (H7 & vs' & E7 & R7). cbn [app] in E7. subst vs'.
          apply wpt_quiet; [quiet_tac|exact H7|]. intros e l8 H8. apply wpt_quiet; [quiet_tac|exact H8|]. intros _ l9 H9.
          apply wpt_quiet; [quiet_tac|exact H9|]. intros _ l10 H10.
          eapply wpt_conseq; [apply IH; exact H10|]. cbn beta. intros pl l11 d11 (H11 & its & E & R11). split; [exact H11|].
          eexists (IProperty _ :: its). rewrite E, <- app_assoc. split; [reflexivity|].
          cbn [flat_map item_names]. unfold property_names. cbn [pr_label pr_name pr_values]. rewrite <- !app_assoc.
          apply nreport_app; [exact R3|]. apply nreport_app; [apply nreport_one, ns_property; assumption|]. apply nreport_app; assumption.
        * eapply wpt_checks; [apply check_node, nn_valid_of, valid_ascii; exact G2|]. intros new Hn.
          apply wpt_quiet; [quiet_tac|exact H4|]. intros _ l6 H6.
          apply wpt_bind. eapply wpt_conseq; [apply IH; exact H6|]. cbn beta. intros [its' e'] l7 d7 (H7 & its & E7 & R7).
          cbn [pl_items app] in E7. subst its'.
          eapply wpt_conseq; [apply IH; exact H7|]. cbn beta. intros pl l9 d9 (H9 & its' & E & R9). split; [exact H9|].
          eexists (INode _ :: its'). rewrite E, <- app_assoc. split; [reflexivity|].
          cbn [flat_map item_names]. rewrite <- !app_assoc.
          apply nreport_app; [exact R3|]. apply nreport_app; [eapply nreport_one, ns_node; [exact E2|apply node_text_iff; reflexivity|exact Hn]|].
          rewrite app_assoc. apply nreport_app; assumption.
  Qed.
  Lemma node_payload_report f : says (t_node_payload src rl f) payload_names.
  Proof.
    unfold t_node_payload. apply says_quiet; [quiet_tac|]. intros _ l Hl. eapply wpt_conseq; [apply payload_report; exact Hl|].
    cbn beta. intros pl l' ds (H & its & E & R). cbn [app] in E. unfold payload_names. rewrite E. auto.
  Qed.
  Lemma says_primary f : says (t_p_primary src incl rl f) primary_names.
  Proof.
    unfold t_p_primary. apply says_expect_next. intros t Ht. destruct (tk_kind t) eqn:Ek; try (apply says_throw).
    - intros l Hl. eapply wpt_says; [apply node_payload_report|exact Hl|]. intros [its e] l1 d H1 R. apply wpt_ret.
      split; [exact H1|]. rewrite app_nil_r. exact R.
    - destruct (str_eqb _ _); [|apply says_throw]. apply says_quiet; [quiet_tac|]. intros t1.
      destruct (tk_kind t1); try (apply says_throw). apply says_ret. reflexivity.
    - destruct d; try (apply says_throw).
      + apply says_quiet; [quiet_tac|]. intros _. apply says_ret. reflexivity.
      + apply says_quiet; [quiet_tac|]. intros a. apply says_quiet; [quiet_tac|]. intros b.
        apply says_quiet; [quiet_tac|]. intros _. apply says_ret. reflexivity.
      + intros l Hl. eapply wpt_says; [apply says_parse_reference|exact Hl|]. intros w l1 d1 H1 R1. 
        apply wpt_quiet; [quiet_tac|exact H1|]. intros _ l2 H2. apply wpt_ret. split; [exact H2|]. rewrite app_nil_r. exact R1.
      + apply says_quiet; [quiet_tac|]. intros _. apply says_ret. reflexivity.
      + intros l Hl. eapply wpt_says; [apply says_parse_reference|exact Hl|]. intros w l1 d1 H1 R1. 
        apply wpt_quiet; [quiet_tac|exact H1|]. intros _ l2 H2. apply wpt_ret. split; [exact H2|]. rewrite app_nil_r. exact R1.
      + apply says_quiet; [quiet_tac|]. intros t1. destruct (tk_kind t1); try (apply says_throw).
        apply says_quiet; [quiet_tac|]. intros t2. apply says_quiet; [quiet_tac|]. intros _.
        apply says_quiet; [quiet_tac|]. intros ps. apply says_ret. reflexivity.
    - intros l Hl. eapply wpt_says; [apply (says_reference t r Ht Ek)|exact Hl|]. intros w l1 d1 H1 R1.
      eapply wpt_says; [apply node_payload_report|exact H1|]. intros pl l2 d H2 R. apply wpt_ret.
      split; [exact H2|]. rewrite app_nil_r. cbn [primary_names rn_reference rn_payload]. apply (nreport_app src X [_]); assumption.
  Qed.
  Lemma file_loop_report f : forall acc l, ok l ->
    wpt (t_file_loop src incl rl f acc)
      (fun r l' ds => ok l' /\ exists ps, r = acc ++ ps /\ report (flat_map primary_names ps) ds) l.
  Proof.
    induction f as [|f IH]; intros acc l Hl; cbn [t_file_loop]; [intros ds; exact I|].
    apply wpt_quiet; [quiet_tac|exact Hl|]. intros [t|] l1 H1.
    - eapply wpt_says; [apply says_primary|exact H1|]. intros p l2 d H2 R.
      eapply wpt_conseq; [apply IH; exact H2|]. cbn beta. intros r l3 d3 (H3 & ps & E & R3). split; [exact H3|].
      exists (p :: ps). rewrite E, <- app_assoc. split; [reflexivity|]. cbn [flat_map]. apply nreport_app; assumption.
    - apply wpt_ret. split; [exact H1|]. exists []. rewrite app_nil_r. split; [reflexivity|constructor].
  Qed.
  Lemma says_file f : says (t_p_file src incl rl f) file_names.
  Proof.
    intros l Hl. unfold t_p_file. apply wpt_bind. eapply wpt_conseq; [apply file_loop_report; exact Hl|]. cbn beta.
    intros ps l1 d (H1 & ps' & E & R). cbn [app] in E. subst ps'. apply wpt_quiet; [quiet_tac|exact H1|].
    intros s l2 H2. apply wpt_ret. split; [exact H2|]. rewrite app_nil_r. exact R.
  Qed.
End NameReport.
