(** Exact diagnostics about numbers, byte strings and the order of items, read off the syntax tree *)
From Verif Require Import Parser LexSpec Utf8 LexerProofs LexerProofs3 Grammar NameProofs TokParser ParserSim GrammarComplete
  GrammarSound.
From Coq Require Import ZifyBool.

(** ** Specification *)
(** the places of a tree that can have such a diagnostic, in source order: numbers with their bound,
    byte strings, properties behind a node in the same braces *)
Inductive site :=
| SNumber (bound : N) (w : wtok N)
| SBytes (w : wtok str)
| SLate (p : property).

Definition cell_sites (c : cell) : list site :=
  match c with CNumber w => [SNumber (2 ^ 32) w] | _ => [] end.
Definition value_sites (v : prop_value) : list site :=
  match v with
  | PVCells _ cs _ => flat_map cell_sites cs
  | PVBytes _ ss _ => map SBytes ss
  | _ => []
  end.
Definition property_sites (seen : bool) (p : property) : list site :=
  flat_map value_sites (pr_values p) ++ (if seen then [SLate p] else []).
Section Items.
  Variable node_sites : node -> list site.
  (** [seen]: a node precedes *)
  Fixpoint items_sites_of (seen : bool) (its : list item) : list site :=
    match its with
    | [] => []
    | IProperty p :: r => property_sites seen p ++ items_sites_of seen r
    | INode n :: r => node_sites n ++ items_sites_of true r
    | _ :: r => items_sites_of seen r
    end.
End Items.
Fixpoint node_sites (n : node) : list site :=
  match n with
  | mkNode _ _ (mkPayload its _) _ => items_sites_of node_sites false its
  end.
Definition items_sites : bool -> list item -> list site := items_sites_of node_sites.
Definition primary_sites (p : primary) : list site :=
  match p with
  | PDirective (AMemreserve a l) => [SNumber (2 ^ 64) a; SNumber (2 ^ 64) l]
  | PRoot n => node_sites n
  | PReferencedNode r => items_sites false (pl_items (rn_payload r))
  | _ => []
  end.
Definition file_sites (f : dts_file) : list site := flat_map primary_sites (fl_elements f).

(** a diagnostic of kind [k] on the token *)
Definition on_token (k : error_code) (t : token) (d : diag) : Prop :=
  dg_kind d = k /\ dg_span d = tk_span t /\ dg_source d = tk_source t.

(** [site_report src x ds]: the diagnostics [ds] are what has to be said about [x] *)
Inductive site_report (src : fpath) : site -> list diag -> Prop :=
| sr_number b t s n : is (UnparsedNumber s) t -> literal s n -> n < b ->
    site_report src (SNumber b (mkWT n t)) []
| sr_bad_number b t s d : is (UnparsedNumber s) t -> (forall n, literal s n -> b <= n) ->
    on_token IntError t d -> site_report src (SNumber b (mkWT 0 t)) [d]
| sr_bytes t s b : element_text t s -> byte_text s b -> site_report src (SBytes (mkWT b t)) []
| sr_odd_bytes t s d : element_text t s -> Nat.odd (length s) = true ->
    on_token OddNumberOfBytestringElements t d -> site_report src (SBytes (mkWT [] t)) [d]
| sr_bad_bytes t s d : element_text t s -> Nat.even (length s) = true -> (forall b, ~ byte_text s b) ->
    on_token IntError t d -> site_report src (SBytes (mkWT [] t)) [d]
| sr_no_bytes t : (forall s, ~ element_text t s) -> site_report src (SBytes (mkWT [] t)) []
| sr_late p d : dg_kind d = PropertyAfterNode -> dg_span d = prop_span p -> dg_source d = src ->
    site_report src (SLate p) [d].
Inductive report (src : fpath) : list site -> list diag -> Prop :=
| rp_nil : report src [] []
| rp_cons x l d ds : site_report src x d -> report src l ds -> report src (x :: l) (d ++ ds).

(** the diagnostics it is about *)
Definition reported (d : diag) : bool :=
  match dg_kind d with
  | IntError | OddNumberOfBytestringElements | PropertyAfterNode => true
  | _ => false
  end.

(** ** Proofs *)
Lemma report_app src a b da db : report src a da -> report src b db -> report src (a ++ b) (da ++ db).
Proof.
  induction 1 as [|x l d ds Hx _ IH]; intros Hb; [exact Hb|]. cbn [app]. rewrite <- app_assoc. constructor; auto.
Qed.
Lemma report_one src x d : site_report src x d -> report src [x] d.
Proof. intros H. rewrite <- (app_nil_r d). constructor; [exact H|constructor]. Qed.

Section Report.
  Context (src : fpath) (incl : list fpath) (rl : position -> list token).
  Notation ok := (Forall tok_ok).
  Hypothesis rl_ok : forall p, ok (rl p).

  Definition wpt {A} (m : TM A) (Q : A -> list token -> list diag -> Prop) (l : list token) : Prop :=
    forall ds, match m (mkTS l ds) with
               | TOk a s => exists new, t_diags s = ds ++ new /\ Q a (t_toks s) (filter reported new)
               | _ => True
               end.
  (** nothing reported, tokens stay fine *)
  Definition quiet {A} (m : TM A) : Prop := forall l, ok l -> wpt m (fun _ l' ds => ok l' /\ ds = []) l.
  (** the result is reported *)
  Definition says {A} (m : TM A) (sites : A -> list site) : Prop :=
    forall l, ok l -> wpt m (fun a l' ds => ok l' /\ report src (sites a) ds) l.

  Lemma wpt_bind {A B} (m : TM A) (k : A -> TM B) Q l :
    wpt m (fun a l' d1 => wpt (k a) (fun b l'' d2 => Q b l'' (d1 ++ d2)) l') l -> wpt (t_bind m k) Q l.
  Proof.
    intros H ds. specialize (H ds). unfold t_bind. destruct (m (mkTS l ds)) as [a [l' ds']|d s|]; auto.
    destruct H as (new & E & H). cbn [t_diags t_toks] in *. specialize (H ds'). destruct (k a (mkTS l' ds')) as [b s|d s|]; auto.
    destruct H as (new' & E' & H). exists (new ++ new'). rewrite filter_app. split; [|exact H].
    rewrite E', E, app_assoc. reflexivity.
  Qed.
  Lemma wpt_conseq {A} (m : TM A) (Q Q' : A -> list token -> list diag -> Prop) l :
    wpt m Q l -> (forall a l' ds, Q a l' ds -> Q' a l' ds) -> wpt m Q' l.
  Proof.
    intros H Hq ds. specialize (H ds). destruct (m (mkTS l ds)); auto. destruct H as (new & E & H). eauto.
  Qed.
  Lemma wpt_ret {A} (a : A) (Q : A -> list token -> list diag -> Prop) l : Q a l [] -> wpt (t_ret a) Q l.
  Proof. intros H ds. exists []. rewrite app_nil_r. auto. Qed.
  Lemma quiet_says {A} (m : TM A) : quiet m -> says m (fun _ => []).
  Proof.
    intros H l Hl. eapply wpt_conseq; [apply H; exact Hl|]. cbn beta. intros a l' ds [Ho ->]. split; [exact Ho|constructor].
  Qed.

  (** sequencing *)
  Lemma says_bind {A B} (m : TM A) (k : A -> TM B) sa sb sc :
    says m sa -> (forall a, says (k a) (sb a)) -> (forall a l b d, report src (sa a) d -> report src (sb a b) l -> report src (sc b) (d ++ l)) ->
    says (t_bind m k) sc.
  Proof.
    intros Hm Hk Hr l Hl. apply wpt_bind. eapply wpt_conseq; [apply Hm; exact Hl|]. cbn beta. intros a l' d1 [Ho H1].
    eapply wpt_conseq; [apply Hk; exact Ho|]. cbn beta. intros b l'' d2 [Ho' H2]. split; [exact Ho'|]. eapply Hr; eassumption.
  Qed.
  Lemma says_quiet {A B} (m : TM A) (k : A -> TM B) sc : quiet m -> (forall a, says (k a) sc) -> says (t_bind m k) sc.
  Proof.
    intros Hm Hk. eapply (says_bind _ _ (fun _ => []) (fun _ => sc)); [apply quiet_says; exact Hm|exact Hk|].
    intros a l b d H. inversion H; subst. auto.
  Qed.
  Lemma says_ret {A} (a : A) s : s a = [] -> says (t_ret a) s.
  Proof. intros E l Hl. apply wpt_ret. rewrite E. split; [exact Hl|constructor]. Qed.
  Lemma says_throw {A} d s : says (@t_throw A d) s.
  Proof. intros l Hl ds. exact I. Qed.
  Lemma says_nofuel {A} s : says (@t_no_fuel A) s.
  Proof. intros l Hl ds. exact I. Qed.

  Lemma quiet_bind {A B} (m : TM A) (k : A -> TM B) : quiet m -> (forall a, quiet (k a)) -> quiet (t_bind m k).
  Proof.
    intros Hm Hk l Hl. apply wpt_bind. eapply wpt_conseq; [apply Hm; exact Hl|]. cbn beta. intros a l' d1 [Ho ->].
    apply Hk. exact Ho.
  Qed.
  Lemma quiet_ret {A} (a : A) : quiet (t_ret a).
  Proof. intros l Hl. apply wpt_ret. auto. Qed.
  Lemma quiet_throw {A} d : quiet (@t_throw A d).
  Proof. intros l Hl ds. exact I. Qed.
  Lemma quiet_nofuel {A} : quiet (@t_no_fuel A).
  Proof. intros l Hl ds. exact I. Qed.
  Lemma quiet_push d : reported d = false -> quiet (t_push d).
  Proof.
    intros E l Hl ds. exists [d]. split; [reflexivity|]. cbn [filter]. rewrite E. split; [exact Hl|reflexivity].
  Qed.
  Lemma quiet_check d : (forall x, d = Some x -> reported x = false) -> quiet (t_push_opt d).
  Proof. destruct d as [x|]; intros H; [apply quiet_push; auto|apply quiet_ret]. Qed.
  Lemma quiet_peek : quiet t_peek.
  Proof. intros l Hl ds. exists []. rewrite app_nil_r. auto. Qed.
  Lemma quiet_next : quiet t_next.
  Proof.
    intros l Hl ds. exists []. rewrite app_nil_r. repeat split. destruct l; [exact Hl|]. inversion Hl; assumption.
  Qed.
  Lemma quiet_relex t : quiet (t_relex rl t).
  Proof. intros l Hl ds. exists []. rewrite app_nil_r. repeat split. apply rl_ok. Qed.

  Create HintDb quiet.
  Hint Resolve quiet_ret quiet_throw quiet_nofuel quiet_peek quiet_next quiet_relex : quiet.
  Ltac quiet_tac :=
    repeat first
      [ progress intros
      | solve [auto with quiet]
      | apply quiet_push; reflexivity
      | match goal with
        | |- quiet (t_bind _ _) => apply quiet_bind
        | |- quiet (match ?x with _ => _ end) => destruct x
        | |- quiet (if ?x then _ else _) => destruct x
        end ].
  Lemma quiet_source : quiet (t_source src). Proof. apply quiet_ret. Qed.
  Lemma quiet_cur : quiet t_cur_pos. Proof. apply quiet_ret. Qed.
  Lemma quiet_last : quiet t_last_pos. Proof. apply quiet_ret. Qed.
  Lemma quiet_incl : quiet (t_include_paths incl). Proof. apply quiet_ret. Qed.
  Hint Resolve quiet_source quiet_cur quiet_last quiet_incl : quiet.
  Lemma quiet_peek_expect : quiet (t_peek_expect src). Proof. unfold t_peek_expect. quiet_tac. Qed.
  Lemma quiet_expect k : quiet (t_expect src k). Proof. unfold t_expect. quiet_tac. Qed.
  Lemma quiet_expect_next : quiet (t_expect_next src). Proof. unfold t_expect_next. quiet_tac. Qed.
  Lemma quiet_skip : quiet t_skip_tok. Proof. unfold t_skip_tok. quiet_tac. Qed.
  Hint Resolve quiet_peek_expect quiet_expect quiet_expect_next quiet_skip : quiet.
  Lemma quiet_check_ident sp s p1 p2 c : quiet (t_check_ident src sp s p1 p2 c).
  Proof.
    unfold t_check_ident. quiet_tac. apply quiet_check. intros x. unfold check_ident_diag.
    repeat match goal with |- context [match ?y with _ => _ end] => destruct y end; intros E; try discriminate;
      injection E as <-; reflexivity.
  Qed.
  Hint Resolve quiet_check_ident : quiet.
  Lemma quiet_label sp s : quiet (t_check_is_label src sp s). Proof. apply quiet_check_ident. Qed.
  Lemma quiet_propname sp s : quiet (t_check_is_property_name src sp s). Proof. apply quiet_check_ident. Qed.
  Lemma quiet_nodename sp s : quiet (t_check_is_node_name src sp s). Proof. unfold t_check_is_node_name. quiet_tac. Qed.
  Hint Resolve quiet_label quiet_propname quiet_nodename : quiet.
  Lemma quiet_path sp p : quiet (t_check_path src sp p). Proof. induction p; cbn [t_check_path]; quiet_tac. Qed.
  Hint Resolve quiet_path : quiet.
  Lemma quiet_reference t r : quiet (t_p_reference src t r). Proof. unfold t_p_reference. quiet_tac. Qed.
  Lemma quiet_skip_expression f : forall d, quiet (t_skip_expression f d).
  Proof. induction f; intros d; cbn [t_skip_expression]; quiet_tac. Qed.
  Hint Resolve quiet_reference quiet_skip_expression : quiet.
  Lemma quiet_skip_label : quiet t_skip_optional_label. Proof. unfold t_skip_optional_label. quiet_tac. Qed.
  Lemma quiet_bits : quiet (t_bits_prefix src). Proof. unfold t_bits_prefix. quiet_tac. Qed.
  Lemma quiet_p_propname : quiet (t_p_property_name src). Proof. unfold t_p_property_name. quiet_tac. Qed.
  Lemma quiet_p_nodename : quiet (t_p_node_name src). Proof. unfold t_p_node_name. quiet_tac. Qed.
  Lemma quiet_semicolon : quiet (t_expect_semicolon src rl). Proof. unfold t_expect_semicolon. quiet_tac. Qed.
  Lemma quiet_omit o : quiet (t_check_omit src o). Proof. unfold t_check_omit. quiet_tac. Qed.
  Lemma quiet_parse_reference : quiet (t_parse_reference src). Proof. unfold t_parse_reference. quiet_tac. Qed.
  Hint Resolve quiet_skip_label quiet_bits quiet_p_propname quiet_p_nodename quiet_semicolon quiet_omit quiet_parse_reference : quiet.

  Lemma says_expect_next {A} (k : token -> TM A) sites :
    (forall t, tok_ok t -> says (k t) sites) -> says (let^ t := t_expect_next src in k t) sites.
  Proof.
    intros H l Hl. apply wpt_bind. intros ds. unfold t_expect_next, t_bind, t_cur_pos, t_next, t_source, t_ret, t_throw.
    cbn [t_toks t_diags]. destruct l as [|t l]; cbn [hd_error tl]; [exact I|]. inversion Hl as [|? ? Ht Hl']; subst.
    exists []. rewrite app_nil_r. split; [reflexivity|]. cbn [t_toks filter app]. apply H; assumption.
  Qed.
  Lemma says_push {A} d (k : TM A) sites : reported d = true ->
    (forall l, ok l -> wpt k (fun a l' ds => ok l' /\ report src (sites a) (d :: ds)) l) -> says (t_push d ;^ k) sites.
  Proof.
    intros E H l Hl. apply wpt_bind. intros ds. exists [d]. split; [reflexivity|]. cbn [t_toks filter]. rewrite E.
    cbn [app]. apply H. exact Hl.
  Qed.

  Lemma parse_number_cases lim s (t : token) : 0 < lim -> kind_ok (UnparsedNumber s) -> is (UnparsedNumber s) t ->
    match parse_number lim s with
    | IntOk n => site_report src (SNumber lim (mkWT n t)) []
    | IntErr e => site_report src (SNumber lim (mkWT 0 t)) [diag_int_error (tk_span t) (tk_source t) e]
    end.
  Proof.
    intros Hlim [H1 H2] Ht. destruct (parse_number lim s) as [n|e] eqn:E.
    - apply parse_number_iff in E; auto. destruct E. eapply sr_number; eauto.
    - eapply sr_bad_number; [exact Ht| |repeat split]. intros n Hn. destruct (N.lt_ge_cases n lim) as [C|C]; [|exact C].
      assert (E' : parse_number lim s = IntOk n) by (apply parse_number_iff; auto). congruence.
  Qed.

  Lemma says_number f : says (t_number_u32 src f) cell_sites.
  Proof.
    unfold t_number_u32. apply says_expect_next. intros t Ht. unfold tok_ok in Ht.
    destruct (tk_kind t) eqn:E; try (apply says_throw).
    - apply says_quiet; [quiet_tac|]. intros _. apply says_quiet; [quiet_tac|]. intros o.
      apply says_quiet; [quiet_tac|]. intros _. apply says_ret. reflexivity.
    - pose proof (parse_number_cases u32_lim s t ltac:(reflexivity) Ht E) as H.
      destruct (parse_number u32_lim s) as [n|e].
      + intros l Hl. apply wpt_ret. split; [exact Hl|]. apply (report_one _ _ _ H).
      + apply says_push; [reflexivity|]. intros l Hl. apply wpt_ret. split; [exact Hl|]. apply (report_one _ _ _ H).
    - apply says_quiet; [quiet_tac|]. intros w. apply says_ret. reflexivity.
  Qed.
  Lemma says_memreserve : says (t_memreserve_number src) (fun w => [SNumber (2 ^ 64) w]).
  Proof.
    unfold t_memreserve_number. apply says_expect_next. intros t Ht. unfold tok_ok in Ht.
    destruct (tk_kind t) eqn:E;
      try (apply says_quiet; [quiet_tac|]; intros p; apply says_quiet; [quiet_tac|]; intros s'; apply says_throw).
    pose proof (parse_number_cases u64_lim s t ltac:(reflexivity) Ht E) as H.
    destruct (parse_number u64_lim s) as [n|e].
    - intros l Hl. apply wpt_ret. split; [exact Hl|]. apply (report_one _ _ _ H).
    - apply says_push; [reflexivity|]. intros l Hl. apply wpt_ret. split; [exact Hl|]. apply (report_one _ _ _ H).
  Qed.

  Lemma bytes_cases s (t : token) : Forall (fun c => c < 128) s -> element_text t s ->
    if negb (Nat.even (length s))
    then site_report src (SBytes (mkWT [] t)) [diag_from_token t OddNumberOfBytestringElements
              (bs "Number of elements in byte string must be even")]
    else match decode_pairs s with
         | Done (inl b) => site_report src (SBytes (mkWT b t)) []
         | Done (inr e) => site_report src (SBytes (mkWT [] t)) [diag_int_error (tk_span t) (tk_source t) e]
         | _ => True
         end.
  Proof.
    intros Ha Ht. destruct (Nat.even (length s)) eqn:E; cbn [negb].
    - destruct (decode_pairs s) as [[b|e]| |] eqn:D; try exact I.
      + eapply sr_bytes; [exact Ht|]. apply decode_pairs_iff; auto.
      + eapply sr_bad_bytes; [exact Ht|exact E| |repeat split]. intros b Hb. apply (decode_pairs_iff s b Ha) in Hb.
        destruct Hb as [_ Hb]. congruence.
    - eapply sr_odd_bytes; [exact Ht| |repeat split]. unfold Nat.odd. rewrite E. reflexivity.
  Qed.
  Lemma says_byte_string : says (t_byte_string src) (fun w => [SBytes w]).
  Proof.
    unfold t_byte_string. apply says_expect_next. intros t Ht. unfold tok_ok in Ht.
    destruct (tk_kind t) eqn:E;
      try (apply says_quiet; [quiet_tac|]; intros _ l Hl; apply wpt_ret; split; [exact Hl|];
           apply (report_one _ (SBytes (mkWT [] t)) []); constructor; intros s1 [H|H]; unfold is in H; congruence).
    - pose proof (bytes_cases s t Ht (or_intror E)) as H. destruct (negb (Nat.even (length s))).
      + apply says_push; [reflexivity|]. intros l Hl. apply wpt_ret. split; [exact Hl|]. apply (report_one _ _ _ H).
      + destruct (decode_pairs s) as [[b|e]| |].
        * intros l Hl. apply wpt_ret. split; [exact Hl|]. apply (report_one _ _ _ H).
        * apply says_push; [reflexivity|]. intros l Hl. apply wpt_ret. split; [exact Hl|]. apply (report_one _ _ _ H).
        * intros l Hl ds. exact I.
        * apply says_nofuel.
    - assert (Ha : Forall (fun c => c < 128) s).
      { destruct Ht as [_ Ht]. eapply Forall_impl; [|exact Ht]. unfold alnum, letter, digit. cbn beta. lia. }
      pose proof (bytes_cases s t Ha (or_introl E)) as H. destruct (negb (Nat.even (length s))).
      + apply says_push; [reflexivity|]. intros l Hl. apply wpt_ret. split; [exact Hl|]. apply (report_one _ _ _ H).
      + destruct (decode_pairs s) as [[b|e]| |].
        * intros l Hl. apply wpt_ret. split; [exact Hl|]. apply (report_one _ _ _ H).
        * apply says_push; [reflexivity|]. intros l Hl. apply wpt_ret. split; [exact Hl|]. apply (report_one _ _ _ H).
        * intros l Hl ds. exact I.
        * apply says_nofuel.
  Qed.

  (** a parser that cannot fail after the first token, and then has said nothing *)
  Lemma number_fails f l ds d s : ok l -> t_number_u32 src f (mkTS l ds) = TErr d s ->
    t_diags s = ds /\ reported d = false /\ ok (t_toks s).
  Proof.
    intros Hl. unfold t_number_u32, t_bind at 1. unfold t_expect_next, t_bind, t_cur_pos, t_next, t_source, t_ret, t_throw.
    cbn [t_toks t_diags].
    destruct l as [|t l]; cbn [hd_error tl].
    { intros E. injection E as <- <-. repeat split. constructor. }
    inversion Hl as [|? ? Ht Hl']; subst.
    destruct (tk_kind t) eqn:E; try (intros E1; injection E1 as <- <-; repeat split; exact Hl').
    - assert (N : forall n dep s0 d' s', t_skip_expression n dep s0 <> TErr d' s').
      { induction n as [|n IH]; intros dep s0 d' s' E1; cbn [t_skip_expression] in E1; [discriminate|].
        unfold t_bind, t_peek, t_skip_tok, t_next, t_ret in E1. destruct (hd_error (t_toks s0)) as [u|]; [|discriminate].
        unfold t_bind in E1. destruct (tk_kind u); try (eapply IH; exact E1).
        destruct (dep =? 1); [discriminate|eapply IH; exact E1]. }
      destruct (t_skip_expression f 1 _) as [x s1|d1 s1|] eqn:E1; [|exfalso; eapply N; exact E1|discriminate].
      unfold t_peek. destruct (hd_error (t_toks s1)); discriminate.
    - destruct (parse_number u32_lim s0); discriminate.
    - assert (N : forall sp p s0 d' s', t_check_path src sp p s0 <> TErr d' s').
      { assert (C : forall a b c e g s0, exists s', t_check_ident src a b c e g s0 = TOk tt s').
        { intros. unfold t_check_ident, t_bind, t_source, t_ret, t_push_opt.
          destruct (check_ident_diag _ _ _ _ _ _); eexists; reflexivity. }
        intros sp p. induction p as [|n p IH]; intros s0 d' s' E1; cbn [t_check_path] in E1; [discriminate|].
        unfold t_bind, t_check_is_node_name in E1. destruct (match nn_addr n with None => _ | Some _ => _ end).
        - unfold t_ret in E1. eapply IH. exact E1.
        - unfold t_bind in E1. destruct (C sp (nn_name n) node_pred is_alpha CtxNodeName s0) as [s1 H1]. rewrite H1 in E1.
          destruct (nn_addr n) as [a|].
          + destruct (C sp a node_pred any_char CtxNodeName s1) as [s2 H2]. rewrite H2 in E1. eapply IH. exact E1.
          + unfold t_ret in E1. eapply IH. exact E1. }
      destruct (t_p_reference src t r _) as [x s1|d1 s1|] eqn:E1; [discriminate| |discriminate]. exfalso.
      unfold t_p_reference in E1. destruct r as [n|n].
      + unfold t_check_is_label, t_check_ident, t_bind, t_source, t_ret, t_push_opt in E1.
        destruct (check_ident_diag _ _ _ _ _ _); discriminate.
      + unfold t_bind at 1 in E1. destruct n; cbn in E1; unfold t_bind in E1; try discriminate;
          destruct (t_check_path _ _ _ _) as [y s2|d2 s2|] eqn:E2; try discriminate; eapply N; exact E2.
  Qed.

  Lemma wpt_quiet {A B} (m : TM A) (k : A -> TM B) Q l : quiet m -> ok l ->
    (forall a l', ok l' -> wpt (k a) Q l') -> wpt (t_bind m k) Q l.
  Proof.
    intros Hm Hl Hk. apply wpt_bind. eapply wpt_conseq; [apply Hm; exact Hl|]. cbn beta. intros a l' ds [Ho ->].
    apply Hk. exact Ho.
  Qed.
  Lemma wpt_says {A B} (m : TM A) (k : A -> TM B) sites Q l : says m sites -> ok l ->
    (forall a l' d, ok l' -> report src (sites a) d -> wpt (k a) (fun b l'' d2 => Q b l'' (d ++ d2)) l') -> wpt (t_bind m k) Q l.
  Proof.
    intros Hm Hl Hk. apply wpt_bind. eapply wpt_conseq; [apply Hm; exact Hl|]. cbn beta. intros a l' ds [Ho Hr].
    apply Hk; assumption.
  Qed.

  Lemma cells_report f : forall acc l, ok l ->
    wpt (t_cells_loop src f acc)
      (fun r l' ds => ok l' /\ exists cs, fst r = acc ++ cs /\ report src (flat_map cell_sites cs) ds) l.
  Proof.
    induction f as [|f IH]; intros acc l Hl; cbn [t_cells_loop]; [intros ds; exact I|].
    apply wpt_quiet; [quiet_tac|exact Hl|]. intros _ l1 H1. apply wpt_quiet; [quiet_tac|exact H1|]. intros t l2 H2.
    destruct (kind_eqb _ _).
    - apply wpt_quiet; [quiet_tac|exact H2|]. intros e l3 H3. apply wpt_ret. split; [exact H3|].
      exists []. rewrite app_nil_r. split; [reflexivity|constructor].
    - intros ds. unfold t_catch. pose proof (says_number f l2 H2 ds) as Hn.
      pose proof (number_fails f l2 ds) as He.
      destruct (t_number_u32 src f (mkTS l2 ds)) as [c [l3 ds3]|d [l3 ds3]|]; [| |exact I].
      + destruct Hn as (new & E & H3 & Hr). cbn [t_toks t_diags] in *. pose proof (IH (acc ++ [c]) l3 H3 ds3) as G.
        destruct (t_cells_loop src f (acc ++ [c]) (mkTS l3 ds3)) as [r s|d s|]; auto.
        destruct G as (new' & E' & H4 & cs & E4 & Hr'). exists (new ++ new'). rewrite E', E, app_assoc.
        split; [reflexivity|]. split; [exact H4|]. exists (c :: cs). rewrite E4, <- app_assoc. split; [reflexivity|].
        rewrite filter_app. cbn [flat_map]. apply report_app; assumption.
      + destruct (He _ _ H2 eq_refl) as (E & Er & H3). cbn [t_toks t_diags] in *. subst ds3.
        unfold t_bind, t_push. cbn [t_toks t_diags]. pose proof (IH acc l3 H3 (ds ++ [d])) as G.
        destruct (t_cells_loop src f acc (mkTS l3 (ds ++ [d]))) as [r s|d' s|]; auto.
        destruct G as (new' & E' & H4 & G). exists (d :: new'). rewrite E', <- app_assoc. split; [reflexivity|].
        cbn [filter]. rewrite Er. split; [exact H4|exact G].
  Qed.
  Lemma bytes_report f : forall acc l, ok l ->
    wpt (t_bytes_loop src f acc)
      (fun r l' ds => ok l' /\ exists ss, fst r = acc ++ ss /\ report src (map SBytes ss) ds) l.
  Proof.
    induction f as [|f IH]; intros acc l Hl; cbn [t_bytes_loop]; [intros ds; exact I|].
    apply wpt_quiet; [quiet_tac|exact Hl|]. intros _ l1 H1. apply wpt_quiet; [quiet_tac|exact H1|]. intros t l2 H2.
    destruct (kind_eqb _ _).
    - apply wpt_quiet; [quiet_tac|exact H2|]. intros e l3 H3. apply wpt_ret. split; [exact H3|].
      exists []. rewrite app_nil_r. split; [reflexivity|constructor].
    - eapply wpt_says; [apply says_byte_string|exact H2|]. intros b l3 d H3 Hr.
      eapply wpt_conseq; [apply IH; exact H3|]. cbn beta. intros r l4 d4 (H4 & ss & E4 & Hr4). split; [exact H4|].
      exists (b :: ss). rewrite E4, <- app_assoc. split; [reflexivity|]. cbn [map].
      apply (report_app src [SBytes b]); assumption.
  Qed.
  Lemma says_value f : says (t_property_value src f) value_sites.
  Proof.
    unfold t_property_value. apply says_quiet; [quiet_tac|]. intros _. apply says_expect_next. intros t Ht.
    destruct (tk_kind t) eqn:E; try (apply says_throw).
    - intros l Hl. apply wpt_bind. eapply wpt_conseq; [apply bytes_report; exact Hl|]. cbn beta.
      intros [ss e] l1 d1 (H1 & ss' & E1 & Hr). cbn [fst app] in E1. subst ss'. apply wpt_ret.
      split; [exact H1|]. rewrite app_nil_r. exact Hr.
    - intros l Hl. apply wpt_bind. eapply wpt_conseq; [apply cells_report; exact Hl|]. cbn beta.
      intros [cs e] l1 d1 (H1 & cs' & E1 & Hr). cbn [fst app] in E1. subst cs'. apply wpt_ret.
      split; [exact H1|]. rewrite app_nil_r. exact Hr.
    - apply says_ret. reflexivity.
    - apply says_quiet; [quiet_tac|]. intros w. apply says_ret. reflexivity.
  Qed.
  Lemma values_report f : forall acc l, ok l ->
    wpt (t_property_values src f acc)
      (fun r l' ds => ok l' /\ exists vs, r = acc ++ vs /\ report src (flat_map value_sites vs) ds) l.
  Proof.
    induction f as [|f IH]; intros acc l Hl; cbn [t_property_values]; [intros ds; exact I|].
    apply wpt_quiet; [quiet_tac|exact Hl|]. intros _ l1 H1.
    eapply wpt_says; [apply says_value|exact H1|]. intros v l2 d H2 Hr.
    apply wpt_quiet; [quiet_tac|exact H2|]. intros _ l3 H3. apply wpt_quiet; [quiet_tac|exact H3|]. intros t l4 H4.
    destruct (kind_eqb _ _).
    - apply wpt_quiet; [quiet_tac|exact H4|]. intros _ l5 H5.
      eapply wpt_conseq; [apply IH; exact H5|]. cbn beta. intros r l6 d6 (H6 & vs & E6 & Hr6). split; [exact H6|].
      exists (v :: vs). rewrite E6, <- app_assoc. split; [reflexivity|]. cbn [flat_map]. apply report_app; assumption.
    - apply wpt_ret. split; [exact H4|]. exists [v]. split; [reflexivity|]. cbn [flat_map]. rewrite !app_nil_r. exact Hr.
  Qed.

  Lemma order_report seen p l : ok l ->
    wpt (t_check_order src seen p) (fun _ l' ds => ok l' /\ report src (if seen then [SLate p] else []) ds) l.
  Proof.
    intros Hl. unfold t_check_order. destruct seen; [|apply wpt_ret; split; [exact Hl|constructor]].
    intros ds. eexists. split; [reflexivity|]. split; [exact Hl|]. apply report_one. constructor; reflexivity.
  Qed.

  Lemma payload_report f : forall items seen l, ok l ->
    wpt (t_payload_loop src rl f items seen)
      (fun pl l' ds => ok l' /\ exists its, pl_items pl = items ++ its /\ report src (items_sites seen its) ds) l.
  Proof.
    induction f as [|f IH]; intros items seen l Hl; cbn [t_payload_loop]; [intros ds; exact I|].
    apply wpt_quiet; [quiet_tac|exact Hl|]. intros t l1 H1.
    destruct (kind_eqb _ _); [|destruct (kind_eqb _ _)].
    - apply wpt_quiet; [quiet_tac|exact H1|]. intros n l2 H2. apply wpt_quiet; [quiet_tac|exact H2|]. intros e l3 H3.
      eapply wpt_conseq; [apply IH; exact H3|]. cbn beta. intros pl l4 d (H4 & its & E & Hr). split; [exact H4|].
      exists (IDeletedNode t n :: its). rewrite E, <- app_assoc. auto.
    - apply wpt_quiet; [quiet_tac|exact H1|]. intros n l2 H2. apply wpt_quiet; [quiet_tac|exact H2|]. intros e l3 H3.
      eapply wpt_conseq; [apply IH; exact H3|]. cbn beta. intros pl l4 d (H4 & its & E & Hr). split; [exact H4|].
      exists (IDeletedProperty t n :: its). rewrite E, <- app_assoc. auto.
    - apply wpt_quiet; [quiet_tac|exact H1|]. intros [t1 omit] l2 H2. apply wpt_quiet; [quiet_tac|exact H2|].
      intros [t2 label] l3 H3. destruct (tk_kind t2); try (intros ds; exact I).
      + apply wpt_quiet; [quiet_tac|exact H3|]. intros e l4 H4. apply wpt_ret. split; [exact H4|].
        exists []. rewrite app_nil_r. split; [reflexivity|constructor].
      + apply wpt_quiet; [quiet_tac|exact H3|]. intros t3 l4 H4.
        destruct (tk_kind t3);
          try (apply wpt_quiet; [quiet_tac|exact H4|]; intros p l5 H5; apply wpt_quiet; [quiet_tac|exact H5|];
               intros sr l6 H6 ds; exact I).
        * apply wpt_quiet; [quiet_tac|exact H4|]. intros _ l5 H5. apply wpt_quiet; [quiet_tac|exact H5|]. intros _ l6 H6.
          apply wpt_bind. eapply wpt_conseq; [apply order_report; exact H6|]. cbn beta. intros _ l7 d7 [H7 R7].
          apply wpt_quiet; [quiet_tac|exact H7|]. intros _ l8 H8.
          eapply wpt_conseq; [apply IH; exact H8|]. cbn beta. intros pl l9 d9 (H9 & its & E & R9). split; [exact H9|].
          eexists (IProperty _ :: its). rewrite E, <- app_assoc. split; [reflexivity|].
          unfold items_sites in *. cbn [items_sites_of]. apply report_app; [|exact R9]. exact R7.
        * apply wpt_quiet; [quiet_tac|exact H4|]. intros _ l5 H5. apply wpt_quiet; [quiet_tac|exact H5|]. intros _ l6 H6.
          apply wpt_bind. eapply wpt_conseq; [apply values_report; exact H6|]. cbn beta.
          intros vs l7 d7 (H7 & vs' & E7 & R7). cbn [app] in E7. subst vs'.
          apply wpt_quiet; [quiet_tac|exact H7|]. intros e l8 H8. apply wpt_quiet; [quiet_tac|exact H8|]. intros _ l9 H9.
          apply wpt_bind. eapply wpt_conseq; [apply order_report; exact H9|]. cbn beta. intros _ l10 d10 [H10 R10].
          eapply wpt_conseq; [apply IH; exact H10|]. cbn beta. intros pl l11 d11 (H11 & its & E & R11). split; [exact H11|].
          eexists (IProperty _ :: its). rewrite E, <- app_assoc. split; [reflexivity|].
          unfold items_sites in *. cbn [items_sites_of]. rewrite app_assoc. apply report_app; [|exact R11].
          unfold property_sites. apply report_app; [exact R7|exact R10].
        * apply wpt_quiet; [quiet_tac|exact H4|]. intros _ l5 H5. apply wpt_quiet; [quiet_tac|exact H5|]. intros _ l6 H6.
          apply wpt_bind. eapply wpt_conseq; [apply IH; exact H6|]. cbn beta. intros [its' e'] l7 d7 (H7 & its & E7 & R7).
          cbn [pl_items app] in E7. subst its'.
          eapply wpt_conseq; [apply IH; exact H7|]. cbn beta. intros pl l9 d9 (H9 & its' & E & R9). split; [exact H9|].
          eexists (INode _ :: its'). rewrite E, <- app_assoc. split; [reflexivity|].
          unfold items_sites in *. cbn [items_sites_of]. apply report_app; [|exact R9]. exact R7.
  Qed.
  Lemma node_payload_report f : says (t_node_payload src rl f) (fun pl => items_sites false (pl_items pl)).
  Proof.
    unfold t_node_payload. apply says_quiet; [quiet_tac|]. intros _ l Hl. eapply wpt_conseq; [apply payload_report; exact Hl|].
    cbn beta. intros pl l' ds (H & its & E & R). cbn [app] in E. rewrite E. auto.
  Qed.
  Lemma says_primary f : says (t_p_primary src incl rl f) primary_sites.
  Proof.
    unfold t_p_primary. apply says_expect_next. intros t Ht. destruct (tk_kind t); try (apply says_throw).
    - intros l Hl. eapply wpt_says; [apply node_payload_report|exact Hl|]. intros [its e] l1 d H1 R. apply wpt_ret.
      split; [exact H1|]. rewrite app_nil_r. exact R.
    - destruct (str_eqb _ _); [|apply says_throw]. apply says_quiet; [quiet_tac|]. intros t1.
      destruct (tk_kind t1); try (apply says_throw). apply says_ret. reflexivity.
    - destruct d; try (apply says_throw).
      + apply says_quiet; [quiet_tac|]. intros _. apply says_ret. reflexivity.
      + intros l Hl. eapply wpt_says; [apply says_memreserve|exact Hl|]. intros a l1 d1 H1 R1.
        eapply wpt_says; [apply says_memreserve|exact H1|]. intros b l2 d2 H2 R2.
        apply wpt_quiet; [quiet_tac|exact H2|]. intros _ l3 H3. apply wpt_ret. split; [exact H3|]. rewrite app_nil_r.
        apply (report_app src [_] [_]); assumption.
      + apply says_quiet; [quiet_tac|]. intros w. apply says_quiet; [quiet_tac|]. intros _. apply says_ret. reflexivity.
      + apply says_quiet; [quiet_tac|]. intros _. apply says_ret. reflexivity.
      + apply says_quiet; [quiet_tac|]. intros w. apply says_quiet; [quiet_tac|]. intros _. apply says_ret. reflexivity.
      + apply says_quiet; [quiet_tac|]. intros t1. destruct (tk_kind t1); try (apply says_throw).
        apply says_quiet; [quiet_tac|]. intros t2. apply says_quiet; [quiet_tac|]. intros _.
        apply says_quiet; [quiet_tac|]. intros ps. apply says_ret. reflexivity.
    - intros l Hl. apply wpt_quiet; [quiet_tac|exact Hl|]. intros w l1 H1.
      eapply wpt_says; [apply node_payload_report|exact H1|]. intros pl l2 d H2 R. apply wpt_ret.
      split; [exact H2|]. rewrite app_nil_r. exact R.
  Qed.
  Lemma file_loop_report f : forall acc l, ok l ->
    wpt (t_file_loop src incl rl f acc)
      (fun r l' ds => ok l' /\ exists ps, r = acc ++ ps /\ report src (flat_map primary_sites ps) ds) l.
  Proof.
    induction f as [|f IH]; intros acc l Hl; cbn [t_file_loop]; [intros ds; exact I|].
    apply wpt_quiet; [quiet_tac|exact Hl|]. intros [t|] l1 H1.
    - eapply wpt_says; [apply says_primary|exact H1|]. intros p l2 d H2 R.
      eapply wpt_conseq; [apply IH; exact H2|]. cbn beta. intros r l3 d3 (H3 & ps & E & R3). split; [exact H3|].
      exists (p :: ps). rewrite E, <- app_assoc. split; [reflexivity|]. cbn [flat_map]. apply report_app; assumption.
    - apply wpt_ret. split; [exact H1|]. exists []. rewrite app_nil_r. split; [reflexivity|constructor].
  Qed.
  Lemma says_file f : says (t_p_file src incl rl f) file_sites.
  Proof.
    intros l Hl. unfold t_p_file. apply wpt_bind. eapply wpt_conseq; [apply file_loop_report; exact Hl|]. cbn beta.
    intros ps l1 d (H1 & ps' & E & R). cbn [app] in E. subst ps'. apply wpt_quiet; [quiet_tac|exact H1|].
    intros s l2 H2. apply wpt_ret. split; [exact H2|]. rewrite app_nil_r. exact R.
  Qed.
End Report.
