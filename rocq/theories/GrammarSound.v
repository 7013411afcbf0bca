(** A run of the token-level parser without diagnostics is a derivation of the grammar *)
From Verif Require Import Parser LexSpec Utf8 LexerProofs Grammar NameProofs TokParser GrammarComplete.
From Coq Require Import ZifyBool.

(** diagnostics are only ever added at the end *)
Definition mono {A} (m : TM A) : Prop := forall s,
  match m s with
  | TOk _ s' | TErr _ s' => exists new, t_diags s' = t_diags s ++ new
  | TBad => True
  end.
Lemma mono_ret {A} (a : A) : mono (t_ret a).
Proof. intros s. exists []. rewrite app_nil_r. reflexivity. Qed.
Lemma mono_throw {A} d : mono (@t_throw A d).
Proof. intros s. exists []. rewrite app_nil_r. reflexivity. Qed.
Lemma mono_nofuel {A} : mono (@t_no_fuel A).
Proof. intros s. exact I. Qed.
Lemma mono_panic {A} : mono (@t_panic A).
Proof. intros s. exact I. Qed.
Lemma mono_push d : mono (t_push d).
Proof. intros s. exists [d]. reflexivity. Qed.
Lemma mono_push_opt d : mono (t_push_opt d).
Proof. destruct d; [apply mono_push|apply mono_ret]. Qed.
Lemma mono_peek : mono t_peek.
Proof. intros s. exists []. rewrite app_nil_r. reflexivity. Qed.
Lemma mono_next : mono t_next.
Proof. intros s. exists []. rewrite app_nil_r. reflexivity. Qed.
Lemma mono_bind {A B} (m : TM A) (k : A -> TM B) : mono m -> (forall a, mono (k a)) -> mono (t_bind m k).
Proof.
  intros Hm Hk s. specialize (Hm s). unfold t_bind. destruct (m s) as [a s'|d s'|]; auto.
  specialize (Hk a s'). destruct Hm as [n Hn]. destruct (k a s'); auto; destruct Hk as [n' Hn'];
    exists (n ++ n'); rewrite Hn', Hn, app_assoc; reflexivity.
Qed.
Lemma mono_catch {A B} (m : TM A) (k : A -> TM B) g : mono m -> (forall a, mono (k a)) -> (forall d, mono (g d)) ->
  mono (t_catch m k g).
Proof.
  intros Hm Hk Hg s. specialize (Hm s). unfold t_catch. destruct (m s) as [a s'|d s'|]; auto.
  - specialize (Hk a s'). destruct Hm as [n Hn]. destruct (k a s'); auto; destruct Hk as [n' Hn'];
      exists (n ++ n'); rewrite Hn', Hn, app_assoc; reflexivity.
  - specialize (Hg d s'). destruct Hm as [n Hn]. destruct (g d s'); auto; destruct Hg as [n' Hn'];
      exists (n ++ n'); rewrite Hn', Hn, app_assoc; reflexivity.
Qed.

Create HintDb mono.
#[export] Hint Resolve mono_ret mono_throw mono_nofuel mono_panic mono_push mono_push_opt mono_peek mono_next : mono.
Ltac mono_tac :=
  repeat first
    [ progress intros
    | solve [auto with mono]
    | match goal with
      | |- mono (t_bind _ _) => apply mono_bind
      | |- mono (t_catch _ _ _) => apply mono_catch
      | |- mono (match ?x with _ => _ end) => destruct x
      | |- mono (if ?x then _ else _) => destruct x
      end ].

Section Mono.
  Context (src : fpath) (incl : list fpath) (rl : position -> list token).
  Lemma mono_relex t : mono (t_relex rl t).
  Proof. intros s. exists []. rewrite app_nil_r. reflexivity. Qed.
  Lemma mono_cur_pos : mono t_cur_pos. Proof. apply mono_ret. Qed.
  Lemma mono_last_pos : mono t_last_pos. Proof. apply mono_ret. Qed.
  Lemma mono_source : mono (t_source src). Proof. apply mono_ret. Qed.
  Lemma mono_incl : mono (t_include_paths incl). Proof. apply mono_ret. Qed.
  Hint Resolve mono_relex mono_cur_pos mono_last_pos mono_source mono_incl : mono.
  Lemma mono_peek_expect : mono (t_peek_expect src). Proof. unfold t_peek_expect. mono_tac. Qed.
  Lemma mono_expect_next : mono (t_expect_next src). Proof. unfold t_expect_next. mono_tac. Qed.
  Lemma mono_expect k : mono (t_expect src k). Proof. unfold t_expect. mono_tac. Qed.
  Lemma mono_skip : mono t_skip_tok. Proof. unfold t_skip_tok. mono_tac. Qed.
  Lemma mono_check_ident a b c d e : mono (t_check_ident src a b c d e). Proof. unfold t_check_ident. mono_tac. Qed.
  Hint Resolve mono_peek_expect mono_expect_next mono_expect mono_skip mono_check_ident : mono.
  Lemma mono_check_is_label a b : mono (t_check_is_label src a b). Proof. unfold t_check_is_label. mono_tac. Qed.
  Lemma mono_check_is_property_name a b : mono (t_check_is_property_name src a b). Proof. unfold t_check_is_property_name. mono_tac. Qed.
  Lemma mono_check_is_node_name a b : mono (t_check_is_node_name src a b). Proof. unfold t_check_is_node_name. mono_tac. Qed.
  Hint Resolve mono_check_is_label mono_check_is_property_name mono_check_is_node_name : mono.
  Lemma mono_check_path a b : mono (t_check_path src a b). Proof. induction b; cbn [t_check_path]; mono_tac. Qed.
  Hint Resolve mono_check_path : mono.
  Lemma mono_reference t r : mono (t_p_reference src t r). Proof. unfold t_p_reference. mono_tac. Qed.
  Lemma mono_skip_expression f d : mono (t_skip_expression f d).
  Proof. revert d. induction f; intros d; cbn [t_skip_expression]; mono_tac. Qed.
  Hint Resolve mono_reference mono_skip_expression : mono.
  Lemma mono_number f : mono (t_number_u32 src f). Proof. unfold t_number_u32. mono_tac. Qed.
  Lemma mono_memreserve : mono (t_memreserve_number src). Proof. unfold t_memreserve_number. mono_tac. Qed.
  Lemma mono_byte_string : mono (t_byte_string src). Proof. unfold t_byte_string. mono_tac. Qed.
  Lemma mono_skip_label : mono t_skip_optional_label. Proof. unfold t_skip_optional_label. mono_tac. Qed.
  Hint Resolve mono_number mono_memreserve mono_byte_string mono_skip_label : mono.
  Lemma mono_cells f acc : mono (t_cells_loop src f acc).
  Proof. revert acc. induction f; intros acc; cbn [t_cells_loop]; mono_tac. Qed.
  Lemma mono_bytes f acc : mono (t_bytes_loop src f acc).
  Proof. revert acc. induction f; intros acc; cbn [t_bytes_loop]; mono_tac. Qed.
  Lemma mono_bits : mono (t_bits_prefix src). Proof. unfold t_bits_prefix. mono_tac. Qed.
  Hint Resolve mono_cells mono_bytes mono_bits : mono.
  Lemma mono_value f : mono (t_property_value src f). Proof. unfold t_property_value. mono_tac. Qed.
  Hint Resolve mono_value : mono.
  Lemma mono_values f acc : mono (t_property_values src f acc).
  Proof. revert acc. induction f; intros acc; cbn [t_property_values]; mono_tac. Qed.
  Lemma mono_property_name : mono (t_p_property_name src). Proof. unfold t_p_property_name. mono_tac. Qed.
  Lemma mono_node_name : mono (t_p_node_name src). Proof. unfold t_p_node_name. mono_tac. Qed.
  Lemma mono_semicolon : mono (t_expect_semicolon src rl). Proof. unfold t_expect_semicolon. mono_tac. Qed.
  Lemma mono_check_omit o : mono (t_check_omit src o). Proof. unfold t_check_omit. mono_tac. Qed.
  Lemma mono_check_order n p : mono (t_check_order src n p). Proof. unfold t_check_order. mono_tac. Qed.
  Hint Resolve mono_values mono_property_name mono_node_name mono_semicolon mono_check_omit mono_check_order : mono.
  Lemma mono_payload_loop f items nd : mono (t_payload_loop src rl f items nd).
  Proof. revert items nd. induction f; intros items nd; cbn [t_payload_loop]; mono_tac. Qed.
  Hint Resolve mono_payload_loop : mono.
  Lemma mono_node_payload f : mono (t_node_payload src rl f). Proof. unfold t_node_payload. mono_tac. Qed.
  Lemma mono_parse_reference : mono (t_parse_reference src). Proof. unfold t_parse_reference. mono_tac. Qed.
  Hint Resolve mono_node_payload mono_parse_reference : mono.
  Lemma mono_primary f : mono (t_p_primary src incl rl f). Proof. unfold t_p_primary. mono_tac. Qed.
  Hint Resolve mono_primary : mono.
  Lemma mono_file_loop f acc : mono (t_file_loop src incl rl f acc).
  Proof. revert acc. induction f; intros acc; cbn [t_file_loop]; mono_tac. Qed.
End Mono.
#[export] Hint Resolve mono_relex mono_cur_pos mono_last_pos mono_source mono_incl mono_peek_expect mono_expect_next
  mono_expect mono_skip mono_check_ident mono_check_is_label mono_check_is_property_name mono_check_is_node_name
  mono_check_path mono_reference mono_skip_expression mono_number mono_memreserve mono_byte_string mono_skip_label
  mono_cells mono_bytes mono_bits mono_value mono_values mono_property_name mono_node_name mono_semicolon mono_check_omit
  mono_check_order mono_payload_loop mono_node_payload mono_parse_reference mono_primary mono_file_loop : mono.

(** a successful run without diagnostics *)
Definition cl {A} (m : TM A) (l : list token) (a : A) (l' : list token) : Prop :=
  exists ds, m (mkTS l ds) = TOk a (mkTS l' ds).

Lemma app_nil_inv {A} (l n : list A) : l = l ++ n -> n = [].
Proof. intros H. rewrite <- (app_nil_r l) in H at 1. apply app_inv_head in H. congruence. Qed.
Lemma cl_bind {A B} (m : TM A) (k : A -> TM B) l b l'' : mono m -> (forall a, mono (k a)) ->
  cl (t_bind m k) l b l'' -> exists a l', cl m l a l' /\ cl (k a) l' b l''.
Proof.
  intros Hm Hk [ds H]. unfold t_bind in H. specialize (Hm (mkTS l ds)). unfold cl.
  destruct (m (mkTS l ds)) as [a [l' ds']|d s'|] eqn:Em; try discriminate.
  specialize (Hk a (mkTS l' ds')). rewrite H in Hk. destruct Hm as [n Hn], Hk as [n' Hn']. cbn [t_diags] in *.
  rewrite Hn, <- app_assoc in Hn'. apply app_nil_inv in Hn'. apply app_eq_nil in Hn'. destruct Hn' as [-> ->].
  rewrite app_nil_r in Hn. subst ds'. exists a, l'. split; [exists ds; exact Em|exists ds; exact H].
Qed.
Lemma cl_ret {A} (a b : A) l l' : cl (t_ret a) l b l' -> a = b /\ l = l'.
Proof. intros [ds H]. unfold t_ret in H. injection H as <- <-. auto. Qed.
Lemma cl_push d l b l' : ~ cl (t_push d) l b l'.
Proof.
  intros [ds H]. unfold t_push in H. cbn in H. inversion H as [[E1 E2 E3]]. symmetry in E3. apply app_nil_inv in E3. discriminate.
Qed.
Lemma cl_push_opt d l b l' : cl (t_push_opt d) l b l' -> d = None /\ l = l'.
Proof.
  destruct d; cbn [t_push_opt]; intros H; [exfalso; eapply cl_push; exact H|]. apply cl_ret in H. destruct H. auto.
Qed.
Lemma cl_throw {A} d l (b : A) l' : ~ cl (t_throw d) l b l'.
Proof. intros [ds H]. discriminate. Qed.
Lemma cl_nofuel {A} l (b : A) l' : ~ cl t_no_fuel l b l'.
Proof. intros [ds H]. discriminate. Qed.
Lemma cl_panic {A} l (b : A) l' : ~ cl t_panic l b l'.
Proof. intros [ds H]. discriminate. Qed.
Lemma cl_peek l b l' : cl t_peek l b l' -> b = hd_error l /\ l = l'.
Proof. intros [ds H]. unfold t_peek in H. injection H as <- <-. auto. Qed.
Lemma cl_next l b l' : cl t_next l b l' -> b = hd_error l /\ l' = tl l.
Proof. intros [ds H]. unfold t_next in H. injection H as <- <-. auto. Qed.
Lemma cl_skip l b l' : cl t_skip_tok l b l' -> l' = tl l.
Proof. intros [ds H]. unfold t_skip_tok, t_bind, t_next, t_ret in H. injection H as <- <-. auto. Qed.
Lemma cl_expect_next src l t l' : cl (t_expect_next src) l t l' -> l = t :: l'.
Proof.
  intros [ds H]. unfold t_expect_next, t_bind, t_cur_pos, t_next, t_source, t_ret, t_throw in H. cbn [t_toks t_diags] in H.
  destruct l as [|x l]; cbn [hd_error tl] in H; [discriminate|]. injection H as <- <-. reflexivity.
Qed.
Lemma cl_peek_expect src l t l' : cl (t_peek_expect src) l t l' -> l = l' /\ exists r, l = t :: r.
Proof.
  intros [ds H]. unfold t_peek_expect, t_bind, t_cur_pos, t_peek, t_source, t_ret, t_throw in H. cbn [t_toks t_diags] in H.
  destruct l as [|x l]; cbn [hd_error tl] in H; [discriminate|]. injection H as <- <-. eauto.
Qed.
Lemma cl_expect src k l t l' : cl (t_expect src k) l t l' -> l = t :: l' /\ is k t.
Proof.
  intros [ds H]. unfold t_expect, t_bind, t_cur_pos, t_next, t_source, t_ret, t_throw in H. cbn [t_toks t_diags] in H.
  destruct l as [|x l]; cbn [hd_error tl] in H; [discriminate|]. destruct (kind_eqb_spec (tk_kind x) k); [|discriminate].
  injection H as <- <-. auto.
Qed.
Lemma cl_source src l b l' : cl (t_source src) l b l' -> b = src /\ l = l'.
Proof. intros H. apply cl_ret in H. destruct H. auto. Qed.
Lemma cl_catch {A B} (m : TM A) (k : A -> TM B) g l b l'' : mono m -> (forall a, mono (k a)) -> (forall d, mono (g d)) ->
  (forall d l1 l2 c ds ds', g d (mkTS l1 ds) = TOk c (mkTS l2 ds') -> ds <> ds') ->
  cl (t_catch m k g) l b l'' -> exists a l', cl m l a l' /\ cl (k a) l' b l''.
Proof.
  intros Hm Hk Hg Hne [ds H]. apply cl_bind; [exact Hm|exact Hk|]. exists ds. unfold t_bind, t_catch in *.
  specialize (Hm (mkTS l ds)). destruct (m (mkTS l ds)) as [a s'|d [l1 ds1]|] eqn:Em; try exact H. exfalso.
  specialize (Hg d (mkTS l1 ds1)). rewrite H in Hg. destruct Hm as [n Hn], Hg as [n' Hn']. cbn [t_diags] in *.
  pose proof Hn' as Hn2. rewrite Hn, <- app_assoc in Hn'. apply app_nil_inv in Hn'. apply app_eq_nil in Hn'. destruct Hn' as [-> ->].
  rewrite app_nil_r in *. subst ds1. eapply Hne; [exact H|reflexivity].
Qed.

Ltac cl_one H :=
  lazymatch type of H with
  | cl (t_bind _ _) _ _ _ =>
    apply cl_bind in H; [let a := fresh "a" in let l := fresh "l" in let H1 := fresh "H" in
                         destruct H as (a & l & H1 & H); cl_one H1 | solve [mono_tac] | solve [mono_tac]]
  | cl (t_ret _) _ _ _ => let E := fresh in let E' := fresh in apply cl_ret in H; destruct H as [E E']; try subst
  | cl (t_push _) _ _ _ => exfalso; exact (cl_push _ _ _ _ H)
  | cl (t_throw _) _ _ _ => exfalso; exact (cl_throw _ _ _ _ H)
  | cl t_no_fuel _ _ _ => exfalso; exact (cl_nofuel _ _ _ H)
  | cl t_panic _ _ _ => exfalso; exact (cl_panic _ _ _ H)
  | cl t_peek _ _ _ => let E := fresh in let E' := fresh in apply cl_peek in H; destruct H as [E E']; try subst
  | cl t_next _ _ _ => let E := fresh in let E' := fresh in apply cl_next in H; destruct H as [E E']; try subst
  | cl t_skip_tok _ _ _ => apply cl_skip in H; cbn [tl] in H; try subst
  | cl (t_expect_next _) _ _ _ => apply cl_expect_next in H; try subst
  | cl (t_peek_expect _) _ _ _ => let r := fresh "r" in let E := fresh in let E' := fresh in
      apply cl_peek_expect in H; destruct H as [E (r & E')]; try subst
  | cl (t_expect _ _) _ _ _ => let E := fresh in apply cl_expect in H; destruct H as [E H]; try subst
  | cl (t_source _) _ _ _ => let E := fresh in let E' := fresh in apply cl_source in H; destruct H as [E E']; try subst
  | cl t_last_pos _ _ _ => let E := fresh in let E' := fresh in apply cl_ret in H; destruct H as [E E']; try subst
  | _ => idtac
  end.

(** tokens as the lexer delivers them *)
Definition kind_ok (k : token_kind) : Prop :=
  match k with
  | Ident s | Label s => Forall (fun c => c < 128) s
  | UnparsedNumber s => s <> [] /\ Forall alnum s
  | Ref (TRefSimple s) => Forall label_char s
  | Ref (TRefPath s) => valid_utf8 s = true
  | Comment _ => False
  | _ => True
  end.
Definition tok_ok (t : token) : Prop := kind_ok (tk_kind t).

Lemma spells_ok m k u rest (pre : list N) : spells m k u rest -> valid_utf8 (pre ++ u ++ rest) = true -> kind_ok k.
Proof.
  intros H Hv. destruct H; cbn [kind_ok]; try exact I.
  - eapply Forall_impl; [|eassumption]. exact name_char_ascii.
  - apply Forall_app. split; [eapply Forall_impl; [|eassumption]; exact name_char_ascii|].
    constructor; [lia|]. eapply Forall_impl; [|eassumption]. exact name_char_ascii.
  - eapply Forall_impl; [|eassumption]. exact name_char_ascii.
  - split; [discriminate|assumption].
  - assumption.
  - constructor.
  - change ([cAmp; cLBrace] ++ p ++ [cRBrace]) with ([cAmp] ++ cLBrace :: (p ++ [cRBrace])) in Hv.
    rewrite <- app_assoc in Hv. rewrite app_assoc in Hv. cbn [app] in Hv.
    rewrite <- app_assoc in Hv. refine (valid_segment (pre ++ [cAmp]) cLBrace p ([cRBrace] ++ rest) _ _ _).
    + lia.
    + rewrite <- app_assoc. cbn [app]. cbn [app] in Hv. rewrite <- ?app_assoc in Hv. exact Hv.
    + right. exists cRBrace, rest. split; [reflexivity|lia].
  - cbn in H0. repeat (destruct H0 as [E|H0]; [injection E as <- <-; exact I|]). destruct H0.
Qed.
Lemma lexed_ok src m pre t toks : lexed src m pre t toks -> valid_utf8 (pre ++ t) = true -> Forall tok_ok toks.
Proof.
  induction 1 as [|m pre g u Hg Hu|m pre g k u rest toks Hg Hs Hl IH]; intros Hv; [constructor|constructor|].
  constructor.
  - unfold tok_ok. cbn [tk_kind]. eapply (spells_ok m k u rest (pre ++ g)); [exact Hs|]. rewrite <- app_assoc. exact Hv.
  - apply IH. rewrite <- !app_assoc. exact Hv.
Qed.

Section Sound.
  Context (src : fpath) (incl : list fpath) (rl : position -> list token).
  Notation ok := (Forall tok_ok).

  Lemma cl_check l sp s p1 p2 ctx b l' : cl (t_check_ident src sp s p1 p2 ctx) l b l' ->
    check_ident_diag sp s p1 p2 ctx src = None /\ l = l'.
  Proof. unfold t_check_ident. intros H. cl_one H. apply cl_push_opt in H. exact H. Qed.
  Lemma cl_check_label l sp s b l' : cl (t_check_is_label src sp s) l b l' -> valid_utf8 s = true ->
    legal_label s /\ l = l'.
  Proof. intros H Hv. apply cl_check in H. destruct H as [H ->]. apply check_label_iff in H; auto. Qed.
  Lemma cl_check_property l sp s b l' : cl (t_check_is_property_name src sp s) l b l' -> valid_utf8 s = true ->
    legal_property_name s /\ l = l'.
  Proof. intros H Hv. apply cl_check in H. destruct H as [H ->]. apply check_property_iff in H; auto. Qed.
  Lemma cl_check_node l sp n b l' : cl (t_check_is_node_name src sp n) l b l' -> nn_valid n ->
    legal_node_name n /\ l = l'.
  Proof.
    intros H Hv. rewrite <- (node_checks_iff sp n src Hv). unfold t_check_is_node_name in H. unfold node_checks.
    destruct (match nn_addr n with None => _ | Some _ => _ end); [cl_one H; auto|].
    cl_one H. apply cl_check in H0. destruct H0 as [E ->]. destruct (nn_addr n).
    - apply cl_check in H. destruct H as [E' ->]. auto.
    - cl_one H. auto.
  Qed.
  Lemma nn_valid_of s : valid_utf8 s = true -> nn_valid (node_name_of s).
  Proof.
    intros Hv. unfold node_name_of. destruct (split_once cAt s) as [[p q]|] eqn:E.
    - apply split_once_some in E. destruct E as [-> _]. destruct (valid_split p cAt q ltac:(lia) Hv) as [Hp Hq].
      split; cbn; [exact Hp|]. intros a E. congruence.
    - split; cbn; [exact Hv|discriminate].
  Qed.
  Lemma path_valid s p : path_text s p -> valid_utf8 s = true -> Forall nn_valid p.
  Proof.
    induction 1 as [|s p _ IH|c s n p Hc Hn Hs Ht _ IH]; intros Hv; [constructor| |].
    - apply IH. rewrite valid_one in Hv by lia. exact Hv.
    - assert (valid_utf8 c = true /\ valid_utf8 s = true) as [H1 H2].
      { destruct Hs as [->|[r ->]]; [rewrite app_nil_r in Hv; auto|].
        destruct (valid_split c cSlash r ltac:(lia) Hv) as [H1 H2]. split; [exact H1|]. rewrite valid_one by lia. exact H2. }
      constructor; [|auto]. apply node_text_iff in Ht. rewrite <- Ht. apply nn_valid_of. exact H1.
  Qed.
  Lemma cl_check_path l sp p b l' : cl (t_check_path src sp p) l b l' -> Forall nn_valid p ->
    Forall legal_node_name p /\ l = l'.
  Proof.
    intros H Hv. revert l H. induction Hv as [|n p Hn _ IH]; intros l H; cbn [t_check_path] in H; cl_one H; [auto|].
    apply cl_check_node in H0; [|exact Hn]. destruct H0 as [H0 ->]. apply IH in H. destruct H as [H ->]. auto.
  Qed.
  Lemma cl_reference t r l w l' : cl (t_p_reference src t r) l w l' -> kind_ok (Ref r) ->
    l = l' /\ exists x, w = mkWT x t /\ ref_text r x.
  Proof.
    intros H Hk. unfold t_p_reference in H. destruct r as [s|s]; cl_one H.
    - apply cl_check_label in H0; [|eapply ascii_valid; [|exact Hk]; exact label_char_ascii].
      destruct H0 as [H0 ->]. cl_one H. split; [reflexivity|]. eexists. split; [reflexivity|]. constructor. exact H0.
    - assert (Hs : s <> [] /\ l0 = l).
      { destruct s; cl_one H0; split; [discriminate|reflexivity]. }
      destruct Hs as [Hs ->]. cl_one H. assert (Hp : path_text s (npath_of s)) by (apply path_text_iff; reflexivity).
      apply cl_check_path in H1; [|eapply path_valid; [exact Hp|exact Hk]]. destruct H1 as [H1 ->]. cl_one H.
      split; [reflexivity|]. eexists. split; [reflexivity|]. constructor; assumption.
  Qed.

  (** ** Values *)
  Lemma cl_skip_label l b l' : cl t_skip_optional_label l b l' -> ok l ->
    opt_label l l' /\ ok l' /\ (l = l' -> forall t s r, l = t :: r -> ~ is (Label s) t).
  Proof.
    unfold t_skip_optional_label. intros H Ho. cl_one H. subst. destruct l0 as [|t l0]; cbn [hd_error] in H.
    - cl_one H. repeat split; [constructor|exact Ho|]. intros _ t s r E. discriminate.
    - destruct (tk_kind t) eqn:E; cl_one H;
        try (repeat split; [constructor|exact Ho|]; intros _ t' s' r' E'; injection E' as <- <-; unfold is; congruence).
      inversion Ho; subst. repeat split; [econstructor; exact E|assumption|]. intros E'. exfalso.
      apply (f_equal (@length token)) in E'. cbn in E'. lia.
  Qed.

  (** [d] closing parentheses are missing *)
  Inductive opened : nat -> list token -> list token -> Prop :=
  | op_zero l : opened 0 l l
  | op_succ n l u l' l'' : parens l (u :: l') -> is CloseParen u -> opened n l' l'' -> opened (S n) l l''.
  Lemma parens_trans l l' l'' : parens l l' -> parens l' l'' -> parens l l''.
  Proof. induction 1; intros; [assumption|constructor; auto|eapply pa_nest; eauto]. Qed.
  Lemma cl_skip_expression f : forall d l b l', cl (t_skip_expression f d) l b l' -> (1 <= d) -> l' <> [] ->
    opened (N.to_nat d) l l'.
  Proof.
    induction f as [|f IH]; intros d l b l' H Hd Hne; cbn [t_skip_expression] in H; cl_one H. subst.
    destruct l0 as [|t l0]; cbn [hd_error] in H; [cl_one H; congruence|].
    destruct (kind_eq_dec (tk_kind t) OpenParen) as [Eo|No]; [|destruct (kind_eq_dec (tk_kind t) CloseParen) as [Ec|Nc]].
    - rewrite Eo in H. cl_one H. cbn [tl] in *. apply IH in H; [|lia|exact Hne].
      replace (N.to_nat (d + 1)) with (S (N.to_nat d)) in H by lia. inversion H as [|n l1 u l2 l3 Hp Hu Ho]; subst.
      destruct (N.to_nat d) as [|n] eqn:En; [lia|]. inversion Ho as [|n' l1' u' l2' l3' Hp' Hu' Ho']; subst.
      econstructor; [|exact Hu'|exact Ho']. eapply pa_nest; [exact Eo|exact Hu|exact Hp|exact Hp'].
    - rewrite Ec in H. cl_one H. cbn [tl] in *. destruct (d =? 1) eqn:E1.
      + cl_one H. replace (N.to_nat d) with 1%nat by lia. econstructor; [apply pa_nil|exact Ec|]. constructor.
      + apply IH in H; [|lia|exact Hne]. replace (N.to_nat d) with (S (N.to_nat (d - 1))) by lia.
        econstructor; [apply pa_nil|exact Ec|exact H].
    - assert (H' : cl (t_skip_tok;^ t_skip_expression f d) (t :: l0) b l') by (destruct (tk_kind t); try congruence; exact H).
      cl_one H'. cbn [tl] in *. apply IH in H'; [|exact Hd|exact Hne].
      destruct (N.to_nat d) as [|n] eqn:En; [lia|]. inversion H' as [|n' l1 u l2 l3 Hp Hu Ho]; subst.
      econstructor; [|exact Hu|exact Ho]. apply pa_token; assumption.
  Qed.
  Lemma parens_ok l l' : parens l l' -> ok l -> ok l'.
  Proof.
    induction 1; intros Ho; [exact Ho|inversion Ho; subst; auto|]. inversion Ho; subst.
    apply IHparens2. specialize (IHparens1 H6). inversion IHparens1; subst. assumption.
  Qed.
  Lemma cl_number f l c l' : cl (t_number_u32 src f) l c l' -> ok l -> g_cell l c l' /\ ok l'.
  Proof.
    unfold t_number_u32. intros H Ho. cl_one H. inversion Ho as [|t l1 Ht Hl1]; subst. unfold tok_ok in Ht.
    destruct (tk_kind a) eqn:E; cl_one H.
    - cl_one H. assert (Hne : l1 <> []). { intros ->. cbn [hd_error] in H. cl_one H. }
      apply cl_skip_expression in H0; [|lia|exact Hne]. change (N.to_nat 1) with 1%nat in H0.
      inversion H0 as [|n l2 u l3 l4 Hp Hu Hz]; subst. inversion Hz; subst.
      assert (l' = l1 /\ c = CExpression) as [-> ->].
      { destruct l1 as [|y l1]; [congruence|]. cbn [hd_error] in H. cl_one H. cl_one H. auto. }
      split; [eapply gc_expression; eassumption|]. apply parens_ok in Hp; [|exact Hl1]. inversion Hp; assumption.
    - destruct (parse_number u32_lim s) as [n|e] eqn:En; cl_one H.
      cbn [kind_ok] in Ht. apply parse_number_iff in En; [|reflexivity|apply Ht|apply Ht]. destruct En as [En1 En2].
      split; [|exact Hl1]. econstructor; [exact E|exact En1|exact En2].
    - apply cl_reference in H0; [|exact Ht]. destruct H0 as (-> & x & -> & Hx). cl_one H.
      split; [|exact Hl1]. econstructor; eassumption.
  Qed.
  Lemma cl_cells f : forall acc l r l', cl (t_cells_loop src f acc) l r l' -> ok l ->
    exists cs e, r = (acc ++ cs, e) /\ g_cells l cs e l' /\ ok l'.
  Proof.
    induction f as [|f IH]; intros acc l r l' H Ho; cbn [t_cells_loop] in H; cl_one H.
    apply cl_skip_label in H0; [|exact Ho]. destruct H0 as (Hl & Ho1 & Hn). cl_one H. subst.
    destruct (kind_eqb_spec (tk_kind a0) ChevronRight) as [E|E].
    - cl_one H. inversion H0; subst. inversion Ho1; subst. cl_one H. exists [], a1. rewrite app_nil_r.
      split; [reflexivity|]. split; [econstructor; eassumption|assumption].
    - apply cl_catch in H; [|mono_tac|mono_tac|mono_tac|].
      2: { intros d l1 l2 c ds ds' Hc E'. unfold t_bind, t_push in Hc. subst ds'.
           assert (Hm0 : mono (t_cells_loop src f acc)) by auto with mono. pose proof (Hm0 (mkTS l1 (ds ++ [d]))) as Hm. cbn [t_toks t_diags] in Hc. rewrite Hc in Hm.
           destruct Hm as [n Hm]. cbn in Hm. rewrite <- app_assoc in Hm. apply app_nil_inv in Hm. discriminate. }
      destruct H as (c & l2 & Hc & H). apply cl_number in Hc; [|exact Ho1]. destruct Hc as [Hc Ho2].
      apply IH in H; [|exact Ho2]. destruct H as (cs & e & -> & Hcs & Ho3). exists (c :: cs), e.
      rewrite <- app_assoc. split; [reflexivity|]. split; [econstructor; eassumption|exact Ho3].
  Qed.
  Lemma cl_byte_string l w l' : cl (t_byte_string src) l w l' -> ok l ->
    exists e s b, l = e :: l' /\ w = mkWT b e /\ element_text e s /\ byte_text s b /\ ok l'.
  Proof.
    unfold t_byte_string. intros H Ho. cl_one H. inversion Ho as [|t l1 Ht Hl1]; subst. unfold tok_ok in Ht.
    assert (E : exists s, element_text a s /\ Forall (fun c => c < 128) s /\
       cl (if negb (Nat.even (length s)) then
             t_push (diag_from_token a OddNumberOfBytestringElements (bs "Number of elements in byte string must be even")) ;^
             t_ret (mkWT [] a)
           else match decode_pairs s with
                | Done (inl b) => t_ret (mkWT b a)
                | Done (inr e) => t_push (diag_int_error (tk_span a) (tk_source a) e) ;^ t_ret (mkWT [] a)
                | Panic => t_panic
                | NoFuel => t_no_fuel
                end) l0 w l').
    { destruct (tk_kind a) eqn:E; try (cl_one H; cl_one H0; fail).
      - exists s. split; [right; exact E|]. split; [exact Ht|exact H].
      - exists s. split; [left; exact E|]. split; [|exact H]. eapply Forall_impl; [|apply Ht]. exact alnum_ascii. }
    destruct E as (s & Es & Ha & Hc). destruct (Nat.even (length s)) eqn:Ee; cbn [negb] in Hc; [|cl_one Hc].
    destruct (decode_pairs s) as [[b|e]| |] eqn:Ed; cl_one Hc.
    exists a, s, b. repeat split; auto. apply decode_pairs_iff; auto.
  Qed.
  Lemma cl_bytes f : forall acc l r l', cl (t_bytes_loop src f acc) l r l' -> ok l ->
    exists cs e, r = (acc ++ cs, e) /\ g_bytes l cs e l' /\ ok l'.
  Proof.
    induction f as [|f IH]; intros acc l r l' H Ho; cbn [t_bytes_loop] in H; cl_one H.
    apply cl_skip_label in H0; [|exact Ho]. destruct H0 as (Hl & Ho1 & Hn). cl_one H. subst.
    destruct (kind_eqb_spec (tk_kind a0) CloseBracket) as [E|E].
    - cl_one H. cl_one H. inversion Ho1; subst. exists [], a0. rewrite app_nil_r.
      split; [reflexivity|]. split; [econstructor; eassumption|assumption].
    - cl_one H. apply cl_byte_string in H0; [|exact Ho1]. destruct H0 as (e & s & b & Ee & -> & He & Hb & Ho2). subst.
      apply IH in H; [|exact Ho2]. destruct H as (cs & e' & -> & Hcs & Ho3). eexists (_ :: cs), e'.
      rewrite <- app_assoc. split; [reflexivity|]. split; [|exact Ho3]. rewrite Ee in Hl. econstructor; eassumption.
  Qed.
  Lemma cl_bits l b l' : cl (t_bits_prefix src) l b l' -> ok l -> g_bits l l' /\ ok l'.
  Proof.
    unfold t_bits_prefix. intros H Ho. cl_one H. subst. destruct l0 as [|t l0]; cbn [hd_error] in H.
    - cl_one H. split; [constructor|exact Ho].
    - destruct (kind_eqb_spec (tk_kind t) (Directive Bits)) as [E|E]; [|cl_one H; split; [constructor|exact Ho]].
      cl_one H. cbn [tl] in *. cl_one H. subst. inversion Ho; subst. inversion H3; subst.
      destruct (tk_kind a0) eqn:E'; cl_one H. split; [econstructor; eassumption|assumption].
  Qed.
  Lemma cl_value f l v l' : cl (t_property_value src f) l v l' -> ok l -> g_value l v l' /\ ok l'.
  Proof.
    unfold t_property_value. intros H Ho. cl_one H. apply cl_bits in H0; [|exact Ho]. destruct H0 as [Hb Ho1].
    cl_one H. inversion Ho1 as [|tz lz Ht Hl1]; subst. unfold tok_ok in Ht. destruct (tk_kind a0) eqn:E; cl_one H.
    - apply cl_bytes in H0; [|exact Hl1]. destruct H0 as (cs & e & -> & Hcs & Ho2). cl_one H.
      split; [eapply gv_bytes; eassumption|exact Ho2].
    - apply cl_cells in H0; [|exact Hl1]. destruct H0 as (cs & e & -> & Hcs & Ho2). cl_one H.
      split; [eapply gv_cells; eassumption|exact Ho2].
    - split; [eapply gv_string; eassumption|exact Hl1].
    - apply cl_reference in H0; [|exact Ht]. destruct H0 as (-> & x & -> & Hx). cl_one H.
      split; [eapply gv_reference; eassumption|exact Hl1].
  Qed.
  Lemma cl_values f : forall acc l r l', cl (t_property_values src f acc) l r l' -> ok l ->
    exists vs, r = acc ++ vs /\ g_values l vs l' /\ ok l'.
  Proof.
    induction f as [|f IH]; intros acc l r l' H Ho; cbn [t_property_values] in H; cl_one H.
    apply cl_skip_label in H0; [|exact Ho]. destruct H0 as (Hl & Ho1 & _).
    cl_one H. apply cl_value in H0; [|exact Ho1]. destruct H0 as [Hv Ho2].
    cl_one H. apply cl_skip_label in H0; [|exact Ho2]. destruct H0 as (Hl2 & Ho3 & Hn).
    cl_one H. subst. destruct (kind_eqb_spec (tk_kind a2) Comma) as [E|E].
    - cl_one H. cbn [tl] in *. inversion Ho3; subst. apply IH in H; [|assumption].
      destruct H as (vs & -> & Hvs & Ho4). exists (a0 :: vs). rewrite <- app_assoc.
      split; [reflexivity|]. split; [eapply gvs_cons; eassumption|exact Ho4].
    - cl_one H. exists [a0]. split; [reflexivity|]. split; [|exact Ho3]. eapply gvs_one; try eassumption.
      exists a2, r0. split; [reflexivity|]. split; [exact E|]. intros E' s. eapply Hn; [exact E'|exact E'].
  Qed.

  (** ** Statements *)
  Lemma cl_end l e l' : cl (t_expect_semicolon src rl) l e l' -> ok l -> g_end l e l' 0 /\ ok l'.
  Proof.
    unfold t_expect_semicolon. intros H Ho. cl_one H. subst. destruct l0 as [|t l0]; cbn [hd_error] in H.
    - exfalso. cl_one H; cl_one H; cl_one H.
    - destruct (kind_eq_dec (tk_kind t) Semicolon) as [E|E].
      + rewrite E in H. cl_one H. cbn [hd_error tl]. inversion Ho; subst. split; [constructor; exact E|assumption].
      + exfalso. destruct (tk_kind t); try congruence; cl_one H; cl_one H; cl_one H.
  Qed.
  Lemma ok_ident a s : tok_ok a -> tk_kind a = Ident s -> valid_utf8 s = true.
  Proof. intros H E. unfold tok_ok in H. rewrite E in H. apply valid_ascii. exact H. Qed.
  Lemma ok_label a s : tok_ok a -> tk_kind a = Label s -> valid_utf8 s = true.
  Proof. intros H E. unfold tok_ok in H. rewrite E in H. apply valid_ascii. exact H. Qed.
  Lemma cl_node_name l w l' : cl (t_p_node_name src) l w l' -> ok l ->
    exists t s nm, l = t :: l' /\ w = mkWT nm t /\ is (Ident s) t /\ node_text s nm /\ legal_node_name nm /\ ok l'.
  Proof.
    unfold t_p_node_name. intros H Ho. cl_one H. inversion Ho as [|t l1 Ht Hl1]; subst.
    destruct (tk_kind a) eqn:E; cl_one H. pose proof (ok_ident _ _ Ht E) as Hv.
    apply cl_check_node in H0; [|apply nn_valid_of; exact Hv]. destruct H0 as [H0 ->]. cl_one H.
    exists a, s, (node_name_of s). repeat split; auto. apply node_text_iff. reflexivity.
  Qed.
  Lemma cl_property_name l w l' : cl (t_p_property_name src) l w l' -> ok l ->
    exists t s, l = t :: l' /\ w = mkWT s t /\ is (Ident s) t /\ legal_property_name s /\ ok l'.
  Proof.
    unfold t_p_property_name. intros H Ho. cl_one H. inversion Ho as [|t l1 Ht Hl1]; subst.
    destruct (tk_kind a) eqn:E; cl_one H. pose proof (ok_ident _ _ Ht E) as Hv.
    apply cl_check_property in H0; [|exact Hv]. destruct H0 as [H0 ->]. cl_one H.
    exists a, s. repeat split; auto; apply H0.
  Qed.

  Notation rest_of_item := (rest_of_item src rl).
  Lemma mono_rest f acc nd t o lb : mono (rest_of_item f acc nd t o lb).
  Proof. unfold GrammarComplete.rest_of_item. mono_tac. Qed.
  (** the prefixes *)
  Lemma cl_omit_prefix a l r l' :
    cl (if kind_eqb (tk_kind a) (Directive OmitIfNoRef) then let^ t := t_expect_next src in t_ret (t, Some a)
        else t_ret (a, None)) l r l' -> ok (a :: l) ->
    exists o t, r = (t, o) /\ g_omit (a :: l) o (t :: l') /\ ok (t :: l').
  Proof.
    intros H Ho. destruct (kind_eqb_spec (tk_kind a) (Directive OmitIfNoRef)) as [E|E].
    - cl_one H. apply cl_ret in H. destruct H as [<- <-]. inversion Ho; subst.
      eexists _, _. split; [reflexivity|]. split; [constructor; exact E|assumption].
    - apply cl_ret in H. destruct H as [<- <-]. eexists _, _. split; [reflexivity|]. split; [constructor|assumption].
  Qed.
  Lemma cl_label_prefix a l r l' :
    cl (match tk_kind a with
        | Label s => t_check_is_label src (tk_span a) s ;^ let^ t := t_expect_next src in t_ret (t, Some (mkWT s a))
        | _ => t_ret (a, None)
        end) l r l' -> ok (a :: l) ->
    exists lb t, r = (t, lb) /\ g_label (a :: l) lb (t :: l') /\ ok (t :: l').
  Proof.
    intros H Ho.
    destruct (tk_kind a) eqn:E;
      try (apply cl_ret in H; destruct H as [<- <-]; eexists _, _; split; [reflexivity|]; split; [constructor|assumption]).
    cl_one H. inversion Ho as [|? ? Ha Hl]; subst. pose proof (ok_label _ _ Ha E) as Hv.
    apply cl_check_label in H0; [|exact Hv]. destruct H0 as [Hs <-]. cl_one H. apply cl_ret in H. destruct H as [<- <-].
    eexists _, _. split; [reflexivity|]. split; [constructor; assumption|assumption].
  Qed.
  Lemma cl_prefix f acc nd l pl l' : cl (t_payload_loop src rl (S f) acc nd) l pl l' -> ok l ->
    (exists d r, l = d :: r /\ (is (Directive DeleteNode) d \/ is (Directive DeleteProperty) d))
    \/ exists o l1 lb t l2, g_omit l o l1 /\ g_label l1 lb (t :: l2) /\ ok (t :: l2)
         /\ cl (rest_of_item f acc nd t o lb) l2 pl l'.
  Proof.
    intros H Ho. cbn [t_payload_loop] in H. cl_one H. inversion Ho as [|t l1 Ht Hl1]; subst.
    destruct (kind_eqb_spec (tk_kind a) (Directive DeleteNode)) as [E1|E1]; [left; unfold is; eauto|].
    destruct (kind_eqb_spec (tk_kind a) (Directive DeleteProperty)) as [E2|E2]; [left; unfold is; eauto|].
    right. cl_one H.
    apply cl_omit_prefix in H0; [|exact Ho]. destruct H0 as (o & t & -> & Hom & Ho2). cbv beta iota in H.
    cl_one H. apply cl_label_prefix in H0; [|exact Ho2]. destruct H0 as (lb & u & -> & Hlb & Ho3).
    exists o, (t :: l), lb, u, l1. auto.
  Qed.

  Lemma cl_check_order nd p l b l' : cl (t_check_order src nd p) l b l' -> nd = false /\ l' = l.
  Proof.
    unfold t_check_order. destruct nd; intros H; [cl_one H; cl_one H|]. apply cl_ret in H. destruct H as [_ <-]. auto.
  Qed.
  Lemma cl_check_omit o l b l' : cl (t_check_omit src o) l b l' -> o = None /\ l' = l.
  Proof.
    unfold t_check_omit. destruct o; intros H; [cl_one H; cl_one H|]. apply cl_ret in H. destruct H as [_ <-]. auto.
  Qed.
  Lemma cl_payload f : forall acc nd l pl l', cl (t_payload_loop src rl f acc nd) l pl l' -> ok l ->
    exists its l1 o l2 lb c l3 e, pl = mkPayload (acc ++ its) (last_token e c) /\ g_items nd l its l1 0
      /\ g_omit l1 o l2 /\ g_label l2 lb (c :: l3) /\ is CloseBrace c /\ g_end l3 e l' 0 /\ ok l'.
  Proof.
    induction f as [|f IH]; intros acc nd l pl l' H Ho; [cbn [t_payload_loop] in H; cl_one H|].
    destruct (cl_prefix _ _ _ _ _ _ H Ho) as [(d & r & -> & Hd)|(o & l1 & lb & t & l2 & Hom & Hlb & Ho2 & Hr)].
    - cbn [t_payload_loop] in H. cl_one H. injection H0 as <- <-. inversion Ho as [|? ? Hdk Hr]; subst.
      destruct (kind_eqb_spec (tk_kind d) (Directive DeleteNode)) as [E1|E1].
      + cl_one H. apply cl_node_name in H0; [|exact Hr]. destruct H0 as (t & s & nm & -> & -> & Ht & Hn & Hl & Ho1).
        cl_one H. apply cl_end in H0; [|exact Ho1]. destruct H0 as [He Ho2]. apply IH in H; [|exact Ho2].
        destruct H as (its & l5 & o & l6 & lb & c & l7 & e & -> & Hits & Hrest).
        exists (IDeletedNode d (mkWT nm t) :: its), l5, o, l6, lb, c, l7, e. rewrite <- app_assoc.
        split; [reflexivity|]. split; [|exact Hrest]. change 0%nat with (0 + 0)%nat. eapply gi_delete_node; eassumption.
      + destruct Hd as [Hd|Hd]; unfold is in Hd; [contradiction|]. rewrite (kind_eqb_true _ _ Hd) in H.
        cl_one H. apply cl_property_name in H0; [|exact Hr]. destruct H0 as (t & s & -> & -> & Ht & Hl & Ho1).
        cl_one H. apply cl_end in H0; [|exact Ho1]. destruct H0 as [He Ho2]. apply IH in H; [|exact Ho2].
        destruct H as (its & l5 & o & l6 & lb & c & l7 & e & -> & Hits & Hrest).
        exists (IDeletedProperty d (mkWT s t) :: its), l5, o, l6, lb, c, l7, e. rewrite <- app_assoc.
        split; [reflexivity|]. split; [|exact Hrest]. change 0%nat with (0 + 0)%nat. eapply gi_delete_property; eassumption.
    - clear H. unfold GrammarComplete.rest_of_item in Hr. inversion Ho2 as [|? ? Ht Hl2]; subst.
      destruct (tk_kind t) eqn:E; cl_one Hr.
      + (* close brace *)
        apply cl_end in H; [|exact Hl2]. destruct H as [He Ho3]. cl_one Hr.
        exists [], l, o, l1, lb, t, l2, a. rewrite app_nil_r. repeat split; auto. constructor.
      + pose proof (ok_ident _ _ Ht E) as Hv. subst.
        destruct (tk_kind a) eqn:E2; try (cl_one Hr; cl_one Hr; cl_one Hr; fail); cl_one Hr.
        * (* semicolon *)
          cbn [tl] in *. cl_one Hr. apply cl_check_property in H; [|exact Hv]. destruct H as [Hs ->].
          cl_one Hr. apply cl_check_order in H. destruct H as [-> ->].
          cl_one Hr. apply cl_check_omit in H. destruct H as [-> ->]. inversion Hl2; subst.
          apply IH in Hr; [|assumption]. destruct Hr as (its & l5 & o & l6 & lb' & c & l7 & e & -> & Hits & Hrest).
          eexists (_ :: its), l5, o, l6, lb', c, l7, e. rewrite <- app_assoc. split; [reflexivity|]. split; [|exact Hrest].
          inversion Hom; subst. eapply gi_empty_property; try eassumption.
        * (* equal *)
          cbn [tl] in *. cl_one Hr. apply cl_check_property in H; [|exact Hv]. destruct H as [Hs ->].
          inversion Hl2; subst.
          cl_one Hr. apply cl_values in H; [|assumption]. destruct H as (vs & -> & Hvs & Ho4). cbn [app] in Hr.
          cl_one Hr. apply cl_end in H; [|exact Ho4]. destruct H as [He Ho5].
          cl_one Hr. apply cl_check_omit in H. destruct H as [-> ->].
          cl_one Hr. apply cl_check_order in H. destruct H as [-> ->].
          apply IH in Hr; [|assumption]. destruct Hr as (its & l8 & o & l9 & lb' & c & l7 & e & -> & Hits & Hrest).
          eexists (_ :: its), l8, o, l9, lb', c, l7, e. rewrite <- app_assoc. split; [reflexivity|]. split; [|exact Hrest].
          inversion Hom; subst. change 0%nat with (0 + 0)%nat. eapply gi_property; try eassumption.
        * (* open brace *)
          apply cl_check_node in H; [|apply nn_valid_of; exact Hv]. destruct H as [Hn <-].
          apply cl_bind in Hr; [|mono_tac|mono_tac]. destruct Hr as (b & lb0 & Hb & Hr).
          apply cl_expect in Hb. destruct Hb as [Eb Hb]. injection Eb as <- <-. inversion Hl2 as [|? ? _ Hokr]; subst.
          apply cl_bind in Hr; [|mono_tac|mono_tac]. destruct Hr as (bp & lz & Hbody & Hr). apply IH in Hbody; [|exact Hokr].
          destruct Hbody as (its & l8 & o' & l9 & lb' & c & l7 & e & -> & Hits & Ho4 & Hlb4 & Hc & He & Hok).
          apply IH in Hr; [|exact Hok]. destruct Hr as (its2 & l5 & o2 & l6 & lb2 & c2 & l10 & e2 & -> & Hits2 & Hrest).
          eexists (_ :: its2), l5, o2, l6, lb2, c2, l10, e2. rewrite <- app_assoc. split; [reflexivity|]. split; [|exact Hrest].
          change 0%nat with (0 + 0)%nat. eapply gi_node; try eassumption.
          -- apply node_text_iff. reflexivity.
          -- change 0%nat with (0 + 0)%nat. eapply gbo; eassumption.
  Qed.
  Lemma cl_node_payload f l pl l' : cl (t_node_payload src rl f) l pl l' -> ok l ->
    exists b r, l = b :: r /\ is OpenBrace b /\ g_body r pl l' 0 /\ ok l'.
  Proof.
    unfold t_node_payload. intros H Ho. cl_one H. subst. inversion Ho; subst. apply cl_payload in H; [|assumption].
    destruct H as (its & l1 & o & l2 & lb & c & l3 & e & -> & Hits & Hom & Hlb & Hc & He & Hok).
    exists a, l0. repeat split; auto. change 0%nat with (0 + 0)%nat. eapply gbo; eassumption.
  Qed.
  Lemma cl_parse_reference l w l' : cl (t_parse_reference src) l w l' -> ok l ->
    exists t r x, l = t :: l' /\ w = mkWT x t /\ is (Ref r) t /\ ref_text r x /\ ok l'.
  Proof.
    unfold t_parse_reference. intros H Ho. cl_one H. inversion Ho as [|t l1 Ht Hl1]; subst. unfold tok_ok in Ht.
    destruct (tk_kind a) eqn:E; cl_one H. apply cl_reference in H; [|exact Ht]. destruct H as (-> & x & -> & Hx).
    exists a, r, x. auto.
  Qed.
  Lemma cl_memreserve l w l' : cl (t_memreserve_number src) l w l' -> ok l ->
    exists t s n, l = t :: l' /\ w = mkWT n t /\ is (UnparsedNumber s) t /\ literal s n /\ n < 2 ^ 64 /\ ok l'.
  Proof.
    unfold t_memreserve_number. intros H Ho. cl_one H. inversion Ho as [|t l1 Ht Hl1]; subst. unfold tok_ok in Ht.
    destruct (tk_kind a) eqn:E; try (cl_one H; cl_one H; cl_one H; fail).
    destruct (parse_number u64_lim s) as [n|e] eqn:En; cl_one H.
    cbn [kind_ok] in Ht. apply parse_number_iff in En; [|reflexivity|apply Ht|apply Ht]. destruct En as [En1 En2].
    exists a, s, n. auto 10.
  Qed.
  Lemma cl_no_semicolon l x l' :
    cl (match hd_error l with
        | Some tok2 =>
          if kind_eqb (tk_kind tok2) Semicolon then
            let^ tok3 := t_expect_next src in
            t_push (diag_from_token tok3 ParserError (bs "Include directive must not end with a semicolon"))
          else t_ret tt
        | None => t_ret tt
        end) l x l' -> (forall u r, l = u :: r -> ~ is Semicolon u) /\ l' = l.
  Proof.
    destruct l as [|u r]; cbn [hd_error]; intros H.
    - cl_one H. split; [|reflexivity]. intros u r E2. discriminate.
    - destruct (kind_eqb_spec (tk_kind u) Semicolon) as [E2|E2]; [cl_one H; cl_one H|].
      cl_one H. split; [|reflexivity]. intros u' r' E3. injection E3 as <- <-. exact E2.
  Qed.
  Lemma cl_primary f l p l' : cl (t_p_primary src incl rl f) l p l' -> ok l -> g_primary incl l p l' 0 /\ ok l'.
  Proof.
    unfold t_p_primary. intros H Ho. cl_one H. inversion Ho as [|t l1 Ht Hl1]; subst. unfold tok_ok in Ht.
    destruct (tk_kind a) eqn:E; try (cl_one H; fail).
    - cl_one H. apply cl_node_payload in H0; [|exact Hl1]. destruct H0 as (b & r & -> & Hb & Hp & Ho1). cl_one H.
      split; [econstructor; eassumption|exact Ho1].
    - destruct (str_eqb s (bs "#include")) eqn:Es; [|cl_one H]. apply str_eqb_spec in Es. subst s.
      cl_one H. subst. inversion Hl1; subst. destruct (tk_kind a0) eqn:E'; cl_one H.
      split; [econstructor; eassumption|assumption].
    - destruct d; cl_one H.
      + apply cl_end in H0; [|exact Hl1]. destruct H0 as [He Ho1]. cl_one H. split; [econstructor; eassumption|exact Ho1].
      + apply cl_memreserve in H0; [|exact Hl1]. destruct H0 as (ta & sa & na & -> & -> & H1 & H2 & H3 & Ho1).
        cl_one H. apply cl_memreserve in H0; [|exact Ho1]. destruct H0 as (tb & sb & nb & -> & -> & H4 & H5 & H6 & Ho2).
        cl_one H. apply cl_end in H0; [|exact Ho2]. destruct H0 as [He Ho3]. cl_one H.
        split; [econstructor; eassumption|exact Ho3].
      + apply cl_parse_reference in H0; [|exact Hl1]. destruct H0 as (t & r & x & -> & -> & Hr & Hx & Ho1).
        cl_one H. apply cl_end in H0; [|exact Ho1]. destruct H0 as [He Ho2]. cl_one H.
        split; [eapply gp_delete_node; eassumption|exact Ho2].
      + apply cl_end in H0; [|exact Hl1]. destruct H0 as [He Ho1]. cl_one H. split; [econstructor; eassumption|exact Ho1].
      + apply cl_parse_reference in H0; [|exact Hl1]. destruct H0 as (t & r & x & -> & -> & Hr & Hx & Ho1).
        cl_one H. apply cl_end in H0; [|exact Ho1]. destruct H0 as [He Ho2]. cl_one H.
        split; [eapply gp_omit; eassumption|exact Ho2].
      + subst. inversion Hl1 as [|? ? Hf Hl]; subst. destruct (tk_kind a0) eqn:E'; try (cl_one H; fail).
        apply cl_bind in H; [|mono_tac|mono_tac]. destruct H as (t2 & l2 & H0 & H).
        apply cl_bind in H; [|mono_tac|mono_tac]. destruct H as (u0 & l3 & H1 & H).
        apply cl_peek in H0. destruct H0 as [-> ->].
        apply cl_no_semicolon in H1. destruct H1 as [Hn ->]. cl_one H. cl_one H.
        apply cl_ret in H0. destruct H0 as [<- <-].
        split; [econstructor; eassumption|exact Hl].
    - cl_one H. apply cl_reference in H0; [|exact Ht]. destruct H0 as (-> & x & -> & Hx).
      cl_one H. apply cl_node_payload in H0; [|exact Hl1]. destruct H0 as (b & r' & -> & Hb & Hp & Ho1). cl_one H.
      split; [econstructor; eassumption|exact Ho1].
  Qed.
  Lemma cl_file_loop f : forall acc l r l', cl (t_file_loop src incl rl f acc) l r l' -> ok l ->
    exists ps, r = acc ++ ps /\ g_file incl l ps 0 /\ l' = [].
  Proof.
    induction f as [|f IH]; intros acc l r l' H Ho; cbn [t_file_loop] in H; cl_one H. subst.
    destruct l0 as [|t l0]; cbn [hd_error] in H; cl_one H.
    - exists []. rewrite app_nil_r. repeat split. constructor.
    - apply cl_primary in H0; [|exact Ho]. destruct H0 as [Hp Ho1]. apply IH in H; [|exact Ho1].
      destruct H as (ps & -> & Hps & ->). eexists (_ :: ps). rewrite <- app_assoc. split; [reflexivity|].
      split; [|reflexivity]. change 0%nat with (0 + 0)%nat. econstructor; eassumption.
  Qed.
  Lemma cl_file f l fl l' : cl (t_p_file src incl rl f) l fl l' -> ok l ->
    derives incl l (fl_elements fl) /\ fl_source fl = src /\ l' = [].
  Proof.
    unfold t_p_file. intros H Ho. cl_one H. apply cl_file_loop in H0; [|exact Ho]. destruct H0 as (ps & -> & Hp & ->).
    cl_one H. cl_one H. auto.
  Qed.
End Sound.
