(** An error other than "unexpected end of file", with nothing reported before it, is never about a token directly behind an
    unknown one: unknown tokens are passed over only in parentheses. *)
From Verif Require Import Parser LexSpec Utf8 LexerProofs Grammar NameProofs TokParser GrammarComplete GrammarSound PropsGrammar PropsConcat GrammarDet Complete FirstError.

Definition known (t : token) : Prop := forall c, tk_kind t <> Unknown c.
(** empty, or with a known token at the end *)
Definition good (l : list token) : Prop := forall c t, l = c ++ [t] -> known t.
(** [m], with the tokens [h] read before it, ends behind a known token, and its errors are about tokens behind known ones *)
Definition tidy {A} (h : list token) (f : option token) (m : TM A) : Prop :=
  (forall l a l1, fits f l -> yes m l a l1 -> exists c, l = c ++ l1 /\ good (h ++ c))
  /\ (forall l d, fits f l -> no m l d -> eof d \/ exists pre t post, h ++ l = pre ++ t :: post /\ good pre /\ dg_span d = tk_span t).

Lemma good_nil : good [].
Proof. intros c t E. destruct c; discriminate E. Qed.
Lemma good_one h t : known t -> good (h ++ [t]).
Proof. intros H c u E. apply app_inj_tail in E. destruct E as [_ <-]. exact H. Qed.
Lemma good_app h c : good h -> good c -> good (h ++ c).
Proof.
  intros H1 H2. destruct c as [|x c]; [rewrite app_nil_r; exact H1|].
  destruct (@exists_last _ (x :: c)) as (c' & t & E); [discriminate|]. rewrite E in *. rewrite app_assoc. apply good_one. exact (H2 c' t eq_refl).
Qed.
Lemma known_kind t k : tk_kind t = k -> (forall c, k <> Unknown c) -> known t.
Proof. intros E H c. rewrite E. apply H. Qed.

Section Tidy.
  Context (src : fpath) (incl : list fpath) (rl : position -> list token).

  Lemma tidy_bind {A B} h f (m : TM A) (k : A -> TM B) : mono m -> (forall a, mono (k a)) -> tidy h f m -> (forall a, tidy [] None (k a)) -> tidy h f (t_bind m k).
  Proof.
    intros Hm Hk [Y N] K. split.
    - intros l b l2 Hf H. destruct (yes_bind _ _ _ _ _ Hm Hk H) as (a & l1 & Ha & Hb). destruct (Y _ _ _ Hf Ha) as (c1 & -> & G1).
      destruct (proj1 (K a) _ _ _ I Hb) as (c2 & -> & G2). exists (c1 ++ c2). split; [apply app_assoc|]. rewrite app_assoc. apply good_app; assumption.
    - intros l d Hf H. destruct (no_bind _ _ _ _ Hm Hk H) as [H'|(a & l1 & Ha & Hb)]; [exact (N _ _ Hf H')|].
      destruct (Y _ _ _ Hf Ha) as (c1 & -> & G1). destruct (proj2 (K a) _ _ I Hb) as [He|(pre & t & post & E & G & W)]; [left; exact He|right].
      cbn [app] in E. exists ((h ++ c1) ++ pre), t, post. split; [rewrite E, <- !app_assoc; reflexivity|]. split; [apply good_app; assumption|exact W].
  Qed.
  Lemma tidy_weak {A} h f (m : TM A) : tidy h None m -> tidy h f m.
  Proof. intros [Y N]. split; [intros l a l1 _; apply Y; exact I|intros l d _; apply N; exact I]. Qed.
  Lemma tidy_never {A} h f (m : TM A) : (forall l a l1, ~ yes m l a l1) -> calm m -> tidy h f m.
  Proof. intros H1 H2. split; [intros l a l1 _ H; destruct (H1 _ _ _ H)|intros l d _ H; left; exact (H2 _ _ H)]. Qed.
  Lemma tidy_still {A} h f (m m' : TM A) : good h -> still m m' -> tidy h f m.
  Proof.
    intros G [Y N]. split; [|intros l d _ H; left; exact (N _ _ H)].
    intros l a l1 _ H. destruct (Y _ _ _ H) as [-> _]. exists []. split; [reflexivity|]. rewrite app_nil_r. exact G.
  Qed.
  Lemma tidy_ret {A} h f (a : A) : good h -> tidy h f (t_ret a).
  Proof. intros G. exact (tidy_still _ _ _ _ G (still_ret a)). Qed.
  Lemma tidy_pushed {A} h f d (m : TM A) : mono m -> tidy h f (t_push d ;^ m).
  Proof.
    intros M. assert (P : forall l, match (t_push d ;^ m) (mkTS l []) with TOk _ s' | TErr _ s' => t_diags s' <> [] | TBad => True end).
    { intros l. unfold t_bind, t_push. cbn [t_toks t_diags app]. specialize (M (mkTS l [d])).
      destruct (m (mkTS l [d])) as [a s'|e s'|]; [| |exact I]; destruct M as [n Hn]; cbn [t_diags] in Hn; intros K; rewrite K in Hn; discriminate Hn. }
    split; [intros l a l1 _ H; exfalso|intros l e _ [l1 H]; exfalso]; specialize (P l); unfold yes in H; rewrite H in P; exact (P eq_refl).
  Qed.
  Lemma tidy_push h f d : tidy h f (t_push d).
  Proof. split; [intros l a l1 _ H; discriminate H|intros l e _ [l1 H]; discriminate H]. Qed.
  Lemma tidy_nofuel {A} h f : tidy h f (@t_no_fuel A).
  Proof. apply tidy_never; [apply never_nofuel|apply calm_nofuel]. Qed.
  Lemma tidy_panic {A} h f : tidy h f (@t_panic A).
  Proof. apply tidy_never; [apply never_panic|apply calm_panic]. Qed.
  Lemma tidy_throw {A} h t f d : good h -> dg_span d = tk_span t -> tidy (h ++ [t]) f (@t_throw A d).
  Proof.
    intros G W. split; [intros l a l1 _ H; discriminate H|]. intros l e _ [l1 H]. injection H as -> _. right. exists h, t, l. rewrite <- app_assoc. auto.
  Qed.
  Lemma tidy_throw_next {A} h t d : good h -> dg_span d = tk_span t -> tidy h (Some t) (@t_throw A d).
  Proof.
    intros G W. split; [intros l a l1 _ H; discriminate H|]. intros l e [r ->] [l1 H]. injection H as -> _. right. exists h, t, r. auto.
  Qed.
  Lemma tidy_next {B} h f (k : token -> TM B) : (forall t, tidy (h ++ [t]) None (k t)) -> tidy h f (t_bind (t_expect_next src) k).
  Proof.
    intros K. apply tidy_weak. split.
    - intros [|x l] a l1 _ H; [discriminate H|]. destruct (proj1 (K x) l a l1 I H) as (c & -> & G). exists (x :: c). split; [reflexivity|].
      rewrite <- app_assoc in G. exact G.
    - intros [|x l] d _ H; [destruct H as [l1 H]; injection H as <- _; left; reflexivity|]. destruct (proj2 (K x) l d I H) as [He|(pre & t & post & E & G)]; [left; exact He|right].
      exists pre, t, post. rewrite <- app_assoc in E. auto.
  Qed.
  Lemma tidy_peek_expect {B} h f (k : token -> TM B) : (forall t, tidy h (Some t) (k t)) -> tidy h f (t_bind (t_peek_expect src) k).
  Proof.
    intros K. apply tidy_weak. split.
    - intros [|x l] a l1 _ H; [discriminate H|]. exact (proj1 (K x) (x :: l) a l1 (ex_intro _ l eq_refl) H).
    - intros [|x l] d _ H; [destruct H as [l1 H]; injection H as <- _; left; reflexivity|]. exact (proj2 (K x) (x :: l) d (ex_intro _ l eq_refl) H).
  Qed.
  Lemma tidy_peek {B} h f (k : option token -> TM B) : (forall t, tidy h (Some t) (k (Some t))) -> tidy h None (k None) -> tidy h f (t_bind t_peek k).
  Proof.
    intros K K0. apply tidy_weak. split.
    - intros [|x l] a l1 _ H; [exact (proj1 K0 [] a l1 I H)|]. exact (proj1 (K x) (x :: l) a l1 (ex_intro _ l eq_refl) H).
    - intros [|x l] d _ H; [exact (proj2 K0 [] d I H)|]. exact (proj2 (K x) (x :: l) d (ex_intro _ l eq_refl) H).
  Qed.
  Lemma tidy_skip {B} h t (k : unit -> TM B) : tidy (h ++ [t]) None (k tt) -> tidy h (Some t) (t_bind t_skip_tok k).
  Proof.
    intros [Y N]. split.
    - intros l a l1 [r ->] H. destruct (Y r a l1 I H) as (c & -> & G). exists (t :: c). split; [reflexivity|]. rewrite <- app_assoc in G. exact G.
    - intros l d [r ->] H. destruct (N r d I H) as [He|(pre & u & post & E & G)]; [left; exact He|right]. exists pre, u, post. rewrite <- app_assoc in E. auto.
  Qed.
  Lemma tidy_ext {A} h f (m m' : TM A) : (forall s, m s = m' s) -> tidy h f m' -> tidy h f m.
  Proof. intros E [Y N]. unfold tidy, yes, no in *. split; intros *; rewrite E; [apply Y|apply N]. Qed.
  Lemma tidy_assoc {A B C} h f (m : TM A) (j : A -> TM B) (k : B -> TM C) : tidy h f (t_bind m (fun a => t_bind (j a) k)) -> tidy h f (t_bind (t_bind m j) k).
  Proof. apply tidy_ext. intros s. unfold t_bind. destruct (m s); reflexivity. Qed.
  (** a token that was looked at and is then read *)
  Lemma tidy_next_known {B} h t (k : token -> TM B) : tidy (h ++ [t]) None (k t) -> tidy h (Some t) (t_bind (t_expect_next src) k).
  Proof.
    intros [Y N]. split.
    - intros l a l1 [r ->] H. destruct (Y r a l1 I H) as (c & -> & G). exists (t :: c). split; [reflexivity|]. rewrite <- app_assoc in G. exact G.
    - intros l d [r ->] H. destruct (N r d I H) as [He|(pre & u & post & E & G)]; [left; exact He|right]. exists pre, u, post. rewrite <- app_assoc in E. auto.
  Qed.

  Ltac bd := apply tidy_bind; [solve [mono_tac]|solve [mono_tac]| |].
  (** the last token read has a kind that is known *)
  Ltac gd := first [apply good_nil|apply good_one; eapply known_kind; [eassumption|discriminate]|assumption].

  (** ** The functions *)
  Lemma tidy_label : tidy [] None t_skip_optional_label.
  Proof.
    unfold t_skip_optional_label. apply tidy_peek; [|apply tidy_ret, good_nil]. intros t. destruct (tk_kind t) eqn:E; try (apply tidy_ret, good_nil).
    split; [|intros l d _ H; left; exact (calm_skip _ _ H)]. intros l a l1 [r ->] H. injection H as <- <-. exists [t]. split; [reflexivity|]. apply (good_one []). eapply known_kind; [exact E|discriminate].
  Qed.
  Lemma expression_reads f : forall d l a l1, yes (t_skip_expression f d) l a l1 -> l1 <> [] -> exists c t, l = (c ++ [t]) ++ l1 /\ known t.
  Proof.
    induction f as [|f IH]; intros d l a l1 H Hn; [discriminate H|]. destruct l as [|x l]; [injection H as _ <-; destruct (Hn eq_refl)|].
    assert (H' : yes (match tk_kind x with OpenParen => t_skip_expression f (d + 1)
        | CloseParen => if d =? 1 then t_ret tt else t_skip_expression f (d - 1) | _ => t_skip_expression f d end) l a l1).
    { cbn [t_skip_expression] in H. unfold yes, t_bind at 1, t_peek in H. cbn [t_toks hd_error] in H. unfold yes. destruct (tk_kind x); exact H. }
    assert (R : forall d', yes (t_skip_expression f d') l a l1 -> exists c t, x :: l = (c ++ [t]) ++ l1 /\ known t).
    { intros d' H0. destruct (IH _ _ _ _ H0 Hn) as (c & t & -> & G). exists (x :: c), t. split; [reflexivity|exact G]. }
    destruct (tk_kind x) eqn:E; try exact (R _ H'). destruct (d =? 1); [|exact (R _ H')]. injection H' as _ <-. exists [], x. split; [reflexivity|].
    eapply known_kind; [exact E|discriminate].
  Qed.
  Lemma number_reads f l a l1 : yes (t_number_u32 src f) l a l1 -> exists c, l = c ++ l1 /\ good c.
  Proof.
    unfold t_number_u32. destruct l as [|x l]; [discriminate|]. intros H.
    assert (G : known x -> good [x]) by (intros K; exact (good_one [] x K)).
    assert (S1 : forall m : TM cell, known x -> still m m -> yes m l a l1 -> exists c, x :: l = c ++ l1 /\ good c).
    { intros m K [S _] H0. destruct (S _ _ _ H0) as [-> _]. exists [x]. split; [reflexivity|auto]. }
    change (yes (match tk_kind x with
      | Ref r => let^ w := t_p_reference src x r in t_ret (CReference w)
      | UnparsedNumber s =>
        match parse_number u32_lim s with
        | IntOk n => t_ret (CNumber (mkWT n x))
        | IntErr e => t_push (diag_int_error (tk_span x) (tk_source x) e) ;^ t_ret (CNumber (mkWT 0 x))
        end
      | OpenParen =>
        t_skip_expression f 1 ;^
        let^ t := t_peek in
        (match t with
         | None => t_push (diag_from_token x UnbalancedParentheses (bs "Unbalanced parentheses"))
         | Some _ => t_ret tt
         end) ;^
        t_ret CExpression
      | _ => t_throw (diag_expected (tk_span x) (tk_source x) [k_num; k_ref; OpenParen])
      end) l a l1) in H.
    destruct (tk_kind x) eqn:E; try discriminate H.
    - apply yes_bind in H; [|mono_tac|mono_tac]. destruct H as ([] & l2 & H1 & H2). destruct l2 as [|y l2]; [discriminate H2|]. injection H2 as _ <-.
      destruct (expression_reads _ _ _ _ _ H1) as (c & t & -> & K); [discriminate|]. exists (x :: c ++ [t]). split; [reflexivity|]. exact (good_one (x :: c) t K).
    - eapply S1; [eapply known_kind; [exact E|discriminate]| |exact H]. destruct (parse_number u32_lim s); [apply still_ret|].
      apply still_bind; [mono_tac|mono_tac|apply still_push|intros []; apply still_ret].
    - eapply S1; [eapply known_kind; [exact E|discriminate]| |exact H]. apply still_bind; [mono_tac|mono_tac|apply (still_reference src incl)|intros w; apply still_ret].
  Qed.
  Lemma kind_eqb_kind a k : kind_eqb (tk_kind a) k = true -> tk_kind a = k.
  Proof. destruct (kind_eqb_spec (tk_kind a) k); [auto|discriminate]. Qed.
  Lemma tidy_cells f : forall acc, tidy [] None (t_cells_loop src f acc).
  Proof.
    induction f as [|f IH]; intros acc; cbn [t_cells_loop]; [apply tidy_nofuel|].
    bd; [apply tidy_label|intros []]. apply tidy_peek_expect. intros t. destruct (kind_eqb (tk_kind t) ChevronRight) eqn:E.
    - apply kind_eqb_kind in E. apply tidy_next_known, tidy_ret. gd.
    - apply tidy_weak. split.
      + intros l a l1 _ H. apply yes_catch in H; [|mono_tac|].
        2: { intros d s x s' K. pose proof (cells_pushes src incl f acc d s) as P. rewrite K in P. exact P. }
        destruct H as (c & l2 & Hc & H). destruct (number_reads _ _ _ _ Hc) as (c1 & -> & G1). destruct (proj1 (IH _) _ _ _ I H) as (c2 & -> & G2).
        exists (c1 ++ c2). split; [apply app_assoc|]. exact (good_app _ _ G1 G2).
      + intros l d _ H. apply no_catch in H; [|mono_tac|].
        2: { intros e s x s' K. pose proof (cells_pushes src incl f acc e s) as P. rewrite K in P. exact P. }
        destruct H as (c & l2 & _ & H). left. exact (cells_calm _ incl _ _ _ _ H).
  Qed.
  Lemma tidy_byte : tidy [] None (t_byte_string src).
  Proof.
    unfold t_byte_string. apply tidy_next. intros t. 
    assert (S : forall s : str, known t -> tidy ([] ++ [t]) None (if negb (Nat.even (length s)) then
      t_push (diag_from_token t OddNumberOfBytestringElements (bs "Number of elements in byte string must be even")) ;^ t_ret (mkWT [] t)
    else match decode_pairs s with
         | Done (inl b) => t_ret (mkWT b t)
         | Done (inr e) => t_push (diag_int_error (tk_span t) (tk_source t) e) ;^ t_ret (mkWT [] t)
         | Panic => t_panic
         | NoFuel => t_no_fuel
         end)) by (intros s K; eapply tidy_still; [apply good_one, K|apply byte_still]).
    destruct (tk_kind t) eqn:E; first [apply S; eapply known_kind; [exact E|discriminate]|apply tidy_pushed; mono_tac].
  Qed.
  Lemma tidy_bytes f : forall acc, tidy [] None (t_bytes_loop src f acc).
  Proof.
    induction f as [|f IH]; intros acc; cbn [t_bytes_loop]; [apply tidy_nofuel|].
    bd; [apply tidy_label|intros []]. apply tidy_peek_expect. intros t. destruct (kind_eqb (tk_kind t) CloseBracket) eqn:E.
    - apply kind_eqb_kind in E. apply tidy_skip, tidy_ret. gd.
    - apply tidy_weak. bd; [apply tidy_byte|intros b; apply IH].
  Qed.
  Lemma tidy_bits : tidy [] None (t_bits_prefix src).
  Proof.
    unfold t_bits_prefix. apply tidy_peek; [|apply tidy_ret, good_nil]. intros t. destruct (kind_eqb (tk_kind t) (Directive Bits)) eqn:E; [|apply tidy_ret, good_nil].
    apply tidy_skip, tidy_next. intros w. destruct (tk_kind w) eqn:E2; try apply tidy_push. apply tidy_ret. gd.
  Qed.
  Lemma tidy_value f : tidy [] None (t_property_value src f).
  Proof.
    unfold t_property_value. bd; [apply tidy_bits|intros []]. apply tidy_next. intros t. destruct (tk_kind t) eqn:E; try (apply tidy_throw; [gd|reflexivity]).
    - bd; [|intros []; apply tidy_ret, good_nil]. split; [|intros l d _ H; left; exact (bytes_calm _ incl _ _ _ _ H)].
      intros l a l1 _ H. destruct (proj1 (tidy_bytes _ _) _ _ _ I H) as (c & -> & G). exists c. split; [reflexivity|]. apply good_app; [gd|exact G].
    - bd; [|intros []; apply tidy_ret, good_nil]. split; [|intros l d _ H; left; exact (cells_calm _ incl _ _ _ _ H)].
      intros l a l1 _ H. destruct (proj1 (tidy_cells _ _) _ _ _ I H) as (c & -> & G). exists c. split; [reflexivity|]. apply good_app; [gd|exact G].
    - apply tidy_ret. gd.
    - bd; [eapply tidy_still; [gd|apply (still_reference src incl)]|intros w; apply tidy_ret, good_nil].
  Qed.
  (** nothing before *)
  Lemma tidy_after {A} h f (m : TM A) : good h -> tidy [] f m -> tidy h f m.
  Proof.
    intros G [Y N]. split.
    - intros l a l1 Hf H. destruct (Y _ _ _ Hf H) as (c & -> & K). exists c. split; [reflexivity|exact (good_app _ _ G K)].
    - intros l d Hf H. destruct (N _ _ Hf H) as [He|(pre & t & post & E & K & W)]; [left; exact He|right]. cbn [app] in E.
      exists (h ++ pre), t, post. split; [rewrite E, <- app_assoc; reflexivity|]. split; [exact (good_app _ _ G K)|exact W].
  Qed.
  Lemma tidy_values f : forall acc, tidy [] None (t_property_values src f acc).
  Proof.
    induction f as [|f IH]; intros acc; cbn [t_property_values]; [apply tidy_nofuel|].
    bd; [apply tidy_label|intros []]. bd; [apply tidy_value|intros v]. bd; [apply tidy_label|intros []]. apply tidy_peek_expect. intros t.
    destruct (kind_eqb (tk_kind t) Comma) eqn:E; [|apply tidy_ret, good_nil]. apply kind_eqb_kind in E. apply tidy_skip, tidy_after; [gd|apply IH].
  Qed.
  Lemma tidy_property_name : tidy [] None (t_p_property_name src).
  Proof.
    unfold t_p_property_name. apply tidy_next. intros t. destruct (tk_kind t) eqn:E; try (apply tidy_throw; [gd|reflexivity]).
    bd; [eapply tidy_still; [gd|apply still_property]|intros []; apply tidy_ret, good_nil].
  Qed.
  Lemma tidy_node_name : tidy [] None (t_p_node_name src).
  Proof.
    unfold t_p_node_name. apply tidy_next. intros t. destruct (tk_kind t) eqn:E; try (apply tidy_throw; [gd|reflexivity]).
    bd; [eapply tidy_still; [gd|apply (still_node src incl)]|intros []; apply tidy_ret, good_nil].
  Qed.
  Lemma tidy_parse_reference : tidy [] None (t_parse_reference src).
  Proof.
    unfold t_parse_reference. apply tidy_next. intros t. destruct (tk_kind t) eqn:E; try (apply tidy_throw; [gd|reflexivity]).
    eapply tidy_still; [gd|apply (still_reference src incl)].
  Qed.
  Lemma tidy_memreserve : tidy [] None (t_memreserve_number src).
  Proof.
    unfold t_memreserve_number. apply tidy_next. intros t.
    destruct (tk_kind t) eqn:E; try (match goal with |- tidy _ _ (t_bind t_last_pos _) => apply (tidy_throw [] t None (diag_expected (tk_span t) src [k_num])); [gd|reflexivity] end).
    destruct (parse_number u64_lim s); [apply tidy_ret; gd|apply tidy_pushed; mono_tac].
  Qed.
  Lemma tidy_expect k : (forall c, k <> Unknown c) -> tidy [] None (t_expect src k).
  Proof.
    intros Hk. split.
    - intros [|x l] a l1 _ H; [discriminate H|]. unfold yes, t_expect, t_bind, t_cur_pos, t_next, t_source, t_ret, t_throw in H. cbn [t_toks t_diags hd_error tl] in H.
      destruct (kind_eqb (tk_kind x) k) eqn:E; [|discriminate H]. injection H as <- <-. exists [x]. split; [reflexivity|]. apply (good_one []). intros c. rewrite (kind_eqb_kind _ _ E). apply Hk.
    - intros [|x l] d _ [l1 H]; [injection H as <- _; left; reflexivity|]. unfold t_expect, t_bind, t_cur_pos, t_next, t_source, t_ret, t_throw in H. cbn [t_toks t_diags hd_error tl] in H.
      destruct (kind_eqb (tk_kind x) k) eqn:E; [discriminate H|]. injection H as <- _. right. exists [], x, l. split; [reflexivity|]. split; [apply good_nil|reflexivity].
  Qed.
  Lemma tidy_semicolon : tidy [] None (t_expect_semicolon src rl).
  Proof.
    split; [|intros l d _ H; left; exact (semicolon_calm src rl _ _ H)].
    intros l a l1 _ H. unfold t_expect_semicolon in H. destruct l as [|x l]; [discriminate H|].
    unfold yes, t_bind at 1, t_peek in H. cbn [t_toks hd_error] in H. destruct (tk_kind x) eqn:E;
      try (exfalso; cbn [semicolon_skips] in H; discriminate H).
    injection H as _ <-. exists [x]. split; [reflexivity|]. apply (good_one []). eapply known_kind; [exact E|discriminate].
  Qed.
  Notation rest := (GrammarComplete.rest_of_item src rl).
  Lemma tidy_rest h f items nd t o lb : good h -> (forall items nd, tidy [] None (t_payload_loop src rl f items nd)) -> tidy (h ++ [t]) None (rest f items nd t o lb).
  Proof.
    intros G IH. unfold GrammarComplete.rest_of_item. destruct (tk_kind t) eqn:E; try (apply tidy_throw; [exact G|reflexivity]).
    - bd; [apply tidy_after; [gd|apply tidy_semicolon]|intros e; apply tidy_ret, good_nil].
    - apply tidy_after; [gd|]. apply tidy_peek_expect. intros t2.
      destruct (tk_kind t2) eqn:E2;
        try (apply (tidy_throw_next [] t2 (diag_expected (tk_span t2) src [Semicolon; Equal; OpenBrace; Directive OmitIfNoRef])); [apply good_nil|reflexivity]).
      + apply tidy_skip, tidy_after; [gd|]. bd; [eapply tidy_still; [apply good_nil|apply still_property]|intros []]. cbv zeta.
        bd; [eapply tidy_still; [apply good_nil|apply still_order]|intros []]. bd; [eapply tidy_still; [apply good_nil|apply still_omit]|intros []]. apply IH.
      + apply tidy_skip, tidy_after; [gd|]. bd; [eapply tidy_still; [apply good_nil|apply still_property]|intros []]. bd; [apply tidy_values|intros vs].
        bd; [apply tidy_semicolon|intros e]. bd; [eapply tidy_still; [apply good_nil|apply still_omit]|intros []]. cbv zeta. bd; [eapply tidy_still; [apply good_nil|apply still_order]|intros []]. apply IH.
      + cbv zeta. apply tidy_weak. bd; [eapply tidy_still; [apply good_nil|apply (still_node src incl)]|intros []]. bd; [apply tidy_expect; discriminate|intros x].
        bd; [apply IH|intros pl]. apply IH.
  Qed.
  Lemma tidy_payload f : forall items nd, tidy [] None (t_payload_loop src rl f items nd).
  Proof.
    induction f as [|f IH]; intros items nd; [apply tidy_nofuel|]. rewrite payload_is.
    assert (Mr : forall items nd t o lb, mono (rest f items nd t o lb)) by (intros; apply (mono_rest src incl)).
    apply tidy_next. intros t. cbn [app].
    destruct (kind_eqb (tk_kind t) (Directive DeleteNode)) eqn:E1; [|destruct (kind_eqb (tk_kind t) (Directive DeleteProperty)) eqn:E2].
    - apply kind_eqb_kind in E1. apply (tidy_after [t]); [apply (good_one []); eapply known_kind; [exact E1|discriminate]|].
      bd; [apply tidy_node_name|intros n]. bd; [apply tidy_semicolon|intros e; apply IH].
    - apply kind_eqb_kind in E2. apply (tidy_after [t]); [apply (good_one []); eapply known_kind; [exact E2|discriminate]|].
      bd; [apply tidy_property_name|intros n]. bd; [apply tidy_semicolon|intros e; apply IH].
    - assert (L : forall h t o, good h -> tidy (h ++ [t]) None (let^ (tok, label) := (match tk_kind t with
         | Label s => t_check_is_label src (tk_span t) s ;^ let^ t0 := t_expect_next src in t_ret (t0, Some (mkWT s t))
         | _ => t_ret (t, None) end) in rest f items nd tok o label)).
      { intros h u o G. destruct (tk_kind u) eqn:E; try (exact (tidy_rest h f items nd u o None G IH)).
        apply tidy_assoc. assert (G' : good (h ++ [u])) by gd. bd; [eapply tidy_still; [exact G'|apply still_label]|intros []].
        apply tidy_assoc, tidy_next. intros u2. exact (tidy_rest [] f items nd u2 o _ good_nil IH). }
      destruct (kind_eqb (tk_kind t) (Directive OmitIfNoRef)) eqn:E3; [|exact (L [] t None good_nil)].
      apply kind_eqb_kind in E3. apply tidy_assoc, tidy_next. intros u. apply (L [t] u (Some t)). apply (good_one []). eapply known_kind; [exact E3|discriminate].
  Qed.
  Lemma tidy_node_payload f : tidy [] None (t_node_payload src rl f).
  Proof. unfold t_node_payload. bd; [apply tidy_expect; discriminate|intros x; apply tidy_payload]. Qed.
  Lemma tidy_primary f : tidy [] None (t_p_primary src incl rl f).
  Proof.
    unfold t_p_primary. apply tidy_next. intros t. destruct (tk_kind t) eqn:E; try (apply tidy_throw; [gd|reflexivity]); try (assert (G : good ([] ++ [t])) by gd).
    - bd; [apply tidy_after; [exact G|apply tidy_node_payload]|intros pl; apply tidy_ret, good_nil].
    - destruct (str_eqb s (bs "#include")); [|apply tidy_throw; [gd|reflexivity]]. apply tidy_next. intros u.
      destruct (tk_kind u) eqn:E2; try (apply tidy_throw; [exact G|reflexivity]). apply tidy_ret. gd.
    - destruct d; try (apply tidy_throw; [gd|reflexivity]).
      + bd; [apply tidy_after; [exact G|apply tidy_semicolon]|intros e; apply tidy_ret, good_nil].
      + bd; [apply tidy_after; [exact G|apply tidy_memreserve]|intros a1]. bd; [apply tidy_memreserve|intros a2]. bd; [apply tidy_semicolon|intros e; apply tidy_ret, good_nil].
      + bd; [apply tidy_after; [exact G|apply tidy_parse_reference]|intros w]. bd; [apply tidy_semicolon|intros e; apply tidy_ret, good_nil].
      + bd; [apply tidy_after; [exact G|apply tidy_semicolon]|intros e; apply tidy_ret, good_nil].
      + bd; [apply tidy_after; [exact G|apply tidy_parse_reference]|intros w]. bd; [apply tidy_semicolon|intros e; apply tidy_ret, good_nil].
      + apply tidy_next. intros u. destruct (tk_kind u) eqn:E2; try (apply tidy_throw; [exact G|reflexivity]).
        apply tidy_after; [gd|]. apply tidy_peek.
        * intros t3. destruct (kind_eqb (tk_kind t3) Semicolon) eqn:E3; [|apply tidy_ret, good_nil].
          apply tidy_assoc, tidy_next. intros t4. apply tidy_pushed. mono_tac.
        * apply tidy_ret, good_nil.
    - bd; [eapply tidy_still; [exact G|apply (still_reference src incl)]|intros w]. bd; [apply tidy_node_payload|intros pl; apply tidy_ret, good_nil].
  Qed.
  Lemma tidy_loop f : forall acc, tidy [] None (t_file_loop src incl rl f acc).
  Proof.
    induction f as [|f IH]; intros acc; cbn [t_file_loop]; [apply tidy_nofuel|]. apply tidy_peek; [intros t; apply tidy_weak|apply tidy_ret, good_nil].
    bd; [apply tidy_primary|intros p; apply IH].
  Qed.
  Lemma tidy_file f : tidy [] None (t_p_file src incl rl f).
  Proof. unfold t_p_file. bd; [apply tidy_loop|intros els; apply tidy_ret, good_nil]. Qed.
End Tidy.
