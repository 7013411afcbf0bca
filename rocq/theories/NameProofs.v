(** Names, paths, numbers and byte strings: Parser.v against Grammar.v *)
From Verif Require Import Parser LexSpec Utf8 LexerProofs Grammar.
From Coq Require Import ZifyBool.

Lemma chars_ascii s : Forall (fun c => c < 128) s -> chars s = s.
Proof.
  induction 1 as [|c s Hc _ IH]; [reflexivity|]. cbn [chars].
  replace (c <? 128) with true by lia. rewrite IH. reflexivity.
Qed.

Lemma chars_nonascii (s : list N) : valid_utf8 s = true -> Forall (fun c => c < 128) (chars s) ->
  Forall (fun c => c < 128) s.
Proof.
  induction s as [s IH] using len_ind. intros Hv H. destruct s as [|b r]; [constructor|].
  cbn [chars valid_utf8] in *. destruct (b <? 128) eqn:Eb.
  - inversion H; subst. constructor; [lia|]. apply IH; [cbn; lia|exact Hv|assumption].
  - exfalso. destruct r as [|b1 r]; [discriminate|].
    destruct (utf8_two b b1) eqn:E2.
    { inversion H; subst. unfold utf8_two, in_rng, is_cont, in_rng in E2. lia. }
    destruct r as [|b2 r]; [discriminate|]. destruct (utf8_three b b1 b2) eqn:E3.
    { inversion H; subst. unfold utf8_three, in_rng, is_cont, in_rng in E3. lia. }
    destruct r as [|b3 r]; [discriminate|]. destruct (utf8_four b b1 b2 b3) eqn:E4; [|discriminate].
    inversion H; subst. unfold utf8_four, in_rng, is_cont, in_rng in E4. lia.
Qed.

Lemma find_bad_none pred i cs : find_bad pred i cs = None <-> Forall (fun c => pred c = true) cs.
Proof.
  revert i. induction cs as [|c cs IH]; intros i; cbn [find_bad]; [split; auto|].
  destruct (pred c) eqn:E; [rewrite IH|]; (split; [intros|intros H; inversion H; subst; auto; congruence]);
    [constructor; auto|discriminate].
Qed.

(** [check_ident] is silent exactly on the legal names *)
Lemma check_ident_none sp s pred start ctx src : valid_utf8 s = true ->
  (forall c, pred c = true -> c < 128) ->
  (check_ident_diag sp s pred start ctx src = None <->
   short s /\ Forall (fun c => pred c = true) s /\ exists c r, s = c :: r /\ start c = true).
Proof.
  intros Hv Hp. unfold check_ident_diag, short.
  destruct (find_bad pred 0 (chars s)) as [[i c]|] eqn:E.
  - split; [discriminate|]. intros (_ & H & _). exfalso.
    rewrite chars_ascii in E by (eapply Forall_impl; [|exact H]; exact Hp).
    rewrite (proj2 (find_bad_none pred 0 s) H) in E. discriminate.
  - apply find_bad_none in E. assert (Ha : Forall (fun c => c < 128) s).
    { apply chars_nonascii; [exact Hv|]. eapply Forall_impl; [|exact E]. exact Hp. }
    rewrite chars_ascii in * by exact Ha. destruct (31 <? N.of_nat (length s)) eqn:El.
    + split; [discriminate|]. intros ((_ & H) & _). lia.
    + destruct s as [|c s]; [split; [discriminate|]; intros ((H & _) & _); congruence|].
      destruct (start c) eqn:Es; (split; [intros H|intros (_ & _ & x & r & E' & H)]); try reflexivity; try discriminate.
      * split; [split; [discriminate|lia]|]. split; [exact E|]. eauto.
      * injection E' as <- <-. congruence.
Qed.

Lemma label_pred_spec c : label_pred c = true <-> label_char c.
Proof. unfold label_pred, label_char, letter, digit, is_alpha, is_lower, is_upper, is_digit. lia. Qed.
Lemma label_start_spec c : label_start c = true <-> letter c \/ c = cUnder.
Proof. unfold label_start, letter, is_alpha, is_lower, is_upper. lia. Qed.
Lemma node_pred_spec c : node_pred c = true <-> node_char c.
Proof. unfold node_pred, node_char, letter, digit, is_alpha, is_lower, is_upper, is_digit. cbn [In]. lia. Qed.
Lemma prop_pred_spec c : prop_pred c = true <-> name_char c.
Proof. unfold prop_pred, node_pred, name_char, letter, digit, is_alpha, is_lower, is_upper, is_digit. cbn [In]. lia. Qed.

Lemma Forall_iff {A} (P Q : A -> Prop) l : (forall x, P x <-> Q x) -> Forall P l <-> Forall Q l.
Proof. intros H. split; apply Forall_impl; intros a; apply H. Qed.

Lemma check_label_iff sp s src : valid_utf8 s = true ->
  (check_ident_diag sp s label_pred label_start CtxLabel src = None <-> legal_label s).
Proof.
  intros Hv. rewrite check_ident_none; [|exact Hv|intros c H; apply label_pred_spec, label_char_ascii in H; exact H].
  unfold legal_label. rewrite (Forall_iff _ _ s label_pred_spec).
  split; intros (H & H1 & c & r & H2 & H3); (split; [exact H|split; [exact H1|]]); exists c, r;
    (split; [exact H2|]); apply label_start_spec; exact H3.
Qed.
Lemma check_property_iff sp s src : valid_utf8 s = true ->
  (check_ident_diag sp s prop_pred any_char CtxPropertyName src = None <-> legal_property_name s).
Proof.
  intros Hv. rewrite check_ident_none; [|exact Hv|intros c H; apply prop_pred_spec, name_char_ascii in H; exact H].
  unfold legal_property_name. rewrite (Forall_iff _ _ s prop_pred_spec).
  split; [tauto|]. intros (H & H1). split; [exact H|]. split; [exact H1|]. destruct s as [|c r]; [destruct H; congruence|].
  exists c, r. auto.
Qed.
Lemma node_char_ascii c : node_char c -> c < 128.
Proof. unfold node_char, letter, digit. cbn [In]. lia. Qed.

(** the two checks of a node name *)
Definition node_checks (sp : span) (n : node_name) (src : fpath) : list (option diag) :=
  if match nn_addr n with None => str_eqb (nn_name n) (bs "__symbols__") | Some _ => false end then []
  else check_ident_diag sp (nn_name n) node_pred is_alpha CtxNodeName src
       :: match nn_addr n with
          | Some a => [check_ident_diag sp a node_pred any_char CtxNodeName src]
          | None => []
          end.
Lemma node_part_iff sp s start src : valid_utf8 s = true ->
  (check_ident_diag sp s node_pred start CtxNodeName src = None <->
   short s /\ Forall node_char s /\ exists c r, s = c :: r /\ start c = true).
Proof.
  intros Hv. rewrite check_ident_none; [|exact Hv|intros c H; apply node_pred_spec, node_char_ascii in H; exact H].
  rewrite (Forall_iff _ _ s node_pred_spec). reflexivity.
Qed.
Definition nn_valid (n : node_name) : Prop :=
  valid_utf8 (nn_name n) = true /\ forall a, nn_addr n = Some a -> valid_utf8 a = true.
Lemma str_eqb_spec a b : str_eqb a b = true <-> a = b.
Proof. unfold str_eqb. destruct (str_eq_dec a b); split; congruence. Qed.
Lemma node_checks_iff sp n src : nn_valid n ->
  (Forall (fun o => o = None) (node_checks sp n src) <-> legal_node_name n).
Proof.
  intros [Hv Ha]. destruct n as [nm ad]. cbn [nn_name nn_addr] in *. unfold node_checks, legal_node_name. cbn [nn_name nn_addr].
  assert (Hcheck : Forall (fun o => o = None) (check_ident_diag sp nm node_pred is_alpha CtxNodeName src
       :: match ad with Some a => [check_ident_diag sp a node_pred any_char CtxNodeName src] | None => [] end)
     <-> short nm /\ Forall node_char nm /\ (exists c r, nm = c :: r /\ letter c) /\
         (forall a, ad = Some a -> short a /\ Forall node_char a)).
  { rewrite Forall_cons_iff, node_part_iff by exact Hv.
    assert ((exists c r, nm = c :: r /\ is_alpha c = true) <-> exists c r, nm = c :: r /\ letter c) as ->.
    { split; intros (c & r & E & H); exists c, r; (split; [exact E|]); apply is_alpha_spec; exact H. }
    assert (Forall (fun o => o = None) (match ad with Some a => [check_ident_diag sp a node_pred any_char CtxNodeName src] | None => [] end)
       <-> (forall a, ad = Some a -> short a /\ Forall node_char a)) as ->.
    { destruct ad as [a|]; [|split; [intros _ a; discriminate|constructor]].
      rewrite Forall_cons_iff, node_part_iff by (apply Ha; reflexivity).
      split.
      - intros ((H1 & H2 & _) & _) x E. injection E as <-. auto.
      - intros H. destruct (H a eq_refl) as [H1 H2]. split; [|constructor]. split; [exact H1|]. split; [exact H2|].
        destruct a as [|c r]; [destruct H1; congruence|]. exists c, r. auto. }
    tauto. }
  destruct ad as [a|].
  - rewrite Hcheck. split; [auto|]. intros [H|H]; [discriminate|exact H].
  - destruct (str_eqb nm (bs "__symbols__")) eqn:E.
    + apply str_eqb_spec in E. subst nm. split; [auto|constructor].
    + rewrite Hcheck. split; [auto|]. intros [H|H]; [|exact H]. exfalso. injection H as ->.
      rewrite (proj2 (str_eqb_spec _ _) eq_refl) in E. discriminate.
Qed.

(** ** node_name_of and npath_of *)
Lemma split_once_some c s p q : split_once c s = Some (p, q) <-> s = p ++ [c] ++ q /\ ~ In c p.
Proof.
  revert p. induction s as [|a s IH]; intros p; cbn [split_once].
  - split; [discriminate|]. intros [E _]. destruct p; discriminate.
  - destruct (a =? c) eqn:E.
    + apply N.eqb_eq in E. subst a. split; [intros H; injection H as <- <-; split; [reflexivity|intros []]|].
      intros [H Hn]. destruct p as [|b p]; [cbn in H; injection H as ->; reflexivity|].
      exfalso. apply Hn. left. cbn in H. congruence.
    + apply N.eqb_neq in E. split.
      * destruct (split_once c s) as [[p' q']|] eqn:Es; [|discriminate]. intros H. injection H as <- <-.
        destruct (proj1 (IH p') eq_refl) as [-> Hn]. split; [reflexivity|]. intros [H|H]; [congruence|contradiction].
      * intros [H Hn]. destruct p as [|b p]; cbn in H; injection H as -> H; [congruence|].
        rewrite (proj2 (IH p)); [reflexivity|]. split; [exact H|]. intros Hi. apply Hn. right. exact Hi.
Qed.
Lemma split_once_none c s : split_once c s = None <-> ~ In c s.
Proof.
  induction s as [|a s IH]; cbn [split_once]; [split; [intros _ []|reflexivity]|].
  destruct (a =? c) eqn:E.
  - apply N.eqb_eq in E. split; [discriminate|]. intros H. exfalso. apply H. left. exact E.
  - apply N.eqb_neq in E. destruct (split_once c s) as [[p q]|].
    + split; [discriminate|]. intros H. exfalso. assert (~ In c s) as H' by (intros Hi; apply H; right; exact Hi).
      apply IH in H'. discriminate.
    + split; [|reflexivity]. intros _ [H|H]; [congruence|]. apply (proj1 IH eq_refl). exact H.
Qed.
Lemma node_text_iff s n : node_text s n <-> node_name_of s = n.
Proof.
  unfold node_name_of. split.
  - intros [s' H|s' a H].
    + rewrite (proj2 (split_once_none cAt s') H). reflexivity.
    + rewrite (proj2 (split_once_some cAt _ s' a)); auto.
  - intros <-. destruct (split_once cAt s) as [[p q]|] eqn:E.
    + apply split_once_some in E. destruct E as [-> H]. constructor. exact H.
    + apply split_once_none in E. constructor. exact E.
Qed.

Lemma split_on_cons c s : split_on c s <> [].
Proof. destruct s as [|a s]; cbn [split_on]; [discriminate|]. destruct (a =? c); [discriminate|]. destruct (split_on c s); discriminate. Qed.
Lemma split_on_piece c p s : ~ In c p -> (s = [] \/ exists r, s = c :: r) ->
  split_on c (p ++ s) = match s with [] => [p] | _ :: r => p :: split_on c r end.
Proof.
  intros Hp Hs. induction p as [|a p IH]; cbn [app].
  - destruct Hs as [->|[r ->]]; [reflexivity|]. cbn [split_on]. rewrite N.eqb_refl. reflexivity.
  - cbn [split_on]. replace (a =? c) with false by (symmetry; apply N.eqb_neq; intros ->; apply Hp; left; reflexivity).
    rewrite IH by (intros Hi; apply Hp; right; exact Hi). destruct s; reflexivity.
Qed.
Lemma npath_of_nil : npath_of [] = [].
Proof. reflexivity. Qed.
Lemma npath_of_slash s : npath_of (cSlash :: s) = npath_of s.
Proof. unfold npath_of. cbn [split_on]. reflexivity. Qed.
Lemma npath_of_comp c s : c <> [] -> ~ In cSlash c -> (s = [] \/ exists r, s = cSlash :: r) ->
  npath_of (c ++ s) = node_name_of c :: npath_of s.
Proof.
  intros Hc Hn Hs. unfold npath_of. rewrite split_on_piece by assumption.
  assert (E : str_eqb c [] = false) by (destruct (str_eqb c []) eqn:E; [apply str_eqb_spec in E; contradiction|reflexivity]).
  destruct Hs as [->|[r ->]]; cbn [filter map split_on]; rewrite E; reflexivity.
Qed.
Lemma path_text_iff (s : list N) p : path_text s p <-> npath_of s = p.
Proof.
  split.
  - induction 1 as [|s p _ IH|c s n p Hc Hn Hs Ht _ IH]; [reflexivity|rewrite npath_of_slash; exact IH|].
    rewrite npath_of_comp by assumption. f_equal; [apply node_text_iff; exact Ht|exact IH].
  - intros <-. induction s as [s IH] using len_ind. destruct s as [|a s]; [constructor|].
    destruct (N.eq_dec a cSlash) as [->|Ha].
    + rewrite npath_of_slash. constructor. apply IH. cbn. lia.
    + assert (exists v rest, a :: s = v ++ rest /\ ~ In cSlash v /\ (rest = [] \/ exists r, rest = cSlash :: r))
        as (v & rest & E & Hv & Hr).
      { destruct (run_until cSlash (a :: s)) as [H|(v & r & H & Hv)].
        - exists (a :: s), []. rewrite app_nil_r. auto.
        - exists v, (cSlash :: r). eauto. }
      assert (Hne : v <> []).
      { intros ->. cbn in E. subst rest. destruct Hr as [Hr|[r Hr]]; [discriminate|]. congruence. }
      assert (Hl : (length rest < length (a :: s))%nat).
      { rewrite E, app_length. destruct v; [congruence|cbn; lia]. }
      rewrite E. rewrite npath_of_comp; [|exact Hne|exact Hv|exact Hr].
      constructor; [exact Hne|exact Hv|exact Hr|apply node_text_iff; reflexivity|apply IH; exact Hl].
Qed.

(** ** Numbers *)
Lemma to_digit_spec b c v : b <= 36 -> (to_digit b c = Some v <-> digit_value c v /\ v < b).
Proof.
  intros Hb. unfold to_digit, digit_value, is_digit, is_lower, is_upper.
  destruct ((48 <=? c) && (c <=? 57)) eqn:E1.
  { destruct (c - 48 <? b) eqn:E; (split; [intros H; try discriminate; injection H as <-|intros H; try f_equal]); lia. }
  destruct ((97 <=? c) && (c <=? 122)) eqn:E2.
  { destruct (c - 87 <? b) eqn:E; (split; [intros H; try discriminate; injection H as <-|intros H; try f_equal]); lia. }
  destruct ((65 <=? c) && (c <=? 90)) eqn:E3.
  { destruct (c - 55 <? b) eqn:E; (split; [intros H; try discriminate; injection H as <-|intros H; try f_equal]); lia. }
  split; [discriminate|]. lia.
Qed.

(** digits appended to a value *)
Inductive more_digits (b : N) : N -> str -> N -> Prop :=
| md_nil n : more_digits b n [] n
| md_cons n c v s m : digit_value c v -> v < b -> more_digits b (n * b + v) s m -> more_digits b n (c :: s) m.
Lemma more_digits_snoc b n s m c v : more_digits b n s m -> digit_value c v -> v < b ->
  more_digits b n (s ++ [c]) (m * b + v).
Proof. induction 1; intros; cbn [app]; econstructor; eauto. constructor. Qed.
Lemma numeral_app b s n t m : numeral b s n -> more_digits b n t m -> numeral b (s ++ t) m.
Proof.
  intros Hs Ht. revert s Hs. induction Ht as [n|n c v t m Hc Hv _ IH]; intros s Hs; [rewrite app_nil_r; exact Hs|].
  replace (s ++ c :: t) with ((s ++ [c]) ++ t) by (rewrite <- app_assoc; reflexivity).
  apply IH. constructor; assumption.
Qed.
Lemma numeral_iff b s n : numeral b s n <-> s <> [] /\ more_digits b 0 s n.
Proof.
  split.
  - induction 1 as [c v Hc Hv|s n c v _ [H1 H2] Hc Hv].
    + split; [discriminate|]. econstructor; [exact Hc|exact Hv|]. constructor.
    + split; [destruct s; discriminate|]. apply more_digits_snoc; assumption.
  - intros [Hs H]. inversion H; subst; [congruence|]. change (numeral b ([c] ++ s0) n).
    eapply numeral_app; [apply num_one; eassumption|]. exact H2.
Qed.
Lemma more_digits_ge b n s m : 1 <= b -> more_digits b n s m -> n <= m.
Proof. intros Hb. induction 1; [lia|]. nia. Qed.
Lemma more_digits_fun b n s m m' : more_digits b n s m -> more_digits b n s m' -> m = m'.
Proof.
  intros H. revert m'. induction H as [|n c v s m Hc Hv _ IH]; intros m' H'; inversion H'; subst; [reflexivity|].
  apply IH. replace v with v0; [assumption|]. unfold digit_value in *. lia.
Qed.
Lemma numeral_fun b s n m : numeral b s n -> numeral b s m -> n = m.
Proof. rewrite !numeral_iff. intros [_ H] [_ H']. eapply more_digits_fun; eassumption. Qed.

Lemma radix_loop_iff lim b s acc n : 2 <= b <= 36 -> acc < lim ->
  (radix_loop lim b acc s = IntOk n <-> more_digits b acc s n /\ n < lim).
Proof.
  intros Hb. revert acc. induction s as [|c s IH]; intros acc Ha; cbn [radix_loop].
  - split; [intros H; injection H as <-; split; [constructor|exact Ha]|]. intros [H _]. inversion H; subst. reflexivity.
  - destruct (to_digit b c) as [d|] eqn:Ed.
    + apply to_digit_spec in Ed; [|lia]. destruct Ed as [Ed1 Ed2].
      destruct (lim <=? acc * b) eqn:E1; [|destruct (lim <=? acc * b + d) eqn:E2].
      1,2: split; [discriminate|]; intros [H Hn]; exfalso; inversion H; subst;
        (assert (v = d) by (unfold digit_value in *; lia)); subst;
        match goal with H : more_digits _ (_ * _ + _) _ _ |- _ => apply more_digits_ge in H; lia end.
      rewrite IH by lia. split; intros [H Hn]; (split; [|exact Hn]).
      * econstructor; eassumption.
      * inversion H; subst. replace d with v; [assumption|]. unfold digit_value in *. lia.
    + split; [discriminate|]. intros [H _]. exfalso. inversion H; subst.
      assert (to_digit b c = Some v) by (apply to_digit_spec; [lia|auto]). congruence.
Qed.
Lemma digit_value_signs c v : digit_value c v -> c <> cPlus /\ c <> cMinus.
Proof. unfold digit_value. lia. Qed.
Lemma from_str_radix_iff lim b s n : 2 <= b <= 36 -> 0 < lim -> (forall r, s <> cPlus :: r) ->
  (from_str_radix lim b s = IntOk n <-> numeral b s n /\ n < lim).
Proof.
  intros Hb Hl Hs. rewrite numeral_iff. destruct s as [|c s]; cbn [from_str_radix].
  - split; [discriminate|]. intros [[H _] _]. congruence.
  - assert (Hc : c <> cPlus) by (intros ->; eapply Hs; reflexivity).
    replace (c =? cPlus) with false by (symmetry; apply N.eqb_neq; exact Hc). cbn [orb].
    assert (R : radix_loop lim b 0 (c :: s) = IntOk n <-> (c :: s <> [] /\ more_digits b 0 (c :: s) n) /\ n < lim).
    { rewrite radix_loop_iff by lia. split; [intros [H1 H2]; repeat split; auto; discriminate|tauto]. }
    destruct s as [|d s]; [|exact R].
    destruct (c =? cMinus) eqn:E; [|exact R]. split; [discriminate|]. intros [[_ H] _].
    inversion H; subst. apply N.eqb_eq in E. apply digit_value_signs in H2. destruct H2. congruence.
Qed.

Definition alnum (c : N) : Prop := letter c \/ digit c.
Lemma numeral_first b c s n : numeral b (c :: s) n -> exists v, digit_value c v /\ v < b.
Proof. rewrite numeral_iff. intros [_ H]. inversion H; subst. eauto. Qed.

Lemma literal_inv s n : literal s n -> (s = [48] /\ n = 0)
  \/ (exists c t, s = c :: t /\ c <> 48 /\ numeral 10 s n)
  \/ (exists t, s = 48 :: 120 :: t /\ numeral 16 t n) \/ (exists t, s = 48 :: t /\ numeral 8 t n).
Proof.
  intros [|c t m H1 H2|t m H1|t m H1]; [left; auto|right; left; eauto|right; right; left; exists t; auto|].
  right; right; right; exists t; auto.
Qed.
Lemma numeral_nil b n : ~ numeral b [] n.
Proof. intros H. apply numeral_iff in H. destruct H. congruence. Qed.
Lemma octal_x t n : ~ numeral 8 (120 :: t) n.
Proof. intros H. apply numeral_first in H. destruct H as (v & H & Hv). unfold digit_value in H. lia. Qed.

(** [parse_number] on number tokens *)
Lemma parse_number_iff lim s n : 0 < lim -> s <> [] -> Forall alnum s ->
  (parse_number lim s = IntOk n <-> literal s n /\ n < lim).
Proof.
  intros Hl Hne Ha.
  assert (Hp : forall t r, Forall alnum t -> t <> cPlus :: r).
  { intros t r H ->. inversion H; subst. unfold alnum, letter, digit in *. lia. }
  destruct s as [|c s]; [congruence|]. unfold parse_number.
  assert (Hdec : c <> 48 -> (from_str_radix lim 10 (c :: s) = IntOk n <-> literal (c :: s) n /\ n < lim)).
  { intros Hc. rewrite from_str_radix_iff by (try lia; intros r; apply Hp; exact Ha).
    split; intros [H Hn]; (split; [|exact Hn]); [apply lit_dec; assumption|].
    apply literal_inv in H. destruct H as [[H _]|[(x & t & E & _ & H)|[(t & H & _)|(t & H & _)]]]; try exact H; congruence. }
  destruct s as [|d s].
  - destruct (N.eq_dec c 48) as [->|Hc]; [|apply Hdec; exact Hc].
    rewrite from_str_radix_iff by (try lia; intros r; apply Hp; exact Ha).
    split; intros [H Hn]; (split; [|exact Hn]).
    + assert (n = 0) as ->; [|apply lit_zero]. apply numeral_iff in H. destruct H as [_ H]. inversion H; subst.
      inversion H6; subst. unfold digit_value in *. lia.
    + apply literal_inv in H. destruct H as [[_ ->]|[(x & t & E & Hx & H)|[(t & H & _)|(t & E & H)]]].
      * apply num_one; [unfold digit_value; lia|lia].
      * congruence.
      * discriminate.
      * injection E as <-. exfalso. exact (numeral_nil _ _ H).
  - cbn [starts_with bs skipn]. change (N_of_ascii "0") with 48. change (N_of_ascii "x") with 120.
    destruct (48 =? c) eqn:Ec; cbn [andb].
    2: { apply Hdec. lia. }
    apply N.eqb_eq in Ec. subst c. inversion Ha as [|? ? _ Ha1]; subst. inversion Ha1 as [|? ? _ Ha2]; subst.
    destruct (120 =? d) eqn:Ed; cbn [andb].
    + apply N.eqb_eq in Ed. subst d. rewrite from_str_radix_iff by (try lia; intros r; apply Hp; exact Ha2).
      split; intros [H Hn]; (split; [|exact Hn]).
      * apply (lit_hex s n H).
      * apply literal_inv in H. destruct H as [[H _]|[(x & t & E & Hx & H)|[(t & E & H)|(t & E & H)]]];
          try congruence. injection E as <-. exfalso. exact (octal_x _ _ H).
    + rewrite from_str_radix_iff by (try lia; intros r; apply Hp; exact Ha1).
      split; intros [H Hn]; (split; [|exact Hn]).
      * apply (lit_oct (d :: s) n H).
      * apply literal_inv in H. destruct H as [[H _]|[(x & t & E & Hx & H)|[(t & E & H)|(t & E & H)]]];
          try congruence. injection E; intros; subst; discriminate.
Qed.
Lemma literal_fun s n m : literal s n -> literal s m -> n = m.
Proof.
  intros H H'. apply literal_inv in H, H'.
  destruct H as [[E1 E2]|[(x & t & E1 & Hx & H)|[(t & E1 & H)|(t & E1 & H)]]];
    destruct H' as [[E1' E2']|[(x' & t' & E1' & Hx' & H')|[(t' & E1' & H')|(t' & E1' & H')]]];
    subst; try congruence; try discriminate; try (injection E1' as ->); try (injection E1' as <-);
    try (eapply numeral_fun; eassumption); exfalso;
    first [eapply numeral_nil; eassumption | eapply octal_x; eassumption].
Qed.

(** ** Byte strings *)
Lemma to_lower_digit c v : v < 16 -> (digit_value (to_lower c) v <-> digit_value c v).
Proof. intros Hv. unfold to_lower, is_upper, digit_value. destruct ((65 <=? c) && (c <=? 90)) eqn:E; lia. Qed.
Lemma to_lower_plus c : to_lower c = cPlus <-> c = cPlus.
Proof. unfold to_lower, is_upper. destruct ((65 <=? c) && (c <=? 90)) eqn:E; lia. Qed.
Lemma to_lower_ascii c : c < 128 -> to_lower c < 128.
Proof. unfold to_lower, is_upper. destruct ((65 <=? c) && (c <=? 90)) eqn:E; lia. Qed.

Lemma pair_value c d v : from_str_radix u8_lim 16 [to_lower c; to_lower d] = IntOk v <->
  (exists x y, digit_value c x /\ x < 16 /\ digit_value d y /\ y < 16 /\ v = 16 * x + y)
  \/ (c = cPlus /\ digit_value d v /\ v < 16).
Proof.
  destruct (N.eq_dec c cPlus) as [->|Hc].
  - change (to_lower cPlus) with cPlus. cbn [from_str_radix]. rewrite N.eqb_refl.
    rewrite radix_loop_iff by (unfold u8_lim; lia). split.
    + intros [H _]. right. inversion H; subst. inversion H6; subst. cbn [N.mul N.add]. split; [reflexivity|].
      rewrite <- to_lower_digit by assumption. auto.
    + intros [(x & y & H & _)|(_ & H & Hv)]; [apply digit_value_signs in H; destruct H; congruence|].
      split; [|unfold u8_lim; lia]. econstructor; [apply to_lower_digit; [exact Hv|exact H]|exact Hv|]. constructor.
  - rewrite from_str_radix_iff; [|lia|unfold u8_lim; lia|intros r H; apply Hc, to_lower_plus; congruence].
    rewrite numeral_iff. split.
    + intros [[_ H] _]. left. inversion H; subst. inversion H6; subst. inversion H9; subst.
      exists v0, v1. rewrite to_lower_digit in * by assumption. repeat split; try assumption. lia.
    + intros [(x & y & H1 & H2 & H3 & H4 & ->)|(H & _)]; [|congruence]. split; [|unfold u8_lim; lia].
      split; [discriminate|]. econstructor; [apply to_lower_digit; [exact H2|exact H1]|exact H2|].
      econstructor; [apply to_lower_digit; [exact H4|exact H3]|exact H4|].
      replace (16 * x + y) with ((0 * 16 + x) * 16 + y) by lia. constructor.
Qed.

Lemma decode_pairs_iff (s : list N) b : Forall (fun c => c < 128) s ->
  (Nat.even (length s) = true /\ decode_pairs s = Done (inl b) <-> byte_text s b).
Proof.
  revert b. induction s as [s IH] using len_ind. intros b Ha. destruct s as [|c [|d s]].
  - cbn. split; [intros [_ H]; injection H as <-; constructor|]. intros H. inversion H; subst. auto.
  - cbn. split; [intros [H _]; discriminate|]. intros H. inversion H.
  - cbn [length Nat.even decode_pairs]. inversion Ha as [|? ? Hc Ha1]; subst. inversion Ha1 as [|? ? Hd Ha2]; subst.
    assert (E : from_utf8 [to_lower c; to_lower d] = Done [to_lower c; to_lower d]).
    { apply from_utf8_valid, valid_ascii. repeat constructor; apply to_lower_ascii; assumption. }
    rewrite E. cbn [obind]. split.
    + intros [He H]. destruct (from_str_radix u8_lim 16 [to_lower c; to_lower d]) as [v|e] eqn:Ev; [|discriminate].
      apply pair_value in Ev. destruct (decode_pairs s) as [[b'|e]| |] eqn:Eb; cbn [obind] in H; try discriminate.
      injection H as <-. assert (byte_text s b') by (apply IH; [cbn; lia|exact Ha2|auto]).
      destruct Ev as [(x & y & H1 & H2 & H3 & H4 & ->)|(-> & H1 & H2)]; constructor; assumption.
    + intros H. assert (exists v b', b = v :: b' /\ byte_text s b' /\
        ((exists x y, digit_value c x /\ x < 16 /\ digit_value d y /\ y < 16 /\ v = 16 * x + y)
         \/ (c = cPlus /\ digit_value d v /\ v < 16))) as (v & b' & -> & Hb & Hp).
      { inversion H; subst; eexists _, _; (split; [reflexivity|]); (split; [eassumption|]); [left; eauto 10|right; auto]. }
      apply pair_value in Hp. rewrite Hp. destruct (IH s ltac:(cbn; lia) b' Ha2) as [_ IH']. destruct (IH' Hb) as [He Hd'].
      split; [exact He|]. rewrite Hd'. reflexivity.
Qed.
