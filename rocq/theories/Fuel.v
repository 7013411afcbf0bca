(** The fuel of the parser over tokens *)
From Verif Require Import Parser LexSpec LexerProofs2 LexerProofs3 TokParser ParserSim.

(** ** More fuel changes nothing *)
Definition ext {A} (m m' : TM A) : Prop := forall s, m s = TBad \/ m' s = m s.
Lemma ext_refl {A} (m : TM A) : ext m m.
Proof. intros s. right. reflexivity. Qed.
Lemma ext_bad {A} (m : TM A) : ext t_no_fuel m.
Proof. intros s. left. reflexivity. Qed.
Lemma ext_bind {A B} (m m' : TM A) (k k' : A -> TM B) : ext m m' -> (forall a, ext (k a) (k' a)) -> ext (t_bind m k) (t_bind m' k').
Proof.
  intros H1 H2 s. unfold t_bind. destruct (H1 s) as [E|E]; rewrite E; [left; reflexivity|]. destruct (m s) as [a s1|d s1|]; [apply H2|right; reflexivity|left; reflexivity].
Qed.
Lemma ext_catch {A B} (m m' : TM A) (k k' : A -> TM B) g g' : ext m m' -> (forall a, ext (k a) (k' a)) -> (forall d, ext (g d) (g' d)) ->
  ext (t_catch m k g) (t_catch m' k' g').
Proof.
  intros H1 H2 H3 s. unfold t_catch. destruct (H1 s) as [E|E]; rewrite E; [left; reflexivity|]. destruct (m s) as [a s1|d s1|]; [apply H2|apply H3|left; reflexivity].
Qed.
Ltac ext_tac := repeat first
  [ apply ext_refl | solve [auto with ext] | apply ext_bind; [|intros ?] | apply ext_catch; [|intros ?|intros ?]
  | match goal with |- ext (match ?x with _ => _ end) _ => destruct x end ].
Create HintDb ext.
Section Fuel.
  Context (src : fpath) (incl : list fpath) (rl : position -> list token).
  Lemma ext_expression f : forall f' d, (f <= f')%nat -> ext (t_skip_expression f d) (t_skip_expression f' d).
  Proof. induction f as [|f IH]; intros f' d H; [apply ext_bad|]. destruct f' as [|f']; [lia|]. apply le_S_n in H. cbn [t_skip_expression]. ext_tac. Qed.
  Hint Resolve ext_expression : ext.
  Lemma ext_number f f' : (f <= f')%nat -> ext (t_number_u32 src f) (t_number_u32 src f').
  Proof. intros H. unfold t_number_u32. ext_tac. Qed.
  Hint Resolve ext_number : ext.
  Lemma ext_cells f : forall f' acc, (f <= f')%nat -> ext (t_cells_loop src f acc) (t_cells_loop src f' acc).
  Proof. induction f as [|f IH]; intros f' d H; [apply ext_bad|]. destruct f' as [|f']; [lia|]. apply le_S_n in H. cbn [t_cells_loop]. ext_tac. Qed.
  Lemma ext_bytes f : forall f' acc, (f <= f')%nat -> ext (t_bytes_loop src f acc) (t_bytes_loop src f' acc).
  Proof. induction f as [|f IH]; intros f' d H; [apply ext_bad|]. destruct f' as [|f']; [lia|]. apply le_S_n in H. cbn [t_bytes_loop]. ext_tac. Qed.
  Hint Resolve ext_cells ext_bytes : ext.
  Lemma ext_value f f' : (f <= f')%nat -> ext (t_property_value src f) (t_property_value src f').
  Proof. intros H. unfold t_property_value. ext_tac. Qed.
  Hint Resolve ext_value : ext.
  Lemma ext_values f : forall f' acc, (f <= f')%nat -> ext (t_property_values src f acc) (t_property_values src f' acc).
  Proof. induction f as [|f IH]; intros f' d H; [apply ext_bad|]. destruct f' as [|f']; [lia|]. apply le_S_n in H. cbn [t_property_values]. ext_tac. Qed.
  Hint Resolve ext_values : ext.
  Lemma ext_payload f : forall f' items nd, (f <= f')%nat -> ext (t_payload_loop src rl f items nd) (t_payload_loop src rl f' items nd).
  Proof. induction f as [|f IH]; intros f' items nd H; [apply ext_bad|]. destruct f' as [|f']; [lia|]. apply le_S_n in H. cbn [t_payload_loop]. ext_tac. Qed.
  Hint Resolve ext_payload : ext.
  Lemma ext_node_payload f f' : (f <= f')%nat -> ext (t_node_payload src rl f) (t_node_payload src rl f').
  Proof. intros H. unfold t_node_payload. ext_tac. Qed.
  Hint Resolve ext_node_payload : ext.
  Lemma ext_primary f f' : (f <= f')%nat -> ext (t_p_primary src incl rl f) (t_p_primary src incl rl f').
  Proof. intros H. unfold t_p_primary. ext_tac. Qed.
  Hint Resolve ext_primary : ext.
  Lemma ext_file f : forall f' acc, (f <= f')%nat -> ext (t_file_loop src incl rl f acc) (t_file_loop src incl rl f' acc).
  Proof. induction f as [|f IH]; intros f' acc H; [apply ext_bad|]. destruct f' as [|f']; [lia|]. apply le_S_n in H. cbn [t_file_loop]. ext_tac. Qed.
  Hint Resolve ext_file : ext.
  Lemma more_fuel f f' : (f <= f')%nat -> ext (t_p_file src incl rl f) (t_p_file src incl rl f').
  Proof. intros H. unfold t_p_file. ext_tac. Qed.
End Fuel.

(** ** Any fuel that suffices gives the same *)
Lemma run_any incl text src toks f r : valid_utf8 text = true -> lexed src NameExpected [] text toks ->
  t_p_file src incl (relex text src) f (mkTS toks []) = r -> r <> TBad -> t_parse incl text src toks = r.
Proof.
  intros V Hl E Hr. pose proof (parse_sim incl text src toks V (proj2 (tokenize_iff text src toks V) Hl)) as P.
  assert (Hb : t_parse incl text src toks <> TBad) by (intros K; rewrite K in P; destruct (parse_text incl text src); contradiction). clear P.
  unfold t_parse in *. destruct (Nat.le_ge_cases f (S (S (length text)))) as [L|L].
  - destruct (more_fuel src incl (relex text src) _ _ L (mkTS toks [])) as [K|K]; [congruence|]. rewrite K. exact E.
  - destruct (more_fuel src incl (relex text src) _ _ L (mkTS toks [])) as [K|K]; [contradiction|]. rewrite <- K. exact E.
Qed.
