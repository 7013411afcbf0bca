(** Reader: positions are exact *)
From Verif Require Import Reader LexSpec.

Lemma count_nl_app a b : count_nl (a ++ b) = count_nl a + count_nl b.
Proof. unfold count_nl. rewrite count_occ_app. lia. Qed.

Lemma existsb_nl_spec l : existsb (N.eqb cNL) l = true <-> In cNL l.
Proof.
  rewrite existsb_exists. split.
  - intros [x [Hin Hx]]. apply N.eqb_eq in Hx. subst. exact Hin.
  - intros H. exists cNL. split; [exact H | apply N.eqb_refl].
Qed.

Lemma since_nl_none l : ~ In cNL l -> since_nl l = l.
Proof.
  destruct l as [|c r]; [reflexivity|]. intros H. cbn [since_nl].
  destruct (existsb (N.eqb cNL) (c :: r)) eqn:E; [|reflexivity].
  apply existsb_nl_spec in E. contradiction.
Qed.

Lemma since_nl_app_nl a b : since_nl (a ++ cNL :: b) = since_nl b.
Proof.
  induction a as [|c r IH]; cbn [app since_nl].
  - replace (existsb (N.eqb cNL) (cNL :: b)) with true; [reflexivity|].
    symmetry. apply existsb_nl_spec. left. reflexivity.
  - replace (existsb (N.eqb cNL) (c :: r ++ cNL :: b)) with true; [exact IH|].
    symmetry. apply existsb_nl_spec. right. apply in_or_app. right. left. reflexivity.
Qed.

Lemma since_nl_snoc a c : c <> cNL -> since_nl (a ++ [c]) = since_nl a ++ [c].
Proof.
  intros Hc. induction a as [|d r IH]; cbn [app].
  - cbn [since_nl existsb]. rewrite orb_false_r.
    destruct (N.eqb_spec cNL c) as [E|E]; [congruence|reflexivity].
  - cbn [since_nl].
    destruct (existsb (N.eqb cNL) (d :: r)) eqn:E.
    + replace (existsb (N.eqb cNL) (d :: r ++ [c])) with true; [exact IH|].
      symmetry. change (d :: r ++ [c]) with ((d :: r) ++ [c]). rewrite existsb_app, E. reflexivity.
    + replace (existsb (N.eqb cNL) (d :: r ++ [c])) with false; [reflexivity|].
      symmetry. change (d :: r ++ [c]) with ((d :: r) ++ [c]). rewrite existsb_app, E.
      cbn [existsb orb]. rewrite orb_false_r. apply N.eqb_neq. congruence.
Qed.

Lemma pos_after_nil : pos_after [] = pos_zero.
Proof. reflexivity. Qed.

(** advancing over one more byte *)
Lemma pos_after_snoc l c : pos_after (l ++ [c]) = advance (pos_after l) c.
Proof.
  unfold pos_after, advance. destruct (N.eqb_spec c cNL) as [E|E].
  - subst c. rewrite count_nl_app, since_nl_app_nl. cbn. f_equal.
  - cbn [pos_line pos_char]. rewrite count_nl_app, (since_nl_snoc l c E), app_length.
    unfold count_nl at 2. rewrite count_occ_cons_neq by exact E. cbn [count_occ length].
    f_equal; lia.
Qed.

Definition adv (p : position) (l : list N) : position := fold_left advance l p.
Lemma adv_app p a b : adv p (a ++ b) = adv (adv p a) b.
Proof. apply fold_left_app. Qed.
Lemma adv_pos_after pre l : adv (pos_after pre) l = pos_after (pre ++ l).
Proof.
  revert pre. induction l as [|c r IH]; intros pre; cbn [adv fold_left].
  - rewrite app_nil_r. reflexivity.
  - rewrite <- pos_after_snoc. fold (adv (pos_after (pre ++ [c])) r). rewrite IH, <- app_assoc.
    reflexivity.
Qed.

(** Position order *)
Lemma pos_le_refl p : pos_le p p.
Proof. unfold pos_le. lia. Qed.
Lemma pos_le_trans a b c : pos_le a b -> pos_le b c -> pos_le a c.
Proof. unfold pos_le. lia. Qed.
Lemma pos_lt_le a b : pos_lt a b -> pos_le a b.
Proof. unfold pos_lt, pos_le. lia. Qed.
Lemma pos_lt_le_trans a b c : pos_lt a b -> pos_le b c -> pos_lt a c.
Proof. unfold pos_lt, pos_le. lia. Qed.
Lemma pos_le_lt_trans a b c : pos_le a b -> pos_lt b c -> pos_lt a c.
Proof. unfold pos_lt, pos_le. lia. Qed.
Lemma pos_lt_irrefl a : ~ pos_lt a a.
Proof. unfold pos_lt. lia. Qed.
Lemma pos_leb_spec a b : pos_leb a b = true <-> pos_le a b.
Proof.
  unfold pos_leb, pos_le. rewrite orb_true_iff, andb_true_iff, N.ltb_lt, N.eqb_eq, N.leb_le.
  reflexivity.
Qed.
Lemma pos_ltb_spec a b : pos_ltb a b = true <-> pos_lt a b.
Proof.
  unfold pos_ltb, pos_lt. rewrite orb_true_iff, andb_true_iff, N.ltb_lt, N.eqb_eq, N.ltb_lt.
  reflexivity.
Qed.
Lemma advance_lt p c : pos_lt p (advance p c).
Proof.
  unfold pos_lt, advance. destruct (c =? cNL); cbn [pos_line pos_char]; lia.
Qed.
Lemma adv_le p l : pos_le p (adv p l).
Proof.
  revert p. induction l as [|c r IH]; intros p; [apply pos_le_refl|].
  apply (pos_le_trans _ (advance p c)); [apply pos_lt_le, advance_lt | apply IH].
Qed.
Lemma adv_lt p c l : pos_lt p (adv p (c :: l)).
Proof. apply (pos_lt_le_trans _ (advance p c)); [apply advance_lt | apply (adv_le _ l)]. Qed.
Lemma pos_after_le a b : pos_le (pos_after a) (pos_after (a ++ b)).
Proof. rewrite <- adv_pos_after. apply adv_le. Qed.
Lemma pos_after_lt a c b : pos_lt (pos_after a) (pos_after (a ++ c :: b)).
Proof. rewrite <- adv_pos_after. apply adv_lt. Qed.

(** ** C01 *)
(** the bytes delivered by [n] calls of consume, and the reader afterwards *)
Fixpoint consume_n (n : nat) (r : reader) : list (option N) * reader :=
  match n with
  | O => ([], r)
  | S k => let '(x, r1) := rd_consume r in let '(l, r2) := consume_n k r1 in (x :: l, r2)
  end.

Lemma consume_n_spec n text pre rest :
  text = pre ++ rest ->
  let '(bs, r) := consume_n n (mkReader rest (pos_after pre)) in
  bs = map Some (firstn n rest) ++ repeat None (n - length rest)
  /\ rd_rest r = skipn n rest /\ rd_pos r = pos_after (pre ++ firstn n rest).
Proof.
  revert pre rest. induction n as [|n IH]; intros pre rest Ht.
  - cbn. rewrite app_nil_r. auto.
  - destruct rest as [|c rest'].
    + cbn [consume_n rd_consume rd_rest]. specialize (IH pre [] Ht).
      destruct (consume_n n (mkReader [] (pos_after pre))) as [bs r].
      destruct IH as [Hb [Hr Hp]]. rewrite firstn_nil, skipn_nil in *.
      cbn [map app length repeat Nat.sub] in *. rewrite Nat.sub_0_r in Hb.
      split; [|split]; [rewrite Hb; reflexivity | exact Hr | exact Hp].
    + cbn [consume_n rd_consume rd_rest rd_pos]. rewrite <- pos_after_snoc.
      assert (Ht' : text = (pre ++ [c]) ++ rest') by (rewrite <- app_assoc; exact Ht).
      specialize (IH (pre ++ [c]) rest' Ht').
      destruct (consume_n n (mkReader rest' (pos_after (pre ++ [c])))) as [bs r].
      destruct IH as [Hb [Hr Hp]]. cbn [firstn skipn map app length Nat.sub].
      split; [|split]; [rewrite Hb; reflexivity | exact Hr |].
      rewrite Hp, <- app_assoc. reflexivity.
Qed.

Lemma reader_exact text n :
  fst (consume_n n (reader_of text)) = map Some (firstn n text) ++ repeat None (n - length text)
  /\ rd_pos (snd (consume_n n (reader_of text))) = pos_after (firstn n text).
Proof.
  pose proof (consume_n_spec n text [] text eq_refl) as H. rewrite pos_after_nil in H.
  unfold reader_of. destruct (consume_n n (mkReader text pos_zero)) as [bs r].
  destruct H as [Hb [_ Hp]]. split; [exact Hb | exact Hp].
Qed.
