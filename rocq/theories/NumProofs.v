(** Displayed numbers are numerals (Base.v [show_base]) *)
From Verif Require Import Grammar NameProofs.

Lemma digit_char_value b d : 2 <= b <= 16 -> d < b -> digit_value (digit_char d) d.
Proof. intros Hb Hd. unfold digit_char, digit_value. destruct (N.ltb_spec d 10); lia. Qed.

Lemma digits_fuel_spec f : forall b n acc, 2 <= b <= 16 -> n < 2 ^ N.of_nat f -> (0 < f)%nat ->
  exists s, digits_fuel f b n acc = s ++ acc /\ numeral b s n /\ (forall r, s = 48 :: r -> s = [48]).
Proof.
  induction f as [|f IH]; intros b n acc Hb Hn Hf; [lia|]. cbn [digits_fuel].
  assert (Hm : n mod b < b) by (apply N.mod_lt; lia).
  pose proof (digit_char_value b (n mod b) Hb Hm) as Hd.
  assert (Hn2 : n = n / b * b + n mod b).
  { rewrite N.mul_comm. apply N.div_mod. lia. }
  destruct (N.eqb_spec (n / b) 0) as [E|E].
  - exists [digit_char (n mod b)]. split; [reflexivity|]. split.
    + replace n with (n mod b) at 2 by lia. apply num_one; assumption.
    + intros r Hr. injection Hr as -> _. reflexivity.
  - assert (Hf2 : (0 < f)%nat).
    { destruct f; [|lia]. cbn in Hn. exfalso. apply E. apply N.div_small. lia. }
    assert (Hlt : n / b < 2 ^ N.of_nat f).
    { apply N.div_lt_upper_bound; [lia|]. rewrite Nat2N.inj_succ, N.pow_succ_r' in Hn. nia. }
    destruct (IH b (n / b) (digit_char (n mod b) :: acc) Hb Hlt Hf2) as (s & -> & Hs & Hz).
    exists (s ++ [digit_char (n mod b)]). split; [rewrite <- app_assoc; reflexivity|]. split.
    + rewrite Hn2 at 2. apply num_snoc; assumption.
    + intros r Hr. destruct s as [|c s]; [apply numeral_iff in Hs; destruct Hs; congruence|].
      cbn [app] in Hr. injection Hr as -> Hr. specialize (Hz s eq_refl). injection Hz as ->.
      exfalso. apply numeral_iff in Hs. destruct Hs as [_ Hs]. inversion Hs as [|? ? v ? ? Hv Hvb Hs2]; subst.
      inversion Hs2; subst. unfold digit_value in Hv. lia.
Qed.

(** the displayed number is a numeral of the number, without leading zeros *)
Theorem show_base_numeral b n : 2 <= b <= 16 ->
  numeral b (show_base b n) n /\ (forall r, show_base b n = 48 :: r -> show_base b n = [48]).
Proof.
  intros Hb. unfold show_base. destruct (digits_fuel_spec (S (N.to_nat (N.size n))) b n [] Hb) as (s & E & H1 & H2).
  - rewrite Nat2N.inj_succ, N2Nat.id. destruct n as [|p]; [reflexivity|].
    assert (N.pos p < 2 ^ N.size (N.pos p)) by apply N.size_gt. rewrite N.pow_succ_r'. lia.
  - lia.
  - rewrite E, app_nil_r. auto.
Qed.
Lemma show_hex_numeral n : numeral 16 (show_hex n) n.
Proof. apply show_base_numeral. lia. Qed.
Lemma show_dec_numeral n : numeral 10 (show_dec n) n.
Proof. apply show_base_numeral. lia. Qed.
Lemma show_dec_long n r : 10 <= n -> show_dec n <> 48 :: r.
Proof.
  intros Hn E. destruct (show_base_numeral 10 n ltac:(lia)) as [H1 H2]. unfold show_dec in E. specialize (H2 r E). rewrite H2 in H1.
  apply numeral_iff in H1. destruct H1 as [_ H1]. inversion H1 as [|? ? v ? ? Hv Hb H3]; subst. inversion H3; subst. unfold digit_value in Hv. lia.
Qed.
Lemma numeral_zero b s : 1 < b -> numeral b s 0 -> exists r, s = 48 :: r.
Proof.
  intros Hb H. remember 0 as n eqn:E. induction H as [c v Hc Hv|s n c v _ IH Hc Hv].
  - subst v. exists []. f_equal. unfold digit_value in Hc. lia.
  - destruct IH as [r ->]; [nia|]. exists (r ++ [c]). reflexivity.
Qed.
(** decimal numerals without leading zeros *)
Lemma decimal_unique s : forall s' n, numeral 10 s n -> numeral 10 s' n -> (forall r, s <> 48 :: r) -> (forall r, s' <> 48 :: r) -> s = s'.
Proof.
  assert (D : forall c c' v, digit_value c v -> digit_value c' v -> v < 10 -> c = c') by (unfold digit_value; intros; lia).
  intros s' n H. revert s'. induction H as [c v Hc Hv|s n c v H IH Hc Hv]; intros s' H' N1 N2;
    inversion H' as [c' v' Hc' Hv'|t m c' v' Ht Hc' Hv']; subst.
  - f_equal. eapply D; eassumption.
  - exfalso. assert (m = 0) by lia. subst m. apply numeral_zero in Ht; [|lia]. destruct Ht as [r ->]. eapply N2. reflexivity.
  - exfalso. assert (n = 0) by lia. subst n. apply numeral_zero in H; [|lia]. destruct H as [r ->]. eapply N1. reflexivity.
  - assert (m = n) by lia. assert (v' = v) by lia. subst m v'. f_equal; [|f_equal; eapply D; eassumption].
    apply IH; [exact Ht| |]; intros r ->; [eapply N1|eapply N2]; reflexivity.
Qed.
