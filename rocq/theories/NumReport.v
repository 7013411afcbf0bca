(** What is said about numbers and byte strings that cannot be read *)
From Verif Require Import Parser Grammar NameProofs.

(** ** Specification: digits in base [b] for a type with the values below [lim], read from the left *)
Inductive complaint (lim b : N) (d : str) : str -> Prop :=
| co_empty : d = [] -> complaint lim b d (bs "cannot parse integer from empty string")
| co_digit p c r : d = p ++ c :: r -> (p <> [] -> exists n, numeral b p n /\ n < lim) -> (forall v, digit_value c v -> b <= v) ->
    complaint lim b d (bs "invalid digit found in string")
| co_large p r n : d = p ++ r -> numeral b p n -> lim <= n -> complaint lim b d (bs "number too large to fit in target type").
Inductive number_complaint (lim : N) : str -> str -> Prop :=
| nc_hex d m : complaint lim 16 d m -> number_complaint lim (bs "0x" ++ d) m
| nc_oct c d m : c <> 120 -> complaint lim 8 (c :: d) m -> number_complaint lim (48 :: c :: d) m
| nc_dec c d m : c <> 48 -> complaint lim 10 (c :: d) m -> number_complaint lim (c :: d) m.

(** ** Proofs *)
Lemma loop_digit lim b p : forall acc m c r, 2 <= b <= 36 -> more_digits b acc p m -> m < lim -> (forall v, digit_value c v -> b <= v) ->
  radix_loop lim b acc (p ++ c :: r) = IntErr IntInvalidDigit.
Proof.
  induction p as [|x p IH]; intros acc m c r Hb H Hm Hc; inversion H as [|? ? v ? ? Hx Hv H']; subst; cbn [app radix_loop].
  - destruct (to_digit b c) as [v|] eqn:E; [|reflexivity]. apply to_digit_spec in E; [|lia]. destruct E as [E1 E2]. apply Hc in E1. lia.
  - rewrite (proj2 (to_digit_spec b x v ltac:(lia)) (conj Hx Hv)). assert (acc * b + v <= m) by (eapply more_digits_ge; [|exact H']; lia).
    destruct (N.leb_spec lim (acc * b)); [lia|]. destruct (N.leb_spec lim (acc * b + v)); [lia|]. eapply IH; eassumption.
Qed.
Lemma loop_large lim b p : forall acc m r, 2 <= b <= 36 -> acc < lim -> more_digits b acc p m -> lim <= m ->
  radix_loop lim b acc (p ++ r) = IntErr IntPosOverflow.
Proof.
  induction p as [|x p IH]; intros acc m r Hb Ha H Hm; inversion H as [|? ? v ? ? Hx Hv H']; subst; cbn [app radix_loop]; [lia|].
  rewrite (proj2 (to_digit_spec b x v ltac:(lia)) (conj Hx Hv)).
  destruct (N.leb_spec lim (acc * b)); [reflexivity|]. destruct (N.leb_spec lim (acc * b + v)); [reflexivity|]. eapply IH; eassumption.
Qed.
Lemma loop_err lim b s : forall acc e, 2 <= b <= 36 -> acc < lim -> radix_loop lim b acc s = IntErr e ->
  (e = IntInvalidDigit /\ exists p c r m, s = p ++ c :: r /\ more_digits b acc p m /\ m < lim /\ forall v, digit_value c v -> b <= v)
  \/ (e = IntPosOverflow /\ exists p r m, p <> [] /\ s = p ++ r /\ more_digits b acc p m /\ lim <= m).
Proof.
  induction s as [|x s IH]; intros acc e Hb Ha E; cbn [radix_loop] in E; [discriminate|].
  destruct (to_digit b x) as [v|] eqn:Ex.
  - apply to_digit_spec in Ex; [|lia]. destruct Ex as [Hx Hv].
    assert (L : lim <= acc * b + v -> IntErr IntPosOverflow = IntErr e -> (e = IntPosOverflow /\ exists p r m, p <> [] /\ x :: s = p ++ r /\ more_digits b acc p m /\ lim <= m)).
    { intros Hl Ee. injection Ee as <-. split; [reflexivity|]. exists [x], s, (acc * b + v). split; [discriminate|]. split; [reflexivity|].
      split; [econstructor; [exact Hx|exact Hv|constructor]|exact Hl]. }
    destruct (N.leb_spec lim (acc * b)); [right; apply L; [lia|exact E]|]. destruct (N.leb_spec lim (acc * b + v)) as [Hl|Hl]; [right; apply L; [exact Hl|exact E]|].
    destruct (IH _ _ Hb Hl E) as [(-> & p & c & r & m & -> & H1 & H2 & H3)|(-> & p & r & m & _ & -> & H1 & H2)]; [left|right]; (split; [reflexivity|]).
    + exists (x :: p), c, r, m. split; [reflexivity|]. split; [econstructor; eassumption|]. split; assumption.
    + exists (x :: p), r, m. split; [discriminate|]. split; [reflexivity|]. split; [econstructor; eassumption|exact H2].
  - left. injection E as <-. split; [reflexivity|]. exists [], x, s, acc. split; [reflexivity|]. split; [constructor|]. split; [exact Ha|].
    intros v Hv. destruct (N.lt_ge_cases v b) as [C|C]; [|exact C]. rewrite (proj2 (to_digit_spec b x v ltac:(lia)) (conj Hv C)) in Ex. discriminate Ex.
Qed.
Lemma radix_err lim b d m : 2 <= b <= 36 -> 0 < lim -> Forall alnum d ->
  ((exists e, from_str_radix lim b d = IntErr e /\ int_error_msg e = m) <-> complaint lim b d m).
Proof.
  intros Hb Hl Ha.
  assert (E0 : d <> [] -> from_str_radix lim b d = radix_loop lim b 0 d).
  { intros Hn. destruct d as [|c d]; [congruence|]. inversion Ha as [|? ? Hc _]; subst. cbn [from_str_radix].
    assert (c =? cPlus = false) as -> by (apply N.eqb_neq; unfold alnum, letter, digit in Hc; lia).
    assert (c =? cMinus = false) as -> by (apply N.eqb_neq; unfold alnum, letter, digit in Hc; lia). destruct d; reflexivity. }
  split.
  - intros (e & E & <-). destruct d as [|c d]; [injection E as <-; apply co_empty; reflexivity|]. rewrite E0 in E by discriminate.
    destruct (loop_err _ _ _ _ _ Hb Hl E) as [(-> & p & x & r & k & Ed & H1 & H2 & H3)|(-> & p & r & k & Hp & Ed & H1 & H2)].
    + eapply co_digit; [exact Ed| |exact H3]. intros Hp. exists k. split; [apply numeral_iff; auto|exact H2].
    + eapply co_large; [exact Ed|apply numeral_iff; split; [exact Hp|exact H1]|exact H2].
  - intros [->|p c r E Hp Hc|p r n E Hn H].
    + exists IntEmpty. split; reflexivity.
    + exists IntInvalidDigit. split; [|reflexivity]. rewrite E0 by (rewrite E; destruct p; discriminate). rewrite E.
      destruct p as [|x p].
      * eapply loop_digit; [exact Hb|constructor|exact Hl|exact Hc].
      * destruct Hp as (n & Hn & Hlt); [discriminate|]. apply numeral_iff in Hn. eapply loop_digit; [exact Hb|apply Hn|exact Hlt|exact Hc].
    + exists IntPosOverflow. split; [|reflexivity]. apply numeral_iff in Hn. destruct Hn as [Hn1 Hn2].
      rewrite E0 by (rewrite E; destruct p; [congruence|discriminate]). rewrite E. eapply loop_large; eassumption.
Qed.
(** [parse_number] on number tokens *)
Lemma number_err_iff lim s m : 0 < lim -> s <> [] -> Forall alnum s ->
  ((exists e, parse_number lim s = IntErr e /\ int_error_msg e = m) <-> number_complaint lim s m).
Proof.
  intros Hl Hne Ha. destruct s as [|c s]; [congruence|].
  assert (D : c <> 48 -> ((exists e, from_str_radix lim 10 (c :: s) = IntErr e /\ int_error_msg e = m) <-> number_complaint lim (c :: s) m)).
  { intros Hc. rewrite radix_err by (lia || assumption). split; [apply nc_dec; exact Hc|]. intros H. inversion H; subst; congruence. }
  unfold parse_number. destruct s as [|d s].
  - destruct (N.eq_dec c 48) as [->|Hc]; [|apply D; exact Hc]. split.
    + intros (e & E & _). cbn in E. destruct (N.leb_spec lim 0) in E; [lia|discriminate].
    + intros H. inversion H; subst; congruence.
  - cbn [starts_with bs skipn]. change (N_of_ascii "0") with 48. change (N_of_ascii "x") with 120.
    destruct (N.eqb_spec 48 c) as [<-|Hc]; cbn [andb]; [|apply D; congruence].
    inversion Ha as [|? ? _ Ha1]; subst. inversion Ha1 as [|? ? _ Ha2]; subst. clear D.
    destruct (N.eqb_spec 120 d) as [<-|Hd]; cbn [andb].
    + rewrite radix_err by (lia || assumption). split; [apply (nc_hex lim s m)|]. intros H. inversion H as [d' m' H1|c' d' m' H1 H2|c' d' m' H1 H2]; subst; [assumption|congruence|congruence].
    + rewrite radix_err by (lia || assumption). split; [apply nc_oct; congruence|]. intros H. inversion H as [d' m' H1|c' d' m' H1 H2|c' d' m' H1 H2]; subst; [congruence|assumption|congruence].
Qed.
(** pairs of digits are never too large *)
Lemma pair_err x y e : from_str_radix u8_lim 16 [x; y] = IntErr e -> e = IntInvalidDigit.
Proof.
  assert (L : forall s acc, (length s <= 2)%nat -> (length s = 2%nat -> acc = 0) -> acc < 16 -> radix_loop u8_lim 16 acc s = IntErr e -> e = IntInvalidDigit).
  { induction s as [|c s IH]; intros acc H1 H2 H3 E; cbn [radix_loop] in E; [discriminate|].
    destruct (to_digit 16 c) as [v|] eqn:Ec; [|injection E as <-; reflexivity]. apply to_digit_spec in Ec; [|lia]. destruct Ec as [_ Ec].
    unfold u8_lim in *. destruct (N.leb_spec 256 (acc * 16)); [lia|]. destruct (N.leb_spec 256 (acc * 16 + v)); [lia|].
    destruct s as [|c' s]; [discriminate E|]. cbn [length] in *. apply (IH (acc * 16 + v)); [lia|lia| |exact E]. rewrite H2 by lia. lia. }
  cbn [from_str_radix]. intros E. destruct (x =? cPlus); eapply L in E; try exact E; cbn [length]; lia.
Qed.
Lemma decode_err s e : decode_pairs s = Done (inr e) -> e = IntInvalidDigit.
Proof.
  assert (G : forall n s, (length s <= n)%nat -> decode_pairs s = Done (inr e) -> e = IntInvalidDigit).
  { clear s. induction n as [|n IH]; intros [|a [|b r]] Hn E; cbn [length] in Hn; try lia; try discriminate E.
    cbn [decode_pairs] in E. unfold from_utf8 in E. destruct (valid_utf8 [to_lower a; to_lower b]); [|discriminate E]. cbn [obind] in E.
    destruct (from_str_radix u8_lim 16 [to_lower a; to_lower b]) as [v|e'] eqn:Er.
    - destruct (decode_pairs r) as [[l|e']| |] eqn:Ed; try discriminate E. cbn [obind] in E. injection E as ->. eapply IH; [|exact Ed]. lia.
    - injection E as ->. eapply pair_err; exact Er. }
  apply (G (length s)). lia.
Qed.
