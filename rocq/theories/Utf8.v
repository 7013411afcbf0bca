(** UTF-8: cutting a valid text at an ASCII byte *)
From Verif Require Import Base.
From Coq Require Import ZifyBool.

Lemma valid_ascii l : Forall (fun c => c < 128) l -> valid_utf8 l = true.
Proof.
  induction 1 as [|c l Hc _ IH]; [reflexivity|]. cbn [valid_utf8].
  destruct (N.ltb_spec c 128); [exact IH | lia].
Qed.

Ltac no_ascii_cont :=
  unfold utf8_two, utf8_three, utf8_four, is_cont, in_rng in *; lia.

(** strong induction on the length *)
Lemma len_ind (P : list N -> Prop) :
  (forall l, (forall l', (length l' < length l)%nat -> P l') -> P l) -> forall l, P l.
Proof.
  intros H l. assert (G : forall n l', (length l' < n)%nat -> P l').
  { induction n as [|n IH]; intros l' Hl; [lia|]. apply H. intros l2 Hl2. apply IH. lia. }
  apply (G (S (length l))). lia.
Qed.

(** the four ways a valid text starts *)
Lemma valid_inv b l : valid_utf8 (b :: l) = true ->
  (b < 128 /\ valid_utf8 l = true)
  \/ (exists b1 r, 128 <= b /\ l = b1 :: r /\ utf8_two b b1 = true /\ valid_utf8 r = true)
  \/ (exists b1 b2 r, 128 <= b /\ l = b1 :: b2 :: r /\ utf8_two b b1 = false
        /\ utf8_three b b1 b2 = true /\ valid_utf8 r = true)
  \/ (exists b1 b2 b3 r, 128 <= b /\ l = b1 :: b2 :: b3 :: r /\ utf8_two b b1 = false
        /\ utf8_three b b1 b2 = false /\ utf8_four b b1 b2 b3 = true /\ valid_utf8 r = true).
Proof.
  cbn [valid_utf8]. destruct (N.ltb_spec b 128) as [Hb|Hb]; [auto|]. intros H. right.
  destruct l as [|b1 r1]; [discriminate|].
  destruct (utf8_two b b1) eqn:E2; [left; eauto 6|]. right.
  destruct r1 as [|b2 r2]; [discriminate|].
  destruct (utf8_three b b1 b2) eqn:E3; [left; eauto 10|]. right.
  destruct r2 as [|b3 r3]; [discriminate|].
  destruct (utf8_four b b1 b2 b3) eqn:E4; [eauto 12|discriminate].
Qed.

Lemma valid_two b b1 r : 128 <= b -> utf8_two b b1 = true ->
  valid_utf8 (b :: b1 :: r) = valid_utf8 r.
Proof. intros Hb H. cbn [valid_utf8]. destruct (N.ltb_spec b 128); [lia|]. rewrite H. reflexivity. Qed.
Lemma valid_three b b1 b2 r : 128 <= b -> utf8_two b b1 = false -> utf8_three b b1 b2 = true ->
  valid_utf8 (b :: b1 :: b2 :: r) = valid_utf8 r.
Proof.
  intros Hb H2 H3. cbn [valid_utf8]. destruct (N.ltb_spec b 128); [lia|]. rewrite H2, H3. reflexivity.
Qed.
Lemma valid_four b b1 b2 b3 r : 128 <= b -> utf8_two b b1 = false -> utf8_three b b1 b2 = false ->
  utf8_four b b1 b2 b3 = true -> valid_utf8 (b :: b1 :: b2 :: b3 :: r) = valid_utf8 r.
Proof.
  intros Hb H2 H3 H4. cbn [valid_utf8]. destruct (N.ltb_spec b 128); [lia|].
  rewrite H2, H3, H4. reflexivity.
Qed.
Lemma valid_one b r : b < 128 -> valid_utf8 (b :: r) = valid_utf8 r.
Proof. intros Hb. cbn [valid_utf8]. destruct (N.ltb_spec b 128); [reflexivity|lia]. Qed.

(** a valid text prefix can be removed *)
Lemma valid_app (x y : list N) : valid_utf8 x = true -> valid_utf8 (x ++ y) = valid_utf8 y.
Proof.
  revert y. induction x as [x IH] using len_ind. intros y Hx.
  destruct x as [|b l]; [reflexivity|].
  destruct (valid_inv b l Hx) as [[Hb Hl]|[(b1&r&Hb&->&H2&Hr)|[(b1&b2&r&Hb&->&H2&H3&Hr)|(b1&b2&b3&r&Hb&->&H2&H3&H4&Hr)]]];
    cbn [app].
  - rewrite valid_one by exact Hb. apply IH; [cbn; lia | exact Hl].
  - rewrite valid_two by assumption. apply IH; [cbn; lia | exact Hr].
  - rewrite valid_three by assumption. apply IH; [cbn; lia | exact Hr].
  - rewrite valid_four by assumption. apply IH; [cbn; lia | exact Hr].
Qed.

(** a valid text may be cut before and after an ASCII byte *)
Lemma valid_split (x : list N) a y : a < 128 -> valid_utf8 (x ++ a :: y) = true ->
  valid_utf8 x = true /\ valid_utf8 y = true.
Proof.
  revert y. induction x as [x IH] using len_ind. intros y Ha H.
  destruct x as [|b l]; cbn [app] in H.
  - rewrite valid_one in H by exact Ha. auto.
  - destruct (valid_inv _ _ H) as [[Hb Hl]|[(b1&r&Hb&E&H2&Hr)|[(b1&b2&r&Hb&E&H2&H3&Hr)|(b1&b2&b3&r&Hb&E&H2&H3&H4&Hr)]]].
    + destruct (IH l ltac:(cbn; lia) y Ha Hl) as [H1 H2]. rewrite valid_one by exact Hb. auto.
    + destruct l as [|c1 l]; cbn [app] in E; injection E as -> E; [exfalso; no_ascii_cont|].
      subst r. rewrite valid_two by assumption. apply IH; [cbn; lia | exact Ha | exact Hr].
    + destruct l as [|c1 l]; cbn [app] in E; injection E as -> E; [exfalso; no_ascii_cont|].
      destruct l as [|c2 l]; cbn [app] in E; injection E as -> E; [exfalso; no_ascii_cont|].
      subst r. rewrite valid_three by assumption. apply IH; [cbn; lia | exact Ha | exact Hr].
    + destruct l as [|c1 l]; cbn [app] in E; injection E as -> E; [exfalso; no_ascii_cont|].
      destruct l as [|c2 l]; cbn [app] in E; injection E as -> E; [exfalso; no_ascii_cont|].
      destruct l as [|c3 l]; cbn [app] in E; injection E as -> E; [exfalso; no_ascii_cont|].
      subst r. rewrite valid_four by assumption. apply IH; [cbn; lia | exact Ha | exact Hr].
Qed.

(** between two ASCII bytes, or an ASCII byte and the end, a valid text is valid *)
Lemma valid_segment x a s rest : a < 128 -> valid_utf8 (x ++ a :: s ++ rest) = true ->
  (rest = [] \/ exists b r, rest = b :: r /\ b < 128) -> valid_utf8 s = true.
Proof.
  intros Ha H Hr. destruct (valid_split x a (s ++ rest) Ha H) as [_ H2].
  destruct Hr as [->|(b & r & -> & Hb)].
  - rewrite app_nil_r in H2. exact H2.
  - apply (valid_split s b r Hb H2).
Qed.
