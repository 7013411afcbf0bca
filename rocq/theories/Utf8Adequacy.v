(** The check of the model for UTF-8, its decoder and its encoder agree with each other: the valid texts are exactly the
    encodings of sequences of Unicode scalar values, and each text encodes one sequence. Every theorem of this development
    about "a valid text" is therefore about all sequences of scalar values, as a Rust [str] can hold. *)
From Verif Require Import Base Utf8.
From Coq Require Import ZifyBool.

(** Unicode scalar values: all code points but the surrogates (Rust: char) *)
Definition scalar (c : N) : Prop := c < 55296 \/ 57344 <= c < 1114112.
Definition encoded (cs : list N) : str := concat (map encode_char cs).

Ltac dm a b q m := let H := fresh in pose proof (N.div_mod a b ltac:(discriminate)) as H; pose proof (N.mod_lt a b ltac:(discriminate)); set (q := a / b) in *; set (m := a mod b) in *; clearbody q m.
Lemma div_twice a b : b <> 0 -> a / 64 / b = a / (64 * b).
Proof. intros H. apply N.div_div; lia. Qed.
(** the four forms of an encoding *)
Lemma encode_forms c : c < 1114112 ->
  (c < 128 /\ encode_char c = [c])
  \/ (exists x y, x < 32 /\ y < 64 /\ c = x * 64 + y /\ 128 <= c < 2048 /\ encode_char c = [192 + x; 128 + y])
  \/ (exists x y z, x < 16 /\ y < 64 /\ z < 64 /\ c = x * 4096 + y * 64 + z /\ 2048 <= c < 65536 /\ encode_char c = [224 + x; 128 + y; 128 + z])
  \/ (exists x y z w, x < 8 /\ y < 64 /\ z < 64 /\ w < 64 /\ c = x * 262144 + y * 4096 + z * 64 + w /\ 65536 <= c
        /\ encode_char c = [240 + x; 128 + y; 128 + z; 128 + w]).
Proof.
  intros H. unfold encode_char.
  destruct (N.ltb_spec c 128); [left; auto|right].
  destruct (N.ltb_spec c 2048); [left|right].
  { exists (c / 64), (c mod 64). dm c 64 q m. repeat split; try reflexivity; lia. }
  replace (c / 4096) with (c / 64 / 64) by (apply (div_twice c 64); lia).
  destruct (N.ltb_spec c 65536); [left|right].
  { exists (c / 64 / 64), ((c / 64) mod 64), (c mod 64). dm c 64 q m. dm q 64 q' m'. repeat split; try reflexivity; lia. }
  replace (c / 262144) with (c / 64 / 64 / 64) by (rewrite (N.div_div (c / 64)) by lia; apply (div_twice c 4096); lia).
  exists (c / 64 / 64 / 64), ((c / 64 / 64) mod 64), ((c / 64) mod 64), (c mod 64). dm c 64 q m. dm q 64 q' m'. dm q' 64 q'' m''. repeat split; try reflexivity; lia.
Qed.

(** an encoded character is valid and is decoded to itself *)
Lemma encode_decode c r : scalar c -> valid_utf8 (encode_char c ++ r) = valid_utf8 r /\ chars (encode_char c ++ r) = c :: chars r.
Proof.
  intros H. unfold scalar in H. destruct (encode_forms c) as [(H1 & ->)|[(x & y & Hx & Hy & E & B & ->)|[(x & y & z & Hx & Hy & Hz & E & B & ->)|(x & y & z & w & Hx & Hy & Hz & Hw & E & B & ->)]]]; [lia| | | |]; cbn [app].
  - rewrite valid_one by lia. split; [reflexivity|]. cbn [chars]. destruct (N.ltb_spec c 128); [reflexivity|lia].
  - assert (T : utf8_two (192 + x) (128 + y) = true) by (unfold utf8_two, is_cont, in_rng; lia).
    rewrite valid_two by (assumption || lia). split; [reflexivity|]. cbn [chars]. destruct (N.ltb_spec (192 + x) 128); [lia|]. rewrite T. f_equal. lia.
  - assert (T : utf8_two (224 + x) (128 + y) = false) by (unfold utf8_two, is_cont, in_rng; lia).
    assert (U : utf8_three (224 + x) (128 + y) (128 + z) = true) by (unfold utf8_three, is_cont, in_rng; lia).
    rewrite valid_three by (assumption || lia). split; [reflexivity|]. cbn [chars]. destruct (N.ltb_spec (224 + x) 128); [lia|]. rewrite T, U. f_equal. lia.
  - assert (T : utf8_two (240 + x) (128 + y) = false) by (unfold utf8_two, is_cont, in_rng; lia).
    assert (U : utf8_three (240 + x) (128 + y) (128 + z) = false) by (unfold utf8_three, is_cont, in_rng; lia).
    assert (V : utf8_four (240 + x) (128 + y) (128 + z) (128 + w) = true) by (unfold utf8_four, is_cont, in_rng; lia).
    rewrite valid_four by (assumption || lia). split; [reflexivity|]. cbn [chars]. destruct (N.ltb_spec (240 + x) 128); [lia|]. rewrite T, U, V. f_equal. lia.
Qed.
Lemma enc2 x y : x < 32 -> y < 64 -> 2 <= x -> encode_char (x * 64 + y) = [192 + x; 128 + y].
Proof.
  intros A1 A2 A3. destruct (encode_forms (x * 64 + y)) as [(H1 & E)|[(x' & y' & Hx & Hy & E & B & ->)|[(x' & y' & z & Hx & Hy & Hz & E & B & _)|(x' & y' & z & w & Hx & Hy & Hz & Hw & E & B & _)]]]; try lia.
  assert (x = x' /\ y = y') as [-> ->] by lia. reflexivity.
Qed.
Lemma enc3 x y z : x < 16 -> y < 64 -> z < 64 -> 2048 <= x * 4096 + y * 64 + z -> encode_char (x * 4096 + y * 64 + z) = [224 + x; 128 + y; 128 + z].
Proof.
  intros. destruct (encode_forms (x * 4096 + y * 64 + z)) as [(H3 & E)|[(x' & y' & Hx & Hy & E & B & _)|[(x' & y' & z' & Hx & Hy & Hz & E & B & ->)|(x' & y' & z' & w & Hx & Hy & Hz & Hw & E & B & _)]]]; try lia.
  assert (x = x' /\ y = y' /\ z = z') as (-> & -> & ->) by lia. reflexivity.
Qed.
Lemma enc4 x y z w : x < 5 -> y < 64 -> z < 64 -> w < 64 -> 65536 <= x * 262144 + y * 4096 + z * 64 + w < 1114112 ->
  encode_char (x * 262144 + y * 4096 + z * 64 + w) = [240 + x; 128 + y; 128 + z; 128 + w].
Proof.
  intros. destruct (encode_forms (x * 262144 + y * 4096 + z * 64 + w)) as [(H4 & E)|[(x' & y' & Hx & Hy & E & B & _)|[(x' & y' & z' & Hx & Hy & Hz & E & B & _)|(x' & y' & z' & w' & Hx & Hy & Hz & Hw & E & B & ->)]]]; try lia.
  assert (x = x' /\ y = y' /\ z = z' /\ w = w') as (-> & -> & -> & ->) by lia. reflexivity.
Qed.
(** a valid text is the encoding of its characters *)
Lemma decode_encode b : valid_utf8 b = true -> Forall scalar (chars b) /\ encoded (chars b) = b.
Proof.
  induction b as [b IH] using len_ind. destruct b as [|b0 l]; intros H; [split; [constructor|reflexivity]|].
  destruct (valid_inv _ _ H) as [(H1 & V)|[(b1 & r & H1 & -> & T & V)|[(b1 & b2 & r & H1 & -> & T & U & V)|(b1 & b2 & b3 & r & H1 & -> & T & U & W & V)]]];
    (match type of V with valid_utf8 ?x = true => destruct (IH x ltac:(cbn; lia) V) as [S E] end); cbn [chars]; (destruct (N.ltb_spec b0 128); [try lia|try lia]); rewrite ?T, ?U, ?W; unfold encoded in *; cbn [map concat]; rewrite E.
  - split; [constructor; [unfold scalar; lia|exact S]|]. unfold encode_char. destruct (N.ltb_spec b0 128); [reflexivity|lia].
  - unfold utf8_two, is_cont, in_rng in T. split; [constructor; [unfold scalar; lia|exact S]|]. rewrite enc2 by lia. cbn [app]. repeat f_equal; lia.
  - unfold utf8_three, is_cont, in_rng in U. split; [constructor; [unfold scalar; lia|exact S]|]. rewrite enc3 by lia. cbn [app]. repeat f_equal; lia.
  - unfold utf8_four, is_cont, in_rng in W. split; [constructor; [unfold scalar; lia|exact S]|]. rewrite enc4 by lia. cbn [app]. repeat f_equal; lia.
Qed.
Lemma encoded_decode cs : Forall scalar cs -> valid_utf8 (encoded cs) = true /\ chars (encoded cs) = cs.
Proof.
  induction 1 as [|c cs Hc _ [IH1 IH2]]; [split; reflexivity|]. unfold encoded in *. cbn [map concat].
  destruct (encode_decode c (concat (map encode_char cs)) Hc) as [-> ->]. rewrite IH2. auto.
Qed.

Theorem utf8_adequate : forall b, valid_utf8 b = true <-> exists cs, Forall scalar cs /\ b = encoded cs.
Proof.
  intros b. split.
  - intros H. destruct (decode_encode b H) as [S E]. exists (chars b). auto.
  - intros (cs & S & ->). apply encoded_decode, S.
Qed.
Print Assumptions utf8_adequate.
Theorem utf8_unique : forall cs cs', Forall scalar cs -> Forall scalar cs' -> encoded cs = encoded cs' -> cs = cs'.
Proof.
  intros cs cs' H H' E. rewrite <- (proj2 (encoded_decode cs H)), E. apply encoded_decode, H'.
Qed.
Print Assumptions utf8_unique.
(** four characters of one to four bytes *)
Example utf8_case : Forall scalar [97; 233; 8364; 128512] /\ encoded [97; 233; 8364; 128512] = [97; 195; 169; 226; 130; 172; 240; 159; 152; 128]
  /\ ~ (exists cs, Forall scalar cs /\ [237; 160; 128] = encoded cs).
Proof.
  split; [repeat constructor; unfold scalar; lia|]. split; [reflexivity|]. rewrite <- utf8_adequate. discriminate.
Qed.
