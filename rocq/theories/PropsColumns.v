(** Where the carets of a printed diagnostic stand: C43 *)
From Verif Require Import PropsCli PropsUtf16 Utf8 Utf8Adequacy Cli Tests Grammar NameProofs NumProofs LexSpec ReaderProofs PropsProject.

Lemma chars_app a r : valid_utf8 a = true -> chars (a ++ r) = chars a ++ chars r.
Proof.
  intros H. apply utf8_adequate in H. destruct H as (cs & Hc & ->). induction Hc as [|c cs H _ IH]; [reflexivity|].
  unfold encoded in *. cbn [map concat]. rewrite <- app_assoc, (proj2 (encode_decode c _ H)), (proj2 (encode_decode c (concat (map encode_char cs)) H)). cbn [app]. rewrite IH. reflexivity.
Qed.
Lemma encode_long c : c < 1114112 -> (1 <= length (encode_char c))%nat /\ (length (encode_char c) = 1%nat <-> Forall (fun b => b < 128) (encode_char c)).
Proof.
  intros H. destruct (encode_forms c H) as [(H1 & ->)|[(x & y & Hx & Hy & E & B & ->)|[(x & y & z & Hx & Hy & Hz & E & B & ->)|(x & y & z & w & Hx & Hy & Hz & Hw & E & B & ->)]]];
    (split; [cbn [length]; lia|]); (split; [intros L; try discriminate L|intros F; apply Forall_inv in F; cbv beta in F; try lia; reflexivity]).
  constructor; [exact H1|constructor].
Qed.
(** a text has as many characters as bytes exactly if it is ASCII *)
Lemma chars_short s : valid_utf8 s = true -> (length (chars s) <= length s)%nat /\ (length (chars s) = length s <-> Forall (fun c => c < 128) s).
Proof.
  intros Hv. apply utf8_adequate in Hv. destruct Hv as (cs & Hc & ->). rewrite (proj2 (encoded_decode cs Hc)).
  induction Hc as [|c cs H _ [IH1 IH2]]; [split; [reflexivity|split; [constructor|reflexivity]]|].
  unfold encoded in *. cbn [map concat length]. rewrite app_length, Forall_app. assert (H' : c < 1114112) by (unfold scalar in H; lia). destruct (encode_long c H') as [L1 L2].
  split; [lia|]. split; [intros E; split; [apply L2; lia|apply IH2; lia]|]. intros [F1 F2]. apply L2 in F1. apply IH2 in F2. lia.
Qed.
Lemma blank_all cs : concat (map encode_char (map blank_char cs)) = map blank_char cs.
Proof.
  induction cs as [|c cs IH]; [reflexivity|]. cbn [map concat]. rewrite IH. unfold blank_char at 1 3. destruct (is_ws c) eqn:E; [|reflexivity].
  unfold encode_char. destruct (N.ltb_spec c 128) as [|L]; [reflexivity|]. exfalso. revert E. unfold is_ws. rewrite !orb_true_iff, !N.eqb_eq. intros E. repeat destruct E as [E|E]; subst c; revert L; vm_compute; intros L; apply L; reflexivity.
Qed.

(** Every diagnostic on one line: what is printed, and when the carets begin below the character at which the span begins. *)
Theorem C43_column_exact : forall dbg text m d a u,
  text = a ++ u -> valid_utf8 a = true -> valid_utf8 u = true -> span_start (dg_span d) = pos_after a ->
  pos_line (span_end (dg_span d)) = pos_line (span_start (dg_span d)) ->
  pos_char (span_start (dg_span d)) <= pos_char (span_end (dg_span d)) ->
  ~ (exists x y, a = x ++ [cCR] /\ u = cNL :: y) ->
  exists r eol rest num col gutter blanks carets, u = r ++ eol ++ rest /\ line_end r eol rest
    /\ numeral 10 num (pos_line (span_start (dg_span d)) + 1) /\ numeral 10 col (pos_char (span_start (dg_span d)) + 1)
    /\ gutter = repeat cSpace (length num) /\ aligned (firstn (length blanks) (chars (since_nl a ++ r))) blanks
    /\ carets = repeat 94 (N.to_nat (N.max 1 (pos_char (span_end (dg_span d)) - pos_char (span_start (dg_span d)))))
    /\ fmt_diagnostic dbg (lines text) m d = Done (
         show_severity (m (dg_kind d)) ++ bs " --> " ++ dg_source d ++ bs ":" ++ num ++ bs ":" ++ col ++ [cNL]
         ++ gutter ++ bs " |" ++ [cNL]
         ++ num ++ bs " | " ++ since_nl a ++ r ++ [cNL]
         ++ gutter ++ bs " | " ++ blanks ++ carets ++ bs " " ++ dg_msg d)
    /\ (length blanks = length (chars (since_nl a)) <-> Forall (fun c => c < 128) (since_nl a) \/ r = []).
Proof.
  intros dbg text m d a u -> Va Vu Hs Hl Hc Hcr.
  destruct (line_at a u Hcr) as (r & eol & rest & -> & He & Hline). change (count_nl a) with (pos_line (pos_after a)) in Hline. rewrite <- Hs in Hline.
  assert (Vr : valid_utf8 r = true).
  { destruct He as [_ He]. destruct He as [[-> ->]|[[-> _]| ->]]; [rewrite !app_nil_r in Vu; exact Vu|..]; apply (valid_split r _ _) in Vu; try apply Vu; vm_compute; reflexivity. }
  pose proof (since_valid a Va) as Vs.
  exists r, eol, rest, (show_dec (pos_line (span_start (dg_span d)) + 1)), (show_dec (pos_char (span_start (dg_span d)) + 1)).
  eexists _, (map blank_char (firstn (length (since_nl a)) (chars (since_nl a ++ r)))), _.
  split; [reflexivity|]. split; [exact He|]. split; [apply show_dec_numeral|]. split; [apply show_dec_numeral|].
  split; [reflexivity|]. split.
  { rewrite map_length, firstn_length. replace (firstn (Nat.min (length (since_nl a)) (length (chars (since_nl a ++ r)))) (chars (since_nl a ++ r))) with (firstn (length (since_nl a)) (chars (since_nl a ++ r))); [apply aligned_blank|].
    destruct (Nat.min_spec (length (since_nl a)) (length (chars (since_nl a ++ r)))) as [[_ ->]|[L ->]]; [reflexivity|]. rewrite firstn_all. apply firstn_all2. exact L. }
  split; [reflexivity|]. split.
  - unfold fmt_diagnostic. rewrite Hl, N.eqb_refl. cbn [negb]. rewrite andb_false_r. rewrite Hline.
    replace (N.to_nat (pos_char (span_start (dg_span d)))) with (length (since_nl a)) by (rewrite Hs; cbn; lia).
    rewrite firstn_map, blank_all. unfold caret_count, repeat_char. rewrite Nat2N.id. unfold diag_severity.
    destruct (N.eqb_spec (pos_char (span_start (dg_span d))) (pos_char (span_end (dg_span d)))) as [E|E].
    + cbn [obind]. rewrite <- E, N.sub_diag. rewrite <- !app_assoc. reflexivity.
    + destruct (N.leb_spec (pos_char (span_start (dg_span d))) (pos_char (span_end (dg_span d)))); [|lia]. cbn [obind].
      replace (N.max 1 (pos_char (span_end (dg_span d)) - pos_char (span_start (dg_span d))))
        with (pos_char (span_end (dg_span d)) - pos_char (span_start (dg_span d))) by lia.
      rewrite <- !app_assoc. reflexivity.
  - rewrite map_length, firstn_length, (chars_app _ _ Vs), app_length. destruct (chars_short _ Vs) as [L1 L2]. destruct (chars_short _ Vr) as [R1 _]. rewrite <- L2. split.
    + intros E. destruct (Nat.eq_dec (length (chars (since_nl a))) (length (since_nl a))) as [K|K]; [left; exact K|right].
      assert (Z : length (chars r) = 0%nat) by lia. destruct (decode_encode r Vr) as [_ D]. destruct (chars r); [symmetry; exact D|discriminate].
    + intros [E| ->]; [lia|]. cbn [chars length]. lia.
Qed.
Print Assumptions C43_column_exact.
(** at the end of a line the carets are right even behind other characters *)
Definition pre43 : str := bs "/* " ++ [195; 169] ++ bs " */".
Example C43_column_case : valid_utf8 pre43 = true /\ ~ Forall (fun c => c < 128) (since_nl pre43) /\ ~ (exists x y, pre43 = x ++ [cCR] /\ [cNL] = cNL :: y)
  /\ exists out, fmt_diagnostic true (lines (pre43 ++ [cNL])) default_severities (diag_expected (as_span (pos_after pre43)) (bs "/a") [Semicolon])
       = Done (out ++ [cNL] ++ bs "  | " ++ repeat cSpace 7 ++ bs "^ Expected ';'") /\ length (chars pre43) = 7%nat.
Proof.
  split; [vm_compute; reflexivity|]. split; [|split].
  - intros F. assert (H : In 195 (since_nl pre43)) by (vm_compute; auto 10). rewrite Forall_forall in F. specialize (F _ H). revert F. vm_compute. discriminate.
  - intros (x & y & E & _). assert (H : In 13 pre43) by (rewrite E; apply in_or_app; right; left; reflexivity). vm_compute in H. repeat destruct H as [H|H]; try discriminate H. exact H.
  - exists (bs "error --> /a:1:9" ++ [cNL] ++ bs "  |" ++ [cNL] ++ bs "1 | " ++ pre43). split; vm_compute; reflexivity.
Qed.
