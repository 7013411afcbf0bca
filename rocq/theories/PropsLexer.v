(** Property theorems C01-C06, C08: reader and lexer *)
From Verif Require Import Reader Lexer LexSpec ReaderProofs Utf8 LexerProofs LexerProofs2 LexerProofs3.

(** C01. [consume_n n r]: the results of [n] calls of consume, and the reader afterwards. *)
Theorem C01_reader_exact : forall text n,
  fst (consume_n n (reader_of text)) = map Some (firstn n text) ++ repeat None (n - length text)
  /\ rd_pos (snd (consume_n n (reader_of text))) = pos_after (firstn n text).
Proof. exact reader_exact. Qed.
Print Assumptions C01_reader_exact.

Example C01_example :
  pos_after (bs "ab" ++ [cNL] ++ bs "cde") = mkPos 1 3
  /\ snd (consume_n 9 (reader_of (bs "ab" ++ [cNL] ++ bs "cde"))) = mkReader [] (mkPos 1 3).
Proof. split; reflexivity. Qed.

(** C02 *)
Theorem C02_lexing_never_panics : forall text src lx,
  valid_utf8 text = true -> lexer_reached text src lx ->
  (exists o lx', lex_consume lx = Done (o, lx')) /\ (exists o lx', lex_next lx = Done (o, lx')).
Proof. exact lexing_never_panics. Qed.
Print Assumptions C02_lexing_never_panics.

Theorem C02_tokenize_total : forall text src,
  valid_utf8 text = true -> exists toks, tokenize text src = Done toks.
Proof. exact tokenize_total. Qed.
Print Assumptions C02_tokenize_total.

(** a text with multi-byte characters outside and inside a comment; the lexer stands in the middle
    of a character after the first token *)
Example C02_example :
  let text := [195; 169] ++ bs "/*" ++ [195; 169] ++ bs "*/ a" in
  valid_utf8 text = true
  /\ option_map (fun x => map tk_kind x)
       (match tokenize text [] with Done l => Some l | _ => None end)
     = Some [Unknown 195; Unknown 169; Ident (bs "a")].
Proof. split; vm_compute; reflexivity. Qed.

(** C03 *)
Theorem C03_tokens_ordered : forall text src toks,
  valid_utf8 text = true -> tokenize text src = Done toks ->
  ordered_from src (pos_after text) pos_zero toks /\ (length toks <= length text)%nat.
Proof. exact tokens_ordered. Qed.
Print Assumptions C03_tokens_ordered.

Theorem C03_end_is_final : forall text src lx lx',
  valid_utf8 text = true -> lexer_reached text src lx -> lex_next lx = Done (None, lx') ->
  forall k, exists l, lex_next (lex_insert_pseudo_kind k lx') = Done (None, l).
Proof. exact next_none_forever. Qed.
Print Assumptions C03_end_is_final.

Example C03_example :
  exists toks, tokenize (bs "/ { a = <1>; };") (bs "f") = Done toks /\ length toks = 10%nat
  /\ tk_span (nth 3 toks (mkToken Slash (mkSpan pos_zero pos_zero) []))
     = mkSpan (mkPos 0 6) (mkPos 0 7).
Proof. eexists. split; [vm_compute; reflexivity|]. split; reflexivity. Qed.

(** C04: the tokens are exactly a decomposition of the text according to LexSpec.v *)
Theorem C04_lossless : forall text src toks,
  valid_utf8 text = true ->
  (tokenize text src = Done toks <-> lexed src NameExpected [] text toks).
Proof. exact tokenize_iff. Qed.
Print Assumptions C04_lossless.

(** ... and the span of a token determines the slice of the text it covers *)
Theorem C04_position_determines_prefix : forall (a b x y : list N),
  a ++ x = b ++ y -> pos_after a = pos_after b -> a = b /\ x = y.
Proof. exact pos_after_prefix_inj. Qed.
Print Assumptions C04_position_determines_prefix.

Example C04_example : exists toks,
  lexed (bs "f") NameExpected [] (bs "/*c*/ l: n@1 // x") toks
  /\ map tk_kind toks = [Label (bs "l"); Ident (bs "n@1")].
Proof.
  eexists. split.
  - apply C04_lossless; [reflexivity|vm_compute; reflexivity].
  - reflexivity.
Qed.

(** C05 *)
Theorem C05_layout_irrelevant : forall src ks t g0,
  gap g0 -> written NameExpected ks t -> valid_utf8 (g0 ++ t) = true ->
  exists toks, tokenize (g0 ++ t) src = Done toks /\ map tk_kind toks = ks.
Proof. exact layout_irrelevant. Qed.
Print Assumptions C05_layout_irrelevant.

Example C05_example :
  written NameExpected [Ident (bs "a"); Slash; Semicolon] (bs "a" ++ bs "/*x*/" ++ bs "/" ++ bs " " ++ bs ";" ++ [cNL]).
Proof.
  assert (Hsp : ws_char cSpace) by (unfold ws_char; cbn [In]; auto).
  apply (wr_cons _ _ _ (bs "a") (bs "/*x*/")).
  - apply (sp_name _ 97 []).
    + left. unfold letter. lia.
    + repeat constructor; lia.
    + intros x r E. injection E as <- _. unfold name_char, letter, digit. cbn [In]. lia.
  - apply (gap_block (bs "x") []); [|constructor]. intros x y E.
    destruct x as [|a [|b x]]; discriminate.
  - discriminate.
  - discriminate.
  - apply (wr_cons _ _ _ (bs "/") (bs " ")).
    + apply sp_slash. intros x r E. injection E as <- _. unfold letter. lia.
    + apply (gap_ws 32 []); [exact Hsp|constructor].
    + discriminate.
    + intros _. exists 32, []. auto.
    + apply (wr_cons _ _ _ [cSemi] [cNL] []).
      * apply sp_punct; [intros [H|[H|[_ H]]]; revert H; unfold letter; cbn [In]; lia|cbn [punctuation In]; auto].
      * apply (gap_ws 10 []); [unfold ws_char; cbn [In]; auto|constructor].
      * discriminate.
      * discriminate.
      * constructor.
Qed.

(** C06: the full statement, for every valid text [s],
      tokenize (quoted s) src = Done [mkToken (TString s) (...) src]
    is false: the bytes of a non-ASCII character are decoded as Latin-1 characters. *)
Theorem C06_strings_refuted : exists s toks,
  valid_utf8 s = true /\ tokenize (quoted s) [] = Done toks /\ map tk_kind toks <> [TString s].
Proof. exists [195; 169]. eexists. split; [reflexivity|]. split; [vm_compute; reflexivity|]. discriminate. Qed.
Print Assumptions C06_strings_refuted.

(** What holds: the value is the Latin-1 reading of the bytes, so the text itself exactly for ASCII. *)
Theorem C06_strings_partial : forall src s,
  valid_utf8 s = true ->
  exists v, tokenize (quoted s) src = Done [mkToken (TString v) (mkSpan pos_zero (pos_after (quoted s))) src]
  /\ (v = s <-> Forall (fun c => c < 128) s).
Proof.
  exact (fun src s H => ex_intro _ _ (conj (string_value src s H) (flat_map_encode_id s))).
Qed.
Print Assumptions C06_strings_partial.

Example C06_example : quoted (bs "a\b") = [34; 97; 92; 92; 98; 34] /\ Forall (fun c => c < 128) (bs "a\b").
Proof. split; [reflexivity|]. repeat constructor. Qed.

(** C08 *)
Theorem C08_peek_transparent : forall text src ops,
  valid_utf8 text = true ->
  exists l res, pl_run ops (pl_of (lexer_new (reader_of text) src)) = Done l
    /\ nexts (S (count_next ops)) (lexer_new (reader_of text) src) = Done res
    /\ map snd (filter is_next l) = firstn (count_next ops) res
    /\ peeks_agree l res.
Proof. exact peek_transparent. Qed.
Print Assumptions C08_peek_transparent.

Example C08_example :
  match pl_run [OpPeek; OpPeek; OpNext; OpPeek; OpNext] (pl_of (lexer_new (reader_of (bs "a;")) [])) with
  | Done l => map (fun x => option_map tk_kind (snd x)) l
  | _ => []
  end = [Some (Ident (bs "a")); Some (Ident (bs "a")); Some (Ident (bs "a")); Some Semicolon; Some Semicolon].
Proof. vm_compute. reflexivity. Qed.
