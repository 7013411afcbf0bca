(** reader.rs as written, with the data array and an index into it, and its relation to the reader
    of Reader.v, which keeps the unread suffix. *)
From Verif Require Import Reader.

(** reader.rs:41-45 [ByteReader] *)
Record byte_reader := mkBR { br_data : list N; br_char_pos : nat; br_pos : position }.

(** reader.rs:48-58 [consume]; [data.get(i)?] is [nth_error] *)
Definition br_consume (r : byte_reader) : option N * byte_reader :=
  match nth_error (br_data r) (br_char_pos r) with
  | None => (None, r)
  | Some ch =>
    (Some ch,
     mkBR (br_data r) (S (br_char_pos r))
       (if ch =? cNL then mkPos (pos_line (br_pos r) + 1) 0
        else mkPos (pos_line (br_pos r)) (pos_char (br_pos r) + 1)))
  end.
(** reader.rs:60-62 [peek] *)
Definition br_peek (r : byte_reader) : option N := nth_error (br_data r) (br_char_pos r).
(** reader.rs:16-28 [skip_if] *)
Definition br_skip_if (cond : N -> bool) (r : byte_reader) : bool * byte_reader :=
  match br_peek r with
  | None => (false, r)
  | Some ch => if cond ch then (true, snd (br_consume r)) else (false, r)
  end.
(** reader.rs:70-76 [from_string] *)
Definition br_of (text : list N) : byte_reader := mkBR text 0 pos_zero.

(** the reader of Reader.v that an indexed reader stands for *)
Definition br_abs (r : byte_reader) : reader :=
  mkReader (skipn (br_char_pos r) (br_data r)) (br_pos r).

Lemma skipn_nth {A} (l : list A) i :
  skipn i l = match nth_error l i with Some x => x :: skipn (S i) l | None => [] end.
Proof.
  revert i. induction l as [|a l IH]; intros [|i]; cbn; try reflexivity. exact (IH i).
Qed.

Theorem br_of_abs text : br_abs (br_of text) = reader_of text.
Proof. reflexivity. Qed.

Theorem br_peek_abs r : rd_peek (br_abs r) = br_peek r.
Proof.
  unfold rd_peek, br_abs, br_peek. cbn [rd_rest]. rewrite skipn_nth.
  destruct (nth_error (br_data r) (br_char_pos r)); reflexivity.
Qed.

Theorem br_consume_abs r :
  rd_consume (br_abs r) = (fst (br_consume r), br_abs (snd (br_consume r))).
Proof.
  unfold rd_consume, br_abs, br_consume. cbn [rd_rest rd_pos]. rewrite skipn_nth.
  destruct (nth_error (br_data r) (br_char_pos r)) as [c|] eqn:E; cbn [fst snd].
  - reflexivity.
  - cbn. rewrite skipn_nth, E. reflexivity.
Qed.

(** any sequence of reads gives the same bytes and positions *)
Fixpoint br_reads (n : nat) (r : byte_reader) : list (option N * position) :=
  match n with
  | O => []
  | S m => let '(c, r2) := br_consume r in (c, br_pos r2) :: br_reads m r2
  end.
Fixpoint rd_reads (n : nat) (r : reader) : list (option N * position) :=
  match n with
  | O => []
  | S m => let '(c, r2) := rd_consume r in (c, rd_pos r2) :: rd_reads m r2
  end.
Theorem br_reads_abs n r : rd_reads n (br_abs r) = br_reads n r.
Proof.
  revert r. induction n as [|n IH]; intros r; [reflexivity|]. cbn [rd_reads br_reads].
  rewrite br_consume_abs. destruct (br_consume r) as [c r2]. cbn [fst snd]. rewrite IH. reflexivity.
Qed.

Example br_reads_ex :
  br_reads 3 (br_of (bs "a" ++ [cNL])) =
  [(Some 97, mkPos 0 1); (Some 10, mkPos 1 0); (None, mkPos 1 0)].
Proof. reflexivity. Qed.
