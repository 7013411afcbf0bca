(** reader.rs: the byte reader. *)
From Verif Require Export Data.

(** reader.rs:41-45 [ByteReader]. [data] and [char_pos] are represented by the unread suffix
    [data[char_pos..]]; ReaderIndexed.v relates this to the indexed representation. *)
Record reader := mkReader { rd_rest : list N; rd_pos : position }.

(** reader.rs:51-56: the position after reading a byte *)
Definition advance (p : position) (c : N) : position :=
  if c =? cNL then mkPos (pos_line p + 1) 0 else mkPos (pos_line p) (pos_char p + 1).

(** reader.rs:48-58 [consume] *)
Definition rd_consume (r : reader) : option N * reader :=
  match rd_rest r with
  | [] => (None, r)
  | c :: rest => (Some c, mkReader rest (advance (rd_pos r) c))
  end.

(** reader.rs:60-62 [peek] *)
Definition rd_peek (r : reader) : option N :=
  match rd_rest r with
  | [] => None
  | c :: _ => Some c
  end.

(** reader.rs:12-14 [skip] *)
Definition rd_skip (r : reader) : reader := snd (rd_consume r).

(** reader.rs:70-76 [from_string] *)
Definition reader_of (text : list N) : reader := mkReader text pos_zero.
