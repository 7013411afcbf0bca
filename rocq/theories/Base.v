(** Bytes, Rust strings, UTF-8 and other parts of the Rust standard library the code uses.
    Bytes are [N]; a Rust [String]/[&str] is the list of its UTF-8 bytes. *)
From Coq Require Export PeanoNat NArith Ascii String Bool List Lia.
Export ListNotations.
Open Scope N_scope.
Open Scope list_scope.

(** Outcome of a Rust computation that may panic. [NoFuel] is the artefact of running a loop on
    explicit fuel; it is proved unreachable (see LexerProofs, ParserProofs). *)
Inductive outcome (A : Type) : Type :=
| Done (a : A)
| Panic
| NoFuel.
Arguments Done {A} a.
Arguments Panic {A}.
Arguments NoFuel {A}.

Definition obind {A B} (o : outcome A) (f : A -> outcome B) : outcome B :=
  match o with
  | Done a => f a
  | Panic => Panic
  | NoFuel => NoFuel
  end.

(** Rust strings as byte lists. *)
Definition str := list N.

Definition str_eq_dec : forall a b : str, {a = b} + {a <> b} := list_eq_dec N.eq_dec.
Definition str_eqb (a b : str) : bool := if str_eq_dec a b then true else false.

(** Literals: [bs "text"] is the byte list of an ASCII Coq string literal. *)
Fixpoint bs (s : string) : str :=
  match s with
  | EmptyString => []
  | String c r => N_of_ascii c :: bs r
  end.
Arguments bs s%string.

(** Byte constants, as numerals. *)
Notation cTab := 9 (only parsing).
Notation cNL := 10 (only parsing).
Notation cFF := 12 (only parsing).
Notation cCR := 13 (only parsing).
Notation cSpace := 32 (only parsing).
Notation cQuote := 34 (only parsing).
Notation cHash := 35 (only parsing).
Notation cAmp := 38 (only parsing).
Notation cLPar := 40 (only parsing).
Notation cRPar := 41 (only parsing).
Notation cStar := 42 (only parsing).
Notation cPlus := 43 (only parsing).
Notation cComma := 44 (only parsing).
Notation cMinus := 45 (only parsing).
Notation cDot := 46 (only parsing).
Notation cSlash := 47 (only parsing).
Notation cColon := 58 (only parsing).
Notation cSemi := 59 (only parsing).
Notation cLt := 60 (only parsing).
Notation cEq := 61 (only parsing).
Notation cGt := 62 (only parsing).
Notation cQuest := 63 (only parsing).
Notation cAt := 64 (only parsing).
Notation cLBracket := 91 (only parsing).
Notation cBackslash := 92 (only parsing).
Notation cRBracket := 93 (only parsing).
Notation cUnder := 95 (only parsing).
Notation cLBrace := 123 (only parsing).
Notation cRBrace := 125 (only parsing).

(** Character classes; [b'a'..=b'z'] etc. *)
Definition is_lower (c : N) : bool := (97 <=? c) && (c <=? 122).
Definition is_upper (c : N) : bool := (65 <=? c) && (c <=? 90).
Definition is_digit (c : N) : bool := (48 <=? c) && (c <=? 57).
Definition is_alpha (c : N) : bool := is_lower c || is_upper c.
(** u8::is_ascii_alphanumeric *)
Definition is_alnum (c : N) : bool := is_digit c || is_alpha c.
(** u8::is_ascii_whitespace (Rust std: space, tab, LF, FF, CR) *)
Definition is_ws (c : N) : bool :=
  (c =? cSpace) || (c =? cTab) || (c =? cNL) || (c =? cFF) || (c =? cCR).
(** u8::to_ascii_lowercase *)
Definition to_lower (c : N) : N := if is_upper c then c + 32 else c.

(** ** UTF-8 (Rust std: core::str::from_utf8, RFC 3629) *)
Definition in_rng (lo hi c : N) : bool := (lo <=? c) && (c <=? hi).
(** continuation byte *)
Definition is_cont (c : N) : bool := in_rng 128 191 c.
Definition utf8_two (b0 b1 : N) : bool := in_rng 194 223 b0 && is_cont b1.
Definition utf8_three (b0 b1 b2 : N) : bool :=
  ( ((b0 =? 224) && in_rng 160 191 b1)
  || (in_rng 225 236 b0 && is_cont b1)
  || ((b0 =? 237) && in_rng 128 159 b1)
  || (in_rng 238 239 b0 && is_cont b1)) && is_cont b2.
Definition utf8_four (b0 b1 b2 b3 : N) : bool :=
  ( ((b0 =? 240) && in_rng 144 191 b1)
  || (in_rng 241 243 b0 && is_cont b1)
  || ((b0 =? 244) && in_rng 128 143 b1)) && is_cont b2 && is_cont b3.

Fixpoint valid_utf8 (l : str) : bool :=
  match l with
  | [] => true
  | b0 :: r0 =>
    if b0 <? 128 then valid_utf8 r0 else
    match r0 with
    | [] => false
    | b1 :: r1 =>
      if utf8_two b0 b1 then valid_utf8 r1 else
      match r1 with
      | [] => false
      | b2 :: r2 =>
        if utf8_three b0 b1 b2 then valid_utf8 r2 else
        match r2 with
        | [] => false
        | b3 :: r3 => if utf8_four b0 b1 b2 b3 then valid_utf8 r3 else false
        end
      end
    end
  end.

(** String::from_utf8(v).unwrap() *)
Definition from_utf8 (v : str) : outcome str := if valid_utf8 v then Done v else Panic.

(** str::chars(): the scalar values of a (valid) string. On bytes that are not valid UTF-8 (which
    a Rust string never holds) the result is cut short. *)
Fixpoint chars (l : str) : list N :=
  match l with
  | [] => []
  | b0 :: r0 =>
    if b0 <? 128 then b0 :: chars r0 else
    match r0 with
    | [] => []
    | b1 :: r1 =>
      if utf8_two b0 b1 then ((b0 - 192) * 64 + (b1 - 128)) :: chars r1 else
      match r1 with
      | [] => []
      | b2 :: r2 =>
        if utf8_three b0 b1 b2 then
          ((b0 - 224) * 4096 + (b1 - 128) * 64 + (b2 - 128)) :: chars r2 else
        match r2 with
        | [] => []
        | b3 :: r3 =>
          if utf8_four b0 b1 b2 b3 then
            ((b0 - 240) * 262144 + (b1 - 128) * 4096 + (b2 - 128) * 64 + (b3 - 128)) :: chars r3
          else []
        end
      end
    end
  end.

(** UTF-8 encoding of a scalar value: String::push / Display of a char. *)
Definition encode_char (c : N) : str :=
  if c <? 128 then [c]
  else if c <? 2048 then [192 + c / 64; 128 + c mod 64]
  else if c <? 65536 then [224 + c / 4096; 128 + (c / 64) mod 64; 128 + c mod 64]
  else [240 + c / 262144; 128 + (c / 4096) mod 64; 128 + (c / 64) mod 64; 128 + c mod 64].

(** ** Strings *)

(** str::starts_with for a string pattern *)
Fixpoint starts_with (p s : str) : bool :=
  match p, s with
  | [], _ => true
  | _ :: _, [] => false
  | a :: p', b :: s' => (a =? b) && starts_with p' s'
  end.

(** str::split_once for an ASCII character *)
Fixpoint split_once (c : N) (s : str) : option (str * str) :=
  match s with
  | [] => None
  | a :: r =>
    if a =? c then Some ([], r)
    else match split_once c r with
         | Some (p, q) => Some (a :: p, q)
         | None => None
         end
  end.

(** str::split for an ASCII character: always at least one piece *)
Fixpoint split_on (c : N) (s : str) : list str :=
  match s with
  | [] => [[]]
  | a :: r =>
    if a =? c then [] :: split_on c r
    else match split_on c r with
         | p :: ps => (a :: p) :: ps
         | [] => [[a]]
         end
  end.

(** itertools::join *)
Fixpoint join (sep : str) (l : list str) : str :=
  match l with
  | [] => []
  | [x] => x
  | x :: r => x ++ sep ++ join sep r
  end.

(** ** Displaying numbers *)
Definition digit_char (d : N) : N := if d <? 10 then 48 + d else 87 + d.

(** digits of [n] in base [b], most significant first; the fuel is the number of binary digits *)
Fixpoint digits_fuel (fuel : nat) (b n : N) (acc : str) : str :=
  match fuel with
  | O => acc
  | S f =>
    let acc' := digit_char (n mod b) :: acc in
    if n / b =? 0 then acc' else digits_fuel f b (n / b) acc'
  end.
Definition show_base (b n : N) : str := digits_fuel (S (N.to_nat (N.size n))) b n [].
(** format!("{}", n) *)
Definition show_dec (n : N) : str := show_base 10 n.
(** format!("{:x}", n) *)
Definition show_hex (n : N) : str := show_base 16 n.

(** ** Parsing numbers: {u8,u32,u64}::from_str_radix (Rust std, core::num) *)
Inductive int_error := IntEmpty | IntInvalidDigit | IntPosOverflow.

(** Display for ParseIntError *)
Definition int_error_msg (e : int_error) : str :=
  match e with
  | IntEmpty => bs "cannot parse integer from empty string"
  | IntInvalidDigit => bs "invalid digit found in string"
  | IntPosOverflow => bs "number too large to fit in target type"
  end.

(** char::to_digit *)
Definition to_digit (radix c : N) : option N :=
  let d := if is_digit c then Some (c - 48)
           else if is_lower c then Some (c - 87)
           else if is_upper c then Some (c - 55)
           else None in
  match d with
  | Some v => if v <? radix then Some v else None
  | None => None
  end.

Inductive int_result := IntOk (n : N) | IntErr (e : int_error).

(** the digit loop of from_str_radix: checked_mul, to_digit, checked_add; [lim] is 2^bits *)
Fixpoint radix_loop (lim radix acc : N) (s : str) : int_result :=
  match s with
  | [] => IntOk acc
  | c :: r =>
    match to_digit radix c with
    | None => IntErr IntInvalidDigit
    | Some d =>
      if lim <=? acc * radix then IntErr IntPosOverflow
      else if lim <=? acc * radix + d then IntErr IntPosOverflow
      else radix_loop lim radix (acc * radix + d) r
    end
  end.

(** from_str_radix on an unsigned type: empty, a lone sign, an optional leading '+'. (A leading
    '-' is an invalid digit for unsigned types, which the digit loop reports.) *)
Definition from_str_radix (lim radix : N) (s : str) : int_result :=
  match s with
  | [] => IntErr IntEmpty
  | [c] =>
    if (c =? cPlus) || (c =? cMinus) then IntErr IntInvalidDigit else radix_loop lim radix 0 s
  | c :: r => if c =? cPlus then radix_loop lim radix 0 r else radix_loop lim radix 0 s
  end.

Definition u8_lim : N := 256.
Definition u32_lim : N := 4294967296.
Definition u64_lim : N := 18446744073709551616.

(** ** Association lists: the model of HashMap (duplicate-free keys, the order is arbitrary) *)
Section Assoc.
  Context {K V : Type} (eq_dec : forall a b : K, {a = b} + {a <> b}).

  Fixpoint m_get (k : K) (m : list (K * V)) : option V :=
    match m with
    | [] => None
    | (k', v) :: r => if eq_dec k k' then Some v else m_get k r
    end.
  Definition m_remove (k : K) (m : list (K * V)) : list (K * V) :=
    filter (fun kv => if eq_dec k (fst kv) then false else true) m.
  (** HashMap::insert: replaces the value *)
  Definition m_insert (k : K) (v : V) (m : list (K * V)) : list (K * V) :=
    (k, v) :: m_remove k m.
  (** HashMap::extend with the entries of another map *)
  Definition m_extend (m m' : list (K * V)) : list (K * V) :=
    fold_left (fun acc kv => m_insert (fst kv) (snd kv) acc) m' m.
  Definition m_mem (k : K) (m : list (K * V)) : bool :=
    match m_get k m with Some _ => true | None => false end.
  Definition m_keys (m : list (K * V)) : list K := map fst m.
End Assoc.
