(** * Specification: the literals of Rust (The Rust Reference, Tokens). *)
From Verif Require Import Base.
Local Open Scope N_scope.

Definition digit_of (radix c : N) : Prop :=
  (48 <= c < 48 + N.min radix 10) \/ (10 < radix /\ (65 <= c < 65 + (radix - 10) \/ 97 <= c < 97 + (radix - 10))).
Definition digit_or_us (radix c : N) : Prop := c = 95 \/ digit_of radix c.
(** DEC_LITERAL *)
Definition dec_literal (s : str) : Prop := exists c t, s = c :: t /\ digit_of 10 c /\ Forall (digit_or_us 10) t.
(** the digits of BIN_LITERAL, OCT_LITERAL, HEX_LITERAL and of an exponent *)
Definition digits_literal (radix : N) (s : str) : Prop := Forall (digit_or_us radix) s /\ Exists (digit_of radix) s.
Definition int_suffixes : list str :=
  [lit "i8"; lit "i16"; lit "i32"; lit "i64"; lit "i128"; lit "isize"; lit "u8"; lit "u16"; lit "u32"; lit "u64"; lit "u128"; lit "usize"].
Definition float_suffixes : list str := [lit "f32"; lit "f64"].
Inductive rust_number : str -> Prop :=
| rn_int s suf : dec_literal s -> In suf ([] :: int_suffixes ++ float_suffixes) -> rust_number (s ++ suf)
| rn_radix p radix s suf : In (p, radix) [(lit "0b", 2); (lit "0o", 8); (lit "0x", 16)] -> digits_literal radix s ->
    In suf ([] :: int_suffixes) -> rust_number (p ++ s ++ suf)
| rn_frac a b suf : dec_literal a -> dec_literal b -> In suf ([] :: float_suffixes) -> rust_number (a ++ lit "." ++ b ++ suf)
| rn_exp a fr e sign x suf : dec_literal a -> (fr = [] \/ exists b, fr = lit "." ++ b /\ dec_literal b) ->
    In e [lit "e"; lit "E"] -> In sign [[]; lit "+"; lit "-"] -> digits_literal 10 x -> In suf ([] :: float_suffixes) ->
    rust_number (a ++ fr ++ e ++ sign ++ x ++ suf).
(** A number with an optional minus sign: a literal pattern or a negated literal. *)
Definition signed_number (s : str) : Prop := rust_number s \/ exists t, s = 45 :: t /\ rust_number t.

(** Text between quotes [q] such that the quote after it is the one that closes it. *)
Inductive quoted (q : N) : str -> Prop :=
| qt_nil : quoted q []
| qt_plain c s : c <> q -> c <> 92 -> quoted q s -> quoted q (c :: s)
| qt_esc c s : quoted q s -> quoted q (92 :: c :: s).

Fixpoint hex_value (acc : N) (s : str) : N :=
  match s with
  | [] => acc
  | c :: s' => hex_value (if c =? 95 then acc else 16 * acc + (if c <? 58 then c - 48 else if c <? 71 then c - 55 else c - 87)) s'
  end.
(** One escape of a character or string literal. *)
Inductive rust_escape : str -> Prop :=
| re_simple c : In c [110; 114; 116; 92; 48; 39; 34] -> rust_escape [92; c]                     (* n r t \ 0 and the quotes *)
| re_ascii a b : 48 <= a <= 55 -> digit_of 16 b -> rust_escape [92; 120; a; b]
| re_unicode h t : digit_of 16 h -> Forall (digit_or_us 16) t ->
    (length (filter (fun c => negb (c =? 95)%N) (h :: t)) <= 6)%nat -> hex_value 0 (h :: t) <= 1114111 ->
    ~ (55296 <= hex_value 0 (h :: t) <= 57343) -> rust_escape (92 :: 117 :: 123 :: h :: t ++ [125]).
(** The text between the quotes of a character literal and of a string literal.  (A line break after a backslash is allowed
    in strings; a carriage return must be part of a line break.) *)
Definition rust_char (s : str) : Prop := (exists c, s = [c] /\ ~ In c [39; 92; 10; 13; 9]) \/ rust_escape s.
Inductive rust_string : str -> Prop :=
| rs_nil : rust_string []
| rs_plain c s : ~ In c [34; 92; 13] -> rust_string s -> rust_string (c :: s)
| rs_crlf s : rust_string s -> rust_string (13 :: 10 :: s)
| rs_cont s : rust_string s -> rust_string (92 :: 10 :: s)
| rs_esc e s : rust_escape e -> rust_string s -> rust_string (e ++ s).
(** What [char_lit] accepts: Rust's character literals, and raw tabs and line breaks and surrogates, which Rust rejects. *)
Definition char_accepted (s : str) : Prop :=
  rust_char s \/ In s [[9]; [10]; [13]] \/
  exists h, s = lit "\u{" ++ h ++ lit "}" /\ Forall (digit_of 16) h /\ 55296 <= hex_value 0 h <= 57343.

