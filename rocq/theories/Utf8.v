(** * UTF-8: what a Rust [str] is at the byte level (std; part of the trusted base). *)
From Verif Require Import Base.
Local Open Scope N_scope.

(** [char::len_utf8] / [char::encode_utf8]. *)
Definition enc_char (c : N) : list N :=
  if c <? 128 then [c]
  else if c <? 2048 then [192 + c / 64; 128 + c mod 64]
  else if c <? 65536 then [224 + c / 4096; 128 + (c / 64) mod 64; 128 + c mod 64]
  else [240 + c / 262144; 128 + (c / 4096) mod 64; 128 + (c / 64) mod 64; 128 + c mod 64].

(** Unicode scalar values. *)
Definition scalar (c : N) : bool := (c <? 55296) || ((57344 <=? c) && (c <? 1114112)).

Definition encode (cs : list N) : list N := flat_map enc_char cs.

(** A valid [str] is the encoding of a sequence of scalar values. *)
Definition valid (s : list N) : Prop := exists cs, forallb scalar cs = true /\ s = encode cs.

(** [u8::is_utf8_char_boundary]: [(self as i8) >= -0x40], i.e. not 0x80..=0xBF. *)
Definition not_cont (b : N) : bool := (b <? 128) || (192 <=? b).

(** [str::is_char_boundary]. *)
Definition is_char_boundary (s : list N) (i : nat) : bool :=
  match i with
  | O => true
  | _ => match nth_error s i with
         | Some b => not_cont b
         | None => Nat.eqb i (length s)
         end
  end.

(** [&s[a..b]]: panics ([None]) when out of range or off a character boundary. *)
Definition slice (s : list N) (a b : nat) : option (list N) :=
  if (Nat.leb a b && Nat.leb b (length s) && is_char_boundary s a && is_char_boundary s b)%bool
  then Some (firstn (b - a) (skipn a s)) else None.
