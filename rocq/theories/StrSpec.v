(** * Specification: the text a Rust string literal stands for (The Rust Reference, Tokens: string literals, escapes).
    No definition here models code in /repo. *)
From Verif Require Import Base LitSpec.
Local Open Scope N_scope.

Inductive smode := InText | AfterBackslash | Hex1 | Hex2 (a : N) | BeforeBrace | InBraces (h : str) | SkipBlanks.
Definition hex_char (c : N) : bool := (48 <=? c) && (c <=? 57) || (65 <=? c) && (c <=? 70) || (97 <=? c) && (c <=? 102).
Definition put_char (c : N) (r : option (str * str)) : option (str * str) := option_map (fun x => (c :: fst x, snd x)) r.
(** The value of the literal whose opening quote is before the text, and what follows its closing quote. *)
Fixpoint string_value (m : smode) (s : str) : option (str * str) :=
  match s with
  | [] => None
  | c :: t =>
      let plain := if c =? 34 then Some ([], t) else if c =? 92 then string_value AfterBackslash t
                   else if c =? 13 then match t with 10 :: _ => string_value InText t | _ => None end
                   else put_char c (string_value InText t) in
      match m with
      | InText => plain
      | SkipBlanks => if existsb (N.eqb c) [9; 10; 13; 32] then string_value SkipBlanks t else plain
      | AfterBackslash =>
          if c =? 110 then put_char 10 (string_value InText t) else if c =? 114 then put_char 13 (string_value InText t)
          else if c =? 116 then put_char 9 (string_value InText t) else if c =? 48 then put_char 0 (string_value InText t)
          else if existsb (N.eqb c) [92; 39; 34] then put_char c (string_value InText t)
          else if c =? 120 then string_value Hex1 t else if c =? 117 then string_value BeforeBrace t
          else if c =? 10 then string_value SkipBlanks t else None
      | Hex1 => if (48 <=? c) && (c <=? 55) then string_value (Hex2 c) t else None
      | Hex2 a => if hex_char c then put_char (hex_value 0 [a; c]) (string_value InText t) else None
      | BeforeBrace => if c =? 123 then string_value (InBraces []) t else None
      | InBraces h =>
          if c =? 125 then match h with
                           | [] => None
                           | _ => if (hex_value 0 h <=? 1114111) && negb ((55296 <=? hex_value 0 h) && (hex_value 0 h <=? 57343)) &&
                                     Nat.leb (length (filter (fun c => negb (c =? 95)) h)) 6
                                  then put_char (hex_value 0 h) (string_value InText t) else None
                           end
          else if hex_char c || (c =? 95) && match h with [] => false | _ => true end then string_value (InBraces (h ++ [c])) t else None
      end
  end.
Definition literal_value (s : str) : option (str * str) := match s with 34 :: t => string_value InText t | _ => None end.
