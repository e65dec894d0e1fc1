(** * Model of the lexical parsers of askama_parser/src/lib.rs. *)
From Verif Require Import Base Nom Ws.
Local Open Scope N_scope.

(** lib.rs:250-252 *)
Definition not_ws (c : N) : bool := negb (is_ws c).
Definition skip_blanks : P str := take_till not_ws.
(** lib.rs:254-258: [ws] *)
Definition pws {A} (p : P A) : P A := skip_blanks ;;; (a <- p ;; (skip_blanks ;;; pret a)).
Definition mws {A} (p : M A) : M A := lift skip_blanks ;;-- (a <-- p ;; (lift skip_blanks ;;-- mret a)).

(** lib.rs:262-280: [skip_till]: the position where [end] matches, with the position after it and its value.
    [next(i)?] fails only at the end of the input (or with a Failure of [end]). *)
Fixpoint skip_till {A} (end_ : P A) (i : str) : pres (str * A) :=
  match end_ i with
  | POk j a => POk i (j, a)
  | PFail e m => PFail e m
  | PStuck => PStuck
  | PErr _ _ => match i with [] => PErr [] None | _ :: i' => skip_till end_ i' end
  end.

(** lib.rs:293-309: [identifier]; [is_alpha] and [is_alphanum] are ASCII only (nom's [AsChar] for [char]). *)
Definition is_upper (c : N) : bool := (65 <=? c) && (c <=? 90).
Definition is_lower (c : N) : bool := (97 <=? c) && (c <=? 122).
Definition is_dec (c : N) : bool := (48 <=? c) && (c <=? 57).
Definition id_start (c : N) : bool := is_upper c || is_lower c || (c =? 95) || (128 <=? c).
Definition id_tail (c : N) : bool := id_start c || is_dec c.
Definition identifier : P str :=
  recognize (split_at_position1 (fun c => negb (id_start c)) ;;; opt (split_at_position1 (fun c => negb (id_tail c)))).

(** lib.rs:282-291 *)
Definition keyword (k : str) : P str := fun i =>
  match identifier i with
  | POk j v => if str_eqb k v then POk j v else PErr i None
  | r => r
  end.
(** lib.rs:311-313 *)
Definition bool_lit : P str := keyword (lit "false") <|> keyword (lit "true").

(** [char::is_digit(radix)] for the radices used *)
Definition is_digit (radix : N) (c : N) : bool :=
  if radix =? 2 then (48 <=? c) && (c <=? 49)
  else if radix =? 8 then (48 <=? c) && (c <=? 55)
  else if radix =? 10 then is_dec c
  else is_dec c || ((65 <=? c) && (c <=? 70)) || ((97 <=? c) && (c <=? 102)).
(** lib.rs:371-382 *)
Definition separated_digits (radix : N) (start : bool) : P str :=
  recognize ((if start then pret [] else many0 (pchar 95)) ;;;
             (satisfy (is_digit radix) ;;; many0 (satisfy (fun c => (c =? 95) || is_digit radix c)))).
(** lib.rs:316-332 *)
Definition integer_suffix : P str :=
  tag (lit "i8") <|> tag (lit "i16") <|> tag (lit "i32") <|> tag (lit "i64") <|> tag (lit "i128") <|> tag (lit "isize") <|>
  tag (lit "u8") <|> tag (lit "u16") <|> tag (lit "u32") <|> tag (lit "u64") <|> tag (lit "u128") <|> tag (lit "usize").
Definition float_suffix : P str := tag (lit "f32") <|> tag (lit "f64").
(** lib.rs:315-367 *)
Definition num_lit : P str :=
  recognize (opt (pchar 45) ;;;
    (recognize (pchar 48 ;;;
               ((recognize (pchar 98 ;;; separated_digits 2 false) <|>
                 recognize (pchar 111 ;;; separated_digits 8 false) <|>
                 recognize (pchar 120 ;;; separated_digits 16 false)) ;;;
                opt integer_suffix))
     <|>
     recognize (separated_digits 10 true ;;;
               opt (integer_suffix <|> float_suffix <|>
                    recognize (opt (pchar 46 ;;; separated_digits 10 true) ;;;
                               (one_of (lit "eE") ;;; (opt (one_of (lit "+-")) ;;; (separated_digits 10 false ;;; opt float_suffix)))) <|>
                    recognize (pchar 46 ;;; (separated_digits 10 true ;;; opt float_suffix)))))).

(** nom's [escaped(is_not(..), '\\', anychar)] where the normal parser stops at the backslash and at [q]; one character at
    a time instead of one run of normal characters at a time.  [first]: nothing consumed yet. *)
Fixpoint escaped_from (q : N) (first : bool) (i : str) : option str :=      (* the rest; [None] is an Error *)
  match i with
  | [] => Some []
  | c :: i' =>
      if c =? 92 then match i' with [] => None | _ :: i'' => escaped_from q false i'' end
      else if c =? q then if first then None else Some i
      else escaped_from q false i'
  end.
Definition escaped (q : N) : P str := fun i =>
  match escaped_from q true i with Some r => POk r (before i r) | None => PErr i None end.
(** lib.rs:384-391 *)
Definition str_lit : P str :=
  pchar 34 ;;; (s <- opt (escaped 34) ;; (pchar 34 ;;; pret (match s with Some s => s | None => [] end))).

(** lib.rs:456-493: [Char] and [Char::parse] *)
Inductive char_kind := CLiteral | CEscaped | CAscii (nb : str) | CUnicode (nb : str).
Definition is_hex (c : N) : bool := is_digit 16 c.
Definition char_parse : P char_kind := fun i =>
  match i with
  | [_] => POk [] CLiteral
  | _ =>
      (pchar 92 ;;;
       (value CEscaped (pchar 110) <|> value CEscaped (pchar 114) <|> value CEscaped (pchar 116) <|> value CEscaped (pchar 92) <|>
        value CEscaped (pchar 48) <|> value CEscaped (pchar 39) <|> value CEscaped (pchar 34) <|>
        (pchar 120 ;;; pmap CAscii (take_while_m_n 2 2 is_hex)) <|>
        (tag (lit "u{") ;;; (s <- take_while_m_n 1 6 is_hex ;; (pchar 125 ;;; pret (CUnicode s)))))) i
  end.
(** [u32::from_str_radix(_, 16)]; at most six digits, so it cannot overflow; the digits are known to be hexadecimal. *)
Definition hex_digit (c : N) : N := if is_dec c then c - 48 else if c <=? 70 then c - 55 else c - 87.
Definition from_hex (s : str) : N := fold_left (fun acc c => acc * 16 + hex_digit c) s 0.
(** lib.rs:395-446 *)
Definition char_lit : P str := fun start =>
  match (pchar 39 ;;; (s <- opt (escaped 39) ;; (pchar 39 ;;; pret s))) start with
  | POk i None => PFail start (Some (lit "empty character literal"))
  | POk i (Some s) =>
      match char_parse s with
      | POk [] c =>
          match c with
          | CLiteral | CEscaped => POk i s
          | CAscii nb => if 127 <? from_hex nb then PFail start (Some (lit "must be a character in the range [\x00-\x7f]")) else POk i s
          | CUnicode nb => if 1114111 <? from_hex nb then PFail start (Some (lit "unicode escape must be at most 10FFFF")) else POk i s
          end
      | PStuck => PStuck
      | _ => PFail start (Some (lit "invalid character"))
      end
  | PErr e m => PErr e m
  | PFail e m => PFail e m
  | PStuck => PStuck
  end.

Section Lex.
  (** [char::is_lowercase] (Unicode table). *)
  Variable is_lowercase : N -> bool.
  (** lib.rs:495-529; [inl] is [Path], [inr] is [Identifier]. *)
  Definition path_or_identifier : P (list str + str) :=
    root <- pws (opt (tag (lit "::"))) ;;
    (start <- identifier ;;
     (rest <- opt (many1 (pws (tag (lit "::")) ;;; identifier)) ;;
      let rest := match rest with Some l => l | None => [] end in
      pret (match root, rest with
            | Some _, _ => inl ([] :: start :: rest)
            | None, [] => if match start with [] => true | c :: _ => is_lowercase c end then inr start else inl [start]
            | None, _ => inl (start :: rest)
            end))).
End Lex.

(** lib.rs:616-634: [Level]; the number of levels left instead of the level. [nest] fails when none is left. *)
Definition MAX_DEPTH : nat := 128.
