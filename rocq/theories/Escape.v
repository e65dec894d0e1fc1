(** * Model of askama_escape/src/lib.rs (bytes). *)
From Verif Require Import Base Utf8.
Local Open Scope N_scope.

(** What a [Display] implementation does to a formatter: it writes pieces in order and then returns [Ok] ([true]) or
    its own [fmt::Error] ([false]).  Simplification: an implementation is taken to stop at the first failing
    [write_str] (the [?] idiom), so what it writes does not depend on the writer. *)
Record disp := { pieces : list str; fin : bool }.
Definition text (d : disp) : str := concat (pieces d).

(** lib.rs:113-124, the constants of the byte loop: MIN_CHAR is the double quote, MAX_CHAR the greater-than sign, and the table of 29 entries
    filled by five assignments. *)
Definition MIN_CHAR : N := 34.
Definition MAX_CHAR : N := 62.
Fixpoint set_nth {A} (n : nat) (v : A) (l : list A) : list A :=
  match l, n with
  | [], _ => []
  | _ :: l', O => v :: l'
  | x :: l', S n' => x :: set_nth n' v l'
  end.
Definition TABLE : list (option str) :=
  let t := repeat None (N.to_nat (MAX_CHAR - MIN_CHAR + 1)) in
  let t := set_nth (N.to_nat (60 - MIN_CHAR)) (Some (lit "&lt;")) t in
  let t := set_nth (N.to_nat (62 - MIN_CHAR)) (Some (lit "&gt;")) t in
  let t := set_nth (N.to_nat (38 - MIN_CHAR)) (Some (lit "&amp;")) t in
  let t := set_nth (N.to_nat (34 - MIN_CHAR)) (Some (lit "&quot;")) t in
  set_nth (N.to_nat (39 - MIN_CHAR)) (Some (lit "&#x27;")) t.

(** lib.rs:126-129: [match byte { MIN_CHAR..=MAX_CHAR => TABLE[(byte - MIN_CHAR) as usize], _ => None }].
    The outer [None] is an out-of-range table index (panic). *)
Definition lookup (byte : N) : option (option str) :=
  if (MIN_CHAR <=? byte) && (byte <=? MAX_CHAR)
  then nth_error TABLE (N.to_nat (byte - MIN_CHAR))
  else Some None.

(** lib.rs:111-137, [Html::write_escaped]: the loop over [string.bytes().enumerate()] with [last]; the result is the
    list of [write_str] calls, [None] a panic (slice or table index). *)
Fixpoint html_loop (string rest : str) (index last : nat) : option (list str) :=
  match rest with
  | [] => let? t := slice string last (length string) in Some [t]
  | byte :: rest' =>
      let? e := lookup byte in
      match e with
      | Some escaped =>
          let? t := slice string last index in
          let? r := html_loop string rest' (S index) (index + 1) in
          Some (t :: escaped :: r)
      | None => html_loop string rest' (S index) last
      end
  end.
Definition html_write_escaped (string : str) : option (list str) := html_loop string string 0 0.

(** lib.rs:141-148, [Text::write_escaped]. *)
Definition text_write_escaped (string : str) : option (list str) := Some [string].

(** The [Escaper] trait (lib.rs:160-164): anything that turns one string into writes.  User escapers are arbitrary. *)
Definition escaper := str -> option (list str).

(** lib.rs:66-78: [EscapeWriter::write_str] hands every piece to the escaper. *)
Fixpoint escape_pieces (e : escaper) (ps : list str) : option (list str) :=
  match ps with
  | [] => Some []
  | p :: ps' => let? a := e p in let? b := escape_pieces e ps' in Some (a ++ b)
  end.

(** lib.rs:8-16, 150-158. *)
Inductive display_value := Safe (d : disp) | Unsafe (d : disp).
Record markup := { value : display_value; esc : escaper }.
(** lib.rs:23-28 *)
Definition new_unsafe (d : disp) (e : escaper) : markup := {| value := Unsafe d; esc := e |}.
(** lib.rs:30-35 *)
Definition new_safe (d : disp) (e : escaper) : markup := {| value := Safe d; esc := e |}.
(** lib.rs:37-44 *)
Definition mark_safe (m : markup) : markup :=
  {| value := match value m with Unsafe t => Safe t | v => v end; esc := esc m |}.
(** lib.rs:47-63, [Display for MarkupDisplay].  The [write!] of the value makes [t] write its pieces into the EscapeWriter. *)
Definition markup_fmt (m : markup) : option disp :=
  match value m with
  | Unsafe t => let? ps := escape_pieces (esc m) (pieces t) in Some {| pieces := ps; fin := fin t |}
  | Safe t => Some t
  end.

(** lib.rs:80-102: [escape(s, e)] as a value. *)
Definition escaped_fmt (s : str) (e : escaper) : option disp :=
  let? ps := e s in Some {| pieces := ps; fin := true |}.

(** ** Specification, independent of the loop above. *)

(** The text standing for one byte in HTML. *)
Definition html_entity (b : N) : str :=
  if b =? 60 then lit "&lt;" else if b =? 62 then lit "&gt;" else if b =? 38 then lit "&amp;"
  else if b =? 34 then lit "&quot;" else if b =? 39 then lit "&#x27;" else [b].

(** What a browser does with the entities: read [&name;] as the character it names, anything else as itself. *)
Definition entities : list (str * N) :=
  [(lit "&lt;", 60); (lit "&gt;", 62); (lit "&amp;", 38); (lit "&quot;", 34); (lit "&#x27;", 39)].
Fixpoint match_entity (es : list (str * N)) (s : str) : option (N * nat) :=
  match es with
  | [] => None
  | (e, c) :: es' => if starts_with e s then Some (c, length e) else match_entity es' s
  end.
(** [skip] counts the remaining bytes of an entity already decoded. *)
Fixpoint html_decode_from (skip : nat) (s : str) : str :=
  match s with
  | [] => []
  | b :: s' =>
      match skip with
      | S k => html_decode_from k s'
      | O => match match_entity entities s with
             | Some (c, len) => c :: html_decode_from (len - 1) s'
             | None => b :: html_decode_from 0 s'
             end
      end
  end.
Definition html_decode (s : str) : str := html_decode_from 0 s.

(** Text that is inert in HTML element content and in quoted attribute values. *)
Definition html_inert (s : str) : Prop :=
  ~ In 60 s /\ ~ In 62 s /\ ~ In 34 s /\ ~ In 39 s /\
  (forall pre post, s = pre ++ 38 :: post -> exists e c, In (e, c) entities /\ exists rest, 38 :: post = e ++ rest).
