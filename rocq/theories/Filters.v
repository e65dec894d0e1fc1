(** * Model of askama/src/filters/mod.rs and askama/src/filters/json.rs. *)
From Verif Require Import Base Utf8 Escape.
Local Open Scope N_scope.

(** ** std string functions used by the filters (trusted base), on lists of characters. *)

(** [char::is_whitespace]: the Unicode White_Space property. *)
Definition is_whitespace (c : N) : bool :=
  ((9 <=? c) && (c <=? 13)) || (c =? 32) || (c =? 133) || (c =? 160) || (c =? 5760)
  || ((8192 <=? c) && (c <=? 8202)) || (c =? 8232) || (c =? 8233) || (c =? 8239) || (c =? 8287) || (c =? 12288).

(** [str::trim_start], [str::trim_end]. *)
Fixpoint trim_start (s : str) : str :=
  match s with [] => [] | c :: s' => if is_whitespace c then trim_start s' else s end.
Definition trim_end (s : str) : str := rev (trim_start (rev s)).

(** [str::replace]: leftmost, non-overlapping; [skip] counts the characters of a match still to be passed over. *)
Fixpoint replace_from (pat to : str) (skip : nat) (s : str) : str :=
  match s with
  | [] => []
  | c :: s' =>
      match skip with
      | S k => replace_from pat to k s'
      | O => if starts_with pat s then to ++ replace_from pat to (length pat - 1) s'
             else c :: replace_from pat to 0 s'
      end
  end.
Definition replace (pat to s : str) : str := replace_from pat to 0 s.

(** [str::split_whitespace]: the non-empty pieces between whitespace characters. [cur] is the current piece. *)
Fixpoint split_whitespace_from (cur s : str) : list str :=
  match s with
  | [] => match cur with [] => [] | _ => [cur] end
  | c :: s' => if is_whitespace c
               then match cur with [] => split_whitespace_from [] s' | _ => cur :: split_whitespace_from [] s' end
               else split_whitespace_from (cur ++ [c]) s'
  end.
Definition split_whitespace (s : str) : list str := split_whitespace_from [] s.

(** mod.rs:44: [const MAX_LEN: usize = 10_000]. *)
Definition MAX_LEN : N := 10000.

(** ** trim (mod.rs:284-301) *)
(** [Collector::write_str]: mod.rs:288-293. *)
Definition collector_write (acc s : str) : str :=
  match acc with [] => acc ++ trim_start s | _ => acc ++ s end.
(** [write!(collector, "{s}")?] then [s.truncate(s.trim_end().len())]; [None] is the value's own error. *)
Definition trim (d : disp) : option str :=
  let acc := fold_left collector_write (pieces d) [] in
  if fin d then Some (firstn (length (trim_end acc)) acc) else None.

(** ** truncate (mod.rs:305-374), on bytes *)
(** The writer: [dest] present or not, and [remaining]. *)
Record twriter := { t_open : bool; t_rem : nat }.
(** The loop [while !s.is_char_boundary(rem) { rem += 1; }] (mod.rs:335-337); [None] if the fuel runs out. *)
Fixpoint next_boundary (fuel : nat) (s : str) (rem : nat) : option nat :=
  if is_char_boundary s rem then Some rem
  else match fuel with O => None | S f => next_boundary f s (S rem) end.
(** [Writer::write_str], mod.rs:325-349: the writes made to [dest] and the new state; [None] is a panic.
    [write_char] and [write_fmt] (351-365) only add an early return when [dest] is gone, which [write_str] has too. *)
Definition trunc_write (w : twriter) (s : str) : option (list str * twriter) :=
  if t_open w then
    let rem := t_rem w in
    if Nat.leb (length s) rem then Some ([s], {| t_open := true; t_rem := rem - length s |})
    else if Nat.ltb 0 rem then
      let? rem := next_boundary (length s) s rem in
      if Nat.eqb rem (length s) then Some ([s], {| t_open := true; t_rem := 0 |})
      else let? t := slice s 0 rem in
           Some ([t; lit "..."], {| t_open := false; t_rem := t_rem w |})
    else Some ([lit "..."], {| t_open := false; t_rem := rem |})
  else Some ([], w).
Fixpoint trunc_all (w : twriter) (ps : list str) : option (list str) :=
  match ps with
  | [] => Some []
  | p :: ps' => let? r := trunc_write w p in let? qs := trunc_all (snd r) ps' in Some (fst r ++ qs)
  end.
(** [Display for TruncateFilter], mod.rs:317-374. *)
Definition truncate_fmt (source : disp) (remaining : nat) : option disp :=
  let? ps := trunc_all {| t_open := true; t_rem := remaining |} (pieces source) in
  Some {| pieces := ps; fin := fin source |}.

(** ** indent (mod.rs:378-397), on characters with their byte offsets *)
Definition len_utf8 (c : N) : nat := length (enc_char c).
Definition byte_len (s : str) : nat := length (encode s).
Fixpoint indent_loop (total width i : nat) (s : str) : str :=
  match s with
  | [] => []
  | c :: s' => c :: (if (c =? 10) && Nat.ltb i (total - 1) then repeat 32 width else [])
                 ++ indent_loop total width (i + len_utf8 c) s'
  end.
Definition indent (s : str) (width : N) : str :=
  if (MAX_LEN <=? width) || (MAX_LEN <=? N.of_nat (byte_len s)) then s
  else indent_loop (byte_len s) (N.to_nat width) 0 s.

(** ** join (mod.rs:418-460) *)
(** The filter object: a [Cell] that holds the iterator until it is displayed. *)
Record join_filter := { cell : option (list disp * disp) }.
Definition join (items : list disp) (sep : disp) : join_filter := {| cell := Some (items, sep) |}.
(** The loop of mod.rs:452-457; a failing item or separator stops it. *)
Fixpoint join_loop (idx : nat) (items : list disp) (sep : disp) : disp :=
  match items with
  | [] => {| pieces := []; fin := true |}
  | token :: items' =>
      let pre := match idx with O => {| pieces := []; fin := true |} | _ => sep end in
      if fin pre then
        if fin token then
          let r := join_loop (S idx) items' sep in
          {| pieces := pieces pre ++ pieces token ++ pieces r; fin := fin r |}
        else {| pieces := pieces pre ++ pieces token; fin := false |}
      else {| pieces := pieces pre; fin := false |}
  end.
(** [Display for JoinFilter], mod.rs:442-460: [Cell::take] empties the cell. *)
Definition join_fmt (j : join_filter) : disp * join_filter :=
  (match cell j with
   | None => {| pieces := []; fin := true |}
   | Some (items, sep) => join_loop 0 items sep
   end, {| cell := None |}).

(** ** line breaks (mod.rs:222-256) *)
Definition linebreaks (s : str) : str :=
  lit "<p>" ++ replace [10] (lit "<br/>") (replace [10; 10] (lit "</p><p>") s) ++ lit "</p>".
Definition linebreaksbr (s : str) : str := replace [10] (lit "<br/>") s.
Definition paragraphbreaks (s : str) : str :=
  lit "<p>" ++ replace (lit "<p></p>") [] (replace [10; 10] (lit "</p><p>") s) ++ lit "</p>".

(** ** capitalize, center, wordcount, title (mod.rs:471-545) *)
Section Case.
  (** [char::to_uppercase], [char::to_lowercase], [str::to_lowercase] (on bytes), [char::is_uppercase], [char::is_lowercase]:
      Unicode tables, arbitrary here. *)
  Variables (to_upper to_lower : N -> str) (str_lower : str -> str) (is_upper is_lower : N -> bool).

  (** mod.rs:473-485, on the bytes of the text [cs]: [s[c.len_utf8()..]] is a slice that can panic ([None]). *)
  Definition capitalize (cs : str) : option str :=
    match cs with
    | c :: _ => let? tail := slice (encode cs) (length (enc_char c)) (length (encode cs)) in
                Some (encode (to_upper c) ++ str_lower tail)
    | [] => Some (encode cs)
    end.

  (** mod.rs:520-545 *)
  Fixpoint title_loop (need : bool) (s : str) : str :=
    match s with
    | [] => []
    | c :: s' =>
        if is_whitespace c then c :: title_loop true s'
        else if need then (if is_upper c then [c] else to_upper c) ++ title_loop false s'
        else (if is_lower c then [c] else to_lower c) ++ title_loop need s'
    end.
  Definition title (s : str) : str := title_loop true s.
End Case.

(** mod.rs:489-506.  [format!("{: ^1$}", s, width)] for a string [s] (std's [Formatter::pad], trusted): the missing
    width, counted in characters, is split with the smaller half on the left. *)
Definition center (s : str) (width : N) : str :=
  if width <? MAX_LEN then
    let total := (N.to_nat width - length s)%nat in
    repeat 32 (total / 2) ++ s ++ repeat 32 ((total + 1) / 2)
  else s.

(** mod.rs:510-516 *)
Definition wordcount (s : str) : nat := length (split_whitespace s).

(** ** urlencode (mod.rs:32-42, 145-186), on bytes *)
Definition is_alnum (b : N) : bool :=
  ((48 <=? b) && (b <=? 57)) || ((65 <=? b) && (b <=? 90)) || ((97 <=? b) && (b <=? 122)).
(** [NON_ALPHANUMERIC] and [AsciiSet::remove] from the percent-encoding crate: a set of ASCII bytes. *)
Definition NON_ALPHANUMERIC (b : N) : bool := (b <? 128) && negb (is_alnum b).
Definition remove (set : N -> bool) (x : N) : N -> bool := fun b => set b && negb (b =? x).
Definition URLENCODE_STRICT_SET : N -> bool := remove (remove (remove (remove NON_ALPHANUMERIC 95) 46) 45) 126.
Definition URLENCODE_SET : N -> bool := remove URLENCODE_STRICT_SET 47.
(** [utf8_percent_encode] (crate percent-encoding, trusted): bytes in the set and non-ASCII bytes become %XX. *)
Definition hex_digit (n : N) : N := if n <? 10 then 48 + n else 55 + n.
Definition percent_byte (set : N -> bool) (b : N) : str :=
  if (128 <=? b) || set b then [37; hex_digit (b / 16); hex_digit (b mod 16)] else [b].
Definition percent_encode (set : N -> bool) (s : str) : str := flat_map (percent_byte set) s.
(** [Display for UrlencodeFilter], mod.rs:173-186: every piece is encoded and written on its own. *)
Definition urlencode_fmt (set : N -> bool) (d : disp) : disp :=
  {| pieces := map (percent_encode set) (pieces d); fin := fin d |}.
Definition urlencode (d : disp) := urlencode_fmt URLENCODE_SET d.
Definition urlencode_strict (d : disp) := urlencode_fmt URLENCODE_STRICT_SET d.

(** ** json (json.rs:56-73), on bytes *)
(** json.rs:59-65 *)
Definition json_escape (b : N) : option str :=
  if b =? 38 then Some (92 :: lit "u0026") else if b =? 39 then Some (92 :: lit "u0027")
  else if b =? 60 then Some (92 :: lit "u003c") else if b =? 62 then Some (92 :: lit "u003e") else None.
(** [&bytes[a..b]] on a byte slice: only the range is checked. *)
Definition bslice (s : str) (a b : nat) : option str :=
  if Nat.leb a b && Nat.leb b (length s) then Some (firstn (b - a) (skipn a s)) else None.
(** json.rs:57-72: the loop.  [from_utf8_unchecked] is applied to every slice. *)
Fixpoint json_loop (bytes rest : str) (index last : nat) : option (list str) :=
  match rest with
  | [] => let? t := bslice bytes last (length bytes) in Some [t]
  | byte :: rest' =>
      match json_escape byte with
      | Some escaped =>
          let? t := bslice bytes last index in
          let? r := json_loop bytes rest' (S index) (index + 1) in
          Some (t :: escaped :: r)
      | None => json_loop bytes rest' (S index) last
      end
  end.
Definition json_write (bytes : str) : option (list str) := json_loop bytes bytes 0 0.
(** [ToJson::fmt] (json.rs:29-34): serde_json writes its output through [JsonWriter] in pieces of its choice. *)
Definition json_fmt (d : disp) : option disp :=
  let? ps := escape_pieces json_write (pieces d) in Some {| pieces := ps; fin := fin d |}.
