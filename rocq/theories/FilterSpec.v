(** * Specifications of the filters, written without reference to their implementation. *)
From Verif Require Import Base Utf8 Escape Filters.
Local Open Scope N_scope.

(** [out] is [s] without surrounding white space. *)
(** The characters with the Unicode property White_Space (PropList.txt), spelled out. *)
Definition white_space : list N :=
  [9; 10; 11; 12; 13; 32; 133; 160; 5760; 8192; 8193; 8194; 8195; 8196; 8197; 8198; 8199; 8200; 8201; 8202;
   8232; 8233; 8239; 8287; 12288].
Definition all_ws (s : str) : Prop := Forall (fun c => is_whitespace c = true) s.
Definition edges_not_ws (s : str) : Prop :=
  s = [] \/ (exists c t, s = c :: t /\ is_whitespace c = false) /\ (exists c t, s = t ++ [c] /\ is_whitespace c = false).
Definition is_trimmed (s out : str) : Prop :=
  exists a b, s = a ++ out ++ b /\ all_ws a /\ all_ws b /\ edges_not_ws out.

(** [out] is [s] (as characters [cs]) cut to the shortest whole-character prefix of at least [n] bytes. *)
Definition is_truncated (cs : list N) (n : nat) (out : str) : Prop :=
  exists kept cut, cs = kept ++ cut
    /\ out = encode kept ++ (match cut with [] => [] | _ => lit "..." end)
    /\ (cut <> [] -> (n <= length (encode kept))%nat)
    /\ (forall k1 k2, kept = k1 ++ k2 -> k2 <> [] -> (length (encode k1) < n)%nat).

(** Text with [w] spaces after every newline that is followed by something. *)
Fixpoint indent_spec (w : nat) (s : str) : str :=
  match s with
  | [] => []
  | c :: rest => match rest with
                 | [] => [c]
                 | _ => if c =? 10 then c :: repeat 32 w ++ indent_spec w rest else c :: indent_spec w rest
                 end
  end.

(** Texts separated by [sep]. *)
Fixpoint intercalate (sep : str) (l : list str) : str :=
  match l with [] => [] | [x] => x | x :: l' => x ++ sep ++ intercalate sep l' end.

(** Newline pairs become paragraph breaks and remaining single newlines line breaks. *)
Fixpoint linebreaks_spec (s : str) : str :=
  match s with
  | [] => []
  | c :: s' =>
      if c =? 10 then
        match s' with
        | d :: s'' => if d =? 10 then lit "</p><p>" ++ linebreaks_spec s'' else lit "<br/>" ++ linebreaks_spec s'
        | [] => lit "<br/>"
        end
      else c :: linebreaks_spec s'
  end.

(** The paragraphs of a text: what lies between pairs of newlines (pairs taken from the left). *)
Fixpoint paragraphs (s : str) : list str :=
  match s with
  | [] => [[]]
  | c :: s' =>
      match c =? 10, s' with
      | true, d :: s'' => if d =? 10 then [] :: paragraphs s''
                          else match paragraphs s' with p :: ps => (c :: p) :: ps | [] => [] end
      | _, _ => match paragraphs s' with p :: ps => (c :: p) :: ps | [] => [] end
      end
  end.
(** Empty paragraphs removed, except the last. *)
Fixpoint drop_inner (ps : list str) : list str :=
  match ps with
  | [] => []
  | p :: rest => match rest, p with [], _ => [p] | _, [] => drop_inner rest | _, _ => p :: drop_inner rest end
  end.
Definition drop_empty_inner (ps : list str) : list str :=
  match ps with [] => [] | p :: rest => p :: drop_inner rest end.
(** All empty paragraphs removed, as the documentation says. *)
Definition is_nil (s : str) : bool := match s with [] => true | _ => false end.
Definition drop_empty (ps : list str) : list str := filter (fun p => negb (is_nil p)) ps.
Definition as_paragraphs (ps : list str) : str := lit "<p>" ++ intercalate (lit "</p><p>") ps ++ lit "</p>".
(** [w] occurs in [s]. *)
Definition has (w s : str) : Prop := exists a b, s = a ++ w ++ b.

(** Number of word starts. *)
Fixpoint word_starts (prev_ws : bool) (s : str) : nat :=
  match s with
  | [] => 0
  | c :: s' => ((if prev_ws && negb (is_whitespace c) then 1 else 0) + word_starts (is_whitespace c) s')%nat
  end.

(** Percent decoding (RFC 3986). *)
Definition hex_val (c : N) : option N :=
  if (48 <=? c) && (c <=? 57) then Some (c - 48)
  else if (65 <=? c) && (c <=? 70) then Some (c - 55)
  else if (97 <=? c) && (c <=? 102) then Some (c - 87) else None.
Fixpoint percent_decode (s : str) : str :=
  match s with
  | [] => []
  | c :: s' =>
      if c =? 37 then
        match s' with
        | h :: l :: s'' => match hex_val h, hex_val l with
                           | Some a, Some b => (16 * a + b) :: percent_decode s''
                           | _, _ => c :: percent_decode s'
                           end
        | _ => c :: percent_decode s'
        end
      else c :: percent_decode s'
  end.
(** Characters with no special meaning in any part of a URI. *)
Definition unreserved (c : N) : bool :=
  (65 <=? c) && (c <=? 90) || (97 <=? c) && (c <=? 122) || (48 <=? c) && (c <=? 57) || (c =? 95) || (c =? 46) || (c =? 45) || (c =? 126).

(** What the four escapes mean in JSON text: a backslash followed by u0026, u0027, u003c or u003e is read as one character, any other backslash
    pair is kept and passed over as a unit. *)
Definition json_u (s : str) : option N :=
  if starts_with (lit "u0026") s then Some 38 else if starts_with (lit "u0027") s then Some 39
  else if starts_with (lit "u003c") s then Some 60 else if starts_with (lit "u003e") s then Some 62 else None.
Fixpoint json_decode_from (skip : nat) (keep : bool) (s : str) : str :=
  match s with
  | [] => []
  | c :: s' =>
      match skip with
      | S k => (if keep then [c] else []) ++ json_decode_from k keep s'
      | O => if c =? 92 then
               match json_u s' with
               | Some v => v :: json_decode_from 5 false s'
               | None => c :: json_decode_from 1 true s'
               end
             else c :: json_decode_from 0 true s'
      end
  end.
Definition json_decode (s : str) : str := json_decode_from 0 true s.
(** In JSON text a backslash (that is not itself escaped) is never followed by one of the four characters; and outside
    strings there is no backslash and none of the four characters. *)
Fixpoint well_escaped (after_bs : bool) (s : str) : bool :=
  match s with
  | [] => true
  | c :: s' =>
      if after_bs then negb ((c =? 38) || (c =? 39) || (c =? 60) || (c =? 62)) && well_escaped false s'
      else well_escaped (c =? 92) s'
  end.
