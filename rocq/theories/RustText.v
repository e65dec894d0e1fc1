(** * Specification: how Rust divides a text into tokens.
    The Rust Reference, chapters Identifiers, Comments, Whitespace and Tokens (edition 2021), as a machine that reads one character after
    the other.  No definition here models code in /repo.
    - Which characters outside ASCII may begin and continue a name ([XID_Start], [XID_Continue]) is a parameter.
    - A number is read as a run of letters, digits and underscores; points and signs in it are separate tokens here.  Whether it
      is a valid number is the subject of C24.
    - Raw strings, byte strings and C strings are not read: a quote directly after a name is an error here. *)
From Verif Require Import Base LitSpec.
Local Open Scope N_scope.

Inductive mode :=
| MTop                            (* between tokens, or in punctuation *)
| MWord (w : str)                 (* in a name or number, or in a lifetime *)
| MHash | MRaw (w : str)          (* after r#; in the name after it *)
| MSlash | MLine                  (* after a slash; in a comment up to the end of the line *)
| MBlock (depth : nat) (last : N) (* in a block comment; the last character, if it can be part of a delimiter *)
| MStr | MCr                      (* in a string; after a carriage return in it *)
| MEsc (q : N) | MHex1 (q : N) | MHex2 (q : N) | MUni0 (q : N) | MUni (q : N) (h : str)    (* in an escape, between quotes [q] *)
| MQuote | MOne (c : N) | MEnd.   (* after a single quote; after one character more; where a single quote must follow *)
Definition state := (mode * list N)%type.   (* with the closing brackets that are due *)

Definition between_b (a b c : N) : bool := (a <=? c) && (c <=? b).
Definition digit_b (c : N) : bool := between_b 48 57 c.
Definition hex_b (c : N) : bool := digit_b c || between_b 65 70 c || between_b 97 102 c.
(** A Unicode scalar value: what a [char] can be. *)
Definition scalar (c : N) : bool := (c <=? 1114111) && negb (between_b 55296 57343 c).
Definition code_point (h : str) : bool :=
  match h with
  | [] => false
  | c :: _ => negb (c =? 95) && Nat.leb (length (filter (fun c => negb (c =? 95)) h)) 6 && scalar (hex_value 0 h)
  end.
(** Whitespace; beyond ASCII: next line, left-to-right and right-to-left marks, line and paragraph separator. *)
Definition space_b (c : N) : bool := between_b 9 13 c || (c =? 32) || existsb (N.eqb c) [133; 8206; 8207; 8232; 8233].
Definition punctuation : str := lit "=<>!~+-*^&|@.,;:#$?%".
Definition closer (c : N) : option N :=
  if c =? 40 then Some 41 else if c =? 91 then Some 93 else if c =? 123 then Some 125 else None.
Definition not_raw : list str := [lit "crate"; lit "self"; lit "super"; lit "Self"; lit "_"].
Definition after (q : N) : mode := if q =? 34 then MStr else MEnd.

Section Lex.
  Variables xid_start xid_continue : N -> bool.
  Definition word_start (c : N) : bool :=
    between_b 65 90 c || between_b 97 122 c || (c =? 95) || (128 <=? c) && xid_start c.
  Definition word_char (c : N) : bool :=
    between_b 65 90 c || between_b 97 122 c || (c =? 95) || digit_b c || (128 <=? c) && (xid_start c || xid_continue c).
  (** A character where a token may begin *)
  Definition fresh (st : list N) (c : N) : option state :=
    if word_start c || digit_b c then Some (MWord [c], st)
    else if space_b c then Some (MTop, st)
    else if c =? 34 then Some (MStr, st)
    else if c =? 39 then Some (MQuote, st)
    else if c =? 47 then Some (MSlash, st)
    else match closer c with
         | Some d => Some (MTop, d :: st)
         | None => if existsb (N.eqb c) [41; 93; 125]
                   then match st with d :: st' => if d =? c then Some (MTop, st') else None | [] => None end
                   else if existsb (N.eqb c) punctuation then Some (MTop, st) else None
         end.
  (** A character after a name: a quote or number sign would make the name a prefix, and none of those is read here. *)
  Definition after_word (st : list N) (c : N) : option state :=
    if existsb (N.eqb c) [34; 39; 35] then None else fresh st c.
  Definition step (q : state) (c : N) : option state :=
    let st := snd q in
    match fst q with
    | MTop => fresh st c
    | MWord w => if word_char c then Some (MWord (w ++ [c]), st)
                 else if (c =? 35) && str_eqb w (lit "r") then Some (MHash, st) else after_word st c
    | MHash => if word_start c then Some (MRaw [c], st) else None
    | MRaw w => if word_char c then Some (MRaw (w ++ [c]), st) else if mem_str w not_raw then None else after_word st c
    | MSlash => if c =? 47 then Some (MLine, st) else if c =? 42 then Some (MBlock 1 0, st) else fresh st c
    | MLine => Some (if c =? 10 then MTop else MLine, st)
    | MBlock n p =>
        if (p =? 42) && (c =? 47) then Some (match n with S (S m) => MBlock (S m) 0 | _ => MTop end, st)
        else if (p =? 47) && (c =? 42) then Some (MBlock (S n) 0, st)
        else Some (MBlock n (if (c =? 42) || (c =? 47) then c else 0), st)
    | MStr => if c =? 34 then Some (MTop, st) else if c =? 92 then Some (MEsc 34, st) else if c =? 13 then Some (MCr, st) else Some (MStr, st)
    | MCr => if c =? 10 then Some (MStr, st) else None
    | MEsc q => if existsb (N.eqb c) [110; 114; 116; 92; 48; 39; 34] then Some (after q, st)
                else if c =? 120 then Some (MHex1 q, st) else if c =? 117 then Some (MUni0 q, st)
                else if (q =? 34) && (c =? 10) then Some (MStr, st)
                else if (q =? 34) && (c =? 13) then Some (MCr, st) else None
    | MHex1 q => if between_b 48 55 c then Some (MHex2 q, st) else None
    | MHex2 q => if hex_b c then Some (after q, st) else None
    | MUni0 q => if c =? 123 then Some (MUni q [], st) else None
    | MUni q h => if c =? 125 then if code_point h then Some (after q, st) else None
                  else if hex_b c || (c =? 95) then Some (MUni q (h ++ [c]), st) else None
    | MQuote => if c =? 92 then Some (MEsc 39, st) else if existsb (N.eqb c) [39; 10; 13; 9] then None else Some (MOne c, st)
    | MOne d => if c =? 39 then Some (MTop, st)
                else if word_start d then if word_char c then Some (MWord [39; d; c], st) else after_word st c
                else None
    | MEnd => if c =? 39 then Some (MTop, st) else None
    end.
  Fixpoint run (q : state) (s : str) : option state :=
    match s with [] => Some q | c :: s' => match step q c with Some q' => run q' s' | None => None end end.
  (** A token may end here. *)
  Definition ready (m : mode) : bool :=
    match m with MTop | MWord _ => true | MRaw w => negb (mem_str w not_raw) | _ => false end.
  (** The text can be divided into tokens, and its brackets match. *)
  Definition lexes (s : str) : bool :=
    match run (MTop, []) s with
    | Some (m, []) => match m with MSlash | MLine => true | m => ready m end
    | _ => false
    end.
  (** The same, and what follows the text cannot fall into a comment. *)
  Definition closed (s : str) : bool :=
    match run (MTop, []) s with Some (m, []) => ready m | _ => false end.
End Lex.
