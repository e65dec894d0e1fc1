(** * Specification: which tokens Rust divides a text into.
    The machine of RustText.v says whether a text can be divided; here it also keeps the tokens.  As many characters as possible
    belong to one token (The Rust Reference, chapter Tokens).  No definition here models code in /repo.
    - Where an operand must begin, the parser of Rust takes [&&] as two [&]; so it is divided that way here.
    - After a point, as in [a.0.1], the parser takes a number with a point as two indexes; so it is divided that way here.
    - Comments are dropped. *)
From Verif Require Import Base LitSpec RustText.
Local Open Scope N_scope.

(** Tokens of more than one punctuation character *)
Definition compound : list str :=
  [lit "&&"; lit "||"; lit "=="; lit "!="; lit "<="; lit ">="; lit "+="; lit "-="; lit "*="; lit "/="; lit "%="; lit "^="; lit "&="; lit "|=";
   lit "<<"; lit ">>"; lit "<<="; lit ">>="; lit "->"; lit "=>"; lit "::"; lit ".."; lit "..."; lit "..="].
Definition numeric (t : str) : bool := match t with c :: _ => digit_b c | [] => false end.
Definition digits_b (t : str) : bool := forallb (fun c => digit_b c || (c =? 95)) t.
(** A number so far without a point, exponent or suffix *)
Definition whole_number (t : str) : bool :=
  match t with
  | 48 :: c :: u => if existsb (N.eqb c) [98; 111] then digits_b u else if c =? 120 then forallb (fun c => hex_b c || (c =? 95)) u else digits_b t
  | _ => digits_b t
  end.
Definition last_char (t : str) : N := last t 0.
(** A decimal number followed by the letter of an exponent *)
Definition exponent (t : str) : bool :=
  existsb (N.eqb (last_char t)) [69; 101] && forallb (fun c => digit_b c || (c =? 95) || (c =? 46)) (removelast t).
(** Words after which an operand begins *)
Definition openers : list str :=
  [lit "as"; lit "break"; lit "else"; lit "if"; lit "in"; lit "let"; lit "match"; lit "move"; lit "mut"; lit "ref"; lit "return"; lit "while"].
Definition ends_operand (t : str) : bool :=
  match t with
  | [] => false
  | _ => negb (mem_str t openers) && negb (existsb (N.eqb (last_char t)) punctuation && negb (last_char t =? 63)) &&
         negb (existsb (N.eqb (last_char t)) [40; 91; 123; 47])
  end.

Section Tokens.
  Variables xid_start xid_continue : N -> bool.
  Notation step := (RustText.step xid_start xid_continue).
  Definition flush (cur : str) : list str := match cur with [] => [] | _ => [cur] end.
  (** A character [c] after the token [cur], where it could belong to the next one; [prev] is the token before.  The tokens
      that are complete now, and the one being read. *)
  Definition cont (prev cur : str) (c : N) : list str * str :=
    if numeric cur then
      if last_char cur =? 46 then
        if digit_b c then ([], cur ++ [c])
        else if c =? 46 then ([removelast cur], lit "..")
        else if word_start xid_start c then ([removelast cur; lit "."], [c]) else ([cur], [c])
      else if (c =? 46) && whole_number cur && negb (str_eqb prev (lit ".")) || exponent cur && existsb (N.eqb c) [43; 45] ||
              existsb (N.eqb (last_char cur)) [43; 45] && (digit_b c || (c =? 95))
      then ([], cur ++ [c]) else ([cur], [c])
    else if mem_str (cur ++ [c]) compound && negb (str_eqb (cur ++ [c]) (lit "&&") && negb (ends_operand prev))
    then ([], cur ++ [c]) else (flush cur, [c]).
  (** The state of the machine, the token being read, and the tokens before *)
  Definition tstate := (state * str * list str)%type.
  Definition tstep (q : tstate) (c : N) : option tstate :=
    match q with
    | (s, cur, out) =>
        match step s c with
        | None => None
        | Some s' =>
            let join := (s', cur ++ [c], out) in
            let between :=
              match fst s' with
              | MLine | MBlock _ _ => (s', [], out)
              | _ => if space_b c && negb (word_start xid_start c) then (s', [], out ++ flush cur)
                     else let (done, cur') := cont (last out []) cur c in (s', cur', out ++ done)
              end in
            Some match fst s with
                 | MTop | MSlash => between
                 | MWord _ => if word_char xid_start xid_continue c || (c =? 35) then join else between
                 | MRaw _ => if word_char xid_start xid_continue c then join else between
                 | MOne _ => if (c =? 39) || word_char xid_start xid_continue c then join else between
                 | MLine | MBlock _ _ => (s', [], out)
                 | _ => join
                 end
        end
    end.
  Fixpoint trun (q : tstate) (s : str) : option tstate :=
    match s with [] => Some q | c :: s' => match tstep q c with Some q' => trun q' s' | None => None end end.
  (** The tokens of a text, if it can be divided. *)
  Definition tokens (s : str) : option (list str) :=
    match trun ((MTop, []), [], []) s with
    | Some (m, [], cur, out) => if ready m then Some (out ++ flush cur) else None
    | _ => None
    end.
End Tokens.
