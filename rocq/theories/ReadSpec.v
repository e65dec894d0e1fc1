(** * Specification: how Rust reads the tokens of an expression.
    The tokens of a generated expression, and the rules by which a Rust parser reads tokens: The Rust Reference, chapters
    Expressions and Operator expressions.  No definition here models code in /repo.  Where a token
    ends is said in TokenSpec.v. *)
From Verif Require Import Base Ws Ast GenExpr ParseSpec.
Local Open Scope N_scope.

(** What opens a piece of fixed text with an expression, or a list of arguments, inside.  The text around the expression is
    brackets on both sides, maybe with [?] after it. *)
Inductive opening :=
| OGroup | OArray
| OCycle | OTry | OFilter (builtin : bool) (name : str) | OSafe (escaper : str) | OEscape (escaper : str) | OFormat (fmt : str)
| OJoin | OMarkup (escaper : str)
| OArg (borrow braces : bool).
Inductive tok :=
| TAtom (e : rexpr)              (* a literal, a name, a path, a call of a Rust macro *)
| TDot (x : str)                 (* a field name with its dot *)
| TOp (s : str)
| TOpen (o : opening) | TClose (s : str)
| TSep                           (* a comma *)
| TBlank (s : str).              (* text that no rule looks at: blanks; a comma or a method call of a fixed text *)

Definition opening_text (o : opening) : str :=
  match o with
  | OGroup => lit "("
  | OArray => lit "["
  | OCycle => lit "({let _cycle = &("
  | OTry => lit "::core::result::Result::map_err("
  | OFilter b x => (if b then CRATE ++ lit "::" else []) ++ lit "filters::" ++ x ++ lit "("
  | OSafe esc => CRATE ++ lit "::filters::safe(" ++ esc ++ lit ", "
  | OEscape esc => CRATE ++ lit "::filters::escape(" ++ esc ++ lit ", "
  | OFormat fmt => lit "::std::format!(""" ++ fmt ++ lit """"
  | OJoin => CRATE ++ lit "::filters::join(("
  | OMarkup _ => CRATE ++ lit "::MarkupDisplay::new_unsafe(&("
  | OArg b c => (if b then lit "&(" else []) ++ (if c then lit "{" else [])
  end.
Definition closing (o : opening) : str :=
  match o with
  | OGroup | OFormat _ => lit ")"
  | OArray => lit "]"
  | OCycle => lit ");let _len = _cycle.len();if _len == 0 {return ::core::result::Result::Err(" ++ CRATE ++
              lit "::Error::Fmt(::core::fmt::Error));}_cycle[_loop_item.index % _len]})"
  | OTry => lit ", |err| " ++ CRATE ++ lit "::shared::Error::Custom(::core::convert::Into::into(err)))?"
  | OFilter _ _ | OSafe _ | OEscape _ | OJoin => lit ")?"
  | OMarkup esc => lit "), " ++ esc ++ lit ")"
  | OArg b c => (if c then lit "}" else []) ++ (if b then lit ")" else [])
  end.
Definition text (t : tok) : str :=
  match t with
  | TAtom e => show e
  | TDot x => lit "." ++ x
  | TOpen o => opening_text o
  | TSep => lit ","
  | TOp s | TClose s | TBlank s => s
  end.

Fixpoint sep_toks (s : list tok) (l : list (list tok)) : list tok :=
  match l with [] => [] | [x] => x | x :: l' => x ++ s ++ sep_toks s l' end.
(** The tokens of a tree, in order, with the text between them. *)
Definition between (o : opening) (ts : list tok) : list tok := TOpen o :: ts ++ [TClose (closing o)].
Definition comma : list tok := [TSep; TBlank (lit " ")].
Fixpoint spaced (e : rexpr) : list tok :=
  let arg (a : bool * bool * rexpr) := match a with (b, c, e) => if b || c then between (OArg b c) (spaced e) else spaced e end in
  let args l := sep_toks comma (map arg l) in
  match e with
  | RTok _ | RStr _ | RChar _ | RName _ | RPath _ | RMacro _ _ => [TAtom e]
  | RArr l => between OArray (sep_toks comma (map spaced l))
  | RTup l => between OGroup (sep_toks [TBlank (lit " ")] (map (fun e => spaced e ++ [TSep]) l))
  | RField e x => spaced e ++ [TDot x]
  | RIndex e i => spaced e ++ between OArray (spaced i)
  | RRef e => TOp (lit "&") :: spaced e
  | RDeref e => TOp (lit "*") :: spaced e
  | RUn op e => TOp op :: spaced e
  | RBin op l r => spaced l ++ TBlank (lit " ") :: TOp op :: TBlank (lit " ") :: spaced r
  | RRange op l r => match l with Some l => spaced l | None => [] end ++ TOp op :: match r with Some r => spaced r | None => [] end
  | RGrp e => between OGroup (spaced e)
  | RCycle e => between OCycle (spaced e)
  | RCall f l => spaced f ++ between OGroup (args l)
  | RTry e => between OTry (spaced e)
  | RFilter b x l => between (OFilter b x) (args l)
  | RSafe x a => between (OSafe x) (arg a)
  | REscape x a => between (OEscape x) (arg a)
  | RFormat x l => between (OFormat x) (match l with [] => [] | _ => TBlank (lit ", ") :: args l end)
  | RJoin l => between OJoin (match l with
                              | [] => [TBlank (lit "&")]
                              | a :: l => spaced a ++ TBlank (lit ").into_iter()") :: concat (map (fun e => comma ++ spaced e) l)
                              end)
  | RMarkup x e => between (OMarkup x) (spaced e)
  end.
Definition solid (t : tok) : bool := match t with TBlank _ => false | _ => true end.
(** The tokens of a tree. *)
Definition toks (e : rexpr) : list tok := filter solid (spaced e).

(** ** The reader *)
Definition atomic (e : rexpr) : Prop :=
  match e with
  | RTok s => hd_error s <> Some 45              (* a sign is not part of a literal *)
  | RStr _ | RChar _ | RName _ | RPath _ | RMacro _ _ => True
  | _ => False
  end.
(** ** Field names: names; an index; two indexes, as in [a.0.1], which Rust reads as the fields [0] and then [1] *)
Definition digit (c : N) : bool := (48 <=? c) && (c <=? 57).
Definition first_digit (x : str) : bool := match x with c :: _ => digit c | [] => false end.
Definition decimal (x : str) : bool := match x with [] => false | _ => forallb digit x end.
Fixpoint two_decimals (x : str) : bool := match x with c :: t => if c =? 46 then decimal t else digit c && two_decimals t | [] => false end.
Definition field_name (x : str) : bool :=
  match x with c :: _ => if digit c then decimal x || two_decimals x else negb (c =? 45) | [] => false end.
(** An index after a number is part of that number: [1 .0] is written [1.0]. *)
Definition is_number (e : rexpr) : bool := match e with RTok s => first_digit s | _ => false end.
Definition field_ok (e : rexpr) (x : str) : bool := field_name x && negb (first_digit x && is_number e).
(** Whether an operand begins here. *)
Definition starts (ts : list tok) : Prop :=
  match ts with
  | TAtom _ :: _ | TOpen _ :: _ => True
  | TOp op :: _ => op = lit "&" \/ op = lit "*" \/ In op unary_ops \/ In op range_ops
  | _ => False
  end.
(** No field, index or call follows. *)
Definition no_suffix (ts : list tok) : Prop :=
  match ts with TDot _ :: _ | TOpen OGroup :: _ | TOpen OArray :: _ => False | _ => True end.
(** No operator follows that would continue an operand read at level [k]. *)
Definition no_operator (k : nat) (ts : list tok) : Prop :=
  match ts with
  | TOp op :: _ => (forall p, In (op, p) precedence -> p < k)%nat /\ (In op range_ops -> 0 < k)%nat
  | _ => True
  end.
Definition is_comparison (e : rexpr) : Prop := match e with RBin op _ _ => In (op, 3%nat) precedence | _ => False end.
(** A range without left operand, maybe after [&]: takes all that follows as its right operand.  As an operand of anything
    but [&] it is left out here: not read. *)
Fixpoint range_first (e : rexpr) : bool :=
  match e with RRange _ None _ => true | RRef e => range_first e | _ => false end.

(** [Reads k ts e ts']: of the tokens [ts] an expression [e] is read, [ts'] is left.  Operators that bind less strongly than
    level [k] are left: 0 an expression, 1 an operand of a range, 10 an operand of a prefix operator. *)
Inductive Reads : nat -> list tok -> rexpr -> list tok -> Prop :=
| rd_range op ts r s : In op range_ops -> (op = lit "..=" -> r <> None) -> Right ts r s -> Reads 0 (TOp op :: ts) (RRange op None r) s
| rd_operand k ts e0 ts1 e s : Prefix ts e0 ts1 -> (range_first e0 = true -> k = 0%nat) -> More k e0 ts1 e s -> Reads k ts e s
(** Binary operators: the stronger first, those of the same strength from the left.  Two comparisons do not associate. *)
with More : nat -> rexpr -> list tok -> rexpr -> list tok -> Prop :=
| mo_bin k e op p ts r ts1 e' s : In (op, p) precedence -> (k <= p)%nat -> range_first e = false -> (p = 3%nat -> ~ is_comparison e) ->
    Reads (S p) ts r ts1 -> More k (RBin op e r) ts1 e' s -> More k e (TOp op :: ts) e' s
| mo_range e op ts r s : In op range_ops -> range_first e = false -> (op = lit "..=" -> r <> None) -> Right ts r s ->
    More 0 e (TOp op :: ts) (RRange op (Some e) r) s
| mo_end k e ts : no_operator k ts -> More k e ts e ts
(** The right operand of a range. *)
with Right : list tok -> option rexpr -> list tok -> Prop :=
| ri_some ts e s : starts ts -> Reads 1 ts e s -> Right ts (Some e) s
| ri_none ts : ~ starts ts -> Right ts None ts
with Prefix : list tok -> rexpr -> list tok -> Prop :=
| px_ref ts e s : Prefix ts e s -> Prefix (TOp (lit "&") :: ts) (RRef e) s
| px_ref_range op ts r s : In op range_ops -> (op = lit "..=" -> r <> None) -> Right ts r s ->
    Prefix (TOp (lit "&") :: TOp op :: ts) (RRef (RRange op None r)) s
| px_deref ts e s : range_first e = false -> Prefix ts e s -> Prefix (TOp (lit "*") :: ts) (RDeref e) s
| px_un op ts e s : In op unary_ops -> range_first e = false -> Prefix ts e s -> Prefix (TOp op :: ts) (RUn op e) s
| px_operand ts e0 ts1 e s : Primary ts e0 ts1 -> Suffix e0 ts1 e s -> Prefix ts e s
with Suffix : rexpr -> list tok -> rexpr -> list tok -> Prop :=
| su_field e x ts e' s : field_ok e x = true -> Suffix (RField e x) ts e' s -> Suffix e (TDot x :: ts) e' s
| su_index e ts i ts1 e' s : Reads 0 ts i (TClose (closing OArray) :: ts1) -> Suffix (RIndex e i) ts1 e' s -> Suffix e (TOpen OArray :: ts) e' s
| su_call e ts l ts1 e' s : Items OGroup ts l ts1 -> Suffix (RCall e l) ts1 e' s -> Suffix e (TOpen OGroup :: ts) e' s
| su_end e ts : no_suffix ts -> Suffix e ts e ts
with Primary : list tok -> rexpr -> list tok -> Prop :=
| pr_atom e ts : atomic e -> Primary (TAtom e :: ts) e ts
| pr_group ts e s : Reads 0 ts e (TClose (closing OGroup) :: s) -> Primary (TOpen OGroup :: ts) (RGrp e) s
| pr_tuple ts l s : Elements ts l s -> Primary (TOpen OGroup :: ts) (RTup l) s
| pr_array ts l s : Items OArray ts (map (pair (false, false)) l) s -> Primary (TOpen OArray :: ts) (RArr l) s
| pr_cycle ts e s : Reads 0 ts e (TClose (closing OCycle) :: s) -> Primary (TOpen OCycle :: ts) (RCycle e) s
| pr_try ts e s : Reads 0 ts e (TClose (closing OTry) :: s) -> Primary (TOpen OTry :: ts) (RTry e) s
| pr_filter b x ts l s : Items (OFilter b x) ts l s -> Primary (TOpen (OFilter b x) :: ts) (RFilter b x l) s
| pr_safe x ts a s : Items (OSafe x) ts [a] s -> Primary (TOpen (OSafe x) :: ts) (RSafe x a) s
| pr_escape x ts a s : Items (OEscape x) ts [a] s -> Primary (TOpen (OEscape x) :: ts) (REscape x a) s
| pr_format x ts l s : Items (OFormat x) ts l s -> Primary (TOpen (OFormat x) :: ts) (RFormat x l) s
| pr_join ts l s : Items OJoin ts (map (pair (false, false)) l) s -> Primary (TOpen OJoin :: ts) (RJoin l) s
| pr_markup x ts e s : Reads 0 ts e (TClose (closing (OMarkup x)) :: s) -> Primary (TOpen (OMarkup x) :: ts) (RMarkup x e) s
(** The elements of a tuple, a comma after each. *)
with Elements : list tok -> list rexpr -> list tok -> Prop :=
| el_end s : Elements (TClose (closing OGroup) :: s) [] s
| el_more ts e ts1 l s : Reads 0 ts e (TSep :: ts1) -> Elements ts1 l s -> Elements ts (e :: l) s
(** Arguments up to a closing bracket, with commas between them. *)
with Items : opening -> list tok -> list (bool * bool * rexpr) -> list tok -> Prop :=
| it_end o s : Items o (TClose (closing o) :: s) [] s
| it_last o ts a s : Item ts a (TClose (closing o) :: s) -> Items o ts [a] s
| it_more o ts a ts1 a' l s : Item ts a (TSep :: ts1) -> Items o ts1 (a' :: l) s -> Items o ts (a :: a' :: l) s
with Item : list tok -> bool * bool * rexpr -> list tok -> Prop :=
| im_bare ts e s : Reads 0 ts e s -> Item ts (false, false, e) s
| im_in b c ts e s : b || c = true -> Reads 0 ts e (TClose (closing (OArg b c)) :: s) -> Item (TOpen (OArg b c) :: ts) (b, c, e) s.
