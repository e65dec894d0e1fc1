(** * Specification: how an expression is written, and which trees the text stands for. *)
From Verif Require Import Base Ws Ast LitSpec ParseSpec TreeSpec.
Local Open Scope N_scope.

(** ** Writing an expression *)
Fixpoint sep_by (sep : str) (l : list str) : str :=
  match l with [] => [] | [x] => x | x :: l' => x ++ sep ++ sep_by sep l' end.
Definition starts_number (a : str) : bool := match a with c :: _ => (c =? 45) || ((48 <=? c) && (c <=? 57)) | [] => false end.
(** Binary operators and ranges have a space on both sides, commas a space after them, a filter always has its argument list;
    parentheses are written where the tree has a [Group]. *)
Fixpoint text (e : expr) : str :=
  match e with
  | BoolLit s | NumLit s | Var s | Generated s => s
  | StrLit s => lit """" ++ s ++ lit """"
  | CharLit s => lit "'" ++ s ++ lit "'"
  | Path l => sep_by (lit "::") l
  | Arr l => lit "[" ++ sep_by (lit ", ") (map text l) ++ lit "]"
  | Attr e a => text e ++ (if starts_number a then lit " ." else lit ".") ++ a
  | Index e i => text e ++ lit "[" ++ text i ++ lit "]"
  | Filter f l =>
      match l with
      | [] => []
      | o :: args => text o ++ lit "|" ++ f ++ lit "(" ++ sep_by (lit ", ") (map text args) ++ lit ")"
      end
  | NamedArgument n e => n ++ lit "=" ++ text e
  | Unary op e => op ++ text e
  | BinOp op l r => text l ++ lit " " ++ op ++ lit " " ++ text r
  | Range op l r =>
      match l with Some e => text e ++ lit " " | None => [] end ++ op ++ match r with Some e => lit " " ++ text e | None => [] end
  | Group e => lit "(" ++ text e ++ lit ")"
  | Tuple l => lit "(" ++ sep_by (lit ", ") (map text l) ++ (match l with [_] => lit "," | _ => [] end) ++ lit ")"
  | Call f l => text f ++ lit "(" ++ sep_by (lit ", ") (map text l) ++ lit ")"
  | RustMacro p a => sep_by (lit "::") p ++ lit "!(" ++ a ++ lit ")"
  | Try e => text e ++ lit "?"
  end.

(** ** Which trees are written unambiguously *)
(** The text between the quotes of a character literal. *)
Inductive char_text : str -> Prop :=
| ct_plain c : c <> 39 -> c <> 92 -> char_text [c]
| ct_simple c : In c [110; 114; 116; 92; 48; 39; 34] -> char_text [92; c]
| ct_ascii a b : 48 <= a <= 55 -> digit_of 16 b -> char_text [92; 120; a; b]
| ct_unicode h : Forall (digit_of 16) h -> (1 <= length h <= 6)%nat -> hex_value 0 h <= 1114111 ->
    char_text (92 :: 117 :: 123 :: h ++ [125]).
(** Text, starting [n] deep in parentheses, in which the parentheses outside string literals match.  (A backslash stands only
    inside a string.) *)
Inductive matching : N -> str -> Prop :=
| mt_nil : matching 0 []
| mt_open n s : matching (n + 1) s -> matching n (40 :: s)
| mt_close n s : 0 < n -> matching (n - 1) s -> matching n (41 :: s)
| mt_plain n c s : ~ In c [40; 41; 34; 92] -> matching n s -> matching n (c :: s)
| mt_string n q s : quoted 34 q -> matching n s -> matching n (34 :: q ++ 34 :: s).
Section Canon.
  (** [char::is_lowercase] *)
  Variable lc : N -> bool.
  Definition lower_first (s : str) : Prop := match s with c :: _ => lc c = true | [] => False end.
  Definition is_bool (s : str) : Prop := s = lit "true" \/ s = lit "false".
  (** A path that is not a variable and not a truth value. *)
  Definition proper_path (p : list str) : Prop := path_ok p /\ forall s, p = [s] -> ~ lower_first s.

  (** [canon k e]: the tree [e] can stand where an operand of strength [k] is expected: 0 range, 1 to 9 binary operators,
      10 filters, 11 prefix operators, 12 postfix operators, 13 literals, names and brackets.  The left operand of a binary
      operator may have the same strength, the right one must be stronger. *)
  Fixpoint canon (k : nat) (e : expr) {struct e} : Prop :=
    match e with
    | BoolLit s => (k <= 13)%nat /\ is_bool s /\ lower_first s
    | NumLit s => (k <= 13)%nat /\ rust_number s
    | StrLit s => (k <= 13)%nat /\ quoted 34 s
    | CharLit s => (k <= 13)%nat /\ char_text s
    | Var s => (k <= 13)%nat /\ ident s /\ lower_first s /\ ~ is_bool s
    | Path p => (k <= 13)%nat /\ proper_path p
    | Arr l => (k <= 13)%nat /\ (fix all l := match l with [] => True | e :: l' => canon 0 e /\ all l' end) l
    | Group e => (k <= 13)%nat /\ canon 0 e
    | Tuple l => (k <= 13)%nat /\ (fix all l := match l with [] => True | e :: l' => canon 0 e /\ all l' end) l
    | Attr e a => (k <= 12)%nat /\ canon 12 e /\ (ident a \/ signed_number a)
    | Index e i => (k <= 12)%nat /\ canon 12 e /\ canon 0 i
    | Call f l => (k <= 12)%nat /\ canon 12 f /\ (fix all l := match l with [] => True | e :: l' => canon 0 e /\ all l' end) l
    | Try e => (k <= 12)%nat /\ canon 12 e
    | RustMacro p a => (k <= 12)%nat /\ path_ok p /\ (forall s, p = [s] -> lower_first s -> ~ is_bool s) /\ matching 0 a
    | Unary op e => (k <= 11)%nat /\ In op unary_ops /\ canon 11 e
    | Filter f l =>
        (k <= 10)%nat /\ ident f /\
        match l with
        | [] => False
        | o :: args => canon 10 o /\ (fix all l := match l with [] => True | e :: l' => canon 0 e /\ all l' end) args
        end
    | BinOp op l r => exists p, In (op, p) precedence /\ (k <= p)%nat /\ canon p l /\ canon (S p) r
    | Range op l r =>
        k = O /\ In op range_ops /\ match l with Some e => canon 1 e | None => True end /\ match r with Some e => canon 1 e | None => True end
    | NamedArgument _ _ | Generated _ => False
    end.
End Canon.

(** ** The nesting that the parser's limit counts *)
Fixpoint max_list (l : list nat) : nat := match l with [] => O | n :: l' => Nat.max n (max_list l') end.
(** Brackets of any kind count 15 levels, a prefix operator one. *)
Fixpoint need (e : expr) : nat :=
  match e with
  | BoolLit _ | NumLit _ | StrLit _ | CharLit _ | Var _ | Path _ | RustMacro _ _ | Generated _ => O
  | Arr l | Tuple l => (15 + max_list (map (fun e => need e) l))%nat
  | Group e => (15 + need e)%nat
  | Attr e _ | Try e | NamedArgument _ e => need e
  | Index e i => Nat.max (need e) (15 + need i)
  | Call f l => Nat.max (need f) (15 + max_list (map (fun e => need e) l))
  | Filter _ l => match l with [] => O | o :: args => Nat.max (need o) (15 + max_list (map (fun e => need e) args)) end
  | Unary _ e => S (need e)
  | BinOp _ l r => Nat.max (need l) (need r)
  | Range _ l r => Nat.max (match l with Some e => need e | None => O end) (match r with Some e => need e | None => O end)
  end.

(** ** Where an expression stands *)
(** No operand starts like this. *)
Definition no_operand (s : str) : Prop :=
  match s with
  | [] => False
  | c :: _ => ~ ident_start c /\ ~ 48 <= c <= 57 /\ ~ In c ([32; 9; 13; 10; 34; 39] ++ lit "-:[(!")
  end.
(** A closing delimiter that cannot be read as a continuation of the expression, nor as a whitespace marker.  It may start
    with a percent sign, if that is not followed by an operand. *)
Definition plain_end (s : str) : Prop :=
  match s with
  | [] => False
  | c :: t =>
      ~ ident_start c /\ ~ 48 <= c <= 57 /\
      (~ In c ([32; 9; 13; 10; 34; 39] ++ lit "+-*/%&|^<>=!.[(?:~") \/ c = 37 /\ no_operand t)
  end.
(** An expression tag: delimiters [es] and [ee], markers and blanks around the text [t]. *)
Definition expr_tag (es ee : str) (m : option handling) (b t b' : str) (m' : option handling) : str :=
  es ++ mark m ++ b ++ t ++ b' ++ mark m' ++ ee.

(** ** Operator trees and their minimal parentheses *)
(** The abstract tree of an arithmetic or logical expression over variables, as Rust has it: no parentheses. *)
Inductive tree := Leaf (x : str) | Neg (op : str) (t : tree) | Op (op : str) (l r : tree).
(** Strength: of the operator at the top, as in [precedence]; prefix operators and names are stronger. *)
Definition strength (t : tree) : nat :=
  match t with Leaf _ => 13%nat | Neg _ _ => 11%nat | Op op _ _ => find_prec op precedence end.
(** The tree with a [Group] exactly where Rust needs parentheses: around a weaker operand, around a right operand of the same
    strength, and around either operand of a comparison that is itself a comparison (they do not associate). *)
Definition paren (b : bool) (e : expr) : expr := if b then Group e else e.
Fixpoint written (t : tree) : expr :=
  match t with
  | Leaf x => Var x
  | Neg op t => Unary op (paren (Nat.ltb (strength t) 11) (written t))
  | Op op l r =>
      let p := find_prec op precedence in
      BinOp op (paren (Nat.ltb (strength l) p || (Nat.eqb p 3 && Nat.eqb (strength l) 3)) (written l))
               (paren (Nat.leb (strength r) p) (written r))
  end.
(** The tree without its parentheses. *)
Fixpoint bare (e : expr) : option tree :=
  match e with
  | Var x => Some (Leaf x)
  | Group e => bare e
  | Unary op e => match bare e with Some t => Some (Neg op t) | None => None end
  | BinOp op l r => match bare l, bare r with Some a, Some b => Some (Op op a b) | _, _ => None end
  | _ => None
  end.
Section Tree.
  Variable lc : N -> bool.
  Fixpoint tree_ok (t : tree) : Prop :=
    match t with
    | Leaf x => ident x /\ lower_first lc x /\ ~ is_bool x
    | Neg op t => In op unary_ops /\ tree_ok t
    | Op op l r => In op binary_ops /\ tree_ok l /\ tree_ok r
    end.
End Tree.
