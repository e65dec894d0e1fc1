(** * Specification: what is where in a syntax tree. *)
From Verif Require Import Base Ws Ast.
Local Open Scope N_scope.

(** [child b n b' m]: [m] is directly inside [n]; [b]/[b']: the node is in the body of some for loop. *)
Inductive child : bool -> node -> bool -> node -> Prop :=
| ch_if b w cs w' t ns m : In (Cond w' t ns) cs -> In m ns -> child b (NIf w cs) b m
| ch_match b w1 e arms w2 w' t ns m : In (When w' t ns) arms -> In m ns -> child b (NMatch w1 e arms w2) b m
| ch_body b w1 v it c body w2 els w3 m : In m body -> child b (NLoop w1 v it c body w2 els w3) true m
| ch_else b w1 v it c body w2 els w3 m : In m els -> child b (NLoop w1 v it c body w2 els w3) b m
| ch_block b w1 x ns w2 m : In m ns -> child b (NBlockDef w1 x ns w2) b m
| ch_macro b w1 x args ns w2 m : In m ns -> child b (NMacro w1 x args ns w2) b m
| ch_filter b w1 x args ns w2 m : In m ns -> child b (NFilterBlock w1 x args ns w2) b m.
Inductive inside : bool -> node -> bool -> node -> Prop :=
| in_here b n : inside b n b n
| in_child b n b1 m b2 k : child b n b1 m -> inside b1 m b2 k -> inside b n b2 k.
(** A node anywhere in a template. *)
Definition occurs (ns : list node) (b : bool) (m : node) : Prop := exists n, In n ns /\ inside false n b m.

(** Direct subexpressions, and subexpressions. *)
Definition opt_list {A} (o : option A) : list A := match o with Some a => [a] | None => [] end.
Definition kids (e : expr) : list expr :=
  match e with
  | BoolLit _ | NumLit _ | StrLit _ | CharLit _ | Var _ | Path _ | RustMacro _ _ | Generated _ => []
  | Arr l | Tuple l | Filter _ l => l
  | Attr e _ | NamedArgument _ e | Unary _ e | Group e | Try e => [e]
  | Index a b | BinOp _ a b => [a; b]
  | Range _ l r => opt_list l ++ opt_list r
  | Call f l => f :: l
  end.
Inductive sub : expr -> expr -> Prop :=
| sub_refl e : sub e e
| sub_kid e k e' : In k (kids e) -> sub e' k -> sub e' e.

(** The expressions that belong directly to a node: for a macro call, the values of its arguments. *)
Inductive expr_of : node -> expr -> Prop :=
| eo_expr w e : expr_of (NExpr w e) e
| eo_pos w sc x args e : In e args -> (forall k v, e <> NamedArgument k v) -> expr_of (NCall w sc x args) e
| eo_named w sc x args k e : In (NamedArgument k e) args -> expr_of (NCall w sc x args) e
| eo_let w t e : expr_of (NLet w t (Some e)) e
| eo_if w cs w' t ns : In (Cond w' (Some t) ns) cs -> expr_of (NIf w cs) (ct_expr t)
| eo_match w1 e arms w2 : expr_of (NMatch w1 e arms w2) e
| eo_iter w1 v it c body w2 els w3 : expr_of (NLoop w1 v it c body w2 els w3) it
| eo_cond w1 v it c body w2 els w3 : expr_of (NLoop w1 v it (Some c) body w2 els w3) c
| eo_filter w1 x args ns w2 e : In e args -> expr_of (NFilterBlock w1 x args ns w2) e.

(** ** Positions in a text *)
(** The row and column (from 0) of the position after [pre]: the line feeds before it, the characters after the last one. *)
Definition count_lf (s : str) : nat := length (List.filter (N.eqb 10) s).
Definition position (pre : str) (row col : nat) : Prop :=
  exists a b, pre = a ++ b /\ ~ In 10 b /\ (a = [] \/ exists a', a = a' ++ [10]) /\ row = count_lf a /\ col = length b.

(** ** Pieces of source text *)
(** A whitespace marker as written. *)
Definition mark (m : option handling) : str :=
  match m with None => [] | Some Preserve => lit "+" | Some Suppress => lit "-" | Some Minimize => lit "~" end.
Definition blanks (s : str) : Prop := Forall (fun c => In c [32; 9; 13; 10]) s.
(** A tag with one keyword: delimiters [bs] and [be], markers and blanks in between. *)
Definition keyword_tag (bs be kw : str) (m : option handling) (b b' : str) (m' : option handling) : str :=
  bs ++ mark m ++ b ++ kw ++ b' ++ mark m' ++ be.
Definition starts_keyword_tag (bs be kw s : str) : Prop :=
  exists m b b' m' t, blanks b /\ blanks b' /\ s = keyword_tag bs be kw m b b' m' ++ t.
(** The first character of a closing delimiter cannot belong to the keyword, the blanks or the marker before it. *)
Definition closing_ok (be : str) : Prop :=
  match be with
  | [] => False
  | c :: _ => ~ In c (lit "+-~" ++ [32; 9; 13; 10]) /\ ~ (65 <= c <= 90 \/ 97 <= c <= 122 \/ c = 95 \/ 128 <= c \/ 48 <= c <= 57)
  end.
(** The text [t] occurs in [s]. *)
Definition contains (t s : str) : Prop := exists a b, s = a ++ t ++ b.

(** Nested comments as a tree. *)
Inductive ctree := CText (s : str) | CNest (l : list ctree).
Fixpoint ctree_src (cs ce : str) (t : ctree) : str :=
  match t with CText s => s | CNest l => cs ++ concat (map (ctree_src cs ce) l) ++ ce end.
Fixpoint ctree_ok (cs ce : str) (t : ctree) : Prop :=
  match t with
  | CText s => Forall (fun c => hd_error cs <> Some c /\ hd_error ce <> Some c) s
  | CNest l => fold_right and True (map (ctree_ok cs ce) l)
  end.
(** Reading a comment character by character at nesting depth [d]; the comment ends before the given rest. *)
Inductive closes (cs ce : str) : nat -> str -> str -> Prop :=
| cl_open d s r : closes cs ce (S d) s r -> closes cs ce d (cs ++ s) r
| cl_close d s r : (forall x, ce ++ s <> cs ++ x) -> closes cs ce d s r -> closes cs ce (S d) (ce ++ s) r
| cl_end s : (forall x, ce ++ s <> cs ++ x) -> closes cs ce 0 (ce ++ s) s
| cl_char d c s r : (forall x, c :: s <> cs ++ x) -> (forall x, c :: s <> ce ++ x) -> closes cs ce d s r -> closes cs ce d (c :: s) r.
