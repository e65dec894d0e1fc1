(** * Which names are bound in generated code: specification of C65.  No definition here models code in /repo.  The types of
    statements and expressions are those of Gen.v and GenExpr.v; the scopes are those of the Rust reference: a let is seen by
    the statements after it in the same block, the names of a pattern by the branch, arm, loop body or closure it stands before. *)
From Verif Require Import Base Ws Ast Ident IdentFacts GenExpr Gen TreeSpec.
Local Open Scope N_scope.

(** ** Generated code *)
(** The local names an expression uses.  Paths, such as [a::b] or [Some], are not local names.  What is inside the parentheses of
    a Rust macro is not looked at.  The code of [loop.cycle] uses the variable of the loop. *)
Definition LOOP : str := lit "_loop_item".
Fixpoint names (r : rexpr) : list str :=
  match r with
  | RName x => [x]
  | RTok _ | RStr _ | RChar _ | RPath _ | RMacro _ _ => []
  | RArr l | RTup l | RJoin l => concat (map names l)
  | RField e _ | RRef e | RDeref e | RUn _ e | RGrp e | RTry e | RMarkup _ e => names e
  | RCycle e => LOOP :: names e
  | RIndex a b | RBin _ a b => names a ++ names b
  | RRange _ l r => match l with Some e => names e | None => [] end ++ match r with Some e => names e | None => [] end
  | RCall f args => names f ++ concat (map (fun a => match a with (_, e) => names e end) args)
  | RFilter _ _ args | RFormat _ args => concat (map (fun a => match a with (_, e) => names e end) args)
  | RSafe _ (_, e) | REscape _ (_, e) => names e
  end.
(** The names a pattern binds. *)
Fixpoint pattern_names (t : target) : list str :=
  match t with
  | TName x => if str_eqb x (lit "_") then [] else [x]
  | TTuple _ l | TOrChain l => concat (map pattern_names l)
  | TStruct _ l => concat (map (fun x => match x with (_, t) => pattern_names t end) l)
  | _ => []
  end.
(** The names a statement binds for those after it. *)
Definition binds (s : stmt) : list str :=
  match s with
  | SDeclare p | SLet p _ => pattern_names p
  | SLetTuple l _ => l
  | SLetStr x _ | SLetFmt x _ _ => [x]
  | _ => []
  end.
Definition missing (env l : list str) : list str := List.filter (fun x => negb (mem_str x env)) l.
Definition test_names (t : rtest) : list str := match t with RIfLet p _ | RIfLetChain p _ _ _ => pattern_names p | RIf _ | RElse => [] end.
Definition test_unbound (env : list str) (t : rtest) : list str :=
  match t with
  | RIf e | RIfLet _ e => missing env (names e)
  | RIfLetChain p _ l r => missing env (names l) ++ missing (pattern_names p ++ env) (names r)
  | RElse => []
  end.
(** The names used in a statement, or in a list of statements, that neither [env] nor the code binds where they are used. *)
Fixpoint unbound (env : list str) (s : stmt) : list str :=
  let many := fix many (env : list str) (l : list stmt) : list str :=
    match l with [] => [] | s :: l' => unbound env s ++ many (binds s ++ env) l' end in
  match s with
  | SWriteStr _ | SDeclare _ | SLetStr _ _ | SBreak | SContinue | SIncludeBytes _ => []
  | SWriteFmt _ args | SLetFmt _ _ args => missing env (concat (map (fun a => names (snd a)) args))
  | SLet _ e => missing env (names e)
  | SAssign p e => missing env (pattern_names p) ++ missing env (names e)
  | SLetTuple _ l => missing env (concat (map names l))
  | SIf branches => concat (map (fun b => match b with (t, body) => test_unbound env t ++ many (test_names t ++ env) body end) branches)
  | SMatch e arms => missing env (names e) ++ concat (map (fun a => match a with (p, body) => many (pattern_names p ++ env) body end) arms)
  | SLoop _ it _ flt v body els tail =>
      missing env (names it) ++ match flt with Some (p, c) => missing (pattern_names p ++ env) (names c) | None => [] end ++
      many (pattern_names v ++ LOOP :: env) body ++ many env els ++ many env tail
  | SBlock b => many env b
  end.
Fixpoint all_unbound (env : list str) (l : list stmt) : list str :=
  match l with [] => [] | s :: l' => unbound env s ++ all_unbound (binds s ++ env) l' end.

(** ** Templates *)
(** The expression uses [loop.…]. *)
Definition names_loop (e : expr) : Prop := exists x, sub (Attr (Var (lit "loop")) x) e.
(** Some use of [loop.…] among the nodes is not in the body of a loop among them. *)
Definition stray (ns : list node) : Prop := exists n e, occurs ns false n /\ expr_of n e /\ names_loop e.
(** In a template and in each of its blocks, [loop.…] is used in the body of a loop of that template or block only. *)
Definition loops_kept (ns : list node) : Prop :=
  ~ stray ns /\ forall b w1 x body w2, occurs ns b (NBlockDef w1 x body w2) -> ~ stray body.
(** The parameters of the macros with the name [m]. *)
Definition parameter (templates : list (str * list node)) (m x : str) : Prop :=
  exists p ns b w1 params body w2, In (p, ns) templates /\ occurs ns b (NMacro w1 m params body w2) /\ In x params.
(** An argument that is a name or a field is not bound by a let. *)
Definition bound_by_let (a : expr) : Prop := match a with Var x => x = lit "self" | Attr _ _ => False | _ => True end.
(** No parameter of a macro is a keyword, and no argument of a macro call, other than a name or field, uses a name that is a
    parameter of the macro called (or of another macro with its name). *)
Definition parameters_apart (templates : list (str * list node)) : Prop :=
  (forall m x, parameter templates m x -> ~ In x rust_keywords) /\
  (forall p ns b w scope m args a y, In (p, ns) templates -> occurs ns b (NCall w scope m args) -> In a args -> bound_by_let a ->
     sub (Var y) a -> ~ parameter templates m (rust_name y)).
