(** * What it means that arguments are lent: specification of C64.  No definition here models code in /repo. *)
From Verif Require Import Base Ws Ast Ident GenExpr Gen.
Local Open Scope N_scope.

(** ** Generated expressions *)
(** A place in the sense of Rust: using it as a value moves (or copies) what is kept there. *)
Fixpoint place (r : rexpr) : bool :=
  match r with
  | RName _ | RField _ _ | RIndex _ _ | RDeref _ => true
  | RUn op _ => str_eqb op (lit "*")
  | RGrp r => place r
  | _ => false
  end.
(** The arguments with which an expression calls something. *)
Definition arguments (r : rexpr) : list (bool * bool * rexpr) :=
  match r with
  | RCall _ args | RFilter _ _ args | RFormat _ args => args
  | RSafe _ a | REscape _ a => [a]
  | _ => []
  end.
Definition parts (r : rexpr) : list rexpr :=
  match r with
  | RArr l | RTup l | RJoin l => l
  | RField e _ | RRef e | RDeref e | RUn _ e | RGrp e | RCycle e | RTry e | RMarkup _ e => [e]
  | RIndex a b | RBin _ a b => [a; b]
  | RRange _ l r => match l with Some e => [e] | None => [] end ++ match r with Some e => [e] | None => [] end
  | RCall f args => f :: map snd args
  | RFilter _ _ args | RFormat _ args => map snd args
  | RSafe _ a | REscape _ a => [snd a]
  | RTok _ | RStr _ | RChar _ | RName _ | RPath _ | RMacro _ _ => []
  end.
Inductive part_of : rexpr -> rexpr -> Prop :=
| po_here r : part_of r r
| po_part r p q : In p (parts r) -> part_of q p -> part_of q r.
(** Every argument of every call in the expression is behind a [&], or is not a place. *)
Definition lent (r : rexpr) : Prop :=
  forall q, part_of q r -> forall borrowed braces a, In (borrowed, braces, a) (arguments q) -> borrowed = true \/ place a = false.

(** ** Generated code *)
Definition test_values (t : rtest) : list rexpr :=
  match t with
  | RIf e | RIfLet _ e => [e]
  | RIfLetChain _ _ l r => [l; r]
  | RElse => []
  end.
(** All expressions in a statement. *)
Fixpoint values (s : stmt) : list rexpr :=
  match s with
  | SWriteStr _ | SDeclare _ | SLetStr _ _ | SBreak | SContinue | SIncludeBytes _ => []
  | SWriteFmt _ args | SLetFmt _ _ args => map snd args
  | SLet _ e | SAssign _ e => [e]
  | SLetTuple _ l => l
  | SIf branches => concat (map (fun b => match b with (t, body) => test_values t ++ concat (map values body) end) branches)
  | SMatch e arms => e :: concat (map (fun a => match a with (_, body) => concat (map values body) end) arms)
  | SLoop _ it _ flt _ body els tail =>
      it :: match flt with Some (_, c) => [c] | None => [] end ++
      concat (map values body) ++ concat (map values els) ++ concat (map values tail)
  | SBlock b => concat (map values b)
  end.
Definition all_values (code : list stmt) : list rexpr := concat (map values code).
