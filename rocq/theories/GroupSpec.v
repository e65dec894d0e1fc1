(** * Specification: how Rust groups the generated expressions.
    What Rust reads where the generator wrote an expression is said by the reader in ReadSpec.v. *)
From Verif Require Import Base Ws Ast GenExpr Heritage Gen TreeSpec ParseSpec Sem ReadSpec.
Local Open Scope N_scope.

(** The same expression without any [&]. *)
Fixpoint unref (e : rexpr) : rexpr :=
  let arg (a : bool * bool * rexpr) := match a with (b, c, e) => (b, c, unref e) end in
  match e with
  | RRef e => unref e
  | RArr l => RArr (map unref l)
  | RTup l => RTup (map unref l)
  | RField e x => RField (unref e) x
  | RIndex e i => RIndex (unref e) (unref i)
  | RDeref e => RDeref (unref e)
  | RUn op e => RUn op (unref e)
  | RBin op l r => RBin op (unref l) (unref r)
  | RRange op l r => RRange op (option_map unref l) (option_map unref r)
  | RGrp e => RGrp (unref e)
  | RCycle e => RCycle (unref e)
  | RCall f l => RCall (unref f) (map arg l)
  | RTry e => RTry (unref e)
  | RFilter b x l => RFilter b x (map arg l)
  | RSafe x a => RSafe x (arg a)
  | REscape x a => REscape x (arg a)
  | RFormat x l => RFormat x (map arg l)
  | RJoin l => RJoin (map unref l)
  | RMarkup x e => RMarkup x (unref e)
  | e => e
  end.

(** [t] is what Rust reads, as an operand of level [k], where the generator wrote [r]: its text is the same, with the same blanks,
    and it differs from [r] at most in which part of the expression an [&] belongs to; where references are transparent the value
    is the same. *)
Definition read_as (k : nat) (r t : rexpr) : Prop :=
  Reads k (toks r) t [] /\ spaced t = spaced r /\ unref t = unref r /\ forall w en st, reval w en st t = reval w en st r.

(** ** The expressions written in a statement, with the [&] that is written before them, and how strongly each must bind *)
(** What follows [let p =] in a condition must bind more strongly than [&&] and is a chain of such operands; with [||] it is
    not Rust. *)
Definition test_exprs (t : rtest) : list (nat * rexpr) :=
  match t with
  | RIf e => [(0%nat, e)]
  | RIfLet _ e => [(3%nat, RRef e)]
  | RIfLetChain _ op l r =>
      match (if str_eqb op (lit "&&") then let_chain l else None) with
      | Some (h, rest) => (3%nat, RRef h) :: map (pair 3%nat) rest ++ [(3%nat, r)]
      | None => [(12%nat, r)]
      end
  | RElse => []
  end.
Fixpoint exprs_in (s : stmt) : list (nat * rexpr) :=
  match s with
  | SWriteStr _ | SDeclare _ | SLetStr _ _ | SBreak | SContinue | SIncludeBytes _ => []
  | SWriteFmt _ args | SLetFmt _ _ args => map (fun a => (0%nat, RRef (snd a))) args
  | SLet _ e | SAssign _ e => [(0%nat, e)]
  | SLetTuple _ values => map (pair 0%nat) values
  | SIf branches => concat (map (fun b => match b with (t, body) => test_exprs t ++ concat (map exprs_in body) end) branches)
  | SMatch e arms => (0%nat, RRef e) :: concat (map (fun a => match a with (_, body) => concat (map exprs_in body) end) arms)
  | SLoop _ it how flt _ body els tail =>
      (0%nat, match how with IterRange | IterInto => it | IterRefInto => RRef it | IterArray => RCall (RField it (lit "iter")) [] end) ::
      match flt with Some (_, c) => [(0%nat, c)] | None => [] end ++
      concat (map exprs_in body) ++ concat (map exprs_in els) ++ concat (map exprs_in tail)
  | SBlock b => concat (map exprs_in b)
  end.
Definition all_exprs (code : list stmt) : list (nat * rexpr) := concat (map exprs_in code).
Definition reads_well (x : nat * rexpr) : Prop := (fst x <= 10)%nat /\ exists t, read_as (fst x) (snd x) t.

(** ** The templates for which it holds *)
Definition comparison (op : str) : Prop := In (op, 3%nat) precedence.
(** No comparison whose left side is a comparison, no [..=] without end, no number as a field that is not an index, no index of a number. *)
Definition plain_grouping (e : expr) : Prop :=
  match e with
  | BinOp op (BinOp op' _ _) _ => ~ (comparison op /\ comparison op')
  | Range op _ r => op = lit "..=" -> r <> None
  | Attr e a => field_name a = true /\ (first_digit a = true -> forall s, e <> NumLit s)
  | _ => True
  end.
(** In [if let] neither a range nor [||]. *)
Definition plain_let (n : node) : Prop :=
  match n with
  | NIf _ cs => forall w t p ns, In (Cond w (Some t) ns) cs -> ct_target t = Some p ->
                  match ct_expr t with BinOp op _ _ => op <> lit "||" | Range _ _ _ => False | _ => True end
  | _ => True
  end.
Definition plain_template (ns : list node) : Prop :=
  forall b n, occurs ns b n -> plain_let n /\ forall e e', expr_of n e -> sub e' e -> plain_grouping e'.
