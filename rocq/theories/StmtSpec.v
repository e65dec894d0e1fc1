(** * Specification for Prop_Stmt.v: which generated statements Rust's grammar allows.
    No definition here models code in /repo.  The type of statements is that of Gen.v; the rules are those of the Rust reference
    for if expressions, let statements, closure parameters, assignments and break and continue expressions. *)
From Verif Require Import Base Ws Ast GenExpr Gen TreeSpec.
Local Open Scope N_scope.

(** A pattern without alternatives at its top: what may follow [let] or stand between the bars of a closure. *)
Definition no_alternatives (p : target) : Prop := forall l, p <> TOrChain l.
(** if, then any number of else if, then at most one else. *)
Definition if_chain (ts : list rtest) : Prop :=
  exists t mid fin, ts = t :: mid ++ fin /\ Forall (fun t => t <> RElse) (t :: mid) /\ (fin = [] \/ fin = [RElse]).
(** [allowed b s]: the statement may stand where [b] says whether there is a loop around. *)
Fixpoint allowed (b : bool) (s : stmt) : Prop :=
  match s with
  | SBreak | SContinue => b = true
  | SDeclare p | SLet p _ => no_alternatives p
  | SAssign p _ => exists x, p = TName x
  | SLetTuple names values => names <> [] /\ length names = length values
  | SIf branches => if_chain (map fst branches) /\
      fold_right and True (map (fun x => fold_right and True (map (allowed b) (snd x))) branches)
  | SMatch _ arms => arms <> [] /\ fold_right and True (map (fun x => fold_right and True (map (allowed b) (snd x))) arms)
  | SLoop _ _ _ flt _ body els tail => (forall p e, flt = Some (p, e) -> no_alternatives p) /\
      fold_right and True (map (allowed true) body) /\ fold_right and True (map (allowed b) els) /\ fold_right and True (map (allowed b) tail)
  | SBlock l => fold_right and True (map (allowed b) l)
  | SWriteStr _ | SWriteFmt _ _ | SLetStr _ _ | SLetFmt _ _ _ | SIncludeBytes _ => True
  end.

(** Some break or continue among the nodes is not in a loop among them. *)
Definition escapes (ns : list node) : Prop := exists w, occurs ns false (NBreak w) \/ occurs ns false (NContinue w).
(** What is asked of a template, at every node in it. *)
Definition orderly (n : node) : Prop :=
  match n with
  | NBlockDef _ _ ns _ => ~ escapes ns
  | NIf _ cs => forall w ns before after, cs = before ++ Cond w None ns :: after -> after = []
  | NLoop _ v _ (Some _) _ _ _ _ => no_alternatives v
  | NLet _ v None => no_alternatives v
  | _ => True
  end.
Definition orderly_template (ns : list node) : Prop := forall b m, occurs ns b m -> orderly m.
