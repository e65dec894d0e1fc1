(** * When deriving a template does not panic: the conditions of Prop_Panic.v. *)
From Verif Require Import Base Ws Ast TreeSpec.
Local Open Scope N_scope.

(** The braces the code around the innermost content of a node opens: [if] opens one, a loop and a [match] open two. *)
Fixpoint nest (n : node) : N :=
  let many := fix many (l : list node) : N := match l with [] => 0 | n :: l' => N.max (nest n) (many l') end in
  match n with
  | NIf _ cs => 1 + (fix go (l : list cond) : N := match l with [] => 0 | Cond _ _ ns :: l' => N.max (many ns) (go l') end) cs
  | NMatch _ _ arms _ => 2 + (fix go (l : list when_) : N := match l with [] => 0 | When _ _ ns :: l' => N.max (many ns) (go l') end) arms
  | NLoop _ _ _ _ body _ els _ => 2 + N.max (many body) (many els)
  | NBlockDef _ _ ns _ | NMacro _ _ _ ns _ | NFilterBlock _ _ _ ns _ => many ns
  | _ => 0
  end.
Fixpoint nestl (l : list node) : N := match l with [] => 0 | n :: l' => N.max (nest n) (nestl l') end.

(** No block is defined inside of a macro or of a filter block. *)
Definition encloses (n : node) : bool := match n with NMacro _ _ _ _ _ | NFilterBlock _ _ _ _ _ => true | _ => false end.
Definition blocks_placed (ns : list node) : Prop :=
  forall b n b' w1 x l w2, occurs ns b n -> encloses n = true -> ~ inside b n b' (NBlockDef w1 x l w2).

(** A file named by an include anywhere in a template. *)
Definition includes (ns : list node) (x : str) : Prop := exists b w, occurs ns b (NInclude w x).
