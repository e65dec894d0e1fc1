(** * Specification of inheritance and of the search for templates: what Prop_Heritage.v is about. *)
From Verif Require Import Base Ws Ast Heritage.
Local Open Scope N_scope.

(** ** Inheritance *)
(** The template and its parents, most derived first. *)
Inductive lineage (contexts : list (str * context)) : context -> list context -> Prop :=
| lineage_root c : c_extends c = None -> lineage contexts c [c]
| lineage_child c p c' l : c_extends c = Some p -> get p contexts = Some c' -> lineage contexts c' l -> lineage contexts c (c :: l).
(** The definitions of block [x] along a list of templates *)
Fixpoint definitions (x : str) (l : list context) : list (context * block_def) :=
  match l with
  | [] => []
  | c :: l' => match get x (c_blocks c) with Some d => (c, d) :: definitions x l' | None => definitions x l' end
  end.
(** The node lists directly inside of a node *)
Definition bodies (n : node) : list (list node) :=
  match n with
  | NIf _ cs => map (fun x => match x with Cond _ _ ns => ns end) cs
  | NMatch _ _ arms _ => map (fun x => match x with When _ _ ns => ns end) arms
  | NLoop _ _ _ _ body _ els _ => [body; els]
  | NBlockDef _ _ ns _ => [ns]
  | _ => []
  end.
(** A node somewhere in a list, not in a macro or filter block *)
Inductive within (n : node) : list node -> Prop :=
| within_here l : In n l -> within n l
| within_deeper l m b : In m l -> In b (bodies m) -> within n b -> within n l.
(** A block of a template *)
Definition has_block (ns : list node) (x : str) (d : block_def) : Prop :=
  within (NBlockDef (b_ws1 d) x (b_nodes d) (b_ws2 d)) ns /\ b_name d = x.

(** ** The files a template uses *)
(** A template names another in extends and import (at the top) and include (anywhere). *)
Inductive mentions : bool -> list node -> str -> Prop :=
| m_extends l p : In (NExtends p) l -> mentions true l p
| m_import l w p s : In (NImport w p s) l -> mentions true l p
| m_include top l w p : In (NInclude w p) l -> mentions top l p
| m_macro l w1 x a b w2 p : In (NMacro w1 x a b w2) l -> mentions false b p -> mentions true l p
| m_filter top l w1 x a b w2 p : In (NFilterBlock w1 x a b w2) l -> mentions false b p -> mentions top l p
| m_body top l m b p : In m l -> In b (bodies m) -> mentions false b p -> mentions top l p.
Section Reach.
  Variable find : str -> str -> res str.
  Variable load : str -> res str.
  Variable parse : str -> res (list node).
  Variable root src : str.
  (** The contents of file [p]; the source of the template itself may be given inline. *)
  Definition contents (p : str) (ns : list node) : Prop := exists s, (load p = Ok s \/ (p = root /\ s = src)) /\ parse s = Ok ns.
  Inductive reachable : str -> Prop :=
  | reach_root : reachable root
  | reach_next p ns x q : reachable p -> contents p ns -> mentions true ns x -> find x p = Ok q -> reachable q.
End Reach.

(** What can be named in a block or an included template: what is defined there and, for names that are not, what can be
    named where it is used. *)
Definition sees (outer inner c : context) : Prop :=
  c_nodes c = c_nodes inner /\ c_extends c = c_extends inner /\ c_blocks c = c_blocks inner /\
  (forall x, get x (c_macros c) = match get x (c_macros inner) with Some d => Some d | None => get x (c_macros outer) end) /\
  (forall x, get x (c_imports c) = match get x (c_imports inner) with Some p => Some p | None => get x (c_imports outer) end).
