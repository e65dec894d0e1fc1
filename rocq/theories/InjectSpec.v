(** * What a value can put into the output: specification of C68.  No definition here models code in /repo.  The types of templates
    and statements are those of Ast.v and Gen.v; [occurs] (TreeSpec.v): a node stands in a list of nodes or inside of one. *)
From Verif Require Import Base Ws Ast TreeSpec GenExpr Gen Escape Sem.
Local Open Scope N_scope.

(** ** Templates that leave the escaping alone *)
(** The filters that make text safe or escape it in another way: [safe], and [escape] or [e] with the name of an escaper.  They
    count only where the expression is shown; inside of another expression they change a value, which is then escaped. *)
Definition bypasses (e : expr) : bool :=
  match e with
  | Filter n args => str_eqb n (lit "safe") || (str_eqb n (lit "escape") || str_eqb n (lit "e")) && Nat.ltb 1 (length args)
  | _ => false
  end.
(** The same for a filter block, where the first argument (or that of the first of several filters) is the text of the block. *)
Definition block_bypasses (n : str) (args : list expr) : bool :=
  str_eqb n (lit "safe") ||
  (str_eqb n (lit "escape") || str_eqb n (lit "e")) && match args with [] | [Filter _ _] => false | _ => true end.
(** No such filter is shown in the node, wherever. *)
Fixpoint plain (n : node) : bool :=
  match n with
  | NExpr _ e => negb (bypasses e)
  | NFilterBlock _ f args ns _ => negb (block_bypasses f args) && forallb plain ns
  | NIf _ cs => forallb (fun c => match c with Cond _ _ ns => forallb plain ns end) cs
  | NMatch _ _ arms _ => forallb (fun c => match c with When _ _ ns => forallb plain ns end) arms
  | NLoop _ _ _ _ body _ els _ => forallb plain body && forallb plain els
  | NBlockDef _ _ ns _ | NMacro _ _ _ ns _ => forallb plain ns
  | _ => true
  end.
Definition all_plain (templates : list (str * list node)) : bool := forallb (fun t => forallb plain (snd t)) templates.

(** ** Where the output comes from *)
(** A text of the templates: the blanks before, the blanks after or the rest of what stands between two tags or in a raw block.
    A newline or a space may stand for blanks. *)
Definition text_of (m : node) (t : str) : Prop :=
  match m with NLit l | NRaw _ l _ => t = lws l \/ t = lval l \/ t = rws l | _ => False end.
Definition template_text (templates : list (str * list node)) (t : str) : Prop :=
  t = [10] \/ t = [32] \/ exists p ns b m, In (p, ns) templates /\ occurs ns b m /\ text_of m t.
(** [s] is made of pieces, each of which is one of the texts [T] or one of the values [E]. *)
Inductive made (T E : str -> Prop) : str -> Prop :=
| made_nil : made T E []
| made_text t s : T t -> made T E s -> made T E (t ++ s)
| made_value d s : E d -> made T E s -> made T E (d ++ s).

(** ** Writes *)
(** The statements that write, in a statement. *)
Fixpoint writes (s : stmt) : list stmt :=
  let many := fix many (l : list stmt) : list stmt := match l with [] => [] | s :: l' => writes s ++ many l' end in
  match s with
  | SWriteStr _ | SWriteFmt _ _ => [s]
  | SIf branches => concat (map (fun b => match b with (_, body) => many body end) branches)
  | SMatch _ arms => concat (map (fun a => match a with (_, body) => many body end) arms)
  | SLoop _ _ _ _ _ body els tail => many body ++ many els ++ many tail
  | SBlock b => many b
  | _ => []
  end.
Fixpoint all_writes (l : list stmt) : list stmt := match l with [] => [] | s :: l' => writes s ++ all_writes l' end.
(** [MarkupDisplay::new_unsafe(&e, esc)] or [filters::escape(esc, e)]: whatever [e] is, it is escaped. *)
Definition shielded (esc : str) (r : rexpr) : Prop := (exists e, r = RMarkup esc e) \/ (exists a, r = REscape esc a).

(** ** Markup *)
(** The characters that open or close tags and quoted attributes in HTML. *)
Definition markup_char (c : N) : bool := (c =? 60) || (c =? 62) || (c =? 34) || (c =? 39).
(** [esc] is askama's HTML escaper in the world [w] (Escape.v; a panic of it counts as nothing written). *)
Definition html_in (w : world) (esc : str) : Prop :=
  forall s, w_escape w esc s = match html_write_escaped s with Some l => concat l | None => [] end.
