(** * Specification: well-formed syntax trees. *)
From Verif Require Import Base Ws Ast LitSpec.
Local Open Scope N_scope.

(** An identifier: letters, digits, underscores and anything outside ASCII, not starting with a digit. *)
Definition ident_start (c : N) : Prop := 65 <= c <= 90 \/ 97 <= c <= 122 \/ c = 95 \/ 128 <= c.
Definition ident (s : str) : Prop :=
  exists c t, s = c :: t /\ ident_start c /\ Forall (fun x => ident_start x \/ 48 <= x <= 57) t.
(** A path: identifiers, possibly after an empty first segment (a leading [::]). *)
Definition path_ok (p : list str) : Prop := exists l, l <> [] /\ Forall ident l /\ (p = l \/ p = [] :: l).
Definition unary_ops : list str := [lit "!"; lit "-"].
Definition binary_ops : list str :=
  [lit "||"; lit "&&"; lit "=="; lit "!="; lit ">="; lit ">"; lit "<="; lit "<"; lit "|"; lit "^"; lit "&"; lit ">>"; lit "<<";
   lit "+"; lit "-"; lit "*"; lit "/"; lit "%"].
Definition range_ops : list str := [lit "..="; lit ".."].
(** The precedence of the binary operators in Rust (The Rust Reference, Expression precedence), from weak to strong. *)
Definition precedence : list (str * nat) :=
  [(lit "||", 1%nat); (lit "&&", 2%nat);
   (lit "==", 3%nat); (lit "!=", 3%nat); (lit ">=", 3%nat); (lit ">", 3%nat); (lit "<=", 3%nat); (lit "<", 3%nat);
   (lit "|", 4%nat); (lit "^", 5%nat); (lit "&", 6%nat); (lit ">>", 7%nat); (lit "<<", 7%nat);
   (lit "+", 8%nat); (lit "-", 8%nat); (lit "*", 9%nat); (lit "/", 9%nat); (lit "%", 9%nat)].
Fixpoint find_prec (op : str) (l : list (str * nat)) : nat :=
  match l with [] => 13%nat | (o, p) :: l' => if str_eqb op o then p else find_prec op l' end.
(** How strongly the outermost operator of an expression binds: 0 range, 1 to 9 binary operators, 10 filters, 11 prefix
    operators, 12 postfix operators, 13 literals, names and brackets. *)
Definition binds (e : expr) : nat :=
  match e with
  | Range _ _ _ => 0
  | BinOp op _ _ => find_prec op precedence
  | Filter _ _ => 10
  | Unary _ _ => 11
  | Attr _ _ | Index _ _ | Call _ _ | RustMacro _ _ | Try _ => 12
  | _ => 13
  end%nat.

(** The operands of an operator bind strongly enough to stand where they do without parentheses. *)
Definition operands_ok (e : expr) : Prop :=
  match e with
  | BinOp op l r => exists p, In (op, p) precedence /\ (p <= binds l)%nat /\ (p < binds r)%nat
  | Unary op x => In op unary_ops /\ (11 <= binds x)%nat
  | Attr x _ | Index x _ | Call x _ | Try x => (12 <= binds x)%nat
  | Range op l r => In op range_ops /\ (forall x, l = Some x -> (1 <= binds x)%nat) /\ (forall x, r = Some x -> (1 <= binds x)%nat)
  | _ => True
  end.

(** Expressions: valid literals, known operators, a subject for every filter, and no named arguments anywhere.  Every operand
    binds strongly enough to stand where it does without parentheses: at least as strongly as the operator, and more strongly
    on the right of a binary one. *)
Inductive wf_expr : expr -> Prop :=
| wf_bool s : In s [lit "true"; lit "false"] -> wf_expr (BoolLit s)
| wf_num s : rust_number s -> wf_expr (NumLit s)
| wf_str s : quoted 34 s -> wf_expr (StrLit s)
| wf_chr s : char_accepted s -> wf_expr (CharLit s)
| wf_var s : ident s -> wf_expr (Var s)
| wf_path p : path_ok p -> wf_expr (Path p)
| wf_arr l : Forall wf_expr l -> wf_expr (Arr l)
| wf_attr e a : (12 <= binds e)%nat -> wf_expr e -> ident a \/ signed_number a -> wf_expr (Attr e a)
| wf_index e i : (12 <= binds e)%nat -> wf_expr e -> wf_expr i -> wf_expr (Index e i)
| wf_filter n e l : ident n -> (10 <= binds e)%nat -> wf_expr e -> Forall wf_expr l -> wf_expr (Filter n (e :: l))
| wf_unary op e : In op unary_ops -> (11 <= binds e)%nat -> wf_expr e -> wf_expr (Unary op e)
| wf_binop op p l r : In (op, p) precedence -> (p <= binds l)%nat -> (p < binds r)%nat -> wf_expr l -> wf_expr r -> wf_expr (BinOp op l r)
| wf_range op l r : In op range_ops -> (forall e, l = Some e -> (1 <= binds e)%nat /\ wf_expr e) ->
    (forall e, r = Some e -> (1 <= binds e)%nat /\ wf_expr e) -> wf_expr (Range op l r)
| wf_group e : wf_expr e -> wf_expr (Group e)
| wf_tuple l : Forall wf_expr l -> wf_expr (Tuple l)
| wf_call f l : (12 <= binds f)%nat -> wf_expr f -> Forall wf_expr l -> wf_expr (Call f l)
| wf_macro p a : path_ok p -> wf_expr (RustMacro p a)
| wf_try e : (12 <= binds e)%nat -> wf_expr e -> wf_expr (Try e).

(** The arguments of a macro call: positional ones, then named ones with distinct names. *)
Definition call_args (l : list expr) : Prop :=
  exists pos named, l = pos ++ map (fun x => NamedArgument (fst x) (snd x)) named /\
    Forall wf_expr pos /\ Forall (fun x => ident (fst x) /\ wf_expr (snd x)) named /\ NoDup (map fst named).

(** The filters of a filter block: the innermost one has no subject. *)
Inductive wf_block_filter : str -> list expr -> Prop :=
| wbf_one n l : ident n -> Forall wf_expr l -> wf_block_filter n l
| wbf_next n m l l' : ident n -> wf_block_filter m l -> Forall wf_expr l' -> wf_block_filter n (Filter m l :: l').

Inductive wf_target : target -> Prop :=
| wt_name s : ident s -> ~ In s [lit "self"; lit "writer"] -> wf_target (TName s)
| wt_tuple p l : p = [] \/ path_ok p -> Forall wf_target l -> wf_target (TTuple p l)
| wt_struct p l : path_ok p -> Forall (fun x => ident (fst x) /\ wf_target (snd x)) l -> wf_target (TStruct p l)
| wt_num s : signed_number s -> wf_target (TNumLit s)
| wt_str s : quoted 34 s -> wf_target (TStrLit s)
| wt_chr s : char_accepted s -> wf_target (TCharLit s)
| wt_bool s : In s [lit "false"; lit "true"] -> wf_target (TBoolLit s)
| wt_path p : path_ok p -> wf_target (TPath p)
| wt_or l : (2 <= length l)%nat -> Forall wf_target l -> wf_target (TOrChain l).

Definition blank (s : str) : Prop := Forall (fun c => c = 32 \/ c = 9 \/ c = 13 \/ c = 10) s.
(** Text split into leading blanks, content and trailing blanks. *)
Definition wf_literal (l : literal) : Prop :=
  blank (lws l) /\ blank (rws l) /\ (lval l = [] -> rws l = []) /\
  match lval l with [] => True | c :: _ => ~ blank [c] end /\ match last_opt (lval l) with Some c => ~ blank [c] | None => True end.

Definition wf_test (t : cond_test) : Prop := (forall x, ct_target t = Some x -> wf_target x) /\ wf_expr (ct_expr t).

(** Nodes; [b]: inside the body of a for loop. *)
Inductive wf_node : bool -> node -> Prop :=
| wn_lit b l : wf_literal l -> wf_node b (NLit l)
| wn_comment b w c : wf_node b (NComment w c)
| wn_expr b w e : wf_expr e -> wf_node b (NExpr w e)
| wn_call b w sc n args : (forall s, sc = Some s -> ident s) -> ident n -> call_args args -> wf_node b (NCall w sc n args)
| wn_let b w t v : wf_target t -> (forall e, v = Some e -> wf_expr e) -> wf_node b (NLet w t v)
| wn_if b w c0 cs : (exists w0 t0 ns0, c0 = Cond w0 (Some t0) ns0) -> Forall (wf_cond b) (c0 :: cs) -> wf_node b (NIf w (c0 :: cs))
| wn_match b w1 e a arms w2 : wf_expr e -> Forall (wf_when b) (a :: arms) -> wf_node b (NMatch w1 e (a :: arms) w2)
| wn_loop b w1 v it c body w2 els w3 : wf_target v -> wf_expr it -> (forall e, c = Some e -> wf_expr e) ->
    Forall (wf_node true) body -> Forall (wf_node b) els -> wf_node b (NLoop w1 v it c body w2 els w3)
| wn_extends b p : quoted 34 p -> wf_node b (NExtends p)
| wn_blockdef b w1 n ns w2 : ident n -> Forall (wf_node b) ns -> wf_node b (NBlockDef w1 n ns w2)
| wn_include b w p : quoted 34 p -> wf_node b (NInclude w p)
| wn_import b w p sc : quoted 34 p -> ident sc -> wf_node b (NImport w p sc)
| wn_macro b w1 n args ns w2 : ident n -> n <> lit "super" -> Forall ident args -> Forall (wf_node b) ns -> wf_node b (NMacro w1 n args ns w2)
| wn_raw b w1 l w2 : wf_literal l -> wf_node b (NRaw w1 l w2)
| wn_break w : wf_node true (NBreak w)
| wn_continue w : wf_node true (NContinue w)
| wn_filter b w1 n l ns w2 : wf_block_filter n l -> Forall (wf_node b) ns -> wf_node b (NFilterBlock w1 n l ns w2)
with wf_cond : bool -> cond -> Prop :=
| wc b w t ns : (forall x, t = Some x -> wf_test x) -> Forall (wf_node b) ns -> wf_cond b (Cond w t ns)
with wf_when : bool -> when_ -> Prop :=
| ww b w t ns : wf_target t -> Forall (wf_node b) ns -> wf_when b (When w t ns).
