(** * The syntax tree (askama_parser/src/expr.rs:54-78, node.rs:21-40 and the structs below it). *)
From Verif Require Import Base Ws.

(** expr.rs:54-78.  [Filter(Filter { name, arguments })] is flattened. *)
Inductive expr :=
| BoolLit (s : str) | NumLit (s : str) | StrLit (s : str) | CharLit (s : str)
| Var (s : str) | Path (l : list str)
| Arr (l : list expr)
| Attr (e : expr) (name : str)
| Index (e i : expr)
| Filter (name : str) (args : list expr)
| NamedArgument (name : str) (e : expr)
| Unary (op : str) (e : expr)
| BinOp (op : str) (l r : expr)
| Range (op : str) (l r : option expr)
| Group (e : expr)
| Tuple (l : list expr)
| Call (f : expr) (args : list expr)
| RustMacro (path : list str) (args : str)
| Try (e : expr)
| Generated (s : str).

(** node.rs:162-172 *)
Inductive target :=
| TName (s : str)
| TTuple (path : list str) (l : list target)
| TStruct (path : list str) (l : list (str * target))
| TNumLit (s : str) | TStrLit (s : str) | TCharLit (s : str) | TBoolLit (s : str)
| TPath (path : list str)
| TOrChain (l : list target).

(** node.rs:397-401: [CondTest { target, expr }] *)
Record cond_test := { ct_target : option target; ct_expr : expr }.

(** node.rs:21-40.  The structs are flattened into the constructors; [Cond] (363-368) and [When] (307-312) are [cond] and
    [when_]. *)
Inductive node :=
| NLit (l : literal)
| NComment (w : ws) (content : str)
| NExpr (w : ws) (e : expr)
| NCall (w : ws) (scope : option str) (name : str) (args : list expr)
| NLet (w : ws) (var : target) (val : option expr)
| NIf (w : ws) (branches : list cond)
| NMatch (w1 : ws) (e : expr) (arms : list when_) (w2 : ws)
| NLoop (w1 : ws) (var : target) (iter : expr) (cnd : option expr) (body : list node) (w2 : ws) (else_nodes : list node) (w3 : ws)
| NExtends (path : str)
| NBlockDef (w1 : ws) (name : str) (nodes : list node) (w2 : ws)
| NInclude (w : ws) (path : str)
| NImport (w : ws) (path : str) (scope : str)
| NMacro (w1 : ws) (name : str) (args : list str) (nodes : list node) (w2 : ws)
| NRaw (w1 : ws) (l : literal) (w2 : ws)
| NBreak (w : ws)
| NContinue (w : ws)
| NFilterBlock (w1 : ws) (fname : str) (fargs : list expr) (nodes : list node) (w2 : ws)
with cond := Cond (w : ws) (test : option cond_test) (nodes : list node)
with when_ := When (w : ws) (t : target) (nodes : list node).
