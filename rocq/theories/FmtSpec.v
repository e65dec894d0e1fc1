(** * Which format strings fit their arguments: specification of C66.  No definition here models code in /repo.  The grammar of
    format strings is that of [std::fmt], and the rules on arguments are those of [format_args!]: each argument is named in the
    string, no two arguments have the same name, and (a wish of the generator's, not of Rust's) the string takes no value that
    is not among the arguments.  The type of statements is that of Gen.v. *)
From Verif Require Import Base Ws Ast GenExpr Gen.
Local Open Scope N_scope.

(** A Rust identifier written with ASCII letters, digits and underscores. *)
Definition letter (c : N) : Prop := 97 <= c <= 122 \/ 65 <= c <= 90 \/ c = 95.
Definition digit (c : N) : Prop := 48 <= c <= 57.
Definition identifier (x : str) : Prop := exists c r, x = c :: r /\ letter c /\ Forall (fun c => letter c \/ digit c) r.
(** [Format f l]: the format string [f] is well formed and its holes are [{x}] for the names [x] of [l], in that order.  Two
    braces stand for one. *)
Inductive Format : str -> list str -> Prop :=
| F_end : Format [] []
| F_open f l : Format f l -> Format (123 :: 123 :: f) l
| F_close f l : Format f l -> Format (125 :: 125 :: f) l
| F_char c f l : c <> 123 -> c <> 125 -> Format f l -> Format (c :: f) l
| F_hole x f l : identifier x -> Format f l -> Format (123 :: x ++ 125 :: f) (x :: l).
(** The string [f] may be given to [write!] or [format!] with arguments of these names, and takes its values from them alone. *)
Definition fits (f : str) (names : list str) : Prop :=
  exists holes, Format f holes /\ NoDup names /\ forall x, In x holes <-> In x names.

(** The format strings of a statement and of those inside of it, each with its arguments. *)
Fixpoint formats (s : stmt) : list (str * list (nat * rexpr)) :=
  let many := fix many (l : list stmt) : list (str * list (nat * rexpr)) := match l with [] => [] | s :: l' => formats s ++ many l' end in
  match s with
  | SWriteFmt f args | SLetFmt _ f args => [(f, args)]
  | SIf branches => concat (map (fun b => match b with (_, body) => many body end) branches)
  | SMatch _ arms => concat (map (fun a => match a with (_, body) => many body end) arms)
  | SLoop _ _ _ _ _ body els tail => many body ++ many els ++ many tail
  | SBlock b => many b
  | _ => []
  end.
Fixpoint all_formats (l : list stmt) : list (str * list (nat * rexpr)) := match l with [] => [] | s :: l' => formats s ++ all_formats l' end.
(** All format strings of the code fit the names of their arguments. *)
Definition formats_fit (code : list stmt) : Prop := forall f args, In (f, args) (all_formats code) -> fits f (map (fun a => arg_name (fst a)) args).
