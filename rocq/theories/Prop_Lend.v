(** * C64: what is given to calls and filters is lent, not moved.  Specification in LendSpec.v. *)
From Verif Require Import Base Ws Config Nom Ast Lex ParseExpr ParseNode ParseSpec TreeSpec TplFacts Ident GenExpr Heritage Gen HeritageSpec HeritageFacts Prop_Flat LendSpec LendFacts TestWorld.
Local Open Scope N_scope.

(** C64.  For every set of parsed templates and every input: in every expression of the generated code, every argument of a
    function, method, filter or formatting call is behind a [&] or is not a place, so no call takes a value out of a field,
    variable or element. *)
Theorem C64_arguments_lent inp find fuel templates code z :
  parsed templates -> build_template inp find fuel templates = GOk (code, z) -> Forall lent (all_values code).
Proof.
  intros HP. apply build_lent. intros p ns Hin. destruct (HP p ns Hin) as (lc & dbg & sy & src & Hsy & E). apply lending_wf. exact (from_str_wf lc dbg sy Hsy src ns E).
Qed.
Print Assumptions C64_arguments_lent.

(** ** Example *)
(** The arguments of all calls in an expression, outermost first. *)
Fixpoint calls (r : rexpr) : list (bool * rexpr) :=
  match r with
  | RArr l | RTup l | RJoin l => concat (map calls l)
  | RField e _ | RRef e | RDeref e | RUn _ e | RGrp e | RCycle e | RTry e | RMarkup _ e => calls e
  | RIndex a b | RBin _ a b => calls a ++ calls b
  | RRange _ l r => match l with Some e => calls e | None => [] end ++ match r with Some e => calls e | None => [] end
  | RCall f args => calls f ++ concat (map (fun a => match a with (b, _, e) => (b, e) :: calls e end) args)
  | RFilter _ _ args | RFormat _ args => concat (map (fun a => match a with (b, _, e) => (b, e) :: calls e end) args)
  | RSafe _ (b, _, e) | REscape _ (b, _, e) => (b, e) :: calls e
  | RTok _ | RStr _ | RChar _ | RName _ | RPath _ | RMacro _ _ => []
  end.
(** The arguments that are not behind a [&], and the number of those that are. *)
Definition given (d : dir) : option (list rexpr * nat) :=
  match t_code d None main with
  | GOk (code, z) => let l := concat (map calls (all_values code)) in
      Some (map snd (List.filter (fun a => negb (fst a)) l), length (List.filter fst l))
  | _ => None
  end.
Lemma example_lent d x : given d = Some x -> exists code z, t_code d None main = GOk (code, z) /\ Forall lent (all_values code).
Proof.
  unfold given. destruct (t_code d None main) as [[code z]| | |] eqn:E; try discriminate. intros _. exists code, z. split; [reflexivity|].
  unfold t_code in E. apply gbind_inv in E as (ts & T & E). eapply C64_arguments_lent; [eapply t_parsed, T|exact E].
Qed.
(** Fields, variables, elements, groups, operators and calls as arguments of functions, methods, filters, macros and filter blocks. *)
Definition ex_lend : dir := one (lit "{% macro m(p) %}{{ p|f(a.b) }}{% endmacro %}{{ g(a, b.c, self.d, (e), h[0], 1, x + 1, -self.y, k(1)) }}
{{ a.method(b)|safe }}{{ a|escape }}{{ a|fmt(""{:?}"") }}{{ ""{}""|format(a, b|deref) }}{% call m(a) %}{% for i in v.iter(a) %}{{ i|join(b) }}{% endfor %}
{% if f(x) && g(self.y) %}{% endif %}{% match f(a) %}{% when Some(z) %}{{ z|trim }}{% when _ %}{% endmatch %}{% let q = f(a) %}{% filter truncate(n)|upper %}{{ a }}{% endfilter %}").
Example C64_example : given ex_lend = Some
  ([RTok (lit "1"); RUn (lit "-") (RField self (lit "y")); RCall (RGrp (RRef (RField self (lit "k")))) [(false, false, RTok (lit "1"))]; RTok (lit "1");
    RCall (RField (RField self (lit "a")) (lit "method")) [(true, false, RField self (lit "b"))]], 22%nat).
Proof. vm_compute. reflexivity. Qed.

(** ** Variables are not lent *)
(** The values bound by let and the arguments of macros that are neither a name nor a field. *)
Fixpoint bound (s : stmt) : list rexpr :=
  match s with
  | SLet _ e | SAssign _ e => [e]
  | SLetTuple _ l => l
  | SBlock b => concat (map bound b)
  | _ => []
  end.
Definition moves (d : dir) : bool := match t_code d None main with GOk (code, z) => existsb place (concat (map bound code)) | _ => false end.
(** C64.  The same is false of [let] and of the arguments of macros: both can take a value out of a field. *)
Theorem C64_bindings_refuted : exists d d' : dir, moves d = true /\ moves d' = true.
Proof.
  exists (one (lit "{% let x = a.b %}{{ x }}")), (one (lit "{% macro m(p) %}{{ p }}{% endmacro %}{% call m((a)) %}")). vm_compute. split; reflexivity.
Qed.
Print Assumptions C64_bindings_refuted.
