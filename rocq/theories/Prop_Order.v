(** * Whole templates: expressions are evaluated once each, in the order of the template: C56. *)
From Coq Require Import ZArith.
From Verif Require Import Base Ws Config Nom Ast Lex ParseExpr ParseNode ParseTests Ident GenExpr Heritage Gen Sem RefSem GenSteps Effect EffSem EffOrder EffRef EffExpr EffMeaning Scoped SimFacts TestWorld.
Local Open Scope N_scope.

(** C56.  Whatever the calls do: if evaluating the template part by part, each expression where it stands, gives a text, the
    generated code gives the same text with the same effects; if that fails at some point, the code does not succeed.  The
    template is the one put together from its files: blocks, includes, macros and whitespace are resolved.  Conditions,
    scrutinees, iterators, the arguments of macros and the values of lets have their place like the expressions that are shown.
    Partial: [in_order] leaves out lets that follow an expression in the same run of output, filter blocks, blocks inside of
    loops and the like, and expressions with filters of the user but no call; for the first two see the refutations. *)
Theorem C56_whole_templates_partial inp find fuel templates code z tns w T (x : effects w T) :
  build_template inp find fuel templates = GOk (code, z) -> f_block inp = None -> assemble inp find fuel templates = GOk tns ->
  in_order tns = true -> forall t,
  match xrender w T x inp tns t with
  | (Done s, t') => xrun w T x code t = (Done s, t')
  | _ => forall s t', xrun w T x code t <> (Done s, t')
  end.
Proof.
  intros H1 H2 H3 H4 t. pose proof (build_order inp find fuel templates code z tns w T x H1 H2 H3 H4 t) as H.
  destruct (xrender w T x inp tns t) as [[s| |] t']; [exact H| |]; intros s t2 E; rewrite E in H; discriminate H.
Qed.
Print Assumptions C56_whole_templates_partial.

(** C56.  The same with the meaning of the template given by EffRef.v, which knows nothing of the generator: variables have the
    values the template gives them, every expression is evaluated where it stands.  If that gives a text, the generated code
    gives the same text with the same effects; if it fails (a call reports an error, no arm matches), the code does not succeed.
    Partial: for templates that are [scoped] (as for C31, C32 and C37: Scoped.v) and [in_order]. *)
Theorem C56_template_meaning_partial inp find fuel templates code z tns fields w T (x : effects w T) : world_ok w ->
  build_template inp find fuel templates = GOk (code, z) -> f_block inp = None -> assemble inp find fuel templates = GOk tns ->
  scoped fields tns = true -> in_order tns = true -> forall t,
  match rrender w T x inp tns t with
  | (Done s, t') => xrun w T x code t = (Done s, t')
  | (Fails, _) => forall s t', xrun w T x code t <> (Done s, t')
  | (Unset, _) => True
  end.
Proof.
  intros W H1 H2 H3 H4 H5 t. pose proof (C56_whole_templates_partial inp find fuel templates code z tns w T x H1 H2 H3 H5 t) as H.
  pose proof (build_meaning inp find fuel templates code z tns fields w T x W H1 H2 H3 H4 H5 t) as M.
  destruct (rrender w T x inp tns t) as [[s| |] t']; [| |exact I]; rewrite M in H by discriminate; exact H.
Qed.
Print Assumptions C56_template_meaning_partial.

(** ** Examples: every call appends its argument to a list and returns true the first two times, then false. *)
Definition self1 : cv := struct [(lit "f", CF (lit "f")); (lit "a", CS (lit "A")); (lit "l", CL [CN 1; CN 2; CN 3])].
Definition arg_text (v : cv) : str := match c_display v with Some s => s | None => [] end.
Definition logging : effects (cworld self1) (list str) :=
  let call (vs : list cv) (t : list str) : option cv * list str := (Some (CB (Nat.ltb (length t) 2)), t ++ map arg_text vs) in
  Build_effects (cworld self1) (list str) (fun _ => call) (fun _ _ => call) (fun _ _ => call []) (fun v t => (Some v, t)) (fun _ => call).
Definition t_both (d : dir) : gres (bool * (out str * list str) * (out str * list str)) :=
  let* (code, _) := t_code d None main in
  let* tns := t_mean d main in
  GOk (in_order tns, xrun (cworld self1) (list str) logging code [], xrender (cworld self1) (list str) logging (t_inp None main) tns []).
Notation both s l := (GOk (true, (Done s, l), (Done s, l))).
(** The value of a let, a condition, a loop with its else part, and a macro with an argument by value: in the order of the template *)
Example in_template_order :
  t_both (one (lit "{% let x = f(1) %}{{ x }}{{ f(2) }}{% if f(3) %}y{% else %}{{ f(4) }}{% endif %}{% for i in l %}{{ f(i) }}{% endfor %}{% macro m(p) %}{{ p }}{{ p }}{% endmacro %}{% call m(f(9)) %}")) =
    both (lit "truetruefalsefalsefalsefalsefalsefalse") [lit "1"; lit "2"; lit "3"; lit "4"; lit "1"; lit "2"; lit "3"; lit "9"].
Proof. vm_compute; reflexivity. Qed.
(** With a base template, a block and an included file *)
Example in_files_order :
  t_both [(main, lit "{% extends ""base"" %}{% block b %}{{ f(2) }}{% include ""inc"" %}{% endblock %}"); (lit "base", lit "{{ f(1) }}{% block b %}{{ f(0) }}{% endblock %}{{ f(4) }}");
          (lit "inc", lit "-{{ f(3) }}")] = both (lit "truetrue-falsefalse") [lit "1"; lit "2"; lit "3"; lit "4"].
Proof. vm_compute; reflexivity. Qed.
(** A condition of a loop: the one of the next item comes before the body for this one, since [loop.last] must be known. *)
Example condition_ahead :
  t_both (one (lit "{% for i in l if f(i) %}{{ i }}{{ f(0) }}{% endfor %}")) = both (lit "1false2false") [lit "1"; lit "2"; lit "0"; lit "3"; lit "0"].
Proof. vm_compute; reflexivity. Qed.
(** A match *)
Example scrutinee_first :
  t_both (one (lit "{{ f(1) }}{% match f(2) %}{% when true %}{{ f(3) }}{% else %}{{ f(4) }}{% endmatch %}")) = both (lit "truefalse") [lit "1"; lit "2"; lit "3"].
Proof. vm_compute; reflexivity. Qed.

(** The meaning by EffRef.v; the condition on names holds too. *)
Definition t_means (d : dir) : gres (bool * (out str * list str)) :=
  let* tns := t_mean d main in
  GOk (scoped [lit "f"; lit "a"; lit "l"] tns && in_order tns, rrender (cworld self1) (list str) logging (t_inp None main) tns []).
Notation means s l := (GOk (true, (Done s, l))).
Example in_template_meaning :
  t_means (one (lit "{% let x = f(1) %}{{ x }}{{ f(2) }}{% if f(3) %}y{% else %}{{ f(4) }}{% endif %}{% for i in l %}{{ f(i) }}{{ loop.index }}{% endfor %}{% macro m(p, q) %}{{ p }}{{ p }}{{ q }}{% endmacro %}{% call m(f(9), a) %}")) =
    means (lit "truetruefalsefalse1false2false3falsefalseA") [lit "1"; lit "2"; lit "3"; lit "4"; lit "1"; lit "2"; lit "3"; lit "9"].
Proof. vm_compute; reflexivity. Qed.
Example in_files_meaning :
  t_means [(main, lit "{% extends ""base"" %}{% block b %}{{ f(2) }}{% include ""inc"" %}{% endblock %}"); (lit "base", lit "{{ f(1) }}{% block b %}{{ f(0) }}{% endblock %}{{ f(4) }}");
          (lit "inc", lit "-{{ f(3) }}")] = means (lit "truetrue-falsefalse") [lit "1"; lit "2"; lit "3"; lit "4"].
Proof. vm_compute; reflexivity. Qed.
Example condition_meaning :
  t_means (one (lit "{% for i in l if f(i) %}{{ i }}{{ f(0) }}{% endfor %}")) = means (lit "1false2false") [lit "1"; lit "2"; lit "0"; lit "3"; lit "0"].
Proof. vm_compute; reflexivity. Qed.
Example scrutinee_meaning :
  t_means (one (lit "{{ f(1) }}{% match f(2) %}{% when true %}{{ f(3) }}{% else %}{{ f(4) }}{% endmatch %}")) = means (lit "truefalse") [lit "1"; lit "2"; lit "3"].
Proof. vm_compute; reflexivity. Qed.

(** C56.  The body of a filter block is evaluated before the expressions that precede the block. *)
Theorem C56_filter_block_first_refuted :
  exists src, src = lit "{{ f(1) }}{% filter upper %}{{ f(2) }}{% endfilter %}" /\
  exists r, t_both (one src) = GOk r /\ snd (snd (fst r)) = [lit "2"; lit "1"].
Proof. eexists. split; [reflexivity|]. eexists. split; vm_compute; reflexivity. Qed.
(** C56.  A let after an expression is out of the scope of the theorem: it is executed before it. *)
Theorem C56_let_overtakes_refuted :
  exists src, src = lit "{{ f(1) }}{% let x = f(2) %}{{ x }}" /\
  t_both (one src) = GOk (false, (Done (lit "truetrue"), [lit "2"; lit "1"]), (Done (lit "truetrue"), [lit "1"; lit "2"])).
Proof. eexists. split; [reflexivity|]. vm_compute; reflexivity. Qed.
