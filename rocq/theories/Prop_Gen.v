(** * What the code generator gets wrong: C05, C29, C31-C37, C40-C43.
    Each theorem is a template (given as source text and run through the models of the parser, the search for templates,
    the code generator and the generated code) on which a property fails.  The positive results are in Prop_Render.v and
    Prop_Heritage.v; the conditions there ([scoped]) exclude just these situations. *)
From Coq Require Import ZArith.
From Verif Require Import Base Ws Config Nom Ast Lex ParseExpr ParseNode ParseTests Ident GenExpr Heritage Gen Sem RefSem TestWorld.
Local Open Scope N_scope.

(** The code generated for [main] writes [got] although the template means [want]. *)
Definition differs (d : dir) (self : cv) (got want : str) : Prop :=
  t_run d None main self = GOk (Done got) /\ t_ref d main self = GOk (Done want) /\ got <> want.
(** The code generated for [main] can not run (it is no valid Rust) although the template means [want]. *)
Definition broken (d : dir) (self : cv) (want : str) : Prop :=
  t_run d None main self = GOk Fails /\ t_ref d main self = GOk (Done want).
Definition fields : cv := struct [(lit "a", CS (lit "F")); (lit "b", CS (lit "G")); (lit "l", CL [CN 1; CN 2])].
Ltac show_differs := split; [|split]; [vm_compute; reflexivity|vm_compute; reflexivity|vm_compute; discriminate].
Ltac show_broken := split; vm_compute; reflexivity.

(** ** C31.  A field is shown before a let of the same name; the expression is written after the let. *)
Theorem C31_let_before_refuted :
  exists self, differs (one (lit "{{ a }}{% let a = 1 %}")) self (lit "1") (lit "F").
Proof. exists fields. show_differs. Qed.
(** The same with a variable that was declared without a value, and a pattern. *)
Theorem C31_declared_then_pattern_refuted :
  exists self, differs (one (lit "{% let x %}{% if a == a %}{% let x = 1 %}{% else %}{% let x = 2 %}{% endif %}{{ x }}{% let (x, y) = (3, 4) %}"))
    self (lit "3") (lit "1").
Proof. exists fields. show_differs. Qed.
(** A let in a block takes effect on variables of the templates around it. *)
Theorem C31_let_in_block_refuted :
  exists self, differs (one (lit "{% let a = 1 %}{% block x %}{% let a = 2 %}{% endblock %}{{ a }}")) self (lit "2") (lit "1").
Proof. exists fields. show_differs. Qed.

(** ** C32.  The second parameter refers to the first one instead of to the argument. *)
Theorem C32_swapped_arguments_refuted :
  exists self, differs (one (lit "{% macro m(a, b) %}{{ a }}{{ b }}{% endmacro %}{% call m(b, a) %}")) self (lit "GG") (lit "GF").
Proof. exists fields. show_differs. Qed.
(** A parameter given a variable refers to a later parameter of that name. *)
Theorem C32_later_parameter_refuted :
  exists self, differs (one (lit "{% let b = 3 %}{% macro m(a, b) %}{{ a }}{{ b }}{% endmacro %}{% call m(b, 1 + 1) %}")) self (lit "22") (lit "32").
Proof. exists fields. show_differs. Qed.
(** A let in the macro changes what a parameter refers to. *)
Theorem C32_let_in_macro_refuted :
  exists self, differs (one (lit "{% macro m(x) %}{% let b = 7 %}{{ x }}{% endmacro %}{% let b = 3 %}{% call m(b) %}")) self (lit "7") (lit "3").
Proof. exists fields. show_differs. Qed.
(** So does a loop in the macro, when the argument is the loop counter of the caller. *)
Theorem C32_loop_counter_refuted :
  exists self, differs (one (lit "{% macro m(x) %}{% for i in l %}{{ x }}{% endfor %}{% endmacro %}{% for j in l %}{% call m(loop.index) %}{% endfor %}"))
    self (lit "1212") (lit "1122").
Proof. exists fields. show_differs. Qed.
(** A parameter can not be named like a Rust keyword, nor be given a new value. *)
Theorem C32_keyword_parameter_refuted :
  exists self, broken (one (lit "{% macro m(type) %}{{ type }}{% endmacro %}{% call m(1 + 1) %}")) self (lit "2").
Proof. exists fields. show_broken. Qed.
Theorem C32_let_parameter_refuted :
  exists self, broken (one (lit "{% macro m(p) %}{% let p = 2 %}{{ p }}{% endmacro %}{% call m(1 + 1) %}")) self (lit "2").
Proof. exists fields. show_broken. Qed.

(** ** C33.  An empty filter block loses the text before it. *)
Theorem C33_empty_filter_block_refuted :
  exists self, differs (one (lit "x{% filter upper %}{% endfilter %}y")) self (lit "y") (lit "xy").
Proof. exists fields. show_differs. Qed.
(** What is written inside of tags in a filter block is not filtered, and comes before the text that precedes the block. *)
Theorem C33_tags_in_filter_block_refuted :
  exists self, differs (one (lit "x{% filter upper %}{% if a == a %}q{% endif %}r{% endfilter %}y")) self (lit "qxRy") (lit "xQRy").
Proof. exists fields. show_differs. Qed.
(** A let in a filter block is seen after it. *)
Theorem C33_let_in_filter_block_refuted :
  exists self, differs (one (lit "{% filter upper %}{% let b = 1 %}x{% endfilter %}{{ b }}")) self (lit "X1") (lit "XG").
Proof. exists fields. show_differs. Qed.

(** ** C34.  A block sees a variable of the template around it, if the variable is the last thing it shows. *)
Theorem C34_block_sees_outer_let_refuted :
  exists self, differs (one (lit "{% let a = 1 %}{% block x %}{{ a }}{% endblock %}")) self (lit "1") (lit "F").
Proof. exists fields. show_differs. Qed.

(** ** C36.  With the block selected the template does not compile: an if with an else in another block is enough. *)
Theorem C36_other_block_refuted :
  exists self, let d := one (lit "{% block y %}{% if a == a %}q{% else %}r{% endif %}{% endblock %}{% block x %}u{% endblock %}") in
  t_run d None main self = GOk (Done (lit "qu")) /\
  t_run d (Some (lit "x")) main self = GErr (lit "dedent() called while indentation == 0").
Proof. exists fields. split; vm_compute; reflexivity. Qed.
(** What is around the block matters: in a loop it is repeated, in an if it may be left out. *)
Theorem C36_block_in_loop_refuted :
  exists self, t_run (one (lit "{% for i in l %}{% block x %}u{% endblock %}{% endfor %}")) (Some (lit "x")) main self = GOk (Done (lit "uu")).
Proof. exists fields. vm_compute; reflexivity. Qed.
Theorem C36_block_in_if_refuted :
  exists self, t_run (one (lit "{% if a == b %}{% block x %}u{% endblock %}{% endif %}")) (Some (lit "x")) main self = GOk (Done []).
Proof. exists fields. vm_compute; reflexivity. Qed.
(** A block that does not exist is only noticed if there are other blocks. *)
Theorem C36_no_such_block_refuted :
  exists self, t_run (one (lit "u")) (Some (lit "x")) main self = GOk (Done []) /\
  t_run (one (lit "u{% block y %}{% endblock %}")) (Some (lit "x")) main self = GErr (lit "cannot find block").
Proof. exists fields. split; vm_compute; reflexivity. Qed.

(** ** C37.  A variable of an included template is seen after the include. *)
Theorem C37_include_leaks_refuted :
  exists self, differs [(main, lit "{% let a = 1 %}{% include ""i"" %}{{ a }}"); (lit "i", lit "{% let a = 2 %}")] self (lit "2") (lit "1").
Proof. exists fields. show_differs. Qed.
(** config.rs: [find_template]: first beside the file the name occurs in.  Names have at most one directory here. *)
Fixpoint dir_of (p : str) : str := match p with [] => [] | c :: p' => if mem_chr 47 p then c :: dir_of p' else [] end.
Definition rel_find (d : dir) (p from : str) : res str :=
  match get (dir_of from ++ p) d with Some _ => Ok (dir_of from ++ p) | None => t_find d p from end.
Definition rel_run (d : dir) : gres (out str) :=
  let* src := of_res (t_load d main) in
  let* ts := find_used_templates (rel_find d) (t_load d) t_parse FUEL main src in
  let* (code, _) := build_template (t_inp None main) (rel_find d) FUEL ts in GOk (run (cworld fields) code).
(** [sub/a] includes [b]; the search finds [sub/b] for it, but the generator goes for a [b] beside the main template: it
    panics if there is none, and writes the wrong file if there is one that is used elsewhere. *)
Theorem C37_relative_include_refuted :
  let sub := [(lit "sub/a", lit "{% include ""b"" %}"); (lit "sub/b", lit "right")] in
  rel_find sub (lit "b") (lit "sub/a") = Ok (lit "sub/b") /\
  rel_run ((main, lit "{% include ""sub/a"" %}") :: (lit "b", lit "wrong") :: sub) = GPanic /\
  rel_run ((main, lit "{% include ""sub/a"" %}{% include ""b"" %}") :: (lit "b", lit "wrong") :: sub) = GOk (Done (lit "wrongwrong")).
Proof. split; [|split]; vm_compute; reflexivity. Qed.

(** ** C41.  Panics: a block in a macro, a block in a filter block, and 61 nested ifs around an expression. *)
Theorem C41_block_in_macro_refuted :
  exists self, t_run (one (lit "{% macro m() %}{% block x %}{% endblock %}{% endmacro %}{% call m() %}{% block y %}{% endblock %}")) None main self = GPanic.
Proof. exists fields. vm_compute; reflexivity. Qed.
Theorem C41_block_in_filter_refuted :
  exists self, t_run (one (lit "{% filter upper %}{% block x %}{% endblock %}{% endfilter %}{% block y %}{% endblock %}")) None main self = GPanic.
Proof. exists fields. vm_compute; reflexivity. Qed.
Fixpoint nested_ifs (n : nat) : str :=
  match n with O => lit "{{ a }}" | S n' => lit "{% if a == a %}" ++ nested_ifs n' ++ lit "{% endif %}" end.
Theorem C41_nesting_refuted :
  exists self, t_run (one (nested_ifs 60)) None main self = GOk (Done (lit "F")) /\ t_run (one (nested_ifs 61)) None main self = GPanic.
Proof. exists fields. split; vm_compute; reflexivity. Qed.

(** ** C42.  A filter of the user is a call of any Rust function, yet two uses of it are merged into one evaluation. *)
Theorem C42_custom_filter_refuted :
  mem_str (lit "next_number") BUILT_IN_FILTERS = false /\
  (exists r z, t_code (one (lit "{{ a|next_number }}{{ a|next_number }}")) None main = GOk ([SWriteFmt (lit "{expr0}{expr0}") [(O, r)]], z)).
Proof. split; [reflexivity|]. eexists. eexists. vm_compute; reflexivity. Qed.

(** ** C43.  A template that imports itself is loaded twice, and then its extends is taken for a cycle. *)
Theorem C43_self_import_refuted :
  exists self, let d src := [(main, src); (lit "b", lit "x")] in
  t_run (d (lit "{% extends ""b"" %}{% import ""b"" as s %}")) None main self = GOk (Done (lit "x")) /\
  t_run (d (lit "{% extends ""b"" %}{% import ""main.html"" as s %}")) None main self = GErr cyclic.
Proof. exists fields. split; vm_compute; reflexivity. Qed.

(** ** C40.  Expansion need not end. *)
(** Two templates that extend each other: the search finds nothing wrong, and building the chain of parents never ends. *)
Definition cycle : dir := [(main, lit "{% extends ""b"" %}"); (lit "b", lit "{% extends ""main.html"" %}")].
Theorem C40_extends_cycle_refuted :
  exists ts, t_templates cycle main = GOk ts /\ forall fuel, build_template (t_inp None main) (t_find cycle) fuel ts = GFuel.
Proof.
  eexists. split; [vm_compute; reflexivity|]. intros fuel. unfold build_template.
  match goal with |- gbind ?c _ = _ => let c' := eval vm_compute in c in change c with c' end. cbn [gbind].
  match goal with |- match ?c with _ => _ end = _ => let c' := eval vm_compute in c in change c with c' end. cbn [c_blocks c_extends].
  match goal with |- context [heritage_new fuel ?cs ?c] => set (contexts := cs); set (c0 := c) end.
  enough (H : forall bs, heritage_loop fuel contexts c0 bs = GFuel) by (unfold heritage_new; rewrite H; reflexivity).
  assert (E : exists c1, c_extends c0 = Some (lit "b") /\ get (lit "b") contexts = Some c1 /\
                         c_extends c1 = Some main /\ get main contexts = Some c0) by (eexists; repeat split; vm_compute; reflexivity).
  destruct E as (c1 & E0 & G1 & E1 & G0).
  assert (H : (forall bs, heritage_loop fuel contexts c0 bs = GFuel) /\ (forall bs, heritage_loop fuel contexts c1 bs = GFuel)).
  { clearbody contexts c0. induction fuel as [|f [IH0 IH1]]; split; intros bs; cbn [heritage_loop]; rewrite ?E0, ?E1; try reflexivity.
    - rewrite G1. apply IH1.
    - rewrite G0. apply IH0. }
  apply H.
Qed.
(** A template that includes itself *)
Definition self_include : dir := one (lit "{% include ""main.html"" %}").
Theorem C40_include_cycle_refuted :
  exists ts, t_templates self_include main = GOk ts /\ forall fuel, build_template (t_inp None main) (t_find self_include) fuel ts = GFuel.
Proof.
  eexists. split; [vm_compute; reflexivity|]. intros fuel. unfold build_template.
  match goal with |- gbind ?c _ = _ => let c' := eval vm_compute in c in change c with c' end. cbn [gbind].
  match goal with |- match ?c with _ => _ end = _ => let c' := eval vm_compute in c in change c with c' end. cbn [c_blocks c_extends gbind].
  match goal with |- impl_template _ ?cs _ _ _ ?c = _ => set (contexts := cs); set (c0 := c) end.
  assert (H : forall fuel m, handle (t_inp None main) contexts (t_find self_include) fuel None c0 (c_nodes c0) LTop
     {| s_locals := m; s_ws := ws_init; s_super := None; s_buf := []; s_discard := false; s_named := O; o_indent := 2; o_discard := false |} = GFuel).
  { clear fuel. induction fuel as [|f IH]; intros m; [reflexivity|].
    assert (E : c_nodes c0 = [NInclude {| ws_l := None; ws_r := None |} main]) by (vm_compute; reflexivity).
    cbn [handle]. unfold handle_nodes. rewrite E. cbn [gen_list handle_node]. unfold write_include.
    assert (F : t_find self_include main (f_path (t_inp None main)) = Ok main) by (vm_compute; reflexivity).
    assert (G : get main contexts = Some c0) by (vm_compute; reflexivity).
    assert (M : merge_context c0 c0 = c0) by (vm_compute; reflexivity).
    assert (B : c_blocks c0 = [] /\ c_extends c0 = None) by (split; vm_compute; reflexivity). destruct B as [B1 B2].
    clearbody contexts c0. generalize dependent (t_find self_include). intros fd IH F.
    unfold do_flush_ws, push_lits, push, write_buf_writable. cbn -[handle t_inp main merge_context heritage_new get]. rewrite F. cbn -[handle t_inp main merge_context heritage_new get]. rewrite G, M, B1, B2.
    cbn -[handle t_inp main merge_context heritage_new get]. rewrite E. unfold ws_init in IH. cbn -[handle t_inp main]. rewrite <- E. rewrite IH. reflexivity. }
  unfold impl_template. unfold initial. cbn [f_block t_inp]. rewrite H. reflexivity.
Qed.
(** Two blocks that contain each other, one of them through super(): the one of the derived template in that of its parent. *)
Definition block_cycle : dir :=
  [(main, lit "{% extends ""p"" %}{% block b %}{% block a %}{% call super() %}{% endblock %}{% endblock %}");
   (lit "p", lit "{% block a %}{% block b %}{% endblock %}{% endblock %}")].
Definition oks {A} (g : gres A) (d : A) : A := match g with GOk a => a | _ => d end.
Definition bc_templates := Eval vm_compute in oks (t_templates block_cycle main) [].
Definition bc_contexts := Eval vm_compute in oks (build_contexts (t_find block_cycle) bc_templates) [].
Definition no_context : context := {| c_nodes := []; c_extends := None; c_blocks := []; c_macros := []; c_imports := [] |}.
Definition bc_main := Eval vm_compute in match get main bc_contexts with Some c => c | None => no_context end.
Definition bc_her := Eval vm_compute in oks (heritage_new 5 bc_contexts bc_main) {| h_root := bc_main; h_blocks := [] |}.
Definition block_of x g := match get x (h_blocks bc_her) with Some l => nth_error l g | None => None end.
Definition gen_block f x g := match block_of x g with
  | Some (c, d) => handle (t_inp None main) bc_contexts (t_find block_cycle) f (Some bc_her) c (b_nodes d) LBlock
     {| s_locals := ch_empty; s_ws := prepare_ws Preserve None ws_init; s_super := Some (x, g); s_buf := []; s_discard := false; s_named := O; o_indent := 2; o_discard := false |}
  | None => GPanic end.
Lemma nodes_fuel inp contexts find e h ctx n l lv st : handle_node inp contexts find e (Some h) ctx lv n st = GFuel ->
  handle_nodes inp contexts find e (Some h) ctx (n :: l) lv st = GFuel.
Proof. intros E. unfold handle_nodes. cbn [gen_list]. rewrite E. reflexivity. Qed.
Lemma block_fuel inp e h ctx name outer st st1 cur before z st2 defs c d :
  do_flush_ws inp (ws_l outer) st = st1 ->
  match name, s_super st1 with
  | Some x, None => GOk (x, O)
  | Some x, Some (prev, _) => if str_eqb x prev then GErr (lit "cannot define recursive blocks") else GOk (x, O)
  | None, Some (prev, g) => GOk (prev, S g)
  | None, None => GErr (lit "cannot call 'super()' outside block")
  end = GOk cur ->
  write_buf_writable inp st1 = GOk (before, z, st2) -> get (fst cur) (h_blocks h) = Some defs -> nth_error defs (snd cur) = Some (c, d) ->
  s_discard st2 = false ->
  e (Some h) (merge_context ctx c) (b_nodes d) LBlock
    {| s_locals := ch_empty; s_ws := prepare_ws (f_ws inp) (ws_r (b_ws1 d)) ws_init; s_super := Some cur;
       s_buf := s_buf st2; s_discard := false; s_named := O; o_indent := o_indent st2; o_discard := false |} = GFuel ->
  write_block inp e (Some h) ctx name outer st = GFuel.
Proof.
  intros <- E1 E2 E3 E4 E5 E6. unfold write_block. rewrite E1. cbn [gbind]. rewrite E2. cbn [gbind]. rewrite E3, E4, E5, andb_false_r, E6. reflexivity.
Qed.
Theorem C40_block_cycle_refuted :
  exists ts, t_templates block_cycle main = GOk ts /\ forall fuel, build_template (t_inp None main) (t_find block_cycle) fuel ts = GFuel.
Proof.
  exists bc_templates. split; [vm_compute; reflexivity|].
  assert (H : forall f, gen_block f (lit "a") 0 = GFuel /\ gen_block f (lit "a") 1 = GFuel /\ gen_block f (lit "b") 0 = GFuel).
  { induction f as [|f (I1 & I2 & I3)]; [repeat split; vm_compute; reflexivity|]. unfold gen_block in *. cbn [handle].
    generalize dependent (handle (t_inp None main) bc_contexts (t_find block_cycle) f). intros e I1 I2 I3.
    repeat split; apply nodes_fuel; (eapply block_fuel; [vm_compute; reflexivity..|]); [exact I2|exact I3|exact I1]. }
  intros fuel. destruct fuel as [|[|f]]; [vm_compute; reflexivity..|].
  destruct (H (S f)) as (H1 & _). unfold gen_block in H1. unfold build_template.
  assert (HB : build_contexts (t_find block_cycle) bc_templates = GOk bc_contexts) by (vm_compute; reflexivity). rewrite HB. cbn [gbind].
  assert (HG : get (f_path (t_inp None main)) bc_contexts = Some bc_main) by (vm_compute; reflexivity). rewrite HG.
  assert (HH : heritage_new (S (S f)) bc_contexts bc_main = GOk bc_her) by (vm_compute; reflexivity). rewrite HH.
  assert (HX : exists x l, c_blocks bc_main = x :: l) by (eexists _, _; vm_compute; reflexivity). destruct HX as (x & l & HX). rewrite HX. cbn [gbind f_block t_inp].
  unfold impl_template.
  change (handle (t_inp None main) bc_contexts (t_find block_cycle) (S (S f))) with (handle_nodes (t_inp None main) bc_contexts (t_find block_cycle) (handle (t_inp None main) bc_contexts (t_find block_cycle) (S f))).
  clear - H1. generalize dependent (handle (t_inp None main) bc_contexts (t_find block_cycle) (S f)). intros e H1.
  enough (G : handle_nodes (t_inp None main) bc_contexts (t_find block_cycle) e (Some bc_her) (h_root bc_her) (c_nodes (h_root bc_her)) LTop (initial (t_inp None main) 2) = GFuel) by (rewrite G; reflexivity).
  apply nodes_fuel. eapply block_fuel; [vm_compute; reflexivity..|]. exact H1.
Qed.

Print Assumptions C31_let_before_refuted.
Print Assumptions C31_declared_then_pattern_refuted.
Print Assumptions C31_let_in_block_refuted.
Print Assumptions C32_swapped_arguments_refuted.
Print Assumptions C32_later_parameter_refuted.
Print Assumptions C32_let_in_macro_refuted.
Print Assumptions C32_loop_counter_refuted.
Print Assumptions C32_keyword_parameter_refuted.
Print Assumptions C32_let_parameter_refuted.
Print Assumptions C33_empty_filter_block_refuted.
Print Assumptions C33_tags_in_filter_block_refuted.
Print Assumptions C33_let_in_filter_block_refuted.
Print Assumptions C34_block_sees_outer_let_refuted.
Print Assumptions C36_other_block_refuted.
Print Assumptions C36_block_in_loop_refuted.
Print Assumptions C36_block_in_if_refuted.
Print Assumptions C36_no_such_block_refuted.
Print Assumptions C37_include_leaks_refuted.
Print Assumptions C37_relative_include_refuted.
Print Assumptions C41_block_in_macro_refuted.
Print Assumptions C41_nesting_refuted.
Print Assumptions C42_custom_filter_refuted.
Print Assumptions C43_self_import_refuted.
Print Assumptions C40_extends_cycle_refuted.
Print Assumptions C40_include_cycle_refuted.
Print Assumptions C40_block_cycle_refuted.
Print Assumptions C41_block_in_filter_refuted.
