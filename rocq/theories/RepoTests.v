(** * Templates of the repository's own test suite (testing/tests and testing/templates), run through the models of the
    parser and the generator and through the meaning.  The expected texts are those of the Rust tests.  These are tests of
    the model, not proofs of properties. *)
From Coq Require Import ZArith.
From Verif Require Import Base Ws Ast GenExpr Heritage Gen Sem RefSem Scoped TestWorld.
Local Open Scope N_scope.
(** They also meet the condition of the theorem about rendering (C29 in Prop_Render.v). *)
Definition field_names (self : cv) : list str := match self with CV _ l => map fst l | _ => [] end.
Definition ok_both (d : dir) (path : str) (self : cv) (expected : str) : bool :=
  match t_run d None path self, t_mean d path with
  | GOk (Done a), GOk ts =>
      match render (cworld self) (t_inp None path) ts with
      | Done b => str_eqb a expected && str_eqb b expected && scoped (field_names self) ts
      | _ => false
      end
  | _, _ => false
  end.

Example repo_for : ok_both [((lit "for.html"), (lit "{% for s in strings %}
  {{- loop.index0 }}. {{ s }}{% if loop.first %} (first){% endif %}
{% endfor %}
{% for (s1, s2, ) in tuple_strings %}
  {{- loop.index0 }}. {{ s1 }},{{ s2 }}{% if loop.first %} (first){% endif %}
{% endfor %}"))] (lit "for.html") (struct [((lit "strings"), (CL [(CS (lit "A")); (CS (lit "alfa")); (CS (lit "1"))])); ((lit "tuple_strings"), (CL [(CT [(CS (lit "B")); (CS (lit "beta"))])]))]) (lit "0. A (first)
1. alfa
2. 1

0. B,beta (first)
") = true.
Proof. vm_compute. reflexivity. Qed.

Example repo_nested_for : ok_both [((lit "nested-for.html"), (lit "{% for seq in seqs -%}
  {{ loop.index }}
  {% for v in seq -%}
    {{ loop.index0 }}{{ v }}
  {%- endfor -%}
{% endfor %}"))] (lit "nested-for.html") (struct [((lit "seqs"), (CL [(CL [(CS (lit "a")); (CS (lit "b")); (CS (lit "c"))]); (CL [(CS (lit "one")); (CS (lit "two"))])]))]) (lit "1
  0a1b2c2
  0one1two") = true.
Proof. vm_compute. reflexivity. Qed.

Example repo_precedence_for : ok_both [((lit "precedence-for.html"), (lit "{% for s in strings %}
    {{- loop.index0 }}. {{ s }}{{ 2 * loop.index }}{% if !loop.first %}{% else %} (first){% endif %}{% if loop.last %} (last){% endif %}
{% endfor %}"))] (lit "precedence-for.html") (struct [((lit "strings"), (CL [(CS (lit "A")); (CS (lit "alfa")); (CS (lit "1"))]))]) (lit "0. A2 (first)
1. alfa4
2. 16 (last)
") = true.
Proof. vm_compute. reflexivity. Qed.

Example repo_for_range : ok_both [((lit "for-range.html"), (lit "{% for s in 0..2 -%}
    foo{% if loop.first %} (first){% endif %}{% if loop.last %} (last){% endif %}
{% endfor -%}

{% for s in init..1 -%}
    bar
{% endfor -%}

{% for s in 0..end -%}
    foo
{% endfor -%}

{% for s in init..end -%}
    bar
{% endfor -%}"))] (lit "for-range.html") (struct [((lit "init"), (CN (-1))); ((lit "end"), (CN (1)))]) (lit "foo (first)
foo (last)
bar
bar
foo
bar
bar
") = true.
Proof. vm_compute. reflexivity. Qed.

Example repo_for_array : ok_both [((lit "main.html"), (lit "{% for i in [1, 2, 3] %}{{ i }}{% endfor %}"))] (lit "main.html") (struct []) (lit "123") = true.
Proof. vm_compute. reflexivity. Qed.

Example repo_for_method : ok_both [((lit "main.html"), (lit "{% for i in [1, 2, 3].iter() %}{{ i }}{% endfor %}"))] (lit "main.html") (struct []) (lit "123") = true.
Proof. vm_compute. reflexivity. Qed.

Example repo_for_attr : ok_both [((lit "main.html"), (lit "{% for x in v %}{% for y in x.iterable %}{{ y }} {% endfor %}{% endfor %}"))] (lit "main.html") (struct [((lit "v"), (CL [(CV (lit "X") [((lit "iterable"), (CL [(CN (1)); (CN (2))]))]); (CV (lit "X") [((lit "iterable"), (CL [(CN (3)); (CN (4))]))])]))]) (lit "1 2 3 4 ") = true.
Proof. vm_compute. reflexivity. Qed.

Example repo_for_shadow : ok_both [((lit "main.html"), (lit "{% for v in v %}{% let v = v %}{% for v in v.iterable %}{% let v = v %}{{ v }} {% endfor %}{% endfor %}"))] (lit "main.html") (struct [((lit "v"), (CL [(CV (lit "X") [((lit "iterable"), (CL [(CN (1)); (CN (2))]))]); (CV (lit "X") [((lit "iterable"), (CL [(CN (3)); (CN (4))]))])]))]) (lit "1 2 3 4 ") = true.
Proof. vm_compute. reflexivity. Qed.

Example repo_for_destruct : ok_both [((lit "main.html"), (lit "{% for (((a,), b), c) in v %}{{a}}{{b}}{{c}}-{% endfor %}"))] (lit "main.html") (struct [((lit "v"), (CL [(CT [(CT [(CT [(CS (lit "a"))]); (CS (lit "b"))]); (CS (lit "c"))]); (CT [(CT [(CT [(CS (lit "d"))]); (CS (lit "e"))]); (CS (lit "f"))])]))]) (lit "abc-def-") = true.
Proof. vm_compute. reflexivity. Qed.

Example repo_filter_block : ok_both [((lit "main.html"), (lit "{% filter lower %}
    {{ t }} / HELLO / {{ u }}
{% endfilter %}

{{ u|lower }}
"))] (lit "main.html") (struct [((lit "t"), (CS (lit "a"))); ((lit "u"), (CS (lit "B")))]) (lit "
    a / hello / b


b
") = true.
Proof. vm_compute. reflexivity. Qed.

Example repo_filter_block_shadow : ok_both [((lit "main.html"), (lit "{% filter lower %}
    {{ t }} / HELLO / {{ u }}
{% endfilter %}

{% filter upper %}
{{ u }} + TaDaM + {{ t }}
{% endfilter %}

{% filter lower %}
    {{ t }} - CHECK - {{ t }}
{% endfilter %}

{{ u|upper }}"))] (lit "main.html") (struct [((lit "t"), (CS (lit "a"))); ((lit "u"), (CS (lit "B")))]) (lit "
    a / hello / b



B + TADAM + A



    a - check - a


B") = true.
Proof. vm_compute. reflexivity. Qed.

Example repo_filter_block_ws : ok_both [((lit "main.html"), (lit "{% filter lower -%}
    {{ t }} / HELLO / {{ u }}
{% endfilter %}

{%- filter upper -%}
{{ u }} + TaDaM + {{ t }}
{%- endfilter -%}

++b"))] (lit "main.html") (struct [((lit "t"), (CS (lit "a"))); ((lit "u"), (CS (lit "B")))]) (lit "a / hello / b
B + TADAM + A++b") = true.
Proof. vm_compute. reflexivity. Qed.

Example repo_filter_block_html : ok_both [((lit "main.html"), (lit "{% filter lower %}<block>{% endfilter %}"))] (lit "main.html") (struct []) (lit "&lt;block&gt;") = true.
Proof. vm_compute. reflexivity. Qed.

Example repo_base : ok_both [((lit "base.html"), (lit "{{ title }}
{% block content %}{% endblock %}
{% block foo %}Foo{% endblock %}
Copyright 2017"))] (lit "base.html") (struct [((lit "title"), (CS (lit "Foo")))]) (lit "Foo

Foo
Copyright 2017") = true.
Proof. vm_compute. reflexivity. Qed.

Example repo_child : ok_both [((lit "child.html"), (lit "{% extends ""base.html"" %}
{% block content %}({{ title }}) Content goes here{% endblock content %}")); ((lit "base.html"), (lit "{{ title }}
{% block content %}{% endblock %}
{% block foo %}Foo{% endblock %}
Copyright 2017"))] (lit "child.html") (struct [((lit "title"), (CS (lit "Bar")))]) (lit "Bar
(Bar) Content goes here
Foo
Copyright 2017") = true.
Proof. vm_compute. reflexivity. Qed.

Example repo_nested_blocks : ok_both [((lit "nested-child.html"), (lit "{% extends ""nested-base.html"" %}
{% block content %}
{% block foo %}durpy{% endblock %}
{% endblock content %}")); ((lit "nested-base.html"), (lit "{% block content %}
loopy
{% block foo %}Foo{% endblock %}
{% endblock %}"))] (lit "nested-child.html") (struct []) (lit "
durpy
") = true.
Proof. vm_compute. reflexivity. Qed.

Example repo_deep_kid : ok_both [((lit "deep-kid.html"), (lit "{% extends ""deep-mid.html"" %}
{% import ""macro.html"" as libk %}

{% block head %}
  <script></script>
{% endblock %}

{% block content %}
  {% call libk::thrice(item) %}
{% endblock %}")); ((lit "deep-mid.html"), (lit "{% extends ""deep-base.html"" %}
{% import ""macro.html"" as libm %}

{% block head %}
  {{ title }}
  {% call super() %}
{% endblock %}

{% block body %}
  <div id=""wrap"">
    <section id=""content"">
    {% block content %}
      No content found
    {% endblock %}
    </section>
    <section id=""nav"">
      {% call libm::thrice(""nav"") %}
    </section>
  </div>
{% endblock %}")); ((lit "deep-base.html"), (lit "{% import ""macro.html"" as libb %}
<html>
  <head>
  {% block head %}
    <style></style>
  {% endblock %}
  </head>
  <body>
  {% block body %}
    {% call libb::thrice(""nav"") %}
    Copyright {{ year }}
  {% endblock %}
  </body>
</html>")); ((lit "macro.html"), (lit "1

{%- macro thrice(param) -%}

{{ param }} {{ param }} {{ param }}

{%- endmacro -%}

2

{%- call thrice(s) -%}

3

{%- macro twice(param) -%}

{{ param }} {{ param }}

{%- endmacro twice -%}

4

{%- call twice(s) -%}

5"))] (lit "deep-kid.html") (struct [((lit "item"), (CS (lit "Foo"))); ((lit "title"), (CS (lit "Test"))); ((lit "year"), (CN (2018)))]) (lit "
<html>
  <head>
  
  <script></script>

  </head>
  <body>
  
  <div id=""wrap"">
    <section id=""content"">
    
  Foo Foo Foo

    </section>
    <section id=""nav"">
      nav nav nav
    </section>
  </div>

  </body>
</html>") = true.
Proof. vm_compute. reflexivity. Qed.

Example repo_deep_mid : ok_both [((lit "deep-mid.html"), (lit "{% extends ""deep-base.html"" %}
{% import ""macro.html"" as libm %}

{% block head %}
  {{ title }}
  {% call super() %}
{% endblock %}

{% block body %}
  <div id=""wrap"">
    <section id=""content"">
    {% block content %}
      No content found
    {% endblock %}
    </section>
    <section id=""nav"">
      {% call libm::thrice(""nav"") %}
    </section>
  </div>
{% endblock %}")); ((lit "deep-base.html"), (lit "{% import ""macro.html"" as libb %}
<html>
  <head>
  {% block head %}
    <style></style>
  {% endblock %}
  </head>
  <body>
  {% block body %}
    {% call libb::thrice(""nav"") %}
    Copyright {{ year }}
  {% endblock %}
  </body>
</html>")); ((lit "macro.html"), (lit "1

{%- macro thrice(param) -%}

{{ param }} {{ param }} {{ param }}

{%- endmacro -%}

2

{%- call thrice(s) -%}

3

{%- macro twice(param) -%}

{{ param }} {{ param }}

{%- endmacro twice -%}

4

{%- call twice(s) -%}

5"))] (lit "deep-mid.html") (struct [((lit "title"), (CS (lit "Test"))); ((lit "year"), (CN (2018)))]) (lit "
<html>
  <head>
  
  Test
  
    <style></style>
  

  </head>
  <body>
  
  <div id=""wrap"">
    <section id=""content"">
    
      No content found
    
    </section>
    <section id=""nav"">
      nav nav nav
    </section>
  </div>

  </body>
</html>") = true.
Proof. vm_compute. reflexivity. Qed.

Example repo_deep_base : ok_both [((lit "deep-base.html"), (lit "{% import ""macro.html"" as libb %}
<html>
  <head>
  {% block head %}
    <style></style>
  {% endblock %}
  </head>
  <body>
  {% block body %}
    {% call libb::thrice(""nav"") %}
    Copyright {{ year }}
  {% endblock %}
  </body>
</html>")); ((lit "macro.html"), (lit "1

{%- macro thrice(param) -%}

{{ param }} {{ param }} {{ param }}

{%- endmacro -%}

2

{%- call thrice(s) -%}

3

{%- macro twice(param) -%}

{{ param }} {{ param }}

{%- endmacro twice -%}

4

{%- call twice(s) -%}

5"))] (lit "deep-base.html") (struct [((lit "year"), (CN (2018)))]) (lit "
<html>
  <head>
  
    <style></style>
  
  </head>
  <body>
  
    nav nav nav
    Copyright 2018
  
  </body>
</html>") = true.
Proof. vm_compute. reflexivity. Qed.

Example repo_let_block : ok_both [((lit "let-child.html"), (lit "{% extends ""let-base.html"" %}
{% block body -%}
  {% let x = 1 %}
  {{- x -}}
{%- endblock %}")); ((lit "let-base.html"), (lit "{% block body %}{% endblock %}"))] (lit "let-child.html") (struct []) (lit "1") = true.
Proof. vm_compute. reflexivity. Qed.

Example repo_named_end : ok_both [((lit "named-end.html"), (lit "{% extends ""base.html"" %}
{# Testing named ""endmacro"" #}
{% macro foo(b) -%}
    {% if b %}t{% else %}f{% endif -%}
{% endmacro foo -%}
{# Testing named endblock declaration #}
{% block what %}{% endblock what %}
{# Testing named endblock call #}
{% block foo %}tadam{% endblock foo %}")); ((lit "base.html"), (lit "{{ title }}
{% block content %}{% endblock %}
{% block foo %}Foo{% endblock %}
Copyright 2017"))] (lit "named-end.html") (struct [((lit "title"), (CS (lit "title")))]) (lit "title

tadam
Copyright 2017") = true.
Proof. vm_compute. reflexivity. Qed.

Example repo_macro : ok_both [((lit "macro.html"), (lit "1

{%- macro thrice(param) -%}

{{ param }} {{ param }} {{ param }}

{%- endmacro -%}

2

{%- call thrice(s) -%}

3

{%- macro twice(param) -%}

{{ param }} {{ param }}

{%- endmacro twice -%}

4

{%- call twice(s) -%}

5"))] (lit "macro.html") (struct [((lit "s"), (CS (lit "foo")))]) (lit "12foo foo foo34foo foo5") = true.
Proof. vm_compute. reflexivity. Qed.

Example repo_macro_no_args : ok_both [((lit "macro-no-args.html"), (lit "1

{%- macro empty -%}
the best thing
{%- endmacro -%}

1

{%- call empty() -%}

1

{%- macro whole() -%}
we've ever done
{%- endmacro -%}

11

{%- call whole -%}

11"))] (lit "macro-no-args.html") (struct []) (lit "11the best thing111we've ever done11") = true.
Proof. vm_compute. reflexivity. Qed.

Example repo_import : ok_both [((lit "import.html"), (lit "
{%- import ""macro.html"" as scope -%}

{% call scope::thrice(s) %}")); ((lit "macro.html"), (lit "1

{%- macro thrice(param) -%}

{{ param }} {{ param }} {{ param }}

{%- endmacro -%}

2

{%- call thrice(s) -%}

3

{%- macro twice(param) -%}

{{ param }} {{ param }}

{%- endmacro twice -%}

4

{%- call twice(s) -%}

5"))] (lit "import.html") (struct [((lit "s"), (CS (lit "foo")))]) (lit "foo foo foo") = true.
Proof. vm_compute. reflexivity. Qed.

Example repo_nested_macro : ok_both [((lit "deep-nested-macro.html"), (lit "{%- import ""nested-macro.html"" as libi -%}
{%- call libi::parent() -%}")); ((lit "nested-macro.html"), (lit "{%- macro child0() -%}
    foo
{%- endmacro -%}

{%- macro child1() -%}
    {% call child0() %}
{%- endmacro -%}

{%- macro parent() -%}
    {% call child1() %}
{%- endmacro -%}"))] (lit "deep-nested-macro.html") (struct []) (lit "foo") = true.
Proof. vm_compute. reflexivity. Qed.

Example repo_deep_import : ok_both [((lit "deep-import-parent.html"), (lit "{%- import ""deep-import-child.html"" as libj -%}
{% call libj::parent() %}")); ((lit "deep-import-child.html"), (lit "{%- import ""nested-macro.html"" as libi -%}
{%- macro parent() -%}
    {% call libi::parent() %}
{%- endmacro -%}")); ((lit "nested-macro.html"), (lit "{%- macro child0() -%}
    foo
{%- endmacro -%}

{%- macro child1() -%}
    {% call child0() %}
{%- endmacro -%}

{%- macro parent() -%}
    {% call child1() %}
{%- endmacro -%}"))] (lit "deep-import-parent.html") (struct []) (lit "foo") = true.
Proof. vm_compute. reflexivity. Qed.

Example repo_short_circuit : ok_both [((lit "macro-short-circuit.html"), (lit "{% macro foo(b) -%}
    {{ b }}
{%- endmacro -%}
{% call foo(true) -%}
{% call foo(true && true) -%}
{% call foo(true && true && true) -%}
{% call foo(false) -%}
{% call foo(false || true) -%}
{% call foo(false || false || true) -%}"))] (lit "macro-short-circuit.html") (struct []) (lit "truetruetruefalsetruetrue") = true.
Proof. vm_compute. reflexivity. Qed.

Example repo_nested_macro_args : ok_both [((lit "nested-macro-args.html"), (lit "{%- macro outer(first) -%}
{%- call inner(first, ""second"") -%}
{%- endmacro -%}

{%- macro inner(first, second) -%}
{{ first }} {{ second }}
{%- endmacro -%}

{%- call outer(""first"") -%}"))] (lit "nested-macro-args.html") (struct []) (lit "first second") = true.
Proof. vm_compute. reflexivity. Qed.

Example repo_str_cmp : ok_both [((lit "macro-import-str-cmp.html"), (lit "{%- import ""macro-import-str-cmp-macro.html"" as macros -%}

A

{%- call macros::strcmp(""foo"") -%}

B

{%- call macros::strcmp(""bar"") -%}

C

{%- call macros::strcmp(""cat"") -%}

D")); ((lit "macro-import-str-cmp-macro.html"), (lit "{% macro strcmp0(s, other) -%}
    {%- if s == ""foo"" -%}
        foo
    {%- else if s == other -%}
        other
    {%- else -%}
        neither
    {%- endif -%}
{% endmacro %}

{% macro strcmp(s) %}
    {%- call strcmp0(s, ""bar"") -%}
{% endmacro %}"))] (lit "macro-import-str-cmp.html") (struct []) (lit "AfooBotherCneitherD") = true.
Proof. vm_compute. reflexivity. Qed.

Example repo_macro_self_arg : ok_both [((lit "macro-self-arg.html"), (lit "{%- macro my_s(slf) -%}
    {{ slf.s }}
{%- endmacro -%}

{%- call my_s(self) -%}"))] (lit "macro-self-arg.html") (struct [((lit "s"), (CS (lit "foo")))]) (lit "foo") = true.
Proof. vm_compute. reflexivity. Qed.

Example repo_named_arg : ok_both [((lit "main.html"), (lit "{%- macro thrice(param1, param2) -%}
{{ param1 }} {{ param2 }}
{% endmacro -%}

{%- call thrice(param1=2, param2=3) -%}
{%- call thrice(param2=3, param1=2) -%}
{%- call thrice(3, param2=2) -%}
"))] (lit "main.html") (struct []) (lit "2 3
2 3
3 2
") = true.
Proof. vm_compute. reflexivity. Qed.

Example repo_let_decl_a : ok_both [((lit "let-decl.html"), (lit "{% let val -%}
{% if cond -%}
  {% let val = ""foo"" -%}
{% else -%}
  {% let val = s -%}
{% endif -%}
{{ val }}"))] (lit "let-decl.html") (struct [((lit "cond"), (CB true)); ((lit "s"), (CS (lit "bar")))]) (lit "foo") = true.
Proof. vm_compute. reflexivity. Qed.

Example repo_let_decl_b : ok_both [((lit "let-decl.html"), (lit "{% let val -%}
{% if cond -%}
  {% let val = ""foo"" -%}
{% else -%}
  {% let val = s -%}
{% endif -%}
{{ val }}"))] (lit "let-decl.html") (struct [((lit "cond"), (CB false)); ((lit "s"), (CS (lit "bar")))]) (lit "bar") = true.
Proof. vm_compute. reflexivity. Qed.

Example repo_let_shadow : ok_both [((lit "let-shadow.html"), (lit "{%- let a = 1 -%}
{%- let b -%}

{%- if cond -%}
    {%- let b = 22 -%}
    {{ b }}-

    {%- let b = 33 -%}
    {{ a }}-{{ b }}-
{%- else -%}
    {%- let b = 222 -%}
    {{ b }}-

    {%- let b = 333 -%}
    {{ a }}-{{ b }}-

    {%- let (a, b) = Self::tuple() -%}
    {{ a }}-{{ b }}-
{%- endif -%}

{%- let a = 11 -%}
{{ a }}-{{ b }}"))] (lit "let-shadow.html") (struct [((lit "cond"), (CB true))]) (lit "22-1-33-11-22") = true.
Proof. vm_compute. reflexivity. Qed.

Example repo_let : ok_both [((lit "let.html"), (lit "{% let v = s %}{{ v }}
{% let (v1,v2) = t %}{{ v1 }}{{ v2 }}"))] (lit "let.html") (struct [((lit "s"), (CS (lit "foo"))); ((lit "t"), (CT [(CS (lit "foo")); (CS (lit "bar"))]))]) (lit "foo
foobar") = true.
Proof. vm_compute. reflexivity. Qed.

Example repo_if_else : ok_both [((lit "main.html"), (lit "{% if cond %}true{% else %}false{% endif %}"))] (lit "main.html") (struct [((lit "cond"), (CB true))]) (lit "true") = true.
Proof. vm_compute. reflexivity. Qed.

Example repo_else_if : ok_both [((lit "main.html"), (lit "{% if cond %} true {% else if check %} checked {% else %} false {% endif %}"))] (lit "main.html") (struct [((lit "cond"), (CB false)); ((lit "check"), (CB true))]) (lit " checked ") = true.
Proof. vm_compute. reflexivity. Qed.

Example repo_if_let : ok_both [((lit "main.html"), (lit "{% if let Some(x) = t %}{{ x }}{% else %}none{% endif %}"))] (lit "main.html") (struct [((lit "t"), (CV (lit "Some") [((lit "0"), (CS (lit "a")))]))]) (lit "a") = true.
Proof. vm_compute. reflexivity. Qed.

Example repo_match : ok_both [((lit "main.html"), (lit "{% match item %}{% when Some with (""foo"") %}foo{% when Some(x) %}some {{ x }}{% when None %}none{% endmatch %}"))] (lit "main.html") (struct [((lit "item"), (CV (lit "Some") [((lit "0"), (CS (lit "b")))]))]) (lit "some b") = true.
Proof. vm_compute. reflexivity. Qed.

Example repo_loop_else : ok_both [((lit "main.html"), (lit "{% for v in vs %}{{ v }}{% else %}empty{% endfor %}"))] (lit "main.html") (struct [((lit "vs"), (CL []))]) (lit "empty") = true.
Proof. vm_compute. reflexivity. Qed.

Example repo_loop_cond : ok_both [((lit "main.html"), (lit "{% for v in vs if v > 1 %}{{ loop.index }}={{ v }},{% endfor %}"))] (lit "main.html") (struct [((lit "vs"), (CL [(CN (1)); (CN (2)); (CN (3))]))]) (lit "1=2,2=3,") = true.
Proof. vm_compute. reflexivity. Qed.

Example repo_loop_break : ok_both [((lit "main.html"), (lit "{% for v in vs %}x{{ v }}{%- if v == 2 -%}{% break %}{%- endif -%};{% endfor %}"))] (lit "main.html") (struct [((lit "vs"), (CL [(CN (1)); (CN (2)); (CN (3))]))]) (lit "x1;x2") = true.
Proof. vm_compute. reflexivity. Qed.

Example repo_cycle : ok_both [((lit "main.html"), (lit "{% for v in vs %}{{ v }}{{ loop.cycle([""a"", ""b""]) }}{% endfor %}"))] (lit "main.html") (struct [((lit "vs"), (CL [(CN (1)); (CN (2)); (CN (3))]))]) (lit "1a2b3a") = true.
Proof. vm_compute. reflexivity. Qed.

Example repo_escape : ok_both [((lit "main.html"), (lit "{{ s }}{{ s|safe }}{{ s|escape(""none"") }}{{ (s|safe) }}"))] (lit "main.html") (struct [((lit "s"), (CS (lit "<")))]) (lit "&lt;<<&lt;") = true.
Proof. vm_compute. reflexivity. Qed.

Example repo_braces : ok_both [((lit "main.html"), (lit "{ {{ s }} }} {{ s }}{expr0}"))] (lit "main.html") (struct [((lit "s"), (CS (lit "x")))]) (lit "{ x }} x{expr0}") = true.
Proof. vm_compute. reflexivity. Qed.
