(** * The cases of askama_parser/src/tests.rs and of the parser's doc comments, run on the model.  These are tests of the
    model, not proofs of properties. *)
From Verif Require Import Base Config Nom Ws Ast Lex ParseExpr ParseNode.
Local Open Scope N_scope.

(** [char::is_lowercase] on ASCII; [{:?}] on text that needs no escapes but for quotes, backslashes and line feeds. *)
Definition t_lower (c : N) : bool := is_lower c.
Definition t_debug (s : str) : str :=
  34 :: concat (map (fun c => if (c =? 34) || (c =? 92) then [92; c] else if c =? 10 then [92; 110] else [c]) s) ++ [34].
Definition test_sy (sy : syntax) (s : str) : option (list node + perror) := from_str t_lower t_debug sy s.
Definition test (s : str) : option (list node + perror) := test_sy default_syntax s.
Definition comment_ws (s : str) : option ws := match test s with Some (inl [NComment w _]) => Some w | _ => None end.
Definition is_err (s : str) : bool := match test s with Some (inr _) => true | _ => false end.

(** ** askama_parser/src/tests.rs *)
Example askama_test_1 : test (lit "{{ strvar|e }}") = Some (inl [(NExpr no_ws (Filter (lit "e") [(Var (lit "strvar"))]))]).
Proof. vm_compute. reflexivity. Qed.
Example askama_test_2 : test (lit "{{ 2|abs }}") = Some (inl [(NExpr no_ws (Filter (lit "abs") [(NumLit (lit "2"))]))]).
Proof. vm_compute. reflexivity. Qed.
Example askama_test_3 : test (lit "{{ -2|abs }}") = Some (inl [(NExpr no_ws (Filter (lit "abs") [(Unary (lit "-") (NumLit (lit "2")))]))]).
Proof. vm_compute. reflexivity. Qed.
Example askama_test_4 : test (lit "{{ (1 - 2)|abs }}") = Some (inl [(NExpr no_ws (Filter (lit "abs") [(Group (BinOp (lit "-") (NumLit (lit "1")) (NumLit (lit "2"))))]))]).
Proof. vm_compute. reflexivity. Qed.
Example askama_test_5 : test (lit "{{ 2 }}") = Some (inl [(NExpr no_ws (NumLit (lit "2")))]).
Proof. vm_compute. reflexivity. Qed.
Example askama_test_6 : test (lit "{{ 2.5 }}") = Some (inl [(NExpr no_ws (NumLit (lit "2.5")))]).
Proof. vm_compute. reflexivity. Qed.
Example askama_test_7 : test (lit "{{ foo }}") = Some (inl [(NExpr no_ws (Var (lit "foo")))]).
Proof. vm_compute. reflexivity. Qed.
Example askama_test_8 : test (lit "{{ foo_bar }}") = Some (inl [(NExpr no_ws (Var (lit "foo_bar")))]).
Proof. vm_compute. reflexivity. Qed.
Example askama_test_9 : test (lit "{{ none }}") = Some (inl [(NExpr no_ws (Var (lit "none")))]).
Proof. vm_compute. reflexivity. Qed.
Example askama_test_10 : test (lit "{{ FOO }}") = Some (inl [(NExpr no_ws (Path [(lit "FOO")]))]).
Proof. vm_compute. reflexivity. Qed.
Example askama_test_11 : test (lit "{{ FOO_BAR }}") = Some (inl [(NExpr no_ws (Path [(lit "FOO_BAR")]))]).
Proof. vm_compute. reflexivity. Qed.
Example askama_test_12 : test (lit "{{ NONE }}") = Some (inl [(NExpr no_ws (Path [(lit "NONE")]))]).
Proof. vm_compute. reflexivity. Qed.
Example askama_test_13 : test (lit "{{ None }}") = Some (inl [(NExpr no_ws (Path [(lit "None")]))]).
Proof. vm_compute. reflexivity. Qed.
Example askama_test_14 : test (lit "{{ Some(123) }}") = Some (inl [(NExpr no_ws (Call (Path [(lit "Some")]) [(NumLit (lit "123"))]))]).
Proof. vm_compute. reflexivity. Qed.
Example askama_test_15 : test (lit "{{ Ok(123) }}") = Some (inl [(NExpr no_ws (Call (Path [(lit "Ok")]) [(NumLit (lit "123"))]))]).
Proof. vm_compute. reflexivity. Qed.
Example askama_test_16 : test (lit "{{ Err(123) }}") = Some (inl [(NExpr no_ws (Call (Path [(lit "Err")]) [(NumLit (lit "123"))]))]).
Proof. vm_compute. reflexivity. Qed.
Example askama_test_17 : test (lit "{{ function(""123"", 3) }}") = Some (inl [(NExpr no_ws (Call (Var (lit "function")) [(StrLit (lit "123")); (NumLit (lit "3"))]))]).
Proof. vm_compute. reflexivity. Qed.
Example askama_test_18 : test (lit "{{ Option::None }}") = Some (inl [(NExpr no_ws (Path [(lit "Option"); (lit "None")]))]).
Proof. vm_compute. reflexivity. Qed.
Example askama_test_19 : test (lit "{{ Option::Some(123) }}") = Some (inl [(NExpr no_ws (Call (Path [(lit "Option"); (lit "Some")]) [(NumLit (lit "123"))]))]).
Proof. vm_compute. reflexivity. Qed.
Example askama_test_20 : test (lit "{{ self::function(""123"", 3) }}") = Some (inl [(NExpr no_ws (Call (Path [(lit "self"); (lit "function")]) [(StrLit (lit "123")); (NumLit (lit "3"))]))]).
Proof. vm_compute. reflexivity. Qed.
Example askama_test_21 : test (lit "{{ std::string::String::new() }}") = Some (inl [(NExpr no_ws (Call (Path [(lit "std"); (lit "string"); (lit "String"); (lit "new")]) []))]).
Proof. vm_compute. reflexivity. Qed.
Example askama_test_22 : test (lit "{{ ::std::string::String::new() }}") = Some (inl [(NExpr no_ws (Call (Path [(lit ""); (lit "std"); (lit "string"); (lit "String"); (lit "new")]) []))]).
Proof. vm_compute. reflexivity. Qed.
Example askama_test_23 : test (lit "{{ vec!(1, 2, 3) }}") = Some (inl [(NExpr no_ws (RustMacro [(lit "vec")] (lit "1, 2, 3")))]).
Proof. vm_compute. reflexivity. Qed.
Example askama_test_24 : test (lit "{{ alloc::vec!(1, 2, 3) }}") = Some (inl [(NExpr no_ws (RustMacro [(lit "alloc"); (lit "vec")] (lit "1, 2, 3")))]).
Proof. vm_compute. reflexivity. Qed.
Example askama_test_25 : test (lit "{{a!()}}") = Some (inl [(NExpr no_ws (RustMacro [(lit "a")] (lit "")))]).
Proof. vm_compute. reflexivity. Qed.
Example askama_test_26 : test (lit "{{a !()}}") = Some (inl [(NExpr no_ws (RustMacro [(lit "a")] (lit "")))]).
Proof. vm_compute. reflexivity. Qed.
Example askama_test_27 : test (lit "{{a! ()}}") = Some (inl [(NExpr no_ws (RustMacro [(lit "a")] (lit "")))]).
Proof. vm_compute. reflexivity. Qed.
Example askama_test_28 : test (lit "{{a ! ()}}") = Some (inl [(NExpr no_ws (RustMacro [(lit "a")] (lit "")))]).
Proof. vm_compute. reflexivity. Qed.
Example askama_test_29 : test (lit "{{A!()}}") = Some (inl [(NExpr no_ws (RustMacro [(lit "A")] (lit "")))]).
Proof. vm_compute. reflexivity. Qed.
Example askama_test_30 : test (lit "{{ a + b == c }}") = Some (inl [(NExpr no_ws (BinOp (lit "==") (BinOp (lit "+") (Var (lit "a")) (Var (lit "b"))) (Var (lit "c"))))]).
Proof. vm_compute. reflexivity. Qed.
Example askama_test_31 : test (lit "{{ a + b * c - d / e }}") = Some (inl [(NExpr no_ws (BinOp (lit "-") (BinOp (lit "+") (Var (lit "a")) (BinOp (lit "*") (Var (lit "b")) (Var (lit "c")))) (BinOp (lit "/") (Var (lit "d")) (Var (lit "e")))))]).
Proof. vm_compute. reflexivity. Qed.
Example askama_test_32 : test (lit "{{ a * (b + c) / -d }}") = Some (inl [(NExpr no_ws (BinOp (lit "/") (BinOp (lit "*") (Var (lit "a")) (Group (BinOp (lit "+") (Var (lit "b")) (Var (lit "c"))))) (Unary (lit "-") (Var (lit "d")))))]).
Proof. vm_compute. reflexivity. Qed.
Example askama_test_33 : test (lit "{{ a || b && c || d && e }}") = Some (inl [(NExpr no_ws (BinOp (lit "||") (BinOp (lit "||") (Var (lit "a")) (BinOp (lit "&&") (Var (lit "b")) (Var (lit "c")))) (BinOp (lit "&&") (Var (lit "d")) (Var (lit "e")))))]).
Proof. vm_compute. reflexivity. Qed.
Example askama_test_34 : test (lit "{{ a + b + c }}") = Some (inl [(NExpr no_ws (BinOp (lit "+") (BinOp (lit "+") (Var (lit "a")) (Var (lit "b"))) (Var (lit "c"))))]).
Proof. vm_compute. reflexivity. Qed.
Example askama_test_35 : test (lit "{{ a * b * c }}") = Some (inl [(NExpr no_ws (BinOp (lit "*") (BinOp (lit "*") (Var (lit "a")) (Var (lit "b"))) (Var (lit "c"))))]).
Proof. vm_compute. reflexivity. Qed.
Example askama_test_36 : test (lit "{{ a && b && c }}") = Some (inl [(NExpr no_ws (BinOp (lit "&&") (BinOp (lit "&&") (Var (lit "a")) (Var (lit "b"))) (Var (lit "c"))))]).
Proof. vm_compute. reflexivity. Qed.
Example askama_test_37 : test (lit "{{ a + b - c + d }}") = Some (inl [(NExpr no_ws (BinOp (lit "+") (BinOp (lit "-") (BinOp (lit "+") (Var (lit "a")) (Var (lit "b"))) (Var (lit "c"))) (Var (lit "d"))))]).
Proof. vm_compute. reflexivity. Qed.
Example askama_test_38 : test (lit "{{ a == b != c > d > e == f }}") = Some (inl [(NExpr no_ws (BinOp (lit "==") (BinOp (lit ">") (BinOp (lit ">") (BinOp (lit "!=") (BinOp (lit "==") (Var (lit "a")) (Var (lit "b"))) (Var (lit "c"))) (Var (lit "d"))) (Var (lit "e"))) (Var (lit "f"))))]).
Proof. vm_compute. reflexivity. Qed.
Example askama_test_39 : test (lit "{{ a[b](c) }}") = Some (inl [(NExpr no_ws (Call (Index (Var (lit "a")) (Var (lit "b"))) [(Var (lit "c"))]))]).
Proof. vm_compute. reflexivity. Qed.
Example askama_test_40 : test (lit "{{ (a + b)(c) }}") = Some (inl [(NExpr no_ws (Call (Group (BinOp (lit "+") (Var (lit "a")) (Var (lit "b")))) [(Var (lit "c"))]))]).
Proof. vm_compute. reflexivity. Qed.
Example askama_test_41 : test (lit "{{ a + b(c) }}") = Some (inl [(NExpr no_ws (BinOp (lit "+") (Var (lit "a")) (Call (Var (lit "b")) [(Var (lit "c"))])))]).
Proof. vm_compute. reflexivity. Qed.
Example askama_test_42 : test (lit "{{ (-a)(b) }}") = Some (inl [(NExpr no_ws (Call (Group (Unary (lit "-") (Var (lit "a")))) [(Var (lit "b"))]))]).
Proof. vm_compute. reflexivity. Qed.
Example askama_test_43 : test (lit "{{ -a(b) }}") = Some (inl [(NExpr no_ws (Unary (lit "-") (Call (Var (lit "a")) [(Var (lit "b"))])))]).
Proof. vm_compute. reflexivity. Qed.
Example askama_test_44 : test (lit "{{ a(b)|c }}") = Some (inl [(NExpr no_ws (Filter (lit "c") [(Call (Var (lit "a")) [(Var (lit "b"))])]))]).
Proof. vm_compute. reflexivity. Qed.
Example askama_test_45 : test (lit "{{ a(b)| c }}") = Some (inl [(NExpr no_ws (Filter (lit "c") [(Call (Var (lit "a")) [(Var (lit "b"))])]))]).
Proof. vm_compute. reflexivity. Qed.
Example askama_test_46 : test (lit "{{ a(b) |c }}") = Some (inl [(NExpr no_ws (BinOp (lit "|") (Call (Var (lit "a")) [(Var (lit "b"))]) (Var (lit "c"))))]).
Proof. vm_compute. reflexivity. Qed.
Example askama_test_47 : test (lit "{{ () }}") = Some (inl [(NExpr no_ws (Tuple []))]).
Proof. vm_compute. reflexivity. Qed.
Example askama_test_48 : test (lit "{{ (1) }}") = Some (inl [(NExpr no_ws (Group (NumLit (lit "1"))))]).
Proof. vm_compute. reflexivity. Qed.
Example askama_test_49 : test (lit "{{ (1,) }}") = Some (inl [(NExpr no_ws (Tuple [(NumLit (lit "1"))]))]).
Proof. vm_compute. reflexivity. Qed.
Example askama_test_50 : test (lit "{{ (1, ) }}") = Some (inl [(NExpr no_ws (Tuple [(NumLit (lit "1"))]))]).
Proof. vm_compute. reflexivity. Qed.
Example askama_test_51 : test (lit "{{ (1 ,) }}") = Some (inl [(NExpr no_ws (Tuple [(NumLit (lit "1"))]))]).
Proof. vm_compute. reflexivity. Qed.
Example askama_test_52 : test (lit "{{ (1 , ) }}") = Some (inl [(NExpr no_ws (Tuple [(NumLit (lit "1"))]))]).
Proof. vm_compute. reflexivity. Qed.
Example askama_test_53 : test (lit "{{ (1, 2) }}") = Some (inl [(NExpr no_ws (Tuple [(NumLit (lit "1")); (NumLit (lit "2"))]))]).
Proof. vm_compute. reflexivity. Qed.
Example askama_test_54 : test (lit "{{ (1, 2,) }}") = Some (inl [(NExpr no_ws (Tuple [(NumLit (lit "1")); (NumLit (lit "2"))]))]).
Proof. vm_compute. reflexivity. Qed.
Example askama_test_55 : test (lit "{{ (1, 2, 3) }}") = Some (inl [(NExpr no_ws (Tuple [(NumLit (lit "1")); (NumLit (lit "2")); (NumLit (lit "3"))]))]).
Proof. vm_compute. reflexivity. Qed.
Example askama_test_56 : test (lit "{{ ()|abs }}") = Some (inl [(NExpr no_ws (Filter (lit "abs") [(Tuple [])]))]).
Proof. vm_compute. reflexivity. Qed.
Example askama_test_57 : test (lit "{{ () | abs }}") = Some (inl [(NExpr no_ws (BinOp (lit "|") (Tuple []) (Var (lit "abs"))))]).
Proof. vm_compute. reflexivity. Qed.
Example askama_test_58 : test (lit "{{ (1)|abs }}") = Some (inl [(NExpr no_ws (Filter (lit "abs") [(Group (NumLit (lit "1")))]))]).
Proof. vm_compute. reflexivity. Qed.
Example askama_test_59 : test (lit "{{ (1) | abs }}") = Some (inl [(NExpr no_ws (BinOp (lit "|") (Group (NumLit (lit "1"))) (Var (lit "abs"))))]).
Proof. vm_compute. reflexivity. Qed.
Example askama_test_60 : test (lit "{{ (1,)|abs }}") = Some (inl [(NExpr no_ws (Filter (lit "abs") [(Tuple [(NumLit (lit "1"))])]))]).
Proof. vm_compute. reflexivity. Qed.
Example askama_test_61 : test (lit "{{ (1,) | abs }}") = Some (inl [(NExpr no_ws (BinOp (lit "|") (Tuple [(NumLit (lit "1"))]) (Var (lit "abs"))))]).
Proof. vm_compute. reflexivity. Qed.
Example askama_test_62 : test (lit "{{ (1, 2)|abs }}") = Some (inl [(NExpr no_ws (Filter (lit "abs") [(Tuple [(NumLit (lit "1")); (NumLit (lit "2"))])]))]).
Proof. vm_compute. reflexivity. Qed.
Example askama_test_63 : test (lit "{{ (1, 2) | abs }}") = Some (inl [(NExpr no_ws (BinOp (lit "|") (Tuple [(NumLit (lit "1")); (NumLit (lit "2"))]) (Var (lit "abs"))))]).
Proof. vm_compute. reflexivity. Qed.
Example askama_test_64 : test (lit "{{ [] }}") = Some (inl [(NExpr no_ws (Arr []))]).
Proof. vm_compute. reflexivity. Qed.
Example askama_test_65 : test (lit "{{ [1] }}") = Some (inl [(NExpr no_ws (Arr [(NumLit (lit "1"))]))]).
Proof. vm_compute. reflexivity. Qed.
Example askama_test_66 : test (lit "{{ [ 1] }}") = Some (inl [(NExpr no_ws (Arr [(NumLit (lit "1"))]))]).
Proof. vm_compute. reflexivity. Qed.
Example askama_test_67 : test (lit "{{ [1 ] }}") = Some (inl [(NExpr no_ws (Arr [(NumLit (lit "1"))]))]).
Proof. vm_compute. reflexivity. Qed.
Example askama_test_68 : test (lit "{{ [1,2] }}") = Some (inl [(NExpr no_ws (Arr [(NumLit (lit "1")); (NumLit (lit "2"))]))]).
Proof. vm_compute. reflexivity. Qed.
Example askama_test_69 : test (lit "{{ [1 ,2] }}") = Some (inl [(NExpr no_ws (Arr [(NumLit (lit "1")); (NumLit (lit "2"))]))]).
Proof. vm_compute. reflexivity. Qed.
Example askama_test_70 : test (lit "{{ [1, 2] }}") = Some (inl [(NExpr no_ws (Arr [(NumLit (lit "1")); (NumLit (lit "2"))]))]).
Proof. vm_compute. reflexivity. Qed.
Example askama_test_71 : test (lit "{{ [1,2 ] }}") = Some (inl [(NExpr no_ws (Arr [(NumLit (lit "1")); (NumLit (lit "2"))]))]).
Proof. vm_compute. reflexivity. Qed.
Example askama_test_72 : test (lit "{{ []|foo }}") = Some (inl [(NExpr no_ws (Filter (lit "foo") [(Arr [])]))]).
Proof. vm_compute. reflexivity. Qed.
Example askama_test_73 : test (lit "{{ []| foo }}") = Some (inl [(NExpr no_ws (Filter (lit "foo") [(Arr [])]))]).
Proof. vm_compute. reflexivity. Qed.
Example askama_test_74 : test (lit "{{ [] |foo }}") = Some (inl [(NExpr no_ws (BinOp (lit "|") (Arr []) (Var (lit "foo"))))]).
Proof. vm_compute. reflexivity. Qed.
Example askama_macro_err : test (lit "{{a.b.c!( hello )}}") =
  Some (inr {| pe_message := None; pe_row := 0; pe_column := 7; pe_after := lit """!( hello )}}""" |}).
Proof. vm_compute. reflexivity. Qed.
Example askama_invalid_block : is_err (lit "{% extend ""blah"" %}") = true.
Proof. vm_compute. reflexivity. Qed.
Example askama_missing_space : test (lit "{%leta=b%}") =
  Some (inr {| pe_message := None; pe_row := 0; pe_column := 0; pe_after := lit """{%leta=b%}""" |}).
Proof. vm_compute. reflexivity. Qed.
Example askama_macro_no_end : is_err (lit "{%macro super%}{%endmacro") = true.
Proof. vm_compute. reflexivity. Qed.
Example askama_let_set : test (lit "{% let a %}") = test (lit "{% set a %}") /\ is_err (lit "{% let a %}") = false.
Proof. vm_compute. split; reflexivity. Qed.
Example askama_delims :
  is_err (lit "{= strvar|e =}") = false /\
  test_sy {| block_start := lit "{%"; block_end := lit "%}"; expr_start := lit "{="; expr_end := lit "=}";
             comment_start := lit "{#"; comment_end := lit "#}" |} (lit "{= strvar|e =}") =
  Some (inl [NExpr no_ws (Filter (lit "e") [Var (lit "strvar")])]).
Proof. vm_compute. split; reflexivity. Qed.
Example askama_comments :
  map comment_ws [lit "{##}"; lit "{#- #}"; lit "{# -#}"; lit "{#--#}"; lit "{#- foo {#- bar -#} baz -#}"; lit "{#+ #}";
                  lit "{# +#}"; lit "{#~ #}"; lit "{# ~#}"; lit "{#~ foo {#~ bar ~#} baz -~#}";
                  lit "{# foo {# bar #} {# {# baz #} qux #} #}"] =
  let w a b := Some {| ws_l := a; ws_r := b |} in
  [w None None; w (Some Suppress) None; w None (Some Suppress); w (Some Suppress) (Some Suppress); w (Some Suppress) (Some Suppress);
   w (Some Preserve) None; w None (Some Preserve); w (Some Minimize) None; w None (Some Minimize); w (Some Minimize) (Some Minimize);
   w None None].
Proof. vm_compute. reflexivity. Qed.

(** ** testing/tests/ui: the reported messages, rows, columns and excerpts *)
Example askama_ui_1 : test (lit "Have a {%break%}, have a parsing error!") =
  Some (inr {| pe_message := (Some (lit "you can only `break` inside a `for` loop")); pe_row := 0; pe_column := 9; pe_after := (lit """break%}, have a parsing error!""") |}).
Proof. vm_compute. reflexivity. Qed.
Example askama_ui_2 : test (lit "{% let s = 'aaa' %}") =
  Some (inr {| pe_message := (Some (lit "invalid character")); pe_row := 0; pe_column := 11; pe_after := (lit """'aaa' %}""") |}).
Proof. vm_compute. reflexivity. Qed.
Example askama_ui_3 : test ([10] ++ lit "    {%if 1%}{%if 1%}{%if 1%}{%if 1%}{%if 1%}{%if 1%}{%if 1%}{%if 1%}{%if 1%}{%if 1%}" ++ [10] ++ lit "    {%if 1%}{%if 1%}{%if 1%}{%if 1%}{%if 1%}{%if 1%}{%if 1%}{%if 1%}{%if 1%}{%if 1%}" ++ [10] ++ lit "    {%if 1%}{%if 1%}{%if 1%}{%if 1%}{%if 1%}{%if 1%}{%if 1%}{%if 1%}{%if 1%}{%if 1%}" ++ [10] ++ lit "    {%if 1%}{%if 1%}{%if 1%}{%if 1%}{%if 1%}{%if 1%}{%if 1%}{%if 1%}{%if 1%}{%if 1%}" ++ [10] ++ lit "    {%if 1%}{%if 1%}{%if 1%}{%if 1%}{%if 1%}{%if 1%}{%if 1%}{%if 1%}{%if 1%}{%if 1%}" ++ [10] ++ lit "    {%if 1%}{%if 1%}{%if 1%}{%if 1%}{%if 1%}{%if 1%}{%if 1%}{%if 1%}{%if 1%}{%if 1%}" ++ [10] ++ lit "    {%if 1%}{%if 1%}{%if 1%}{%if 1%}{%if 1%}{%if 1%}{%if 1%}{%if 1%}{%if 1%}{%if 1%}" ++ [10] ++ lit "    {%if 1%}{%if 1%}{%if 1%}{%if 1%}{%if 1%}{%if 1%}{%if 1%}{%if 1%}{%if 1%}{%if 1%}" ++ [10] ++ lit "    {%if 1%}{%if 1%}{%if 1%}{%if 1%}{%if 1%}{%if 1%}{%if 1%}{%if 1%}{%if 1%}{%if 1%}" ++ [10] ++ lit "    {%if 1%}{%if 1%}{%if 1%}{%if 1%}{%if 1%}{%if 1%}{%if 1%}{%if 1%}{%if 1%}{%if 1%} 100" ++ [10] ++ [10] ++ lit "    {%if 1%}{%if 1%}{%if 1%}{%if 1%}{%if 1%}{%if 1%}{%if 1%}{%if 1%}{%if 1%}{%if 1%}" ++ [10] ++ lit "    {%if 1%}{%if 1%}{%if 1%}{%if 1%}{%if 1%}{%if 1%}{%if 1%}{%if 1%}{%if 1%}{%if 1%}" ++ [10] ++ lit "    {%if 1%}{%if 1%}{%if 1%}{%if 1%}{%if 1%}{%if 1%}{%if 1%}{%if 1%}{%if 1%}{%if 1%}" ++ [10] ++ lit "    {%if 1%}{%if 1%}{%if 1%}{%if 1%}{%if 1%}{%if 1%}{%if 1%}{%if 1%}{%if 1%}{%if 1%}" ++ [10] ++ lit "    {%if 1%}{%if 1%}{%if 1%}{%if 1%}{%if 1%}{%if 1%}{%if 1%}{%if 1%}{%if 1%}{%if 1%}" ++ [10] ++ lit "    {%if 1%}{%if 1%}{%if 1%}{%if 1%}{%if 1%}{%if 1%}{%if 1%}{%if 1%}{%if 1%}{%if 1%}" ++ [10] ++ lit "    {%if 1%}{%if 1%}{%if 1%}{%if 1%}{%if 1%}{%if 1%}{%if 1%}{%if 1%}{%if 1%}{%if 1%}" ++ [10] ++ lit "    {%if 1%}{%if 1%}{%if 1%}{%if 1%}{%if 1%}{%if 1%}{%if 1%}{%if 1%}{%if 1%}{%if 1%}" ++ [10] ++ lit "    {%if 1%}{%if 1%}{%if 1%}{%if 1%}{%if 1%}{%if 1%}{%if 1%}{%if 1%}{%if 1%}{%if 1%}" ++ [10] ++ lit "    {%if 1%}{%if 1%}{%if 1%}{%if 1%}{%if 1%}{%if 1%}{%if 1%}{%if 1%}{%if 1%}{%if 1%} 200" ++ [10] ++ [10] ++ lit "    {%if 1%}{%if 1%}{%if 1%}{%if 1%}{%if 1%}{%if 1%}{%if 1%}{%if 1%}{%if 1%}{%if 1%}" ++ [10] ++ lit "    {%if 1%}{%if 1%}{%if 1%}{%if 1%}{%if 1%}{%if 1%}{%if 1%}{%if 1%}{%if 1%}{%if 1%}" ++ [10] ++ lit "    {%if 1%}{%if 1%}{%if 1%}{%if 1%}{%if 1%}{%if 1%}{%if 1%}{%if 1%}{%if 1%}{%if 1%}" ++ [10] ++ lit "    {%if 1%}{%if 1%}{%if 1%}{%if 1%}{%if 1%}{%if 1%}{%if 1%}{%if 1%}{%if 1%}{%if 1%}" ++ [10] ++ lit "    {%if 1%}{%if 1%}{%if 1%}{%if 1%}{%if 1%}{%if 1%}{%if 1%}{%if 1%}{%if 1%}{%if 1%}" ++ [10] ++ lit "    {%if 1%}{%if 1%}{%if 1%}{%if 1%}{%if 1%}{%if 1%}{%if 1%}{%if 1%}{%if 1%}{%if 1%}" ++ [10] ++ lit "    {%if 1%}{%if 1%}{%if 1%}{%if 1%}{%if 1%}{%if 1%}{%if 1%}{%if 1%}{%if 1%}{%if 1%}" ++ [10] ++ lit "    {%if 1%}{%if 1%}{%if 1%}{%if 1%}{%if 1%}{%if 1%}{%if 1%}{%if 1%}{%if 1%}{%if 1%}" ++ [10] ++ lit "    {%if 1%}{%if 1%}{%if 1%}{%if 1%}{%if 1%}{%if 1%}{%if 1%}{%if 1%}{%if 1%}{%if 1%}" ++ [10] ++ lit "    {%if 1%}{%if 1%}{%if 1%}{%if 1%}{%if 1%}{%if 1%}{%if 1%}{%if 1%}{%if 1%}{%if 1%} 300" ++ [10] ++ [10] ++ lit "    {%if 1%}{%if 1%}{%if 1%}{%if 1%}{%if 1%}{%if 1%}{%if 1%}{%if 1%}{%if 1%}{%if 1%}" ++ [10] ++ lit "    {%if 1%}{%if 1%}{%if 1%}{%if 1%}{%if 1%}{%if 1%}{%if 1%}{%if 1%}{%if 1%}{%if 1%}" ++ [10] ++ lit "    {%if 1%}{%if 1%}{%if 1%}{%if 1%}{%if 1%}{%if 1%}{%if 1%}{%if 1%}{%if 1%}{%if 1%}" ++ [10] ++ lit "    {%if 1%}{%if 1%}{%if 1%}{%if 1%}{%if 1%}{%if 1%}{%if 1%}{%if 1%}{%if 1%}{%if 1%}" ++ [10] ++ lit "    {%if 1%}{%if 1%}{%if 1%}{%if 1%}{%if 1%}{%if 1%}{%if 1%}{%if 1%}{%if 1%}{%if 1%}" ++ [10] ++ lit "    {%if 1%}{%if 1%}{%if 1%}{%if 1%}{%if 1%}{%if 1%}{%if 1%}{%if 1%}{%if 1%}{%if 1%}" ++ [10] ++ lit "    {%if 1%}{%if 1%}{%if 1%}{%if 1%}{%if 1%}{%if 1%}{%if 1%}{%if 1%}{%if 1%}{%if 1%}" ++ [10] ++ lit "    {%if 1%}{%if 1%}{%if 1%}{%if 1%}{%if 1%}{%if 1%}{%if 1%}{%if 1%}{%if 1%}{%if 1%}" ++ [10] ++ lit "    {%if 1%}{%if 1%}{%if 1%}{%if 1%}{%if 1%}{%if 1%}{%if 1%}{%if 1%}{%if 1%}{%if 1%}" ++ [10] ++ lit "    {%if 1%}{%if 1%}{%if 1%}{%if 1%}{%if 1%}{%if 1%}{%if 1%}{%if 1%}{%if 1%}{%if 1%} 400" ++ [10] ++ [10] ++ lit "    {%if 1%}{%if 1%}{%if 1%}{%if 1%}{%if 1%}{%if 1%}{%if 1%}{%if 1%}{%if 1%}{%if 1%}" ++ [10] ++ lit "    {%if 1%}{%if 1%}{%if 1%}{%if 1%}{%if 1%}{%if 1%}{%if 1%}{%if 1%}{%if 1%}{%if 1%}" ++ [10] ++ lit "    {%if 1%}{%if 1%}{%if 1%}{%if 1%}{%if 1%}{%if 1%}{%if 1%}{%if 1%}{%if 1%}{%if 1%}" ++ [10] ++ lit "    {%if 1%}{%if 1%}{%if 1%}{%if 1%}{%if 1%}{%if 1%}{%if 1%}{%if 1%}{%if 1%}{%if 1%}" ++ [10] ++ lit "    {%if 1%}{%if 1%}{%if 1%}{%if 1%}{%if 1%}{%if 1%}{%if 1%}{%if 1%}{%if 1%}{%if 1%}" ++ [10] ++ lit "    {%if 1%}{%if 1%}{%if 1%}{%if 1%}{%if 1%}{%if 1%}{%if 1%}{%if 1%}{%if 1%}{%if 1%}" ++ [10] ++ lit "    {%if 1%}{%if 1%}{%if 1%}{%if 1%}{%if 1%}{%if 1%}{%if 1%}{%if 1%}{%if 1%}{%if 1%}" ++ [10] ++ lit "    {%if 1%}{%if 1%}{%if 1%}{%if 1%}{%if 1%}{%if 1%}{%if 1%}{%if 1%}{%if 1%}{%if 1%}" ++ [10] ++ lit "    {%if 1%}{%if 1%}{%if 1%}{%if 1%}{%if 1%}{%if 1%}{%if 1%}{%if 1%}{%if 1%}{%if 1%}" ++ [10] ++ lit "    {%if 1%}{%if 1%}{%if 1%}{%if 1%}{%if 1%}{%if 1%}{%if 1%}{%if 1%}{%if 1%}{%if 1%} 500" ++ [10] ++ [10] ++ lit "    {%if 1%}{%if 1%}{%if 1%}{%if 1%}{%if 1%}{%if 1%}{%if 1%}{%if 1%}{%if 1%}{%if 1%}" ++ [10] ++ lit "    {%if 1%}{%if 1%}{%if 1%}{%if 1%}{%if 1%}{%if 1%}{%if 1%}{%if 1%}{%if 1%}{%if 1%}" ++ [10] ++ lit "    {%if 1%}{%if 1%}{%if 1%}{%if 1%}{%if 1%}{%if 1%}{%if 1%}{%if 1%}{%if 1%}{%if 1%}" ++ [10] ++ lit "    {%if 1%}{%if 1%}{%if 1%}{%if 1%}{%if 1%}{%if 1%}{%if 1%}{%if 1%}{%if 1%}{%if 1%}" ++ [10] ++ lit "    {%if 1%}{%if 1%}{%if 1%}{%if 1%}{%if 1%}{%if 1%}{%if 1%}{%if 1%}{%if 1%}{%if 1%}" ++ [10] ++ lit "    {%if 1%}{%if 1%}{%if 1%}{%if 1%}{%if 1%}{%if 1%}{%if 1%}{%if 1%}{%if 1%}{%if 1%}" ++ [10] ++ lit "    {%if 1%}{%if 1%}{%if 1%}{%if 1%}{%if 1%}{%if 1%}{%if 1%}{%if 1%}{%if 1%}{%if 1%}" ++ [10] ++ lit "    {%if 1%}{%if 1%}{%if 1%}{%if 1%}{%if 1%}{%if 1%}{%if 1%}{%if 1%}{%if 1%}{%if 1%}" ++ [10] ++ lit "    {%if 1%}{%if 1%}{%if 1%}{%if 1%}{%if 1%}{%if 1%}{%if 1%}{%if 1%}{%if 1%}{%if 1%}" ++ [10] ++ lit "    {%if 1%}{%if 1%}{%if 1%}{%if 1%}{%if 1%}{%if 1%}{%if 1%}{%if 1%}{%if 1%}{%if 1%} 600" ++ [10] ++ [10] ++ lit "    {%if 1%}{%if 1%}{%if 1%}{%if 1%}{%if 1%}{%if 1%}{%if 1%}{%if 1%}{%if 1%}{%if 1%}" ++ [10] ++ lit "    {%if 1%}{%if 1%}{%if 1%}{%if 1%}{%if 1%}{%if 1%}{%if 1%}{%if 1%}{%if 1%}{%if 1%}" ++ [10] ++ lit "    {%if 1%}{%if 1%}{%if 1%}{%if 1%}{%if 1%}{%if 1%}{%if 1%}{%if 1%}{%if 1%}{%if 1%}" ++ [10] ++ lit "    {%if 1%}{%if 1%}{%if 1%}{%if 1%}{%if 1%}{%if 1%}{%if 1%}{%if 1%}{%if 1%}{%if 1%}" ++ [10] ++ lit "    {%if 1%}{%if 1%}{%if 1%}{%if 1%}{%if 1%}{%if 1%}{%if 1%}{%if 1%}{%if 1%}{%if 1%}" ++ [10] ++ lit "    {%if 1%}{%if 1%}{%if 1%}{%if 1%}{%if 1%}{%if 1%}{%if 1%}{%if 1%}{%if 1%}{%if 1%}" ++ [10] ++ lit "    {%if 1%}{%if 1%}{%if 1%}{%if 1%}{%if 1%}{%if 1%}{%if 1%}{%if 1%}{%if 1%}{%if 1%}" ++ [10] ++ lit "    {%if 1%}{%if 1%}{%if 1%}{%if 1%}{%if 1%}{%if 1%}{%if 1%}{%if 1%}{%if 1%}{%if 1%}" ++ [10] ++ lit "    {%if 1%}{%if 1%}{%if 1%}{%if 1%}{%if 1%}{%if 1%}{%if 1%}{%if 1%}{%if 1%}{%if 1%}" ++ [10] ++ lit "    {%if 1%}{%if 1%}{%if 1%}{%if 1%}{%if 1%}{%if 1%}{%if 1%}{%if 1%}{%if 1%}{%if 1%} 700" ++ [10] ++ [10] ++ lit "    {%if 1%}{%if 1%}{%if 1%}{%if 1%}{%if 1%}{%if 1%}{%if 1%}{%if 1%}{%if 1%}{%if 1%}" ++ [10] ++ lit "    {%if 1%}{%if 1%}{%if 1%}{%if 1%}{%if 1%}{%if 1%}{%if 1%}{%if 1%}{%if 1%}{%if 1%}" ++ [10] ++ lit "    {%if 1%}{%if 1%}{%if 1%}{%if 1%}{%if 1%}{%if 1%}{%if 1%}{%if 1%}{%if 1%}{%if 1%}" ++ [10] ++ lit "    {%if 1%}{%if 1%}{%if 1%}{%if 1%}{%if 1%}{%if 1%}{%if 1%}{%if 1%}{%if 1%}{%if 1%}" ++ [10] ++ lit "    {%if 1%}{%if 1%}{%if 1%}{%if 1%}{%if 1%}{%if 1%}{%if 1%}{%if 1%}{%if 1%}{%if 1%}" ++ [10] ++ lit "    {%if 1%}{%if 1%}{%if 1%}{%if 1%}{%if 1%}{%if 1%}{%if 1%}{%if 1%}{%if 1%}{%if 1%}" ++ [10] ++ lit "    {%if 1%}{%if 1%}{%if 1%}{%if 1%}{%if 1%}{%if 1%}{%if 1%}{%if 1%}{%if 1%}{%if 1%}" ++ [10] ++ lit "    {%if 1%}{%if 1%}{%if 1%}{%if 1%}{%if 1%}{%if 1%}{%if 1%}{%if 1%}{%if 1%}{%if 1%}" ++ [10] ++ lit "    {%if 1%}{%if 1%}{%if 1%}{%if 1%}{%if 1%}{%if 1%}{%if 1%}{%if 1%}{%if 1%}{%if 1%}" ++ [10] ++ lit "    {%if 1%}{%if 1%}{%if 1%}{%if 1%}{%if 1%}{%if 1%}{%if 1%}{%if 1%}{%if 1%}{%if 1%} 800" ++ [10] ++ [10] ++ lit "    {%if 1%}{%if 1%}{%if 1%}{%if 1%}{%if 1%}{%if 1%}{%if 1%}{%if 1%}{%if 1%}{%if 1%}" ++ [10] ++ lit "    {%if 1%}{%if 1%}{%if 1%}{%if 1%}{%if 1%}{%if 1%}{%if 1%}{%if 1%}{%if 1%}{%if 1%}" ++ [10] ++ lit "    {%if 1%}{%if 1%}{%if 1%}{%if 1%}{%if 1%}{%if 1%}{%if 1%}{%if 1%}{%if 1%}{%if 1%}" ++ [10] ++ lit "    {%if 1%}{%if 1%}{%if 1%}{%if 1%}{%if 1%}{%if 1%}{%if 1%}{%if 1%}{%if 1%}{%if 1%}" ++ [10] ++ lit "    {%if 1%}{%if 1%}{%if 1%}{%if 1%}{%if 1%}{%if 1%}{%if 1%}{%if 1%}{%if 1%}{%if 1%}" ++ [10] ++ lit "    {%if 1%}{%if 1%}{%if 1%}{%if 1%}{%if 1%}{%if 1%}{%if 1%}{%if 1%}{%if 1%}{%if 1%}" ++ [10] ++ lit "    {%if 1%}{%if 1%}{%if 1%}{%if 1%}{%if 1%}{%if 1%}{%if 1%}{%if 1%}{%if 1%}{%if 1%}" ++ [10] ++ lit "    {%if 1%}{%if 1%}{%if 1%}{%if 1%}{%if 1%}{%if 1%}{%if 1%}{%if 1%}{%if 1%}{%if 1%}" ++ [10] ++ lit "    {%if 1%}{%if 1%}{%if 1%}{%if 1%}{%if 1%}{%if 1%}{%if 1%}{%if 1%}{%if 1%}{%if 1%}" ++ [10] ++ lit "    {%if 1%}{%if 1%}{%if 1%}{%if 1%}{%if 1%}{%if 1%}{%if 1%}{%if 1%}{%if 1%}{%if 1%} 900" ++ [10] ++ [10] ++ lit "    {%if 1%}{%if 1%}{%if 1%}{%if 1%}{%if 1%}{%if 1%}{%if 1%}{%if 1%}{%if 1%}{%if 1%}" ++ [10] ++ lit "    {%if 1%}{%if 1%}{%if 1%}{%if 1%}{%if 1%}{%if 1%}{%if 1%}{%if 1%}{%if 1%}{%if 1%}" ++ [10] ++ lit "    {%if 1%}{%if 1%}{%if 1%}{%if 1%}{%if 1%}{%if 1%}{%if 1%}{%if 1%}{%if 1%}{%if 1%}" ++ [10] ++ lit "    {%if 1%}{%if 1%}{%if 1%}{%if 1%}{%if 1%}{%if 1%}{%if 1%}{%if 1%}{%if 1%}{%if 1%}" ++ [10] ++ lit "    {%if 1%}{%if 1%}{%if 1%}{%if 1%}{%if 1%}{%if 1%}{%if 1%}{%if 1%}{%if 1%}{%if 1%}" ++ [10] ++ lit "    {%if 1%}{%if 1%}{%if 1%}{%if 1%}{%if 1%}{%if 1%}{%if 1%}{%if 1%}{%if 1%}{%if 1%}" ++ [10] ++ lit "    {%if 1%}{%if 1%}{%if 1%}{%if 1%}{%if 1%}{%if 1%}{%if 1%}{%if 1%}{%if 1%}{%if 1%}" ++ [10] ++ lit "    {%if 1%}{%if 1%}{%if 1%}{%if 1%}{%if 1%}{%if 1%}{%if 1%}{%if 1%}{%if 1%}{%if 1%}" ++ [10] ++ lit "    {%if 1%}{%if 1%}{%if 1%}{%if 1%}{%if 1%}{%if 1%}{%if 1%}{%if 1%}{%if 1%}{%if 1%}" ++ [10] ++ lit "    {%if 1%}{%if 1%}{%if 1%}{%if 1%}{%if 1%}{%if 1%}{%if 1%}{%if 1%}{%if 1%}{%if 1%} 1000" ++ [10] ++ lit "    ") =
  Some (inr {| pe_message := None; pe_row := 13; pe_column := 34; pe_after := (lit """%}{%if 1%}{%if 1%}{%if 1%}{%if 1%}{%if 1""...") |}).
Proof. vm_compute. reflexivity. Qed.
Example askama_ui_4 : test (lit "{%- extends ""whatever.html"" %}") =
  Some (inr {| pe_message := (Some (lit "whitespace control is not allowed on `extends`")); pe_row := 0; pe_column := 2; pe_after := (lit """- extends \""whatever.html\"" %}""") |}).
Proof. vm_compute. reflexivity. Qed.
Example askama_ui_5 : test (lit "{% extends ""whatever.html"" -%}") =
  Some (inr {| pe_message := (Some (lit "whitespace control is not allowed on `extends`")); pe_row := 0; pe_column := 2; pe_after := (lit """ extends \""whatever.html\"" -%}""") |}).
Proof. vm_compute. reflexivity. Qed.
Example askama_ui_6 : test (lit "{% filter lower|indent(2) - %}" ++ [10] ++ lit "HELLO" ++ [10] ++ lit "{{v}}" ++ [10] ++ lit "{%- endfilter %}") =
  Some (inr {| pe_message := None; pe_row := 0; pe_column := 27; pe_after := (lit """ %}\nHELLO\n{{v}}\n{%- endfilter %}""") |}).
Proof. vm_compute. reflexivity. Qed.
Example askama_ui_7 : test (lit "{%- macro super() -%}{%- endmacro -%}") =
  Some (inr {| pe_message := (Some (lit "'super' is not a valid name for a macro")); pe_row := 0; pe_column := 2; pe_after := (lit """- macro super() -%}{%- endmacro -%}""") |}).
Proof. vm_compute. reflexivity. Qed.
Example askama_ui_8 : test (lit "{%- macro thrice(param1, param2) -%}" ++ [10] ++ lit "{{ param1 }} {{ param2 }}" ++ [10] ++ lit "{%- endmacro -%}" ++ [10] ++ [10] ++ lit "{%- call thrice(param1=2, param1=3) -%}") =
  Some (inr {| pe_message := (Some (lit "named argument `param1` was passed more than once")); pe_row := 4; pe_column := 15; pe_after := (lit """(param1=2, param1=3) -%}""") |}).
Proof. vm_compute. reflexivity. Qed.
Example askama_ui_9 : test (lit "{%- macro thrice(param1, param2) -%}" ++ [10] ++ lit "{{ param1 }} {{ param2 }}" ++ [10] ++ lit "{%- endmacro -%}" ++ [10] ++ [10] ++ lit "{%- call thrice(3, param1=2) | filter(param1=12) -%}") =
  Some (inr {| pe_message := None; pe_row := 4; pe_column := 29; pe_after := (lit """| filter(param1=12) -%}""") |}).
Proof. vm_compute. reflexivity. Qed.
Example askama_ui_10 : test (lit "{%- macro thrice(param1, param2) -%}" ++ [10] ++ lit "{{ param1 }} {{ param2 }}" ++ [10] ++ lit "{%- endmacro -%}" ++ [10] ++ lit "{%- call thrice(param1=2, 3) -%}") =
  Some (inr {| pe_message := (Some (lit "named arguments must always be passed last")); pe_row := 3; pe_column := 15; pe_after := (lit """(param1=2, 3) -%}""") |}).
Proof. vm_compute. reflexivity. Qed.
Example askama_ui_11 : test ([10] ++ lit "{%- match good -%}" ++ [10] ++ lit "    // Help, I forgot how to write comments!" ++ [10] ++ lit "    {%- when true %}" ++ [10] ++ lit "        good" ++ [10] ++ lit "    {%- when _ -%}" ++ [10] ++ lit "        bad" ++ [10] ++ lit "{%- endmatch -%}") =
  Some (inr {| pe_message := None; pe_row := 2; pe_column := 4; pe_after := (lit """// Help, I forgot how to write comments!""...") |}).
Proof. vm_compute. reflexivity. Qed.
Example askama_ui_12 : test (lit "{% block foo %}{% endblock not_foo %}") =
  Some (inr {| pe_message := (Some (lit "expected name `foo` in `endblock` tag, found `not_foo`")); pe_row := 0; pe_column := 27; pe_after := (lit """not_foo %}""") |}).
Proof. vm_compute. reflexivity. Qed.
Example askama_ui_13 : test (lit "{% macro foo(arg) %} {{arg}} {% endmacro not_foo %}") =
  Some (inr {| pe_message := (Some (lit "expected name `foo` in `endmacro` tag, found `not_foo`")); pe_row := 0; pe_column := 41; pe_after := (lit """not_foo %}""") |}).
Proof. vm_compute. reflexivity. Qed.
Example askama_ui_14 : test (lit "{%for i in 1..=10%}{{i}}{%endfo%}" ++ [10] ++ lit "1234567890123456789012345678901234567890") =
  Some (inr {| pe_message := None; pe_row := 0; pe_column := 26; pe_after := (lit """endfo%}\n12345678901234567890123456789012""...") |}).
Proof. vm_compute. reflexivity. Qed.
Example askama_ui_15 : test (lit "{{ expr") =
  Some (inr {| pe_message := (Some (lit "unclosed expression, missing ""}}""")); pe_row := 0; pe_column := 7; pe_after := (lit """""") |}).
Proof. vm_compute. reflexivity. Qed.
Example askama_ui_16 : test (lit "{{ expr ") =
  Some (inr {| pe_message := (Some (lit "unclosed expression, missing ""}}""")); pe_row := 0; pe_column := 8; pe_after := (lit """""") |}).
Proof. vm_compute. reflexivity. Qed.
Example askama_ui_17 : test (lit "{{ expr -") =
  Some (inr {| pe_message := (Some (lit "unclosed expression, missing ""}}""")); pe_row := 0; pe_column := 9; pe_after := (lit """""") |}).
Proof. vm_compute. reflexivity. Qed.
Example askama_ui_18 : test (lit "{{ expr -}") =
  Some (inr {| pe_message := None; pe_row := 0; pe_column := 9; pe_after := (lit """}""") |}).
Proof. vm_compute. reflexivity. Qed.
Example askama_ui_19 : test (lit "{% let x") =
  Some (inr {| pe_message := (Some (lit "unclosed block, missing ""%}""")); pe_row := 0; pe_column := 8; pe_after := (lit """""") |}).
Proof. vm_compute. reflexivity. Qed.
Example askama_ui_20 : test (lit "{% let x ") =
  Some (inr {| pe_message := (Some (lit "unclosed block, missing ""%}""")); pe_row := 0; pe_column := 9; pe_after := (lit """""") |}).
Proof. vm_compute. reflexivity. Qed.
Example askama_ui_21 : test (lit "{% let x -") =
  Some (inr {| pe_message := (Some (lit "unclosed block, missing ""%}""")); pe_row := 0; pe_column := 10; pe_after := (lit """""") |}).
Proof. vm_compute. reflexivity. Qed.
Example askama_ui_22 : test (lit "{% let x -%") =
  Some (inr {| pe_message := None; pe_row := 0; pe_column := 10; pe_after := (lit """%""") |}).
Proof. vm_compute. reflexivity. Qed.
Example askama_ui_23 : test (lit "{# comment") =
  Some (inr {| pe_message := (Some (lit "unclosed comment, missing ""#}""")); pe_row := 0; pe_column := 2; pe_after := (lit """ comment""") |}).
Proof. vm_compute. reflexivity. Qed.
Example askama_ui_24 : test (lit "{# comment ") =
  Some (inr {| pe_message := (Some (lit "unclosed comment, missing ""#}""")); pe_row := 0; pe_column := 2; pe_after := (lit """ comment """) |}).
Proof. vm_compute. reflexivity. Qed.
Example askama_ui_25 : test (lit "{# comment -") =
  Some (inr {| pe_message := (Some (lit "unclosed comment, missing ""#}""")); pe_row := 0; pe_column := 2; pe_after := (lit """ comment -""") |}).
Proof. vm_compute. reflexivity. Qed.
Example askama_ui_26 : test (lit "{# comment -#") =
  Some (inr {| pe_message := (Some (lit "unclosed comment, missing ""#}""")); pe_row := 0; pe_column := 2; pe_after := (lit """ comment -#""") |}).
Proof. vm_compute. reflexivity. Qed.
