(** * C18, C54: operator precedence, and reading back what is written.  [lc] and [dbg] stand for [char::is_lowercase] and
    [{:?}] on text; nothing is assumed about them. *)
From Verif Require Import Base Ws Config ConfigFacts Nom Ast ParseExpr ParseNode LitSpec ParseSpec TreeSpec TextFacts PrecSpec Lex LitComplete PrecFacts PrecRound PrecTop ParseTests.
From Coq Require Import Lia ZArith ZifyBool ZifyNat ZifyN.
Local Open Scope N_scope.

(** ** C18 *)
(** For every operator tree over variables: written with Rust's precedence and associativity and parentheses only where Rust
    needs them, it is parsed to that tree.  The full statement has no bound on [need]; it is false ([C18_depth_refuted]):
    every pair of parentheses takes 15 of the 128 levels that the parser allows.  *)
Theorem C18_precedence_partial : forall lc dbg sy m b b' m' t, syntax_valid sy -> plain_end (expr_end sy) ->
  tree_ok lc t -> (need (written t) + 15 <= 128)%nat -> blanks b -> blanks b' -> (m = None -> b <> []) ->
  exists e, from_str lc dbg sy (expr_tag (expr_start sy) (expr_end sy) m b (text (written t)) b' m') =
      Some (inl [NExpr {| ws_l := m; ws_r := m' |} e]) /\ e = written t /\ bare e = Some t.
Proof.
  intros lc dbg sy m b b' m' t Hs Hp Ht Hn Hb Hb' Hm. exists (written t). split; [|split; [reflexivity|apply bare_written]].
  apply expr_tag_parses; auto; [|intros E E'; now destruct (Hm E)].
  apply (canon_mono lc _ (strength t)); [apply Nat.le_0_l|now apply canon_written].
Qed.
Print Assumptions C18_precedence_partial.
(** Different trees are written differently: the text determines the tree. *)
Theorem C18_unambiguous_partial : forall lc t u, tree_ok lc t -> tree_ok lc u -> (need (written t) + 15 <= 128)%nat -> (need (written u) + 15 <= 128)%nat ->
  text (written t) = text (written u) -> t = u.
Proof.
  intros lc t u Ht Hu Hn Hm E.
  destruct (C18_precedence_partial lc (fun x => x) default_syntax None (lit " ") (lit " ") None t) as (e & H & _ & B); auto; try apply default_valid; try (repeat constructor; fail); [repeat split; cbn; try lia; unfold ident_start; try lia; intuition discriminate|discriminate|].
  destruct (C18_precedence_partial lc (fun x => x) default_syntax None (lit " ") (lit " ") None u) as (e' & H' & _ & B'); auto; try apply default_valid; try (repeat constructor; fail); [repeat split; cbn; try lia; unfold ident_start; try lia; intuition discriminate|discriminate|].
  rewrite E, H' in H. injection H as <-. congruence.
Qed.
Print Assumptions C18_unambiguous_partial.
(** In whatever way it was written: in every operator expression of every template the operands bind as strongly as Rust's
    precedence demands.  A tree that Rust would have grouped otherwise is never the result of parsing. *)
Theorem C18_parsed_operands : forall lc dbg sy src ns b n e e', syntax_valid sy -> from_str lc dbg sy src = Some (inl ns) ->
  occurs ns b n -> expr_of n e -> sub e' e -> operands_ok e'.
Proof. intros lc dbg sy src ns b n e e' H H1 H2 H3 H4. exact (proj2 (TplFacts.expr_fine lc dbg sy (TplFacts.valid_nonempty sy H) src ns b n e e' H1 H2 H3 H4)). Qed.
Print Assumptions C18_parsed_operands.
Example C18_parsed_operands_example :
  let l := BinOp (lit "-") (Var (lit "a")) (Group (BinOp (lit "-") (Var (lit "b")) (Var (lit "c")))) in
  let e := BinOp (lit "-") l (BinOp (lit "*") (Var (lit "d")) (Unary (lit "-") (Attr (Var (lit "e")) (lit "f")))) in
  test (lit "{{a-(b  -c)- d *-e.f}}") = Some (inl [NExpr no_ws e]) /\ operands_ok e /\ operands_ok l /\
  ~ operands_ok (BinOp (lit "-") (Var (lit "a")) (BinOp (lit "-") (Var (lit "b")) (Var (lit "c")))) /\
  ~ operands_ok (Unary (lit "-") (BinOp (lit "-") (Var (lit "b")) (Var (lit "c")))).
Proof.
  split; [vm_compute; reflexivity|]. split; [exists 8%nat; vm_compute; intuition lia|]. split; [exists 8%nat; vm_compute; intuition lia|].
  split; [|intros [_ H]; vm_compute in H; lia]. intros (p & H & _ & H2).
  assert (E : p = 8%nat) by (vm_compute in H; intuition congruence). subst p. vm_compute in H2. lia.
Qed.
(** The nesting limit: a right-nested subtraction that Rust accepts is rejected. *)
Fixpoint right_nested (n : nat) : tree := match n with O => Leaf (lit "x") | S n => Op (lit "-") (Leaf (lit "x")) (right_nested n) end.
Theorem C18_depth_refuted : exists t, tree_ok t_lower t /\ is_err (expr_tag (lit "{{") (lit "}}") None (lit " ") (text (written t)) (lit " ") None) = true.
Proof.
  exists (right_nested 9). split; [|vm_compute; reflexivity].
  assert (H : forall n, tree_ok t_lower (right_nested n)); [|apply H].
  induction n as [|n IH]; cbn [right_nested tree_ok].
  - split; [|split; [reflexivity|intros [|]; discriminate]]. exists 120, []. repeat split; [|constructor]. unfold ident_start. lia.
  - split; [cbn; tauto|]. split; [|exact IH]. split; [|split; [reflexivity|intros [|]; discriminate]]. exists 120, []. repeat split; [|constructor]. unfold ident_start. lia.
Qed.
Print Assumptions C18_depth_refuted.
Definition v (s : str) : tree := Leaf s.
Definition C18_tree : tree :=
  Op (lit "||") (Op (lit "-") (Op (lit "-") (v (lit "a")) (v (lit "b"))) (Op (lit "-") (v (lit "c")) (Neg (lit "-") (v (lit "d")))))
     (Op (lit "*") (Op (lit "+") (v (lit "a")) (v (lit "b"))) (Neg (lit "!") (Op (lit "<") (v (lit "c")) (v (lit "d"))))).
Example C18_example : text (written C18_tree) = lit "a - b - (c - -d) || (a + b) * !(c < d)" /\
  (need (written C18_tree) + 15 <= 128)%nat /\ plain_end (expr_end default_syntax) /\
  (exists e, test (lit "{{ a - b - (c - -d) || (a + b) * !(c < d) -}}") = Some (inl [NExpr {| ws_l := None; ws_r := Some Suppress |} e]) /\ bare e = Some C18_tree) /\
  (exists e, test (lit "{{ a|b }}") = Some (inl [NExpr no_ws e]) /\ e = Filter (lit "b") [Var (lit "a")]) /\
  (exists e, test (lit "{{ a | b }}") = Some (inl [NExpr no_ws e]) /\ e = BinOp (lit "|") (Var (lit "a")) (Var (lit "b"))).
Proof.
  split; [vm_compute; reflexivity|]. split; [vm_compute; lia|]. split; [repeat split; cbn; try lia; unfold ident_start; try lia; intuition discriminate|].
  split; [|split]; eexists; (split; [vm_compute; reflexivity|reflexivity]).
Qed.
Example C18_example_tree_ok : tree_ok t_lower C18_tree.
Proof.
  assert (L : forall c, In c [97; 98; 99; 100] -> ident [c] /\ lower_first t_lower [c] /\ ~ is_bool [c]).
  { intros c H. split; [|split].
    - exists c, []. repeat split; [|constructor]. unfold ident_start. cbn in H. lia.
    - cbn in *. destruct H as [<-|[<-|[<-|[<-|[]]]]]; reflexivity.
    - intros [H1|H1]; discriminate. }
  cbn [tree_ok C18_tree v]. repeat split; try (apply (L 97); cbn; tauto); try (apply (L 98); cbn; tauto); try (apply (L 99); cbn; tauto); try (apply (L 100); cbn; tauto); cbn; tauto.
Qed.

(** ** C54 *)
(** Every tree that respects the strength of its operands ([canon]), in an expression tag, within the nesting limit, is read
    back: nothing of it is lost, regrouped or renamed. *)
Theorem C54_written_is_read : forall lc dbg sy m b e b' m', syntax_valid sy -> plain_end (expr_end sy) ->
  canon lc 0 e -> (need e + 15 <= 128)%nat -> blanks b -> blanks b' -> (m = None -> b = [] -> forall t, text e <> 45 :: t) ->
  from_str lc dbg sy (expr_tag (expr_start sy) (expr_end sy) m b (text e) b' m') = Some (inl [NExpr {| ws_l := m; ws_r := m' |} e]).
Proof. intros. now apply expr_tag_parses. Qed.
Print Assumptions C54_written_is_read.
(** The same anywhere in a template; what follows is left to the next parser. *)
Theorem C54_written_is_read_anywhere : forall lc dbg sy many s m b e b' m' rest, syntax_valid sy -> plain_end (expr_end sy) ->
  canon lc 0 e -> (need e + 15 + level s <= 128)%nat -> blanks b -> blanks b' -> (m = None -> b = [] -> forall t, text e <> 45 :: t) ->
  node_one lc dbg sy many s (expr_tag (expr_start sy) (expr_end sy) m b (text e) b' m' ++ rest) =
    (POk rest (NExpr {| ws_l := m; ws_r := m' |} e), s).
Proof. intros. now apply expr_tag_node. Qed.
Print Assumptions C54_written_is_read_anywhere.
Definition C54_expr : expr :=
  Range (lit "..=")
    (Some (BinOp (lit "+")
       (Filter (lit "cut") [Attr (Call (Attr (Var (lit "f")) (lit "g")) [Arr [NumLit (lit "0x1f_u8")]; Range (lit "..") None None]) (lit "0");
                            StrLit (lit "( \"" }}")])
       (Unary (lit "-") (Index (Try (Path [[]; lit "m"; lit "X"])) (Group (RustMacro [lit "vec"] (lit "1, ("")"", 2)")))))))
    (Some (Tuple [BoolLit (lit "true")])).
Example C54_example : text C54_expr = lit "f.g([0x1f_u8], ..) .0|cut(""( \"" }}"") + -::m::X?[(vec!(1, ("")"", 2)))] ..= (true,)" /\
  canon t_lower 0 C54_expr /\ (need C54_expr + 15 <= 128)%nat /\
  test (lit "{{" ++ text C54_expr ++ lit "-}}") = Some (inl [NExpr {| ws_l := None; ws_r := Some Suppress |} C54_expr]).
Proof.
  split; [vm_compute; reflexivity|]. split; [|split; [vm_compute; lia|vm_compute; reflexivity]].
  assert (I : forall s, match s with c :: t => id_start c && forallb id_tail t | [] => false end = true -> ident s).
  { intros [|c t]; [discriminate|]. intros H. apply andb_true_iff in H as [H1 H2]. exists c, t. split; [reflexivity|].
    split; [revert H1; unfold id_start, is_upper, is_lower, ident_start; lia|]. apply Forall_forall. intros x Hx. rewrite forallb_forall in H2. specialize (H2 x Hx).
    revert H2. unfold id_tail, id_start, is_upper, is_lower, is_dec, ident_start. lia. }
  assert (Q : quoted 34 (lit ")")) by (repeat constructor; discriminate).
  cbn [C54_expr canon]. split; [reflexivity|]. split; [cbn; tauto|]. split.
  - exists 8%nat. split; [cbn; tauto|]. split; [lia|]. split.
    + split; [lia|]. split; [apply I; reflexivity|]. split.
      * split; [lia|]. split; [|right; left; apply (rn_int (lit "0") []); [exists 48, []; repeat split; [unfold digit_of; lia|constructor]|cbn; tauto]].
        split; [lia|]. split; [split; [lia|]; split; [|left; apply I; reflexivity]; split; [lia|]; split; [apply I; reflexivity|split; [reflexivity|intros [|]; discriminate]]|].
        split; [split; [lia|]; split; [|exact Logic.I]|split; [|exact Logic.I]; repeat split; cbn; tauto].
        split; [lia|]. apply (rn_radix (lit "0x") 16 (lit "1f_") (lit "u8")); [cbn; tauto| |cbn; tauto].
        split; [apply Forall_forall; intros x Hx; unfold digit_or_us, digit_of; cbn in Hx; lia|]. apply Exists_exists. exists 49. split; [cbn; auto|unfold digit_of; lia].
      * split; [|exact Logic.I]. split; [lia|]. change (lit "( \"" }}") with (40 :: 32 :: 92 :: 34 :: lit " }}"). do 2 (apply qt_plain; [discriminate..|]). apply qt_esc. repeat (apply qt_plain; [discriminate..|]). constructor.
    + split; [lia|]. split; [cbn; tauto|]. split; [lia|]. split.
      * split; [lia|]. split; [lia|]. split; [|discriminate]. exists [lit "m"; lit "X"]. split; [discriminate|]. split; [repeat constructor; apply I; reflexivity|auto].
      * split; [lia|]. split; [lia|]. split; [exists [lit "vec"]; split; [discriminate|]; split; [repeat constructor; apply I; reflexivity|auto]|]. split; [intros s [= <-] _ [|]; discriminate|].
        change (lit "1, ("")"", 2)") with (49 :: 44 :: 32 :: 40 :: 34 :: (lit ")" ++ 34 :: 44 :: 32 :: 50 :: 41 :: [])).
        do 3 (apply mt_plain; [cbn; intuition discriminate|]). apply mt_open. apply (mt_string _ (lit ")")); [exact Q|]. do 3 (apply mt_plain; [cbn; intuition discriminate|]).
        apply mt_close; [lia|]. constructor.
  - split; [lia|]. split; [split; [lia|]; split; [left; reflexivity|reflexivity]|exact Logic.I].
Qed.

(** ** C55 *)
(** Numbers, in the forms of [LitSpec] (that is, but for floats that end in a dot): read to the end. *)
Theorem C55_numbers_partial : forall s r, rust_number s -> after_num r -> num_lit (s ++ r) = POk r s.
Proof. exact num_lit_complete. Qed.
Print Assumptions C55_numbers_partial.
(** Strings: a Rust string literal is read up to its closing quote. *)
Theorem C55_strings : forall s r, rust_string s -> str_lit (34 :: s ++ 34 :: r) = POk r s.
Proof. intros s r H. apply str_lit_complete. now apply rust_string_quoted. Qed.
Print Assumptions C55_strings.
(** Characters, but for those with an underscore in a Unicode escape. *)
Theorem C55_chars_partial : forall s r, rust_char s -> ~ In 95 s \/ (exists c, s = [c]) -> char_lit (39 :: s ++ 39 :: r) = POk r s.
Proof. intros s r H Hu. apply char_lit_complete. now apply rust_char_text. Qed.
Print Assumptions C55_chars_partial.
Theorem C55_chars_refuted : exists s, rust_char s /\ is_err (lit "{{ '" ++ s ++ lit "' }}") = true.
Proof.
  exists (lit "\u{1_f}"). split; [right|vm_compute; reflexivity]. change (lit "\u{1_f}") with (92 :: 117 :: 123 :: 49 :: [95; 102] ++ [125]).
  apply re_unicode; [unfold digit_of; lia|apply Forall_forall; intros x Hx; unfold digit_or_us, digit_of; cbn in Hx; lia|vm_compute; lia|vm_compute; discriminate|vm_compute; intros [H _]; now apply H].
Qed.
Print Assumptions C55_chars_refuted.
(** Rust: a DEC_LITERAL and a dot is a float. *)
Theorem C55_numbers_refuted : exists s, dec_literal s /\ is_err (lit "{{ " ++ s ++ lit ". }}") = true.
Proof. exists (lit "1"). split; [|vm_compute; reflexivity]. exists 49, []. repeat split; [|constructor]. unfold digit_of. lia. Qed.
Print Assumptions C55_numbers_refuted.
Example C55_example :
  rust_number (lit "1_0.5e-3f64") /\ after_num (lit " }}") /\ rust_char (lit "\u{1f}") /\ rust_string (lit "a\n") /\
  test (lit "{{ 1_0.5e-3f64 }}{{ '\u{1f}' }}{{ ""a\n"" }}") =
    Some (inl [NExpr no_ws (NumLit (lit "1_0.5e-3f64")); NExpr no_ws (CharLit (lit "\u{1f}")); NExpr no_ws (StrLit (lit "a\n"))]).
Proof.
  split; [|split; [|split; [|split]]].
  - apply (rn_exp (lit "1_0") (lit ".5") (lit "e") (lit "-") (lit "3") (lit "f64")); try (cbn; tauto).
    + exists 49, (lit "_0"). split; [reflexivity|]. split; [unfold digit_of; lia|]. apply Forall_forall; intros x Hx; unfold digit_or_us, digit_of; cbn in Hx; lia.
    + right. exists (lit "5"). split; [reflexivity|]. exists 53, []. repeat split; [|constructor]. unfold digit_of. lia.
    + split; [apply Forall_forall; intros x Hx; unfold digit_or_us, digit_of; cbn in Hx; lia|]. apply Exists_exists. exists 51. split; [cbn; auto|unfold digit_of; lia].
  - split; [reflexivity|]. cbn. discriminate.
  - right. change (lit "\u{1f}") with (92 :: 117 :: 123 :: 49 :: [102] ++ [125]).
    apply re_unicode; [unfold digit_of; lia|apply Forall_forall; intros x Hx; unfold digit_or_us, digit_of; cbn in Hx; lia|vm_compute; lia|vm_compute; discriminate|vm_compute; intros [H _]; now apply H].
  - apply rs_plain; [cbn; intuition discriminate|]. apply (rs_esc (lit "\n") []); [apply re_simple; cbn; tauto|constructor].
  - vm_compute. reflexivity.
Qed.
