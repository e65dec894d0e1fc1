(** * C15-C17, C19-C24: the parser.  [lc] and [dbg] stand for [char::is_lowercase] and [{:?}] on text; nothing is assumed
    about them. *)
From Verif Require Import Base Config ConfigFacts Nom Ws WsFacts Ast Lex ParseExpr ParseNode LitSpec LitFacts ParseSpec TreeSpec TplFacts TextFacts CommentFacts LevelFacts ParseTests NodeFacts.
Local Open Scope N_scope.

(** ** C15 *)
(** A source without opening delimiters is one literal (none if it is empty). *)
Theorem C15_plain_text_parses : forall lc dbg sy src, syntax_valid sy ->
  (forall t, In t [block_start sy; comment_start sy; expr_start sy] -> ~ contains t src) ->
  from_str lc dbg sy src = Some (inl (match src with [] => [] | _ => [NLit (split_ws_parts src)] end)).
Proof. intros lc dbg sy src H. exact (plain_parses lc dbg sy H src). Qed.
Print Assumptions C15_plain_text_parses.
(** That literal is written as is, whatever the configured whitespace handling. *)
Theorem C15_plain_text_output : forall dflt src, exists out,
  ws_run dflt (match src with [] => [] | _ => [ILit (split_ws_parts src)] end) ws_init = Some out /\ concat out = src.
Proof. exact plain_output. Qed.
Print Assumptions C15_plain_text_output.
Example C15_example :
  test (lit "  if a { b } ") = Some (inl [NLit {| lws := lit "  "; lval := lit "if a { b }"; rws := lit " " |}]) /\
  option_map (@concat N) (ws_run Suppress [ILit (split_ws_parts (lit "  if a { b } "))] ws_init) = Some (lit "  if a { b } ").
Proof. vm_compute. auto. Qed.

(** ** C16 *)
(** [{% raw %}], any text in which no endraw tag begins, [{% endraw %}]: the text is kept as one literal. *)
Theorem C16_raw_block : forall lc dbg sy m1 b1 b2 m2 text m3 b3 b4 m4, syntax_valid sy -> closing_ok (block_end sy) ->
  blanks b1 -> blanks b2 -> blanks b3 -> blanks b4 ->
  let start := keyword_tag (block_start sy) (block_end sy) (lit "raw") m1 b1 b2 m2 in
  let end_ := keyword_tag (block_start sy) (block_end sy) (lit "endraw") m3 b3 b4 m4 in
  (forall a b, text = a ++ b -> b <> [] -> ~ starts_keyword_tag (block_start sy) (block_end sy) (lit "endraw") (b ++ end_)) ->
  from_str lc dbg sy (start ++ text ++ end_) =
    Some (inl [NRaw {| ws_l := m1; ws_r := m2 |} (split_ws_parts text) {| ws_l := m3; ws_r := m4 |}]).
Proof. intros lc dbg sy m1 b1 b2 m2 text m3 b3 b4 m4 Hs Hc H1 H2 H3 H4 start end_ Hn. exact (raw_parses lc dbg sy Hs m1 b1 b2 m2 text m3 b3 b4 m4 Hc H1 H2 H3 H4 Hn). Qed.
Print Assumptions C16_raw_block.
(** The same anywhere in a template, at any nesting below the limit; what follows is left to the next parser. *)
Theorem C16_raw_block_anywhere : forall lc dbg sy many s m1 b1 b2 m2 text m3 b3 b4 m4 rest, syntax_valid sy -> closing_ok (block_end sy) ->
  many <> None -> (level s < MAX_DEPTH)%nat -> blanks b1 -> blanks b2 -> blanks b3 -> blanks b4 ->
  let start := keyword_tag (block_start sy) (block_end sy) (lit "raw") m1 b1 b2 m2 in
  let end_ := keyword_tag (block_start sy) (block_end sy) (lit "endraw") m3 b3 b4 m4 in
  (forall a b, text = a ++ b -> b <> [] -> ~ starts_keyword_tag (block_start sy) (block_end sy) (lit "endraw") (b ++ end_ ++ rest)) ->
  node_one lc dbg sy many s ((start ++ text ++ end_) ++ rest) =
    (POk rest (NRaw {| ws_l := m1; ws_r := m2 |} (split_ws_parts text) {| ws_l := m3; ws_r := m4 |}), s).
Proof. intros lc dbg sy many s m1 b1 b2 m2 text m3 b3 b4 m4 rest Hs Hc Hm Hl H1 H2 H3 H4 start end_ Hn. exact (raw_node_one lc dbg sy Hs many m1 b1 b2 m2 text m3 b3 b4 m4 rest s Hm Hc H1 H2 H3 H4 Hn Hl). Qed.
Print Assumptions C16_raw_block_anywhere.
(** What is written for it: the text, with the blanks at its two ends treated as the inner markers of the two tags say. *)
Theorem C16_raw_output : forall dflt m1 m2 m3 m4 text, exists out,
  ws_run dflt [ITag {| ws_l := m1; ws_r := m2 |}; ILit (split_ws_parts text); ITag {| ws_l := m3; ws_r := m4 |}] ws_init = Some out /\
  (hd_or dflt m2 = Preserve -> hd_or dflt m3 = Preserve -> concat out = text) /\
  (forall a v b, text = a ++ v ++ b -> blanks a -> blanks b -> v <> [] -> nohd is_ws v -> nohd is_ws (rev v) ->
     concat out = treat (hd_or dflt m2) a ++ v ++ treat (hd_or dflt m3) b).
Proof. exact raw_output. Qed.
Print Assumptions C16_raw_output.
Example C16_example :
  test (lit "{% raw -%} {{ a }} {# {% endraw x %} {%~ endraw %}") =
    Some (inl [NRaw {| ws_l := None; ws_r := Some Suppress |} {| lws := lit " "; lval := lit "{{ a }} {# {% endraw x %}"; rws := lit " " |}
                    {| ws_l := Some Minimize; ws_r := None |}]).
Proof. vm_compute. reflexivity. Qed.
(** The hypotheses of the theorem hold of this source (the default delimiters are valid by [default_valid]). *)
Example C16_example_hypotheses : closing_ok (block_end default_syntax) /\
  forall a b, lit "{{a}}" = a ++ b -> b <> [] ->
    ~ starts_keyword_tag (lit "{%") (lit "%}") (lit "endraw") (b ++ keyword_tag (lit "{%") (lit "%}") (lit "endraw") None (lit " ") (lit " ") None).
Proof.
  split; [change (~ In 37 (lit "+-~" ++ [32; 9; 13; 10]) /\ ~ (65 <= 37 <= 90 \/ 97 <= 37 <= 122 \/ 37 = 95 \/ 128 <= 37 \/ 48 <= 37 <= 57)); split; [vm_compute; intuition discriminate|lia]|]. intros a b E Hb (m & b1 & b2 & m' & t & _ & _ & H). unfold keyword_tag in H.
  destruct a as [|? [|? [|? [|? [|? [|? a]]]]]]; cbn in E; inversion E; subst; cbn in H; try discriminate; congruence.
Qed.

(** ** C17 *)
(** A comment ends exactly where [closes] says; nothing but a comment node comes out, and nothing of the rest is lost. *)
Theorem C17_comment : forall lc dbg sy many s m t rest, syntax_valid sy ->
  closes (comment_start sy) (comment_end sy) 0 (t ++ comment_end sy ++ rest) rest ->
  (m = None -> nohd is_mark (t ++ comment_end sy ++ rest)) ->
  exists w, node_one lc dbg sy many s (comment_start sy ++ mark m ++ t ++ comment_end sy ++ rest) =
    (POk rest (NComment w (t ++ comment_end sy)), s) /\ ws_l w = m.
Proof. intros lc dbg sy many s m t rest Hs H1 H2. eexists. split; [exact (comment_node lc dbg sy Hs many s m t rest H1 H2)|reflexivity]. Qed.
Print Assumptions C17_comment.
(** Comments in comments, to any depth. *)
Theorem C17_nested : forall lc dbg sy m l, syntax_valid sy -> hd_error (comment_start sy) <> hd_error (comment_end sy) ->
  Forall (ctree_ok (comment_start sy) (comment_end sy)) l ->
  let body := concat (map (ctree_src (comment_start sy) (comment_end sy)) l) in
  (m = None -> nohd is_mark (body ++ comment_end sy)) ->
  exists w c, from_str lc dbg sy (comment_start sy ++ mark m ++ body ++ comment_end sy) = Some (inl [NComment w c]).
Proof.
  intros lc dbg sy m l Hs Hh Hl body Hm. pose proof (forest_closes dbg sy Hs l [] Hh Hl) as H. rewrite app_nil_r in H. fold body in H.
  do 2 eexists. exact (comment_parses lc dbg sy Hs m body H Hm).
Qed.
Print Assumptions C17_nested.
(** If no comment end balances the start, the template is rejected as an unclosed comment. *)
Theorem C17_unbalanced : forall lc dbg sy m i, syntax_valid sy ->
  (forall r, ~ closes (comment_start sy) (comment_end sy) 0 i r) -> (m = None -> nohd is_mark i) ->
  exists e, from_str lc dbg sy (comment_start sy ++ mark m ++ i) = Some (inr e) /\
    pe_message e = Some (lit "unclosed comment, missing " ++ dbg (comment_end sy)).
Proof. intros lc dbg sy m i Hs. exact (comment_rejected lc dbg sy Hs m i). Qed.
Print Assumptions C17_unbalanced.
(** Where a comment ends is determined. *)
Theorem C17_end_unique : forall sy i r r', syntax_valid sy ->
  closes (comment_start sy) (comment_end sy) 0 i r -> closes (comment_start sy) (comment_end sy) 0 i r' -> r = r'.
Proof.
  intros sy i r r' Hs H H'. pose proof (closes_content (fun _ => true) (fun x => x) sy Hs _ _ _ H (S (length i)) ltac:(lia)) as E.
  rewrite (closes_content (fun _ => true) (fun x => x) sy Hs _ _ _ H' (S (length i)) ltac:(lia)) in E. now injection E.
Qed.
Print Assumptions C17_end_unique.
(** A comment contributes no item but its markers to the output. *)
Example C17_example :
  test (lit "a{# x {# y #}{# {# z #} #} -#}b") =
    Some (inl [NLit {| lws := []; lval := lit "a"; rws := [] |};
               NComment {| ws_l := None; ws_r := Some Suppress |} (lit " x {# y #}{# {# z #} #} -#}");
               NLit {| lws := []; lval := lit "b"; rws := [] |}]) /\
  is_err (lit "a{# x {# y #}") = true /\
  Forall (ctree_ok (lit "{#") (lit "#}")) [CText (lit " x "); CNest [CText (lit " y ")]; CNest [CText (lit " "); CNest [CText (lit " z ")]; CText (lit " ")]].
Proof. split; [vm_compute; reflexivity|]. split; [vm_compute; reflexivity|]. repeat constructor; vm_compute; discriminate. Qed.

(** ** C19 *)
(** Parsing ends with a tree or an error: no panic, no endless loop, no recursion beyond the model's 128 levels. *)
Theorem C19_always_answers : forall lc dbg sy src, syntax_valid sy -> exists r, from_str lc dbg sy src = Some r.
Proof. intros lc dbg sy src H. exact (from_str_answers lc dbg sy (valid_nonempty sy H) src). Qed.
Print Assumptions C19_always_answers.
Example C19_example : is_err (concat (repeat (lit "{% if a %}") 200)) = true /\ is_err (lit "{{ " ++ concat (repeat (lit "(") 200)) = true.
Proof. vm_compute. auto. Qed.

(** ** C20 *)
(** Full statement: the conclusion of C20_error_position_partial without the condition on [pre].  What is missing: if the
    offending position is at the start of a line, the row and column of the end of the line before are reported. *)
Theorem C20_error_position_partial : forall lc dbg sy src e, syntax_valid sy -> from_str lc dbg sy src = Some (inr e) ->
  exists pre pos m, src = pre ++ pos /\ (parse_template lc dbg sy src = PErr pos m \/ parse_template lc dbg sy src = PFail pos m) /\
    pe_message e = m /\ pe_after e = (if Nat.leb 41 (length pos) then dbg (firstn 40 pos) ++ lit "..." else dbg pos) /\
    (last_opt pre <> Some 10 -> position pre (pe_row e) (pe_column e)).
Proof. intros lc dbg sy src e H. exact (error_position lc dbg sy (valid_nonempty sy H) src e). Qed.
Print Assumptions C20_error_position_partial.
Theorem C20_error_position_refuted : exists src pos e m, parse_template t_lower t_debug default_syntax src = PFail pos m /\
  src = [10] ++ pos /\ test src = Some (inr e) /\ ~ position [10] (pe_row e) (pe_column e).
Proof.
  exists ([10] ++ lit "{% endif %}"), (lit "{% endif %}"). do 2 eexists. split; [vm_compute; reflexivity|]. split; [reflexivity|].
  split; [vm_compute; reflexivity|]. cbn [pe_row pe_column]. intros (a & b & E & Hb & Ha & Hr & _).
  destruct a as [|c [|c' a]]; cbn in E; try discriminate.
  - subst b. destruct Hb. now left.
  - injection E as E1 E2. subst c b. discriminate.
Qed.
Print Assumptions C20_error_position_refuted.
(** At the start of a line, this is what is reported instead. *)
Theorem C20_after_line_feed : forall dbg pre pos m, let e := error_report dbg (pre ++ 10 :: pos) pos m in
  last_opt pre <> Some 13 -> position pre (pe_row e) (pe_column e).
Proof. exact report_after_lf. Qed.
Print Assumptions C20_after_line_feed.
Example C20_example : test (lit "a" ++ [10] ++ lit "bc {% endif %}") =
  Some (inr {| pe_message := None; pe_row := 1; pe_column := 3; pe_after := t_debug (lit "{% endif %}") |}).
Proof. vm_compute. reflexivity. Qed.

(** ** C21 *)
(** Full statement: whether a source is accepted does not depend on the siblings before a node.  It holds after siblings that
    leave the nesting level where it was; the level never goes down.  What is missing: a tuple or struct pattern with a
    trailing comma leaves it one higher, see C21_siblings_refuted. *)
Theorem C21_siblings_partial : forall lc dbg sy src l s r, syntax_valid sy -> run (top_node lc dbg sy) state0 src l s r -> level s = O ->
  parse_template lc dbg sy src = match parse_template lc dbg sy r with POk x l' => POk x (l ++ l') | e => e end.
Proof. intros lc dbg sy src l s r H. exact (siblings_forgotten lc dbg sy (valid_nonempty sy H) src l s r). Qed.
Print Assumptions C21_siblings_partial.
Theorem C21_level_never_drops : forall lc dbg sy s i l s' r, syntax_valid sy -> loop_depth s = O -> run (top_node lc dbg sy) s i l s' r ->
  (level s <= level s')%nat.
Proof. intros lc dbg sy s i l s' r H Hs R. exact (proj1 (level_monotone lc dbg sy (valid_nonempty sy H) s i l s' r Hs R)). Qed.
Print Assumptions C21_level_never_drops.
Theorem C21_siblings_refuted : exists t k ns, test t = Some (inl ns) /\ is_err (concat (repeat t k)) = true.
Proof. exists (lit "{% let (a,) = b %}"), 130%nat. eexists. split; vm_compute; reflexivity. Qed.
Print Assumptions C21_siblings_refuted.
Example C21_example : let src := lit "{% if a %}{% endif %}{% let (a, b) = c %}x" in
  exists l s, run (top_node t_lower t_debug default_syntax) state0 src l s (lit "x") /\ level s = O /\ length l = 2%nat.
Proof.
  cbv zeta. do 2 eexists. split; [|split; [|]]; cycle 1.
  - instantiate (1 := state0). reflexivity.
  - instantiate (1 := [_; _]). reflexivity.
  - eapply run_cons; [vm_compute; reflexivity|discriminate|]. eapply run_cons; [vm_compute; reflexivity|discriminate|]. apply run_nil.
Qed.

(** ** C22 *)
Theorem C22_break_in_loop : forall lc dbg sy src ns b m w, syntax_valid sy -> from_str lc dbg sy src = Some (inl ns) -> occurs ns b m ->
  m = NBreak w \/ m = NContinue w -> b = true.
Proof. intros lc dbg sy src ns b m w H. exact (break_in_loop lc dbg sy (valid_nonempty sy H) src ns b m w). Qed.
Print Assumptions C22_break_in_loop.
Example C22_example : (exists ns w, test (lit "{% for a in b %}{% if c %}{% break %}{% endif %}{% endfor %}") = Some (inl ns) /\ occurs ns true (NBreak w)) /\
  is_err (lit "{% for a in b %}{% else %}{% break %}{% endfor %}") = true /\ is_err (lit "{% continue %}") = true.
Proof.
  split; [|vm_compute; auto]. do 2 eexists. split; [vm_compute; reflexivity|]. eexists. split; [left; reflexivity|].
  eapply in_child; [eapply ch_body; left; reflexivity|]. eapply in_child; [eapply ch_if; [left; reflexivity|left; reflexivity]|]. apply in_here.
Qed.

(** ** C23 *)
Theorem C23_call_arguments : forall lc dbg sy src ns b w sc x args, syntax_valid sy -> from_str lc dbg sy src = Some (inl ns) ->
  occurs ns b (NCall w sc x args) ->
  exists pos named, args = pos ++ map (fun y => NamedArgument (fst y) (snd y)) named /\
    Forall (fun e => forall k v, e <> NamedArgument k v) pos /\ NoDup (map fst named).
Proof. intros lc dbg sy src ns b w sc x args H. exact (call_shape lc dbg sy (valid_nonempty sy H) src ns b w sc x args). Qed.
Print Assumptions C23_call_arguments.
(** Apart from those there are no named arguments in any expression of a template. *)
Theorem C23_no_other_named_arguments : forall lc dbg sy src ns b n e e', syntax_valid sy -> from_str lc dbg sy src = Some (inl ns) ->
  occurs ns b n -> expr_of n e -> sub e' e -> forall k v, e' <> NamedArgument k v.
Proof. intros lc dbg sy src ns b n e e' H H1 H2 H3 H4. exact (proj1 (proj1 (expr_fine lc dbg sy (valid_nonempty sy H) src ns b n e e' H1 H2 H3 H4))). Qed.
Print Assumptions C23_no_other_named_arguments.
Example C23_example : (exists w, test (lit "{% call m(1, a = b, c = d) %}") =
    Some (inl [NCall w None (lit "m") [NumLit (lit "1"); NamedArgument (lit "a") (Var (lit "b")); NamedArgument (lit "c") (Var (lit "d"))]])) /\
  is_err (lit "{% call m(a = b, 1) %}") = true /\ is_err (lit "{% call m(a = b, a = c) %}") = true /\ is_err (lit "{{ f(a = b) }}") = true.
Proof. split; [eexists|]; vm_compute; auto. Qed.

(** ** C24 *)
(** Numbers are valid and kept verbatim. *)
Theorem C24_numbers : forall i r s, num_lit i = POk r s -> i = s ++ r /\ signed_number s.
Proof. exact num_lit_valid. Qed.
Print Assumptions C24_numbers.
(** Strings and characters are kept verbatim; their quotes are those that close them.  Full statement: with [rust_string s]
    and [rust_char s] in place of [quoted 34 s] and [char_accepted s].  What is missing: escapes in strings are not checked;
    characters may also be raw tabs, raw line breaks or escaped surrogates. *)
Theorem C24_strings_partial : forall i r s, str_lit i = POk r s -> i = 34 :: s ++ 34 :: r /\ quoted 34 s.
Proof. exact str_lit_valid. Qed.
Print Assumptions C24_strings_partial.
Theorem C24_chars_partial : forall i r s, char_lit i = POk r s -> i = 39 :: s ++ 39 :: r /\ char_accepted s.
Proof. exact char_lit_valid. Qed.
Print Assumptions C24_chars_partial.
(** The same for every literal in the expressions of a template. *)
Theorem C24_in_templates_partial : forall lc dbg sy src ns b n e e', syntax_valid sy -> from_str lc dbg sy src = Some (inl ns) ->
  occurs ns b n -> expr_of n e -> sub e' e ->
  match e' with NumLit s => rust_number s | StrLit s => quoted 34 s | CharLit s => char_accepted s | _ => True end.
Proof. intros lc dbg sy src ns b n e e' H H1 H2 H3 H4. exact (proj2 (proj1 (expr_fine lc dbg sy (valid_nonempty sy H) src ns b n e e' H1 H2 H3 H4))). Qed.
Print Assumptions C24_in_templates_partial.
Theorem C24_strings_refuted : exists s w, test (lit "{{ " ++ 34 :: s ++ 34 :: lit " }}") = Some (inl [NExpr w (StrLit s)]) /\ ~ rust_string s.
Proof. exists [92; 113]. eexists. split; [vm_compute; reflexivity|exact bad_escape_not_rust]. Qed.
Print Assumptions C24_strings_refuted.
Theorem C24_chars_refuted : exists s w, test (lit "{{ " ++ 39 :: s ++ 39 :: lit " }}") = Some (inl [NExpr w (CharLit s)]) /\ ~ rust_char s.
Proof.
  exists [9]. eexists. split; [vm_compute; reflexivity|]. intros [(c & [= <-] & H)|H]; [apply H; cbn; auto 10|inversion H].
Qed.
Print Assumptions C24_chars_refuted.
Example C24_example : num_lit (lit "-1_000.5e-3f64 }}") = POk (lit " }}") (lit "-1_000.5e-3f64") /\
  str_lit (34 :: lit "a" ++ [92; 34] ++ lit "b" ++ 34 :: lit " }}") = POk (lit " }}") (lit "a" ++ [92; 34] ++ lit "b") /\
  char_lit (lit "'\x41'x") = POk (lit "x") (lit "\x41").
Proof. vm_compute. auto. Qed.
