(** * C57: a template that is written from a tree is read back as that tree. *)
From Verif Require Import Base Config ConfigFacts Nom Ws Ast Lex ParseExpr ParseNode NomFacts LitSpec ParseSpec TreeSpec TextFacts PrecSpec ParseTests WriteSpec WriteRound.
From Coq Require Import Lia ZArith ZifyBool ZifyNat ZifyN.
Local Open Scope N_scope.

(** Whole templates: text, comments, expressions, raw blocks and every tag, nested as the nesting limit allows, with any
    whitespace markers and any blanks in the tags. *)
Theorem C57_template_read_back : forall lc dbg sy ns src, syntax_valid sy -> block_end_ok (block_end sy) -> plain_end (expr_end sy) ->
  writes_template lc sy ns src -> from_str lc dbg sy src = Some (inl ns).
Proof. intros lc dbg sy ns src H1 H2 H3. now apply template_read. Qed.
Print Assumptions C57_template_read_back.
(** The written form is unambiguous: a text stands for one tree. *)
Theorem C57_unambiguous : forall lc sy ns ns' src, syntax_valid sy -> block_end_ok (block_end sy) -> plain_end (expr_end sy) ->
  writes_template lc sy ns src -> writes_template lc sy ns' src -> ns = ns'.
Proof.
  intros lc sy ns ns' src H1 H2 H3 H4 H5. pose proof (template_read lc (fun s => s) sy H1 H2 H3 ns src H4) as E1.
  rewrite (template_read lc (fun s => s) sy H1 H2 H3 ns' src H5) in E1. now injection E1.
Qed.
Print Assumptions C57_unambiguous.
(** One node inside a template, with [k] levels in use and any text after it. *)
Theorem C57_nodes_read_back : forall lc dbg sy k il ns t rest s, syntax_valid sy -> block_end_ok (block_end sy) -> plain_end (expr_end sy) ->
  writes_all lc sy k il ns t rest -> (forall d s, exists e m, node_one lc dbg sy (WriteTag.mo lc dbg sy d) s rest = (PErr e m, s)) ->
  level s = k -> (il = true -> loop_depth s <> 0%nat) -> node_many lc dbg sy (128 - k) s (t ++ rest) = (POk rest ns, s).
Proof. intros lc dbg sy k il ns t rest s H1 H2 H3 H4 H5 H6 H7. now apply (writes_read lc dbg sy H1 H2 H3 k il ns t rest H4). Qed.
Print Assumptions C57_nodes_read_back.

(** C21: whatever number of nodes stands between, the nesting level after them is the one before them. *)
Theorem C21_written_siblings : forall lc dbg sy k il ns t rest s, syntax_valid sy -> block_end_ok (block_end sy) -> plain_end (expr_end sy) ->
  writes_all lc sy k il ns t rest -> (forall d s, exists e m, node_one lc dbg sy (WriteTag.mo lc dbg sy d) s rest = (PErr e m, s)) ->
  level s = k -> (il = true -> loop_depth s <> 0%nat) ->
  exists r s', node_many lc dbg sy (128 - k) s (t ++ rest) = (POk rest r, s') /\ level s' = level s.
Proof. intros lc dbg sy k il ns t rest s H1 H2 H3 H4 H5 H6 H7. exists ns, s. split; [|reflexivity]. now apply (writes_read lc dbg sy H1 H2 H3 k il ns t rest H4). Qed.
Print Assumptions C21_written_siblings.

Definition w0 : ws := {| ws_l := None; ws_r := None |}.
Definition C57_src : str := lit "Hi {%- if let Some(v) = o %}{{ v }}{% else %}?{% endif -%}{% for x in xs if x %}{% break ~%}{% endfor %}{% match o %} {%when m::X(0, y) %}1{% else %}{% endmatch %}{# c -#}{% macro m(a, b) %}{% raw %} {{ {% endraw %}{% endmacro m %}{% call s::m(1, b=x) %}{% filter f|g(x) %}{% let y %}{% endfilter %}".
Definition C57_nodes : list node :=
  [NLit {| lws := []; lval := lit "Hi"; rws := lit " " |};
   NIf {| ws_l := None; ws_r := Some Suppress |}
     [Cond {| ws_l := Some Suppress; ws_r := None |} (Some {| ct_target := Some (TTuple [lit "Some"] [TName (lit "v")]); ct_expr := Var (lit "o") |}) [NExpr w0 (Var (lit "v"))];
      Cond w0 None [NLit {| lws := []; lval := lit "?"; rws := [] |}]];
   NLoop w0 (TName (lit "x")) (Var (lit "xs")) (Some (Var (lit "x"))) [NBreak {| ws_l := None; ws_r := Some Minimize |}] w0 [] w0;
   NMatch w0 (Var (lit "o")) [When w0 (TTuple [lit "m"; lit "X"] [TNumLit (lit "0"); TName (lit "y")]) [NLit {| lws := []; lval := lit "1"; rws := [] |}]; When w0 (TName (lit "_")) []] w0;
   NComment {| ws_l := None; ws_r := Some Suppress |} (lit " c -#}");
   NMacro w0 (lit "m") [lit "a"; lit "b"] [NRaw w0 {| lws := lit " "; lval := lit "{{"; rws := lit " " |} w0] w0;
   NCall w0 (Some (lit "s")) (lit "m") [NumLit (lit "1"); NamedArgument (lit "b") (Var (lit "x"))];
   NFilterBlock w0 (lit "g") [Filter (lit "f") []; Var (lit "x")] [NLet w0 (TName (lit "y")) None] w0].
Fixpoint no_open (t rest : str) : bool :=
  match t with
  | [] => true
  | c :: t' => negb (starts_with (lit "{%") (t ++ rest) || starts_with (lit "{#") (t ++ rest) || starts_with (lit "{{") (t ++ rest)) && no_open t' rest
  end.
Lemma no_open_ok t rest : no_open t rest = true -> forall u v, t = u ++ v -> v <> [] -> ~ opening default_syntax (v ++ rest).
Proof.
  intros H u. revert t H. induction u as [|c u IH]; intros t H v -> Hv.
  - destruct v as [|c v]; [congruence|]. cbn [app no_open] in H. apply andb_true_iff in H as [H _]. apply negb_true_iff in H.
    intros (d & x & Hd & E). apply orb_false_iff in H as [H H3]. apply orb_false_iff in H as [H1 H2]. destruct Hd as [<-|[<-|[<-|[]]]].
    + assert (K : starts_with (lit "{%") ((c :: v) ++ rest) = true) by (apply starts_tag; exists x; exact E). cbn [app] in K. congruence.
    + assert (K : starts_with (lit "{#") ((c :: v) ++ rest) = true) by (apply starts_tag; exists x; exact E). cbn [app] in K. congruence.
    + assert (K : starts_with (lit "{{") ((c :: v) ++ rest) = true) by (apply starts_tag; exists x; exact E). cbn [app] in K. congruence.
  - cbn [app no_open] in H. apply andb_true_iff in H as [_ H]. eapply IH; eauto.
Qed.
Lemma is_ident s : match s with c :: t => id_start c && forallb id_tail t | [] => false end = true -> ident s.
Proof.
  destruct s as [|c t]; [discriminate|]. intros H. apply andb_true_iff in H as [H1 H2]. exists c, t. split; [reflexivity|].
  split; [revert H1; unfold id_start, is_upper, is_lower, ident_start; lia|]. apply Forall_forall. intros x Hx. rewrite forallb_forall in H2. specialize (H2 x Hx).
  revert H2. unfold id_tail, id_start, is_upper, is_lower, is_dec, ident_start. lia.
Qed.
Definition is_lit (l : literal) : bool :=
  forallb is_ws (lws l) && forallb is_ws (rws l) && match lval l with [] => false | c :: _ => negb (is_ws c) end &&
  match last_opt (lval l) with Some c => negb (is_ws c) | None => false end.
Lemma is_lit_ok l : is_lit l = true -> wf_literal l.
Proof.
  unfold is_lit, wf_literal. intros H. apply andb_true_iff in H as [H H4]. apply andb_true_iff in H as [H H3]. apply andb_true_iff in H as [H1 H2].
  assert (B : forall s, forallb is_ws s = true -> blank s).
  { intros s H. apply Forall_forall. intros c Hc. rewrite forallb_forall in H. specialize (H c Hc). unfold is_ws in H. lia. }
  assert (C : forall c, negb (is_ws c) = true -> ~ blank [c]) by (intros c H K; inversion K; subst; unfold is_ws in H; lia).
  split; [auto|]. split; [auto|]. destruct (lval l) as [|c t]; [discriminate|]. split; [discriminate|]. split; [auto|]. destruct (last_opt (c :: t)); auto.
Qed.
Ltac bl := match goal with |- blanks _ => repeat constructor; cbn; tauto end.
Ltac gp := split; [bl|discriminate].
Ltac idt := apply is_ident; reflexivity.
Ltac var := split; [cbn [canon]; split; [lia|]; split; [idt|]; split; [reflexivity|intros [K|K]; discriminate K]|cbn; lia].
Ltac name := split; [split; [idt|]; split; [reflexivity|]; split; [intros [K|K]; discriminate K|cbn; intuition discriminate]|cbn; lia].
Ltac text1 := apply w_lit; [apply is_lit_ok; reflexivity|reflexivity|discriminate|apply no_open_ok; vm_compute; reflexivity|].
Ltac tag1 := right; do 2 eexists; split; [left; reflexivity|reflexivity].
Lemma C57_syntax : syntax_valid default_syntax /\ block_end_ok (block_end default_syntax) /\ plain_end (expr_end default_syntax).
Proof.
  assert (H : forall c, In c [37; 125] -> ~ ident_start c /\ ~ 48 <= c <= 57) by (intros c [<-|[<-|[]]]; unfold ident_start; lia).
  split; [exact default_valid|]. split; [split; [|discriminate]|]; (split; [apply H; cbn; auto|]; split; [apply H; cbn; auto|]); [right|left; cbn; intuition discriminate].
  split; [reflexivity|]. split; [apply H; cbn; auto|]. split; [apply H; cbn; auto|]. cbn. intuition discriminate.
Qed.
Example C57_example : writes_template t_lower default_syntax C57_nodes C57_src.
Proof.
  unfold writes_template, C57_src, C57_nodes, w0.
  refine (wa_cons _ _ 0 false _ (lit "Hi ") _ _ [] _ _); [text1; tag1|].
  refine (wa_cons _ _ 0 false _ (lit "{%- if let Some(v) = o %}{{ v }}{% else %}?{% endif -%}") _ _ [] _ _).
  { refine (w_if _ _ 0 false (Some Suppress) (lit " ") (lit " ") None (lit " ") _ (lit "let Some(v) = o") _ (lit "{{ v }}") _ (lit "{% else %}?") None (lit " ") (lit " ") (Some Suppress) _ _ _ _ _ _ _ _ _ _); try bl; [lia|gp| | |].
    - refine (tt_let _ _ (lit "let") (lit " ") _ (lit " ") (lit " ") _ _ _ _ _ _ _); [cbn; auto|gp| |bl|bl|var].
      split; [|cbn; lia]. cbn [target_ok]. split.
      + split; [split|intros x q [= <- <-] [K|K]; discriminate K]; [exists [lit "Some"]; split; [discriminate|]; split; [repeat (apply Forall_cons; [idt|]); apply Forall_nil|auto]|intros s [= <-]; discriminate].
      + split; [|exact I]. split; [idt|]; split; [reflexivity|]; split; [intros [K|K]; discriminate K|cbn; intuition discriminate].
    - refine (wa_cons _ _ 1 false _ (lit "{{ v }}") [] [] _ _ _); [|constructor]. refine (w_expr _ _ 1 false None (lit " ") _ (lit " ") None _ _ _ _ _); [var|bl|bl|discriminate].
    - refine (wb_cons _ _ 1 false None (lit " ") (lit "else") (lit " ") None _ _ (lit "?") [] [] _ _ _ _ _ _); [bl|bl|constructor| |constructor].
      refine (wa_cons _ _ 1 false _ (lit "?") [] [] _ _ _); [text1; tag1|constructor]. }
  refine (wa_cons _ _ 0 false _ (lit "{% for x in xs if x %}{% break ~%}{% endfor %}") _ _ [] _ _).
  { refine (w_for _ _ 0 false None (lit " ") (lit " ") None _ _ _ (lit "for x in xs if x") _ (lit "{% break ~%}") None (lit " ") (lit " ") None _ _ _ _ _ _ _ _); try bl; [lia| |].
    - refine (ft_if _ _ _ _ _ (lit " ") (lit " ") (lit " ") (lit " ") (lit " ") _ _ _ _ _ _ _ _ _); [gp|name|gp|gp|var|intros (o & l & K); discriminate K|gp|gp|var].
    - refine (wa_cons _ _ 1 true _ (lit "{% break ~%}") [] [] _ _ _); [|constructor].
      refine (w_simple _ _ 1 true None (lit " ") (lit "break") (lit " ") (Some Minimize) _ _ _ _ _ _); [lia|bl|bl|now constructor]. }
  refine (wa_cons _ _ 0 false _ (lit "{% match o %} {%when m::X(0, y) %}1{% else %}{% endmatch %}") _ _ [] _ _).
  { refine (w_match _ _ 0 false None (lit " ") (lit " ") None (lit " ") _ (lit " ") None [] (lit " ") None (lit " ") _ _ (lit "1") _ (lit "{% else %}") None (lit " ") (lit " ") None _ _ _ _ _ _ _ _ _ _ _ _ _ _ _); try bl; [lia|gp|var|gp| | |].
    - split; [|cbn; lia]. cbn [target_ok]. split.
      + split; [split|intros x q [= <- <-] [K|K]; discriminate K]; [exists [lit "m"; lit "X"]; split; [discriminate|]; split; [repeat (apply Forall_cons; [idt|]); apply Forall_nil|auto]|intros s [=]].
      + split; [|split; [|exact I]; split; [idt|]; split; [reflexivity|]; split; [intros [K|K]; discriminate K|cbn; intuition discriminate]].
        left. apply (rn_int (lit "0") []); [exists 48, []; repeat split; [unfold digit_of; lia|constructor]|cbn; tauto].
    - refine (wa_cons _ _ 1 false _ (lit "1") [] [] _ _ _); [text1; tag1|constructor].
    - refine (wr_else _ _ 1 false None (lit " ") (lit " ") None [] [] _ _ _ _); [bl|bl|constructor]. }
  refine (wa_cons _ _ 0 false _ (lit "{# c -#}") _ _ [] _ _).
  { refine (w_comment _ _ 0 false None (Some Suppress) (lit " c -") _ _ _ _); [|intros _; cbn; intuition discriminate|now exists (lit " c ")].
    cbn [app lit]. do 4 (apply cl_char; [intros x; vm_compute; congruence|intros x; vm_compute; congruence|]). apply cl_end. intros x. vm_compute. congruence. }
  refine (wa_cons _ _ 0 false _ (lit "{% macro m(a, b) %}{% raw %} {{ {% endraw %}{% endmacro m %}") _ _ [] _ _).
  { refine (w_body _ _ 0 false None (lit " ") (lit "macro m(a, b)") (lit " ") None (fun w ns w' => NMacro w (lit "m") [lit "a"; lit "b"] ns w') _ (lit "{% raw %} {{ {% endraw %}") None (lit " ") (lit "endmacro m") (lit " ") None _ _ _ _ _ _ _ _); try bl; [lia| |].
    - refine (yt_macro _ _ (lit " ") (lit "m") [] (Some [lit "a"; lit "b"]) (lit "endmacro m") _ _ _ _ _ _ _); [gp|idt|discriminate|bl|repeat (apply Forall_cons; [idt|]); apply Forall_nil|discriminate|].
      apply (et_name (lit "endmacro") (lit "m") (lit " ")). gp.
    - refine (wa_cons _ _ 1 false _ (lit "{% raw %} {{ {% endraw %}") [] [] _ _ _); [|constructor].
      refine (w_raw _ _ 1 false None (lit " ") (lit " ") None _ (lit " {{ ") None (lit " ") (lit " ") None _ _ _ _ _ _ _ _ _); [lia|apply is_lit_ok; reflexivity|reflexivity|bl|bl|bl|bl|].
      intros u v E Hv (m & b & b' & m' & t & _ & _ & K). revert E K. change (lit " {{ ") with [32; 123; 123; 32].
      do 5 (destruct u as [|? u]; [intros [= <-] K; first [congruence|discriminate K]|]; cbn [app]; try (intros; discriminate); intros [= _ E]; revert E). }
  refine (wa_cons _ _ 0 false _ (lit "{% call s::m(1, b=x) %}") _ _ [] _ _).
  { refine (w_simple _ _ 0 false None (lit " ") (lit "call s::m(1, b=x)") (lit " ") None _ _ _ _ _ _); [lia|bl|bl|].
    refine (st_call _ 1 false _ (lit " ") (Some (lit "s")) (lit "m") (Some [_; _]) _ _ _ _ _); [gp|intros ? [= <-]; idt|idt|cbn; lia|].
    exists [NumLit (lit "1")], [(lit "b", Var (lit "x"))]. split; [reflexivity|]. split; [|split].
    - constructor; [|constructor]. split; [|cbn; lia]. split; [lia|]. apply (rn_int (lit "1") []); [exists 49, []; repeat split; [unfold digit_of; lia|constructor]|cbn; tauto].
    - constructor; [|constructor]. split; [idt|var].
    - constructor; [intros []|constructor]. }
  refine (wa_cons _ _ 0 false _ (lit "{% filter f|g(x) %}{% let y %}{% endfilter %}") _ [] [] _ _); [|constructor].
  refine (w_body _ _ 0 false None (lit " ") (lit "filter f|g(x)") (lit " ") None (fun w ns w' => let (n, l) := filter_chain (fst (lit "f", @None (list expr))) (some_list (snd (lit "f", @None (list expr)))) [(lit "g", Some [Var (lit "x")])] in NFilterBlock w n l ns w') _ (lit "{% let y %}") None (lit " ") (lit "endfilter") (lit " ") None _ _ _ _ _ _ _ _); try bl; [lia| |].
  - refine (yt_filter _ _ (lit " ") (lit "f", None) [(lit "g", Some [Var (lit "x")])] _ _ _); [gp| |].
    + split; [idt|]. split; [cbn; lia|constructor].
    + constructor; [|constructor]. split; [idt|]. split; [cbn; lia|]. constructor; [var|constructor].
  - refine (wa_cons _ _ 1 false _ (lit "{% let y %}") [] [] _ _ _); [|constructor].
    refine (w_simple _ _ 1 false None (lit " ") (lit "let y") (lit " ") None _ _ _ _ _ _); [lia|bl|bl|].
    refine (st_let _ 2 false _ (lit "let") (lit " ") _ _ _ _); [cbn; auto|gp|name].
Qed.
Example C57_example_read : test C57_src = Some (inl C57_nodes).
Proof. vm_compute. reflexivity. Qed.
