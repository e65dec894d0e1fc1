(** * What the compiler is given: C60 (tokens), C30 (the text in string literals).  Specifications in RustText.v, RustSpec.v and StrSpec.v,
    the text in GenText.v. *)
From Coq Require Import ZArith.
From Verif Require Import Base Ws Config Nom Ast Lex ParseExpr ParseNode ParseTests ParseSpec TreeSpec TplFacts HeritageSpec HeritageFacts Ident GenExpr Heritage Gen GenText LitSpec StrSpec
  RustText RustSpec SimFacts RustFacts RustShow RustGen Prop_Flat TestWorld.
From Coq Require Import Lia ZArith ZifyBool ZifyNat ZifyN.
Local Open Scope N_scope.

(** ** C30: a string literal in the generated code stands for the text it was written for *)
Lemma braces_step h c t : h <> [] \/ c <> 95 -> hexes [c] -> string_value (InBraces h) (c :: t) = string_value (InBraces (h ++ [c])) t.
Proof.
  intros _ H. inversion H as [|? ? [D N] _]; subst. cbn [string_value]. assert (X : hex_char c = true /\ c <> 125).
  { unfold digit_of in D. change (N.min 16 10) with 10 in D. change (16 - 10) with 6 in D. unfold hex_char. lia. }
  destruct X as [X1 X2]. rewrite X1. replace (c =? 125) with false by lia. reflexivity.
Qed.
Lemma braces_run k : forall h t, hexes k -> string_value (InBraces h) (k ++ t) = string_value (InBraces (h ++ k)) t.
Proof.
  induction k as [|c k IH]; intros h t H; [rewrite app_nil_r; reflexivity|]. inversion H as [|? ? [D N] K]; subst. cbn [app]. rewrite braces_step; [|right; exact N|constructor; [split; assumption|constructor]].
  rewrite IH by exact K. rewrite <- app_assoc. reflexivity.
Qed.
Lemma debug_char_value plain c t : scalar c = true -> string_value InText (debug_char plain c ++ t) = put_char c (string_value InText t).
Proof.
  intros S. unfold debug_char.
  destruct (c =? 0) eqn:?; [replace c with 0 by lia; reflexivity|]. destruct (c =? 9) eqn:?; [replace c with 9 by lia; reflexivity|].
  destruct (c =? 13) eqn:?; [replace c with 13 by lia; reflexivity|]. destruct (c =? 10) eqn:?; [replace c with 10 by lia; reflexivity|].
  destruct (c =? 34) eqn:?; [replace c with 34 by lia; reflexivity|]. destruct (c =? 92) eqn:?; [replace c with 92 by lia; reflexivity|].
  rewrite S. destruct (plain c); cbn [orb negb].
  - cbn [app string_value]. replace (c =? 34) with false by lia. replace (c =? 92) with false by lia. replace (c =? 13) with false by lia. reflexivity.
  - unfold scalar, between_b in S. destruct (to_hex_ok 6 c) as (A & B & C & D); [change (16 ^ N.of_nat 6) with 16777216; lia|lia|].
    rewrite <- !app_assoc. change (string_value InText (lit "\u{" ++ to_hex 6 c ++ lit "}" ++ t)) with (string_value (InBraces []) (to_hex 6 c ++ 125 :: t)).
    rewrite braces_run by exact B. change ([] ++ to_hex 6 c) with (to_hex 6 c). cbn [string_value]. change (125 =? 125) with true. cbv iota. destruct (to_hex 6 c) as [|h k] eqn:X; [contradiction|].
    rewrite D, (hexes_filter _ B). replace (Nat.leb (length (h :: k)) 6) with true by (symmetry; apply PeanoNat.Nat.leb_le; exact C).
    replace ((c <=? 1114111) && negb ((55296 <=? c) && (c <=? 57343)) && true) with true by lia. reflexivity.
Qed.
(** C30.  For every text, whichever characters the standard library takes for printable: the literal written for it stands for
    exactly that text, and ends where it should.  [C30_text_unchanged] is about the format strings in these literals. *)
Theorem C30_literal plain s rest : Forall (fun c => scalar c = true) s -> literal_value (debug_str plain s ++ rest) = Some (s, rest).
Proof.
  intros H. unfold debug_str. rewrite <- !app_assoc. change (string_value InText (concat (map (debug_char plain) s) ++ 34 :: rest) = Some (s, rest)).
  induction H as [|c s S _ IH]; [reflexivity|]. cbn [map concat]. rewrite <- app_assoc, debug_char_value by exact S. rewrite IH. reflexivity.
Qed.
Print Assumptions C30_literal.
(** A quote, a backslash, line breaks, NUL, a placeholder, an escape spelled out, characters beyond ASCII with and without escape *)
Definition ascii (c : N) : bool := between_b 32 126 c.
Definition ex_text : str := lit "a""b\n{}\u{41}" ++ [0; 9; 10; 13; 127; 233; 8232; 128512; 92].
Example C30_literal_example :
  forallb scalar ex_text = true /\ debug_str ascii ex_text = lit """a\""b\\n{}\\u{41}\0\t\n\r\u{7f}\u{e9}\u{2028}\u{1f600}\\""" /\
  literal_value (debug_str ascii ex_text ++ lit ")?;") = Some (ex_text, lit ")?;") /\ literal_value (debug_str (fun c => 128 <=? c) ex_text) = Some (ex_text, []).
Proof. vm_compute. auto. Qed.
(** The reader knows the other escapes, too. *)
Example C30_reader : literal_value (lit """\x41\u{4_1}" ++ [92; 10; 32; 32] ++ lit "b\'""c") = Some (lit "AAb'", lit "c") /\
  literal_value (lit """\q""") = None /\ literal_value (lit """\u{d800}""") = None /\ literal_value (lit """\x80""") = None /\ literal_value [34; 13; 34] = None.
Proof. vm_compute. auto. Qed.

(** ** C60 *)
Section C60.
  Variables xid_start xid_continue : N -> bool.
  (** C60.  For every set of parsed templates whose parts can be read by Rust one by one (see RustSpec.v): the whole text handed to
      the compiler can be read.  Full statement: for every set of parsed templates.  What is missing are the parts that Rust
      rejects: names with characters it does not know, [crate], string and character literals it does not know, and the arguments
      of Rust macros; see the refutations. *)
  Theorem C60_lexes_partial plain fr inp find fuel templates code size :
    parsed templates -> (forall p ns, In (p, ns) templates -> readable_template xid_start xid_continue ns) ->
    readable_escapers xid_start xid_continue inp -> readable_frame xid_start xid_continue fr ->
    build_template inp find fuel templates = GOk (code, size) ->
    closed xid_start xid_continue (source_text plain fr code size) = true.
  Proof.
    intros HP HS HE HF E. apply piece_closed. intros st. apply ends_is, source_ends; [exact HF|]. eapply (build_lexes xid_start xid_continue plain); [exact HE| |exact E]. intros p ns Hin.
    destruct (HP p ns Hin) as (lc & dbg & sy & src & Hsy & Q). apply good_wf; [exact (from_str_wf lc dbg sy Hsy src ns Q)|exact (HS p ns Hin)].
  Qed.
End C60.
Print Assumptions C60_lexes_partial.

(** ** A check for examples: no characters beyond ASCII, no escapes *)
Definition none : N -> bool := fun _ => false.
Definition word_b (x : str) : bool := forallb (fun c => c <? 128) x.
Definition name_b (x : str) : bool := word_b x && negb (str_eqb x (lit "crate")).
Definition str_b (s : str) : bool := forallb (fun c => negb (existsb (N.eqb c) [34; 92; 13])) s.
Definition chr_b (s : str) : bool := match s with [c] => negb (existsb (N.eqb c) [39; 92; 10; 13; 9]) | _ => false end.
Definition here_b (e : expr) : bool :=
  match e with
  | StrLit s => str_b s
  | CharLit s => chr_b s
  | Var x | Attr _ x => name_b x
  | Path p => forallb word_b p
  | Filter x _ => word_b x
  | RustMacro p a => forallb word_b p && closed none none a
  | _ => true
  end.
Fixpoint all_b (e : expr) : bool :=
  here_b e &&
  match e with
  | Arr l | Tuple l | Filter _ l => forallb all_b l
  | Attr e _ | NamedArgument _ e | Unary _ e | Group e | Try e => all_b e
  | Index a b | BinOp _ a b => all_b a && all_b b
  | Range _ l r => match l with Some e => all_b e | None => true end && match r with Some e => all_b e | None => true end
  | Call f l => all_b f && forallb all_b l
  | _ => true
  end.
Fixpoint target_b (t : target) : bool :=
  match t with
  | TName x => name_b x
  | TTuple p l => forallb word_b p && forallb target_b l
  | TStruct p l => forallb word_b p && forallb (fun x => match x with (k, t) => name_b k && target_b t end) l
  | TOrChain l => forallb target_b l
  | TPath p => forallb word_b p
  | TStrLit s => str_b s
  | TCharLit s => chr_b s
  | _ => true
  end.
Definition own_b (n : node) : bool :=
  forallb target_b (targets_of n) && forallb word_b (words_of n) &&
  match n with
  | NExpr _ e | NLet _ _ (Some e) | NMatch _ e _ _ => all_b e
  | NCall _ _ _ args | NFilterBlock _ _ args _ _ => forallb all_b args
  | NIf _ cs => forallb (fun c => match c with Cond _ (Some t) _ => all_b (ct_expr t) | _ => true end) cs
  | NLoop _ _ it c _ _ _ _ => all_b it && match c with Some e => all_b e | None => true end
  | _ => true
  end.
Fixpoint node_b (n : node) : bool :=
  own_b n &&
  match n with
  | NIf _ cs => forallb (fun c => match c with Cond _ _ ns => forallb node_b ns end) cs
  | NMatch _ _ arms _ => forallb (fun a => match a with When _ _ ns => forallb node_b ns end) arms
  | NLoop _ _ _ _ body _ els _ => forallb node_b body && forallb node_b els
  | NBlockDef _ _ ns _ | NMacro _ _ _ ns _ | NFilterBlock _ _ _ ns _ => forallb node_b ns
  | _ => true
  end.
Lemma forallb_in {A} (f : A -> bool) l a : forallb f l = true -> In a l -> f a = true.
Proof. rewrite forallb_forall. auto. Qed.
Lemma word_ok x : word_b x = true -> rust_chars none none x.
Proof.
  intros H. destruct x as [|c x]; [exact I|]. cbn [word_b forallb] in H. apply andb_prop in H as [H1 H2]. split; [lia|].
  apply Forall_forall. intros d Hd L. apply (forallb_in _ _ _ H2) in Hd. lia.
Qed.
Lemma words_ok p : forallb word_b p = true -> Forall (rust_chars none none) p.
Proof. intros H. apply Forall_forall. intros x Hx. apply word_ok, (forallb_in _ _ _ H Hx). Qed.
Lemma name_ok x : name_b x = true -> rust_word none none x.
Proof. intros H. apply andb_prop in H as [H1 H2]. split; [apply word_ok, H1|]. apply negb_true_iff in H2. intros ->. discriminate H2. Qed.
Lemma str_ok s : str_b s = true -> rust_string s.
Proof.
  induction s as [|c s IH]; intros H; [constructor|]. cbn [str_b forallb] in H. apply andb_prop in H as [H1 H2]. apply rs_plain; [|apply IH, H2].
  cbn [existsb] in H1. cbn. lia.
Qed.
Lemma chr_ok s : chr_b s = true -> rust_char s.
Proof. destruct s as [|c [|d s]]; try discriminate. intros H. left. exists c. split; [reflexivity|]. cbn [chr_b existsb] in H. cbn. lia. Qed.
Lemma here_ok e : here_b e = true -> readable none none e.
Proof.
  destruct e; cbn [here_b readable]; auto using str_ok, chr_ok, name_ok, words_ok, word_ok.
  intros H. apply andb_prop in H as [H1 H2]. split; [apply words_ok, H1|exact H2].
Qed.
Lemma all_kid e k : all_b e = true -> In k (kids e) -> all_b k = true.
Proof.
  intros H I. destruct e; cbn [all_b] in H; apply andb_prop in H as [_ H]; cbn [kids] in I; try contradiction;
    try (eapply forallb_in; eassumption); try (destruct I as [<-|[]]; exact H); try (apply andb_prop in H as [H1 H2]).
  - destruct I as [<-|[<-|[]]]; assumption.
  - destruct I as [<-|[<-|[]]]; assumption.
  - apply in_app_iff in I as [I|I]; [destruct l|destruct r]; try contradiction; destruct I as [<-|[]]; assumption.
  - destruct I as [<-|I]; [exact H1|eapply forallb_in; eassumption].
Qed.
Lemma all_sub e e' : sub e' e -> all_b e = true -> readable none none e'.
Proof.
  induction 1 as [e|e k e' I _ IH]; intros H; [|apply IH; eapply all_kid; eassumption]. apply here_ok. destruct e; cbn [all_b] in H; apply andb_prop in H as [H _]; exact H.
Qed.
Lemma target_ok t : target_b t = true -> readable_target none none t.
Proof.
  induction t as [x|p l IH|p l IH|s|s|s|s|p|l IH] using target_ind'; cbn [target_b]; intros H; constructor; auto using str_ok, chr_ok, name_ok, words_ok;
    try (apply andb_prop in H as [H1 H2]; auto using words_ok).
  - clear H1. revert H2. induction IH as [|t l Ht _ IH]; intros H2; [constructor|]. cbn [forallb] in H2. apply andb_prop in H2 as [A B]. constructor; auto.
  - clear H1. revert H2. induction IH as [|[k t] l Ht _ IH]; intros H2; [constructor|]. cbn [forallb] in H2. apply andb_prop in H2 as [A B]. apply andb_prop in A as [A1 A2].
    constructor; [split; [apply name_ok, A1|apply Ht, A2]|apply IH, B].
  - revert H. induction IH as [|t l Ht _ IH]; intros H; [constructor|]. cbn [forallb] in H. apply andb_prop in H as [A B]. constructor; auto.
Qed.
Lemma node_own n : node_b n = true -> own_b n = true.
Proof. destruct n; cbn [node_b]; intros H; apply andb_prop in H as [H _]; exact H. Qed.
Lemma node_kid b n b' m : child b n b' m -> node_b n = true -> node_b m = true.
Proof.
  intros C H. destruct C; cbn [node_b] in H; apply andb_prop in H as [_ H].
  - apply (forallb_in _ _ _ H) in H0. exact (forallb_in _ _ _ H0 H1).
  - apply (forallb_in _ _ _ H) in H0. exact (forallb_in _ _ _ H0 H1).
  - apply andb_prop in H as [H _]. eapply forallb_in; eassumption.
  - apply andb_prop in H as [_ H]. eapply forallb_in; eassumption.
  - eapply forallb_in; eassumption.
  - eapply forallb_in; eassumption.
  - eapply forallb_in; eassumption.
Qed.
Lemma own_ok n : own_b n = true -> (forall e e', expr_of n e -> sub e' e -> readable none none e') /\
  (forall t, In t (targets_of n) -> readable_target none none t) /\ (forall x, In x (words_of n) -> rust_chars none none x).
Proof.
  intros H. unfold own_b in H. apply andb_prop in H as [H H3]. apply andb_prop in H as [H1 H2]. split; [|split].
  - intros e e' O S. eapply all_sub; [exact S|]. clear S. destruct O; try exact H3.
    + eapply forallb_in; eassumption.
    + apply (forallb_in _ _ _ H3) in H. cbn [all_b] in H. apply andb_prop in H as [_ H]. exact H.
    + exact (forallb_in _ _ _ H3 H).
    + apply andb_prop in H3 as [H3 _]. exact H3.
    + apply andb_prop in H3 as [_ H3]. exact H3.
    + eapply forallb_in; eassumption.
  - intros t Ht. apply target_ok, (forallb_in _ _ _ H1 Ht).
  - intros x Hx. apply word_ok, (forallb_in _ _ _ H2 Hx).
Qed.
Lemma template_ok ns : forallb node_b ns = true -> readable_template none none ns.
Proof.
  intros H b n (n0 & I & Hin). apply (forallb_in _ _ _ H) in I. clear H. induction Hin as [b n|b n b1 m b2 k C _ IH]; [|apply IH; eapply node_kid; eassumption].
  apply own_ok, node_own, I.
Qed.
Definition t_frame : frame :=
  {| fr_impl := lit "impl <'a, T: Into<Vec<u8>>>"; fr_impl_rocket := lit "impl <'a, 'askama1, T: Into<Vec<u8>>>"; fr_name := lit "Page"; fr_where := lit " <'a, T> where T: Copy"; fr_files := [lit "templates/main.html"];
     fr_extension := Some (lit "html"); fr_mime := lit "text/html; charset=utf-8"; fr_actix := true; fr_axum := true; fr_rocket := true; fr_warp := true |}.
Definition t_source (d : dir) : option str := match t_code d None main with GOk (code, size) => Some (source_text ascii t_frame code size) | _ => None end.
Definition all_readable (d : dir) : bool := match t_templates d main with GOk ts => forallb (fun t => forallb node_b (snd t)) ts | _ => false end.
Definition t_closed (xs xc : N -> bool) (d : dir) : option bool := option_map (closed xs xc) (t_source d).
Lemma example_lexes d : all_readable d = true -> t_source d <> None -> t_closed none none d = Some true.
Proof.
  unfold all_readable, t_closed, t_source, t_code. intros H NN. destruct (t_templates d main) as [ts| | |] eqn:T; try discriminate H. cbn [gbind] in *.
  destruct (build_template _ _ _ ts) as [[code z]| | |] eqn:E; try (destruct (NN eq_refl)). cbn [option_map]. f_equal.
  eapply C60_lexes_partial; [eapply t_parsed, T| | | |exact E].
  - intros p ns Hin. apply template_ok. exact (forallb_in _ _ _ H Hin).
  - split; [reflexivity|]. intros l esc [[= <- <-]|[[= <- <-]|[]]]; reflexivity.
  - repeat split; reflexivity.
Qed.
(** Every kind of node, names that are keywords, patterns of several forms, filters, macros, text with quotes and brackets *)
Definition ex_rust : dir :=
  [(main, lit "{% extends ""base.html"" %}{% macro m(p, q) %}{{ p.type }}{{ q }}{% endmacro %}{% block b %}{% call m(a.b, q = [1, 2.5e3]) %}""}])' // {#
#}{% if let Some(x) = a && x > 1 %}{{ x }}{% else if !(b || c) %}{{ fn }}{% else %}{{ 'c' }}{% endif %}{% endblock %}");
   (lit "base.html", lit "<{% block b %}{% endblock %}>{% match v %}{% when P::A(x, ""s"") %}{{ x|upper|join("", "") }}{% when S { type, n: 1 } %}{{ n }}{% when None or Some(_) %}{% endmatch %}
{% for (i, c) in ""abc"".chars().enumerate() if i > 0 %}{{ loop.index }}{{ loop.cycle([1, 2]) }}{% break %}{% else %}{{ format!(""{}"", (i, [2])) }}{% endfor %}
{% let z %}{% let (s, t) = (1, ""x"".len()) %}{% filter lower|truncate(3) %}{{ s }}{{ t }}{% endfilter %}{{ v[..2]? }}{% include ""inc.html"" %}");
   (lit "inc.html", lit "{{ self.f(-1)|safe }}{{ P::Q }}{{ ""%s""|format(1) }}{{ x|e(""html"") }}{% raw %}}}{{ ""{% endraw %}")].
Definition t_ready (d : dir) (n : nat) : bool := match t_source d with Some s => all_readable d && Nat.ltb n (length s) && closed none none s | None => false end.
Example C60_example : t_ready ex_rust 4000 = true.
Proof. vm_compute. reflexivity. Qed.

(** ** The parts for which it is false: parsed templates for which code is generated that cannot be read *)
Definition unreadable (xs xc : N -> bool) (d : dir) : Prop :=
  exists templates code size, parsed templates /\ build_template (t_inp None main) (t_find d) FUEL templates = GOk (code, size) /\
    readable_escapers xs xc (t_inp None main) /\ readable_frame xs xc t_frame /\ closed xs xc (source_text ascii t_frame code size) = false.
Definition all : N -> bool := fun _ => true.
Lemma unreadable_ok xs xc d : readable_escapers xs xc (t_inp None main) -> readable_frame xs xc t_frame -> t_closed xs xc d = Some false -> unreadable xs xc d.
Proof.
  unfold t_closed, t_source, t_code. intros HE HF H. destruct (t_templates d main) as [ts| | |] eqn:T; try discriminate H. cbn [gbind] in H.
  destruct (build_template _ _ _ ts) as [[code z]| | |] eqn:E; try discriminate H. cbn [option_map] in H. injection H as H. exists ts, code, z. split; [eapply t_parsed, T|]. auto.
Qed.
Lemma escapers_ok xs xc : readable_escapers xs xc (t_inp None main).
Proof. split; [reflexivity|]. intros l esc [[= <- <-]|[[= <- <-]|[]]]; reflexivity. Qed.
Lemma frame_ok xs xc : readable_frame xs xc t_frame.
Proof. repeat split; reflexivity. Qed.
(** C60: the parser takes every character beyond ASCII for part of a name; here a euro sign. *)
Theorem C60_name_refuted : exists d, unreadable none none d.
Proof. exists (one (lit "{{ x" ++ [8364] ++ lit " }}")). apply unreadable_ok; [apply escapers_ok|apply frame_ok|vm_compute; reflexivity]. Qed.
Print Assumptions C60_name_refuted.
(** The others whatever characters Rust allows in names: [crate], which is escaped as [r#crate]; an unknown escape in a string; a
    tab as a character; brackets and comments in the arguments of a Rust macro. *)
Theorem C60_crate_refuted : exists d, unreadable all all d.
Proof. exists (one (lit "{{ crate }}")). apply unreadable_ok; [apply escapers_ok|apply frame_ok|vm_compute; reflexivity]. Qed.
Print Assumptions C60_crate_refuted.
Theorem C60_escape_refuted : exists d, unreadable all all d.
Proof. exists (one (lit "{{ ""\q"" }}")). apply unreadable_ok; [apply escapers_ok|apply frame_ok|vm_compute; reflexivity]. Qed.
Print Assumptions C60_escape_refuted.
Theorem C60_char_refuted : exists d, unreadable all all d.
Proof. exists (one (lit "{{ '" ++ [9] ++ lit "' }}")). apply unreadable_ok; [apply escapers_ok|apply frame_ok|vm_compute; reflexivity]. Qed.
Print Assumptions C60_char_refuted.
Theorem C60_macro_refuted : exists d, unreadable all all d.
Proof. exists (one (lit "{{ vec!(]) }}")). apply unreadable_ok; [apply escapers_ok|apply frame_ok|vm_compute; reflexivity]. Qed.
Print Assumptions C60_macro_refuted.
Theorem C60_comment_refuted : exists d, unreadable all all d.
Proof. exists (one (lit "{{ vec!(1 // 2) }}")). apply unreadable_ok; [apply escapers_ok|apply frame_ok|vm_compute; reflexivity]. Qed.
Print Assumptions C60_comment_refuted.
