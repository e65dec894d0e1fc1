(** * What the generated code renders: C05, C29, C30, C31, C32, C33, C37, C39.
    The theorems about whole templates speak about templates put together (RefSem.v) that are [scoped] (Scoped.v): no
    variable captures a name used in another sense.  They are named [..._partial] because the property makes no such
    exception; the refutations in Prop_Gen.v are templates that compile and are not [scoped].  C05, C30 and C39 are also
    proved of every single write and every loop, without exception. *)
From Coq Require Import ZArith.
From Verif Require Import Base Ws Config Nom Ast Lex ParseExpr ParseNode ParseTests Ident GenExpr Heritage Gen Sem RefSem Scoped Shipped.
From Verif Require Import ShippedFacts ConfigFacts HeritageFacts RexprFacts FlushFacts CallFacts Sim FlatSpec TestWorld.
Local Open Scope N_scope.

(** ** C29 *)
(** What the macro derives for a template, and the template it is derived from, put together. *)
Record compiled (inp : ginput) (find : str -> str -> res str) (fuel : nat) (templates : list (str * list node))
  (code : list stmt) (tns : list tnode) : Prop := {
  cd_build : exists z, build_template inp find fuel templates = GOk (code, z);
  cd_whole : f_block inp = None;                            (* no [block = ...] *)
  cd_mean : assemble inp find fuel templates = GOk tns
}.
(** Full statement: [compiled -> world_ok w -> render w inp tns <> Unset -> run w code = render w inp tns].
    It is false: see C31_let_before_refuted and the others in Prop_Gen.v.  What is missing is the case of templates that are
    not [scoped].  [render ... <> Unset]: the template has a meaning (no Rust macro call, no reading of unset variables). *)
Theorem C29_rendering_partial inp find fuel templates code tns fields w :
  compiled inp find fuel templates code tns -> scoped fields tns = true -> world_ok w ->
  render w inp tns <> Unset -> run w code = render w inp tns.
Proof. intros [[z HB] HN HA] HS HW HU. exact (build_ok _ _ _ _ _ _ _ _ _ HB HN HA HS HW HU). Qed.

(** The filters the generator takes for those of askama are the ones the other crate has ([shipped] lists its functions): no
    filter of the user is taken for one of askama, and none of askama is looked for in the module of the user. *)
Theorem C29_built_in x : In x BUILT_IN_FILTERS <-> In x shipped.
Proof. exact (shipped_in x). Qed.
Print Assumptions C29_built_in.
Example C29_built_in_example : mem_str (lit "urlencode_strict") BUILT_IN_FILTERS = true /\ mem_str (lit "tojson") BUILT_IN_FILTERS = false.
Proof. split; reflexivity. Qed.


(** The same from the source text on, for the concrete world used in examples. *)
Definition is_set {A} (o : out A) : bool := match o with Unset => false | _ => true end.
Definition meets (d : dir) (self : cv) (fields : list str) : bool :=
  match t_code d None main, t_mean d main with
  | GOk _, GOk tns => scoped fields tns && is_set (render (cworld self) (t_inp None main) tns)
  | _, _ => false
  end.
Theorem C29_source_partial d self fields : meets d self fields = true -> t_run d None main self = t_ref d main self.
Proof.
  unfold meets, t_run, t_ref, t_code, t_mean. destruct (t_templates d main) as [ts| | |]; try discriminate. cbn [gbind].
  destruct (build_template (t_inp None main) (t_find d) FUEL ts) as [[code z]| | |] eqn:EB; try discriminate.
  destruct (assemble (t_inp None main) (t_find d) FUEL ts) as [tns| | |] eqn:EA; try discriminate. cbn [gbind].
  intros H. apply andb_prop in H as [HS HU]. f_equal. eapply C29_rendering_partial; [constructor; [eexists; exact EB|reflexivity|exact EA]|exact HS|apply cworld_ok|].
  intros E. rewrite E in HU. discriminate HU.
Qed.
Definition ex_all : dir :=
  [(main, lit "{% extends ""base"" %}{% import ""lib"" as lib %}
{% block body %}<{% for x in l if x != 2 %}{{ loop.index }}:{{ x }}{% if !loop.last %}, {% endif %}{% else %}none{% endfor %}>
{%- let (p, q) = (a, 7) -%}
[{% match q %}{% when 7 %}{{ p|lower }}{% when _ %}no{% endmatch %}]{% call lib::m(p, y=q + 1) %}{% include ""inc"" %}
{%- filter upper %} x{{ p|safe }}y{% endfilter %}{{ p }}{% endblock %}");
   (lit "base", lit "{% block body %}default{% endblock %}.");
   (lit "lib", lit "{% macro m(x, y) %}({{ x }},{{ y * 2 }}){% endmacro %}");
   (lit "inc", lit "{% let r = p %}{{ r }}!")].
Definition ex_self : cv := struct [(lit "a", CS (lit "A<b")); (lit "l", CL [CN 1; CN 2; CN 3])].
Example C29_example : meets ex_all ex_self [lit "a"; lit "l"] = true /\
  t_ref ex_all main ex_self = GOk (Done (lit "<1:1, 2:3>[a&lt;b](A&lt;b,16)A&lt;b! XA&lt;BYA&lt;b.")).
Proof. split; vm_compute; reflexivity. Qed.

Definition fields_lt : cv := struct [(lit "a", CS (lit "<&")); (lit "l", CL [CN 1; CN 2])].
(** ** Putting parts together *)
(** [part]: in environment [en] and store [st] the nodes [l] render to [t] and leave [en'] and [st'].
    Control stays inside: no break or continue. *)
Definition part (w : world) (inp : ginput) (l : list tnode) (en : env w) (st : store w) (t : str) (en' : env w) (st' : store w) : Prop :=
  mean_list w (mean w inp None) l en st = Done (Some t, en', st', Next).
Lemma mean_list_app w f l l' en st : mean_list w f (l ++ l') en st =
  let^ (o, en, st, fl) := mean_list w f l en st in
  match fl with Next => let^ (o', en, st, fl) := mean_list w f l' en st in Done (tapp o o', en, st, fl) | _ => Done (o, en, st, fl) end.
Proof.
  revert en st. induction l as [|n l IH]; intros en st; cbn [app].
  - change (mean_list w f [] en st) with (Done (Some ([] : str), en, st, Next)). cbn [obnd]. destruct (mean_list w f l' en st) as [[[[[o|] e2] s2] fl]| |]; reflexivity.
  - change (mean_list w f (n :: l ++ l') en st) with
      (let^ (o, en, st, fl) := f n en st in match fl with Next => let^ (o', en, st, fl) := mean_list w f (l ++ l') en st in Done (tapp o o', en, st, fl) | _ => Done (o, en, st, fl) end).
    change (mean_list w f (n :: l) en st) with
      (let^ (o, en, st, fl) := f n en st in match fl with Next => let^ (o', en, st, fl) := mean_list w f l en st in Done (tapp o o', en, st, fl) | _ => Done (o, en, st, fl) end).
    destruct (f n en st) as [[[[o en1] st1] fl]| |]; cbn [obnd]; try reflexivity. destruct fl; try reflexivity. rewrite IH.
    destruct (mean_list w f l en1 st1) as [[[[o1 en2] st2] fl]| |]; cbn [obnd]; try reflexivity. destruct fl; try reflexivity.
    destruct (mean_list w f l' en2 st2) as [[[[o2 en3] st3] fl]| |]; cbn [obnd]; try reflexivity.
    destruct o, o1, o2; cbn [tapp]; rewrite <- ?app_assoc; reflexivity.
Qed.
Lemma part_app w inp l l' en st t en1 st1 t' en2 st2 : part w inp l en st t en1 st1 -> part w inp l' en1 st1 t' en2 st2 ->
  part w inp (l ++ l') en st (t ++ t') en2 st2.
Proof. unfold part. intros H1 H2. rewrite mean_list_app, H1. cbn [obnd]. rewrite H2. reflexivity. Qed.
Lemma part_one w inp n en st t en' st' : mean w inp None n en st = Done (Some t, en', st', Next) -> part w inp [n] en st t en' st'.
Proof. unfold part. intros H. cbn [mean_list]. rewrite H. cbn [obnd tapp]. rewrite app_nil_r. reflexivity. Qed.
Lemma part_render w inp l t en st : part w inp l [] [] t en st -> render w inp l = Done t.
Proof. unfold part, render. intros ->. reflexivity. Qed.
(** A template that compiles, and in which what is between [pre] and [post] renders to [t]. *)
Lemma code_parts inp find fuel templates code fields w pre l post a en st t en1 st1 b en2 st2 :
  compiled inp find fuel templates code (pre ++ l ++ post) -> scoped fields (pre ++ l ++ post) = true -> world_ok w ->
  part w inp pre [] [] a en st -> part w inp l en st t en1 st1 -> part w inp post en1 st1 b en2 st2 ->
  run w code = Done (a ++ t ++ b).
Proof.
  intros HC HS HW P1 P2 P3. pose proof (part_app _ _ _ _ _ _ _ _ _ _ _ _ P1 (part_app _ _ _ _ _ _ _ _ _ _ _ _ P2 P3)) as P.
  apply part_render in P. refine (eq_trans _ P). eapply C29_rendering_partial; [exact HC|exact HS|exact HW|]. intros E. rewrite P in E. discriminate E.
Qed.

(** ** C05 and C30: every single write *)
(** The text an item adds to the output: text itself; of an expression the display of its value, escaped, unless the
    outermost operation is one of the filters safe, escape and e. *)
Inductive item := Text (s : str) | Shown (e : expr).
Definition pending (x : item) : writable := match x with Text s => WLit s | Shown e => WExpr e end.
Definition own_escaping (e : expr) : bool :=
  match e with Filter n _ => existsb (str_eqb n) [lit "safe"; lit "escape"; lit "e"] | _ => false end.
Section Contributes.
  Variables (w : world) (inp : ginput) (m : chain) (en : env w) (st : store w).
  (** The value of an expression at this point: of the Rust expression written for it. *)
  Definition value (e : expr) (v : V w) : Prop := exists r wr, visit_expr inp m e = Ok (r, wr) /\ reval w en st r = Done v.
  Inductive contributes : item -> str -> Prop :=
  | ct_text s : contributes (Text s) s
  | ct_escaped e v d : own_escaping e = false -> value e v -> w_display w v = Some d -> contributes (Shown e) (w_escape w (f_escaper inp) d)
  | ct_safe e v d : value e v -> w_display w v = Some d -> contributes (Shown (Filter (lit "safe") [e])) d
  | ct_escape n e v d : n = lit "escape" \/ n = lit "e" -> value e v -> w_display w v = Some d ->
      contributes (Shown (Filter n [e])) (w_escape w (f_escaper inp) d)
  | ct_escape_as n e x esc v d : n = lit "escape" \/ n = lit "e" -> escaper_for (f_escapers inp) x = Some esc -> value e v -> w_display w v = Some d ->
      contributes (Shown (Filter n [e; StrLit x])) (w_escape w esc d).
End Contributes.
Lemma not_wrapped inp m e r wr : own_escaping e = false -> visit_expr inp m e = Ok (r, wr) -> wr = false.
Proof.
  destruct e; cbn [visit_expr]; intros H E;
    try (injection E as _ <-; reflexivity);
    try (apply rbind_Ok in E as (? & _ & E); injection E as _ <-; reflexivity).
  - match type of E with context [var_loop ?o] => destruct (var_loop o) end; apply rbind_Ok in E as (? & _ & E); injection E as _ <-; reflexivity.
  - cbn [own_escaping existsb] in H. rewrite orb_false_r in H. apply orb_false_elim in H as [H1 H2].
    destruct (str_eqb name (lit "as_ref")). { destruct args as [|? [|]]; try discriminate E. apply rbind_Ok in E as (? & _ & E); injection E as _ <-; reflexivity. }
    destruct (str_eqb name (lit "deref")). { destruct args as [|? [|]]; try discriminate E. apply rbind_Ok in E as (? & _ & E); injection E as _ <-; reflexivity. }
    rewrite H2, H1 in E.
    destruct (str_eqb name (lit "fmt")). { destruct args as [|a [|b [|]]]; try discriminate E; destruct b; try discriminate E. apply rbind_Ok in E as (? & _ & E); injection E as _ <-; reflexivity. }
    destruct (str_eqb name (lit "format")). { destruct args as [|b ?]; try discriminate E; destruct b; try discriminate E. apply rbind_Ok in E as (? & _ & E); injection E as _ <-; reflexivity. }
    destruct (str_eqb name (lit "join")). { apply rbind_Ok in E as (? & _ & E); injection E as _ <-; reflexivity. }
    destruct (str_eqb name (lit "json") || str_eqb name (lit "tojson")).
    { destruct (negb (f_json inp)); [discriminate E|]. destruct args as [|a [|]]; try discriminate E. apply rbind_Ok in E as (? & _ & E); injection E as _ <-; reflexivity. }
    apply rbind_Ok in E as (? & _ & E); injection E as _ <-; reflexivity.
  - destruct e as [| | | | | | |o x| | | | | | | | | | | |]; try (apply rbind_Ok in E as (? & _ & E); injection E as _ <-; reflexivity).
    destruct o; try (apply rbind_Ok in E as (? & _ & E); injection E as _ <-; reflexivity).
    destruct (str_eqb s (lit "loop")); [|apply rbind_Ok in E as (? & _ & E); injection E as _ <-; reflexivity].
    destruct (str_eqb x (lit "cycle")); [|discriminate E]. destruct args as [|a [|]]; try discriminate E.
    + destruct a as [| | | | | |[|]| | | | | | | | | | | | |]; try discriminate E; apply rbind_Ok in E as (? & _ & E); injection E as _ <-; reflexivity.
    + destruct a as [| | | | | |[|]| | | | | | | | | | | | |]; discriminate E.
Qed.

Lemma sub_value inp m e (r0 : rexpr) : (let! (r, _) := visit_expr inp m e in Ok r) = Ok r0 -> exists wr, visit_expr inp m e = Ok (r0, wr).
Proof. intros E. apply rbind_Ok in E as ([r wr] & E1 & E). injection E as <-. eauto. Qed.
Lemma contributes_val w inp m en st x t : world_ok w -> contributes w inp m en st x t -> item_val w inp m en st (pending x) = Done (Some t).
Proof.
  intros W H. destruct H as [s|e v d HO (r & wr & E & HV) HD|e v d (r & wr & E & HV) HD|n e v d HN (r & wr & E & HV) HD|n e x esc v d HN HX (r & wr & E & HV) HD].
  - reflexivity.
  - rewrite (not_wrapped _ _ _ _ _ HO E) in E. cbn [pending item_val item_expr]. rewrite E. cbn [rbind]. unfold rshow. cbn [reval].
    rewrite HV. cbn [obnd]. rewrite (ok_unsafe w W), HD. reflexivity.
  - assert (E1 : visit_expr inp m (Filter (lit "safe") [e]) = Ok (RSafe (f_escaper inp) (negb (is_copyable e), needs_braces e, r), true)).
    { transitivity (let! r := (let! r := (let! (r, _) := visit_expr inp m e in Ok r) in Ok (negb (is_copyable e), needs_braces e, r)) in Ok (RSafe (f_escaper inp) r, true)).
      - reflexivity.
      - rewrite E. reflexivity. }
    cbn [pending item_val item_expr]. rewrite E1. cbn [rbind]. unfold rshow. cbn [reval]. rewrite HV. cbn [obnd]. rewrite (ok_safe w W), HD. reflexivity.
  - assert (E1 : visit_expr inp m (Filter n [e]) = Ok (REscape (f_escaper inp) (negb (is_copyable e), needs_braces e, r), true)).
    { transitivity (let! r := (let! r := (let! (r, _) := visit_expr inp m e in Ok r) in Ok (negb (is_copyable e), needs_braces e, r)) in Ok (REscape (f_escaper inp) r, true)).
      - destruct HN as [-> | ->]; reflexivity.
      - rewrite E. reflexivity. }
    cbn [pending item_val item_expr]. rewrite E1. cbn [rbind]. unfold rshow. cbn [reval]. rewrite HV. cbn [obnd]. rewrite (ok_unsafe w W), HD. reflexivity.
  - assert (E1 : visit_expr inp m (Filter n [e; StrLit x]) = Ok (REscape esc (negb (is_copyable e), needs_braces e, r), true)).
    { transitivity (let! esc := named_escaper inp x in let! r := (let! r := (let! (r, _) := visit_expr inp m e in Ok r) in Ok (negb (is_copyable e), needs_braces e, r)) in Ok (REscape esc r, true)).
      - destruct HN as [-> | ->]; reflexivity.
      - rewrite SimExpr.named_escaper_spec, HX, E. reflexivity. }
    cbn [pending item_val item_expr]. rewrite E1. cbn [rbind]. unfold rshow. cbn [reval]. rewrite HV. cbn [obnd]. rewrite (ok_unsafe w W), HD. reflexivity.
Qed.
(** What has been written when the pending items have been flushed: [write_buf_writable] (Gen.v) emits what
    [prepare_format] returns. *)
Definition written (w : world) (en : env w) (st : store w) (p : wparts) : out str :=
  match p with
  | NoParts => Done []
  | LitParts s => let^ (o, _, _, _) := exec w (SWriteStr s) en st in Done o
  | FmtParts f a => let^ (o, _, _, _) := exec w (SWriteFmt f a) en st in Done o
  end.
Lemma written_val w en st p : written w en st p = parts_val w en st p.
Proof. destruct p as [|s|f a]; try reflexivity. cbn. destruct (format w en st f a); reflexivity. Qed.
(** For every expression and value, every text, and however they are mixed and merged: the write puts out the
    contributions one after the other. *)
Theorem C05_every_write w inp m en st items texts named z parts named' : world_ok w ->
  Forall2 (contributes w inp m en st) items texts -> prepare_format inp m (map pending items) named = Ok (z, parts, named') ->
  written w en st parts = Done (concat texts).
Proof.
  intros W H E. rewrite written_val. rewrite (prepare_format_val w inp m en st _ _ _ _ _ (Some (concat texts)) E); [reflexivity|].
  clear E. induction H as [|x t items texts HX _ IH]; [reflexivity|]. cbn [map pend_val]. rewrite (contributes_val _ _ _ _ _ _ _ W HX). cbn [obnd]. rewrite IH. reflexivity.
Qed.
(** Text is put out as it is, wherever it stands among expressions. *)
Theorem C30_text_unchanged w inp m en st before s after a b named z parts named' : world_ok w ->
  Forall2 (contributes w inp m en st) before a -> Forall2 (contributes w inp m en st) after b ->
  prepare_format inp m (map pending (before ++ Text s :: after)) named = Ok (z, parts, named') ->
  written w en st parts = Done (concat a ++ s ++ concat b).
Proof.
  intros W H1 H2 E. rewrite (C05_every_write w inp m en st (before ++ Text s :: after) (a ++ s :: b) named z parts named' W); [|apply Forall2_app; [exact H1|constructor; [constructor|exact H2]]|exact E].
  rewrite concat_app. reflexivity.
Qed.
(** An escaper that no configured escaper has among its extensions is rejected, whatever is escaped with it. *)
Theorem C05_unknown_escaper inp m n e x : n = lit "escape" \/ n = lit "e" ->
  (forall names esc, In (names, esc) (f_escapers inp) -> ~ In x names) -> exists msg, visit_expr inp m (Filter n [e; StrLit x]) = Err msg.
Proof.
  intros HN H. rewrite SimExpr.visit_filter. assert (E : escaper_for (f_escapers inp) x = None).
  { clear - H. induction (f_escapers inp) as [|[names esc] l IH]; [reflexivity|]. cbn [escaper_for]. destruct (existsb (str_eqb x) names) eqn:K.
    - apply existsb_exists in K as (y & Hy & K). apply str_eqb_eq in K as <-. destruct (H names esc (or_introl eq_refl) Hy).
    - apply IH. intros names' esc' Hi. apply (H names' esc'). right. exact Hi. }
  assert (NE : named_escaper inp x = Err (lit "invalid escaper for escape filter")) by (rewrite SimExpr.named_escaper_spec, E; reflexivity).
  destruct HN as [-> | ->]; eexists; (cbn [str_eqb]; rewrite NE; reflexivity).
Qed.
Print Assumptions C05_unknown_escaper.
Example C05_unknown_example : t_code (one (lit "{{ a|escape(""zzz"") }}")) None main = GErr (lit "invalid escaper for escape filter").
Proof. vm_compute. reflexivity. Qed.

(** In a template: the expression [e] shows escaped text between what is before and after it. *)
Theorem C05_in_template_partial inp find fuel templates code fields w pre e post a en st v d b en2 st2 :
  compiled inp find fuel templates code (pre ++ [TExpr e] ++ post) -> scoped fields (pre ++ [TExpr e] ++ post) = true -> world_ok w ->
  part w inp pre [] [] a en st -> own_escaping e = false -> teval w inp en st None Unset e = Done v -> w_display w v = Some d ->
  part w inp post en st b en2 st2 ->
  run w code = Done (a ++ w_escape w (f_escaper inp) d ++ b).
Proof.
  intros HC HS HW P1 HO HV HD P3. eapply code_parts; [exact HC|exact HS|exact HW|exact P1| |exact P3]. apply part_one.
  cbn [mean]. unfold show_expr. rewrite HV. cbn [obnd]. unfold shown.
  assert (opts_out e = false) as ->.
  { destruct e; try reflexivity. cbn in HO |- *. rewrite orb_false_r in HO. rewrite <- HO. rewrite orb_assoc. reflexivity. }
  rewrite (ok_unsafe w HW), HD. reflexivity.
Qed.

(** Examples: braces, percent signs, quotes and placeholders in text around escaped, safe and escape expressions. *)
Definition ex_mixed : dir := one (lit "{}{{ a }}}{0}%s""{expr0}{{ a|safe }}}}{{ a|escape }}{{ a|escape(""none"") }}{{ (a|safe) }}{{ a }}").
Example C05_example : meets ex_mixed fields_lt [lit "a"] = true /\ t_run ex_mixed None main fields_lt = GOk (Done (lit "{}&lt;&amp;}{0}%s""{expr0}<&}}&lt;&amp;<&&lt;&amp;&lt;&amp;")).
Proof. split; vm_compute; reflexivity. Qed.
Example C05_write_example :
  Forall2 (contributes (cworld fields_lt) (t_inp None main) ch_empty [] []) [Text (lit "{"); Shown (Var (lit "a")); Text (lit "}{expr0}"); Shown (Filter (lit "safe") [Var (lit "a")])]
    [lit "{"; lit "&lt;&amp;"; lit "}{expr0}"; lit "<&"] /\
  exists z f args, prepare_format (t_inp None main) ch_empty (map pending [Text (lit "{"); Shown (Var (lit "a")); Text (lit "}{expr0}"); Shown (Filter (lit "safe") [Var (lit "a")])]) O
    = Ok (z, FmtParts f args, 2%nat) /\ f = lit "{{{expr0}}}{{expr0}}{expr1}".
Proof.
  assert (HV : value (cworld fields_lt) (t_inp None main) ch_empty [] [] (Var (lit "a")) (CS (lit "<&"))) by (eexists; eexists; split; vm_compute; reflexivity).
  split; [|eexists; eexists; eexists; split; vm_compute; reflexivity].
  constructor; [constructor|]. constructor; [exact (ct_escaped (cworld fields_lt) _ _ _ _ (Var (lit "a")) _ (lit "<&") eq_refl HV eq_refl)|]. constructor; [constructor|].
  constructor; [exact (ct_safe (cworld fields_lt) _ _ _ _ (Var (lit "a")) _ (lit "<&") HV eq_refl)|constructor].
Qed.

(** ** C31 *)
(** Between [pre] and [post] stand an expression that shows a variable [x], a let of the same name, and the expression
    again.  Full statement: also when [x] is a field; refuted by C31_let_before_refuted. *)
Theorem C31_let_partial inp find fuel templates code fields w pre x e post a en st v0 d0 v1 d1 b en2 st2 :
  let l := [TExpr (Var x); TLet (TName x) (Some e); TExpr (Var x)] in
  compiled inp find fuel templates code (pre ++ l ++ post) -> scoped fields (pre ++ l ++ post) = true -> world_ok w ->
  part w inp pre [] [] a en st -> x <> lit "self" -> x <> lit "_" ->
  lookup w en x = Some (Val w v0) -> w_display w v0 = Some d0 ->                 (* the variable as it was *)
  teval w inp en st None Unset e = Done v1 -> w_display w v1 = Some d1 ->        (* the new value *)
  part w inp post ((x, Val w v1) :: en) st b en2 st2 ->
  run w code = Done (a ++ (w_escape w (f_escaper inp) d0 ++ w_escape w (f_escaper inp) d1) ++ b).
Proof.
  intros l HC HS HW P1 NS NU H0 D0 H1 D1 P3. apply str_eqb_neq in NS, NU. subst l. eapply code_parts; [exact HC|exact HS|exact HW|exact P1| |exact P3].
  change [TExpr (Var x); TLet (TName x) (Some e); TExpr (Var x)] with ([TExpr (Var x)] ++ [TLet (TName x) (Some e)] ++ [TExpr (Var x)]).
  eapply part_app; [|change (w_escape w (f_escaper inp) d1) with ([] ++ w_escape w (f_escaper inp) d1); eapply part_app with (en1 := (x, Val w v1) :: en)].
  - apply part_one. cbn [mean]. unfold show_expr. cbn [teval]. rewrite NS. unfold var_value. rewrite H0. cbn [slot_value obnd]. unfold shown. cbn [opts_out].
    rewrite (ok_unsafe w HW), D0. reflexivity.
  - apply part_one. cbn [mean]. rewrite H1. cbn [obnd]. rewrite H0. cbn [pmatch]. rewrite NU. cbn [of_opt obnd]. reflexivity.
  - apply part_one. cbn [mean]. unfold show_expr. cbn [teval]. rewrite NS. unfold var_value, lookup. cbn [get]. rewrite str_eqb_refl. cbn [slot_value obnd]. unfold shown. cbn [opts_out].
    rewrite (ok_unsafe w HW), D1. reflexivity.
Qed.
Definition ex_let : dir := one (lit "{% let x = a %}{{ x }}{% let x = (x, 2) %}{{ x.1 }}{% for x in l %}{{ x }}{% let x = x + 5 %}{{ x }}{% endfor %}{{ x.0 }}").
Example C31_example : meets ex_let fields_lt [lit "a"; lit "l"] = true /\ t_ref ex_let main fields_lt = GOk (Done (lit "&lt;&amp;21627&lt;&amp;")).
Proof. split; vm_compute; reflexivity. Qed.

(** ** C32 *)
(** A call of a macro, put together: each parameter with its argument, and the body.  The body is rendered with the
    parameters bound to the values the arguments have where the call stands; afterwards the variables are as before.
    Full statement: without [scoped]; refuted by C32_swapped_arguments_refuted and others. *)
Theorem C32_values_partial inp find fuel templates code fields w pre args body post a en st vs t b en1 st1 en2 st2 :
  compiled inp find fuel templates code (pre ++ [TMacro args body] ++ post) -> scoped fields (pre ++ [TMacro args body] ++ post) = true -> world_ok w ->
  part w inp pre [] [] a en st ->
  Forall2 (fun x v => teval w inp en st None Unset (snd x) = Done v) args vs ->
  part w inp body (bind_vals w (combine (map fst args) vs) en) st t en1 st1 ->
  part w inp post en st1 b en2 st2 ->
  run w code = Done (a ++ t ++ b).
Proof.
  intros HC HS HW P1 HV PB P3. eapply code_parts; [exact HC|exact HS|exact HW|exact P1| |exact P3]. apply part_one. cbn [mean].
  assert (E : out_map (fun x => teval w inp en st None Unset (snd x)) args = Done vs).
  { clear - HV. induction HV as [|x v args vs H _ IH]; [reflexivity|]. cbn [out_map]. rewrite H. cbn [obnd]. rewrite IH. reflexivity. }
  rewrite E. cbn [obnd]. unfold mean_scope. unfold part in PB. rewrite PB. reflexivity.
Qed.
Definition ex_macro : dir := one (lit "{% macro m(p, y, z) %}{{ p }}{{ y }}{{ z }}{% endmacro %}{% let x = 4 %}{% call m(1 + 1, z=x, y=a) %}{{ x }}").
Example C32_example : meets ex_macro fields_lt [lit "a"] = true /\ t_ref ex_macro main fields_lt = GOk (Done (lit "2&lt;&amp;44")).
Proof. split; vm_compute; reflexivity. Qed.

(** Code is generated only for calls that fit ([macro_found], FlatSpec.v: the macro a call means): as many arguments as parameters, no unknown name, no parameter given both by
    position and by name ([fits], CallFacts.v).  The parser guarantees that arguments by position come first and that no
    name is given twice (C23). *)
Theorem C32_only_fitting_calls inp contexts expand her ctx w scope name args st r :
  write_call inp contexts expand her ctx w scope name args st = GOk r -> name <> lit "super" ->
  exists def c, macro_found contexts ctx name scope def c /\
    (NoDup (k_args def) -> forall pos named, args = call_args pos named -> unnamed pos -> fits (k_args def) pos named).
Proof.
  intros E N. unfold write_call in E. apply str_eqb_neq in N. rewrite N in E.
  apply gbind_inv in E as ([def c] & EM & E). cbv beta iota in E. exists def, c. split.
  - destruct scope as [s|]; cbn in EM.
    + destruct (get s (c_imports ctx)) as [path|] eqn:E1; [|discriminate EM]. destruct (get path contexts) as [mc|] eqn:E2; [|discriminate EM].
      destruct (get name (c_macros mc)) as [d|] eqn:E3; [|discriminate EM]. injection EM as -> ->. eapply mf_imported; eassumption.
    + destruct (get name (c_macros ctx)) as [d|] eqn:E1; [|discriminate EM]. injection EM as -> <-. apply mf_own. exact E1.
  - intros ND pos named -> HP. apply gbind_inv in E as ([[before z0] st1] & _ & E). cbv beta iota zeta in E.
    apply gbind_inv in E as (? & _ & E). cbv beta iota zeta in E.
    destruct (Nat.eqb (length (call_args pos named)) (length (k_args def))) eqn:L; cbn [negb] in E; [|discriminate E].
    apply Nat.eqb_eq in L. apply gbind_inv in E as (tbl & ET & E). apply of_res_inv in ET.
    apply gbind_inv in E as ([[m names] values] & EB & _). apply of_res_inv in EB. exact (only_fitting _ _ _ _ _ _ _ ND HP L ET EB).
Qed.
(** A fitting call put together ([TMacro], RefSem.v): exactly the parameters, each with the argument in its place or of its
    name. *)
Theorem C32_pairing params pos named l :
  NoDup params -> NoDup (map fst named) -> unnamed pos -> fits params pos named -> pair_args 0 params (call_args pos named) = Some l ->
  map fst l = params /\
  forall p e, In (p, e) l <-> ((exists i, nth_error params i = Some p /\ nth_error pos i = Some e) \/ (exists v, e = NamedArgument p v /\ In (p, v) named)).
Proof. apply pair_args_fits. Qed.
Definition rejected (d : dir) : bool := match t_code d None main with GErr _ => true | _ => false end.
Definition calls (args : str) : dir := one (lit "{% macro m(p, q) %}{{ p }}{{ q }}{% endmacro %}{% call m(" ++ args ++ lit ") %}").
Example C32_calls_example :
  map (fun a => rejected (calls a)) [lit "1"; lit "1, 2, 3"; lit "1, z=2"; lit "1, p=2"; lit "q=1"; lit "1, 2"; lit "1, q=2"; lit "q=1, p=2"]
    = [true; true; true; true; true; false; false; false] /\
  t_run (calls (lit "q=1, p=2")) None main fields_lt = GOk (Done (lit "21")) /\
  pair_args 0 [lit "p"; lit "q"] (call_args [] [(lit "q", NumLit (lit "1")); (lit "p", NumLit (lit "2"))])
    = Some [(lit "p", NamedArgument (lit "p") (NumLit (lit "2"))); (lit "q", NamedArgument (lit "q") (NumLit (lit "1")))].
Proof. split; [|split]; vm_compute; reflexivity. Qed.

(** ** C33 *)
(** A filter block with one filter that has no code of its own in the generator.  Full statement: every body, any chain of
    filters; refuted by C33_empty_filter_block_refuted, C33_tags_in_filter_block_refuted and C33_let_in_filter_block_refuted.
    For chains see C29_rendering_partial: the innermost filter gets the body. *)
Definition special_filters : list str :=
  [lit "as_ref"; lit "deref"; lit "escape"; lit "e"; lit "fmt"; lit "format"; lit "join"; lit "json"; lit "tojson"; lit "safe"].
Definition no_filter (l : list expr) : Prop := match l with Filter _ _ :: _ => False | _ => True end.
Theorem C33_filter_block_partial inp find fuel templates code fields w pre name args body post a en st s en1 st1 vs v d b en2 st2 :
  compiled inp find fuel templates code (pre ++ [TFilter name args body] ++ post) -> scoped fields (pre ++ [TFilter name args body] ++ post) = true -> world_ok w ->
  part w inp pre [] [] a en st -> part w inp body en st s en1 st1 ->
  ~ In name special_filters -> no_filter args ->
  Forall2 (fun e v => teval w inp en st1 None (Done (w_text w s)) e = Done v) args vs ->
  w_filter w (mem_str name shipped) name (w_text w s :: vs) = Some v -> w_display w v = Some d ->
  part w inp post en st1 b en2 st2 ->
  run w code = Done (a ++ w_escape w (f_escaper inp) d ++ b).
Proof.
  intros HC HS HW P1 PB NS NF HV HF HD P3. eapply code_parts; [exact HC|exact HS|exact HW|exact P1| |exact P3]. apply part_one. cbn [mean].
  unfold part in PB. rewrite PB. cbn [obnd].
  assert (E : feed (Filter name args) = Filter name (Generated [] :: args)) by (destruct args as [|[] args]; try reflexivity; destruct NF).
  rewrite E. unfold show_expr.
  assert (NS' : Forall (fun n => str_eqb name n = false) special_filters).
  { apply Forall_forall. intros n Hn. apply str_eqb_neq. intros ->. contradiction. }
  unfold special_filters in NS'. repeat match goal with H : Forall _ (_ :: _) |- _ => inversion H; clear H; subst end.
  assert (EV : teval w inp en st1 None (Done (w_text w s)) (Filter name (Generated [] :: args)) = Done v).
  { cbn [teval]. repeat match goal with H : str_eqb name _ = false |- _ => rewrite H end. cbn [orb out_map obnd].
    assert (EA : out_map (teval w inp en st1 None (Done (w_text w s))) args = Done vs).
    { clear - HV. induction HV as [|x v args vs H _ IH]; [reflexivity|]. cbn [out_map]. rewrite H. cbn [obnd]. rewrite IH. reflexivity. }
    rewrite EA. cbn [obnd teval]. rewrite HF. reflexivity. }
  rewrite EV. cbn [obnd]. unfold shown. cbn [opts_out]. repeat match goal with H : str_eqb name _ = false |- _ => rewrite H end. cbn [orb].
  rewrite (ok_unsafe w HW), HD. reflexivity.
Qed.
Definition ex_filter : dir := one (lit "u{% filter upper %}x{{ a }}{% filter paren %}i{% endfilter %}{% endfilter %}w{{ a|safe }}").
Example C33_example : meets ex_filter fields_lt [lit "a"] = true /\ t_ref ex_filter main fields_lt = GOk (Done (lit "uX&amp;LT;&amp;AMP;(I)w<&")).
Proof. split; vm_compute; reflexivity. Qed.

(** ** C37 *)
(** An included template: it sees the variables [en], and what follows is rendered with the same variables again.
    Full statement: without [scoped]; refuted by C37_include_leaks_refuted.  Which file is included is the subject of
    C37_included_file and C37_relative_include_refuted. *)
Theorem C37_scope_partial inp find fuel templates code fields w pre body post a en st t b en1 st1 en2 st2 :
  compiled inp find fuel templates code (pre ++ [TInclude body] ++ post) -> scoped fields (pre ++ [TInclude body] ++ post) = true -> world_ok w ->
  part w inp pre [] [] a en st -> part w inp body en st t en1 st1 -> part w inp post en st1 b en2 st2 ->
  run w code = Done (a ++ t ++ b).
Proof.
  intros HC HS HW P1 PB P3. eapply code_parts; [exact HC|exact HS|exact HW|exact P1| |exact P3]. apply part_one. cbn [mean].
  unfold mean_scope. unfold part in PB. rewrite PB. reflexivity.
Qed.
Definition ex_include : dir := [(main, lit "{% let x = 1 %}{% include ""i"" %}{{ x }}{{ a }}"); (lit "i", lit "{{ x }}{% let y = 2 %}{{ y }}{% include ""j"" %}"); (lit "j", lit "{{ x + y }}")].
Example C37_example : meets ex_include fields_lt [lit "a"] = true /\ t_ref ex_include main fields_lt = GOk (Done (lit "1231&lt;&amp;")).
Proof. split; vm_compute; reflexivity. Qed.

(** The file an include means is the one [find] gives for the path as seen from the template for which code is derived
    ([f_path]), not from the including file; C37_relative_include_refuted shows where this differs. *)
Theorem C37_included_file inp contexts find expand ctx w path st code z st' :
  write_include inp contexts find expand ctx w path st = GOk (code, z, st') -> o_discard st' = false ->
  exists p c, find path (f_path inp) = Ok p /\ get p contexts = Some c /\ In (SIncludeBytes p) code.
Proof.
  intros E HD. unfold write_include in E. apply gbind_inv in E as ([[before z0] st1] & _ & E). cbv beta iota zeta in E.
  apply gbind_inv in E as (p & EF & E). apply of_res_inv in EF. apply gbind_inv in E as (? & _ & E).
  destruct (get p contexts) as [c|] eqn:EG; [|discriminate E]. exists p, c. split; [exact EF|]. split; [exact EG|].
  apply gbind_inv in E as (h & _ & E). cbv beta iota zeta in E. apply gbind_inv in E as ([[code1 z1] ch1] & _ & E). cbv beta iota zeta in E.
  apply gbind_inv in E as ([[code2 z2] ch2] & _ & E). cbv beta iota zeta in E. injection E as <- _ <-.
  change (o_discard (set_indent (o_indent ch2) st1) = false) in HD. apply in_app_iff. right. apply in_app_iff. left. unfold emit. rewrite HD. left. reflexivity.
Qed.

(** ** C39 *)
(** The statement generated for a loop ([write_loop] in Gen.v) keeps a flag [_did_loop] that is set in every round; the else
    part asks it afterwards.  Whatever the loop does in its rounds (including break), the else part is executed exactly
    when the filtered iterator is empty.  [has_else] says that the template has an else part. *)
Theorem C39_else_runs w it how flt p body els en st v items :
  reval w en st it = Done v -> w_iter w v = Some items -> filter_items w (keep_item w en st flt) items = Done [] ->
  exec w (SLoop true it how flt p body els []) en st = exec_block w (exec w) els en en st.
Proof.
  intros H1 H2 H3. cbn [exec]. rewrite H1. cbn [obnd]. rewrite H2. cbn [of_opt obnd]. rewrite H3. cbn [obnd loop_items negb andb].
  unfold exec_block. destruct (exec_list w (exec w) els en st) as [[[[o e1] s1] fl]| |]; cbn [obnd]; try reflexivity.
  destruct fl; cbn [exec_list obnd app]; rewrite ?app_nil_r; reflexivity.
Qed.
Theorem C39_else_does_not_run w it how flt p body els els' en st v items x xs :
  reval w en st it = Done v -> w_iter w v = Some items -> filter_items w (keep_item w en st flt) items = Done (x :: xs) ->
  exec w (SLoop true it how flt p body els []) en st = exec w (SLoop true it how flt p body els' []) en st.
Proof.
  intros H1 H2 H3. cbn [exec]. rewrite H1. cbn [obnd]. rewrite H2. cbn [of_opt obnd]. rewrite H3. cbn [obnd].
  match goal with |- context [loop_items w ?f 0 (x :: xs) ?t] => assert (HL : forall r, loop_items w f 0 (x :: xs) t = Done r -> snd (fst r) = true) end.
  { match goal with |- context [loop_items w ?f 0 (x :: xs) _] => set (F := f) end.
    assert (HF : forall i fi la y t r, F i fi la y t = Done r -> snd (fst r) = true).
    { intros i fi la y t r E. unfold F in E. destruct (of_opt (pmatch w p y)) as [bs| |]; try discriminate E. cbn [obnd] in E.
      destruct (exec_list w (exec w) body _ _) as [[[[o e1] s1] fl]| |]; try discriminate E. cbn [obnd] in E. injection E as <-. reflexivity. }
    assert (HL : forall l i t r, snd t = true -> loop_items w F i l t = Done r -> snd (fst r) = true).
    { induction l as [|y l IH]; intros i t r Ht E; cbn [loop_items] in E; [injection E as <-; exact Ht|].
      destruct (F i (i =? 0) _ y t) as [[t' fl]| |] eqn:EF; try discriminate E. cbn [obnd] in E. apply HF in EF. cbn [fst] in EF.
      destruct fl; [eapply IH; eassumption|injection E as <-; exact EF|eapply IH; eassumption]. }
    intros r E. cbn [loop_items] in E. destruct (F 0 (0 =? 0) _ x _) as [[t' fl]| |] eqn:EF; try discriminate E. cbn [obnd] in E. apply HF in EF. cbn [fst] in EF.
    destruct fl; [eapply HL; eassumption|injection E as <-; exact EF|eapply HL; eassumption]. }
  match goal with |- context [loop_items w ?f 0 (x :: xs) ?t] => destruct (loop_items w f 0 (x :: xs) t) as [[[[o st1] did] fl]| |] end; cbn [obnd]; try reflexivity.
  specialize (HL _ eq_refl). cbn [fst snd] in HL. subst did. reflexivity.
Qed.
(** The code of a loop with an else part, at any place of a template: a statement of the kind the two theorems speak about,
    whose else part is the code of the nodes after [{% else %}]. *)
Theorem C39_loop_code inp contexts find expand her ctx lv w1 var it cnd body w2 els w3 st code z st' :
  handle_node inp contexts find expand her ctx lv (NLoop w1 var it cnd body w2 els w3) st = GOk (code, z, st') ->
  o_discard st' = false -> els <> [] ->
  exists before r how flt p cb s1 ce ze s2 ce', code = before ++ [SLoop true r how flt p cb (ce ++ ce') []] /\
    gen_list (handle_node inp contexts find expand her ctx LNested) els s1 = GOk (ce, ze, s2).
Proof.
  intros E HD HE. cbn [handle_node] in E. assert (HB : match els with [] => false | _ => true end = true) by (destruct els; [congruence|reflexivity]).
  rewrite HB in E. unfold write_loop in E. cbv beta iota zeta in E.
  apply gbind_inv in E as (r & _ & E). apply gbind_inv in E as ([[before z0] s0] & _ & E). cbv beta iota zeta in E.
  apply gbind_inv in E as (? & _ & E). apply gbind_inv in E as (? & _ & E). apply gbind_inv in E as ([flt s1] & _ & E). cbv beta iota zeta in E.
  apply gbind_inv in E as (? & _ & E). apply gbind_inv in E as ([p m] & _ & E). cbv beta iota zeta in E.
  apply gbind_inv in E as (? & _ & E). apply gbind_inv in E as ([[c1 z1] s2] & _ & E). cbv beta iota zeta in E.
  apply gbind_inv in E as ([[c1' z1'] s3] & _ & E). cbv beta iota zeta in E. apply gbind_inv in E as (s4 & _ & E). apply gbind_inv in E as (s5 & _ & E).
  apply gbind_inv in E as ([[[celse ctail] z2] s6] & EE & E). cbv beta iota zeta in E.
  apply gbind_inv in EE as (? & _ & EE). cbv beta iota zeta in EE. apply gbind_inv in EE as ([[c2 z3] s7] & EL & EE). cbv beta iota zeta in EE.
  apply gbind_inv in EE as ([[c2' z2'] s8] & _ & EE). cbv beta iota zeta in EE. apply gbind_inv in EE as (s9 & _ & EE). apply gbind_inv in EE as (s10 & _ & EE).
  injection EE as <- <- _ <-. apply gbind_inv in E as (s11 & _ & E). apply gbind_inv in E as (s12 & _ & E). injection E as <- _ <-.
  unfold emit_around. rewrite HD. eexists _, _, _, _, _, _, _, _, _, _, _. split; [reflexivity|exact EL].
Qed.
(** In a template.  Full statement: without [scoped]. *)
Theorem C39_in_template_partial inp find fuel templates code fields w pre p it cnd body els post a en st v items t en1 st1 b en2 st2 :
  compiled inp find fuel templates code (pre ++ [TFor p it cnd body els []] ++ post) -> scoped fields (pre ++ [TFor p it cnd body els []] ++ post) = true -> world_ok w ->
  part w inp pre [] [] a en st -> teval w inp en st None Unset it = Done v -> w_iter w v = Some items ->
  filter_items w (ref_keep w inp en st None p cnd) items = Done [] ->
  part w inp els en st t en1 st1 -> part w inp post en st1 b en2 st2 ->
  run w code = Done (a ++ t ++ b).
Proof.
  intros HC HS HW P1 H1 H2 H3 PB P3. eapply code_parts; [exact HC|exact HS|exact HW|exact P1| |exact P3]. apply part_one. cbn [mean].
  rewrite H1. cbn [obnd]. rewrite H2. cbn [of_opt obnd]. rewrite H3. cbn [obnd loop_items]. unfold part in PB. rewrite PB. cbn [obnd mean_list tapp app]. rewrite app_nil_r. reflexivity.
Qed.
Definition ex_else : dir := one (lit "{% for x in l if x > 2 %}{{ x }}{% else %}none{% endfor %}{% for x in l if x > 1 %}{{ x }}{% break %}{% else %}none{% endfor %}").
Example C39_example : meets ex_else fields_lt [lit "l"] = true /\ t_ref ex_else main fields_lt = GOk (Done (lit "none2")).
Proof. split; vm_compute; reflexivity. Qed.

Print Assumptions C29_rendering_partial.
Print Assumptions C29_source_partial.
Print Assumptions C05_every_write.
Print Assumptions C30_text_unchanged.
Print Assumptions C05_in_template_partial.
Print Assumptions C31_let_partial.
Print Assumptions C32_values_partial.
Print Assumptions C32_only_fitting_calls.
Print Assumptions C32_pairing.
Print Assumptions C33_filter_block_partial.
Print Assumptions C37_scope_partial.
Print Assumptions C37_included_file.
Print Assumptions C39_else_runs.
Print Assumptions C39_else_does_not_run.
Print Assumptions C39_loop_code.
Print Assumptions C39_in_template_partial.
