(** * C65: every name in the generated code is bound.  Specification in BindSpec.v. *)
From Verif Require Import Base Ws Config Nom Ast Lex ParseExpr ParseNode ParseSpec TreeSpec TplFacts Ident IdentFacts GenExpr Heritage Gen HeritageSpec HeritageFacts PanicTop Prop_Flat
  LendSpec BindSpec TestWorld.
From Verif Require BindGen.
Local Open Scope N_scope.

(** C65.  For every set of parsed templates and every input (also for a block fragment): if [loop.…] is used in loops only, no
    parameter of a macro is a keyword and no value given to a macro uses a name that is also a parameter, then every local name
    that an expression of the generated code uses is [self], or bound by a let before it, or by the pattern of a branch, arm or
    loop it stands in.  Full statement: for every set of parsed templates.  It is false without any one of
    these conditions, see the refutations below. *)
Theorem C65_names_bound_partial inp find fuel templates code z :
  parsed templates -> (forall p ns, In (p, ns) templates -> loops_kept ns) -> parameters_apart templates ->
  build_template inp find fuel templates = GOk (code, z) -> all_unbound [lit "self"] code = [].
Proof.
  intros HP HL HA E. eapply (BindGen.build_bound (parameter templates) (BindGen.parameter_normal _ HA)); [|exact E]. intros p ns Hin. destruct (HP p ns Hin) as (lc & dbg & sy & src & Hsy & Q).
  eapply BindGen.parsed_own; [exact HA|exact Hin|exact (from_str_wf lc dbg sy Hsy src ns Q)|exact (HL p ns Hin)].
Qed.
Print Assumptions C65_names_bound_partial.

(** ** A check for examples *)
Fixpoint subs (e : expr) : list expr :=
  e :: match e with
  | Arr l | Tuple l | Filter _ l => concat (map subs l)
  | Attr e _ | NamedArgument _ e | Unary _ e | Group e | Try e => subs e
  | Index a b | BinOp _ a b => subs a ++ subs b
  | Range _ l r => match l with Some e => subs e | None => [] end ++ match r with Some e => subs e | None => [] end
  | Call f l => subs f ++ concat (map subs l)
  | _ => []
  end.
Lemma in_subs {A} (f : A -> list expr) l a x : In a l -> In x (f a) -> In x (concat (map f l)).
Proof. intros H1 H2. apply in_concat. exists (f a). split; [apply in_map, H1|exact H2]. Qed.
Lemma subs_sound e' e : sub e' e -> In e' (subs e).
Proof.
  induction 1 as [e|e k e' Hk _ IH]; [destruct e; left; reflexivity|].
  destruct e; cbn [kids] in Hk; cbn [subs]; try contradiction; right; try solve [eapply in_subs; eassumption | destruct Hk as [<-|[]]; exact IH | destruct Hk as [<-|[<-|[]]]; apply in_app_iff; auto].
  - apply in_app_iff in Hk. apply in_app_iff. destruct Hk as [Hk|Hk]; [left|right]; match goal with H : In k (opt_list ?o) |- _ => destruct o; [destruct H as [<-|[]]; exact IH|destruct H] end.
  - apply in_app_iff. destruct Hk as [<-|Hk]; [left; exact IH|right; eapply in_subs; eassumption].
Qed.
Fixpoint tree (b : bool) (n : node) : list (bool * node) :=
  (b, n) :: match n with
  | NIf _ cs => concat (map (fun c => match c with Cond _ _ ns => concat (map (tree b) ns) end) cs)
  | NMatch _ _ arms _ => concat (map (fun c => match c with When _ _ ns => concat (map (tree b) ns) end) arms)
  | NLoop _ _ _ _ body _ els _ => concat (map (tree true) body) ++ concat (map (tree b) els)
  | NBlockDef _ _ ns _ | NMacro _ _ _ ns _ | NFilterBlock _ _ _ ns _ => concat (map (tree b) ns)
  | _ => []
  end.
Lemma in_tree {A} (f : A -> list (bool * node)) l a x : In a l -> In x (f a) -> In x (concat (map f l)).
Proof. intros H1 H2. apply in_concat. exists (f a). split; [apply in_map, H1|exact H2]. Qed.
Lemma tree_sound b n b' m : inside b n b' m -> In (b', m) (tree b n).
Proof.
  induction 1 as [b n|b n b1 m b2 k C _ IH]; [destruct n; left; reflexivity|]. destruct C; cbn [tree]; right; try solve [eapply in_tree; eassumption].
  - eapply (in_tree _ _ (Cond w' t ns)); [exact H|]. eapply in_tree; eassumption.
  - eapply (in_tree _ _ (When w' t ns)); [exact H|]. eapply in_tree; eassumption.
  - apply in_app_iff. left. eapply in_tree; eassumption.
  - apply in_app_iff. right. eapply in_tree; eassumption.
Qed.
Definition nodes (ns : list node) : list (bool * node) := concat (map (tree false) ns).
Lemma nodes_sound ns b m : occurs ns b m -> In (b, m) (nodes ns).
Proof. intros (n & Hn & Hi). eapply in_tree; [exact Hn|apply tree_sound, Hi]. Qed.
Definition exprs (n : node) : list expr :=
  match n with
  | NExpr _ e | NLet _ _ (Some e) | NMatch _ e _ _ => [e]
  | NCall _ _ _ args => concat (map (fun a => match a with NamedArgument _ e => [e] | _ => [a] end) args)
  | NIf _ cs => concat (map (fun c => match c with Cond _ (Some t) _ => [ct_expr t] | _ => [] end) cs)
  | NLoop _ _ it c _ _ _ _ => it :: match c with Some e => [e] | None => [] end
  | NFilterBlock _ _ args _ _ => args
  | _ => []
  end.
Lemma exprs_sound n e : expr_of n e -> In e (exprs n).
Proof.
  destruct 1; cbn [exprs]; try (left; reflexivity).
  - eapply in_subs; [exact H|]. destruct e; try (left; reflexivity). destruct (H0 _ _ eq_refl).
  - eapply (in_subs _ _ (NamedArgument k e)); [exact H|left; reflexivity].
  - eapply (in_subs _ _ (Cond w' (Some t) ns)); [exact H|left; reflexivity].
  - right. left. reflexivity.
  - exact H.
Qed.
Definition loop_free (e : expr) : bool := forallb (fun s => match s with Attr (Var x) _ => negb (str_eqb x (lit "loop")) | _ => true end) (subs e).
Definition kept_b (ns : list node) : bool := forallb (fun x : bool * node => fst x || forallb loop_free (exprs (snd x))) (nodes ns).
Definition loops_b (ns : list node) : bool := kept_b ns && forallb (fun x : bool * node => match snd x with NBlockDef _ _ body _ => kept_b body | _ => true end) (nodes ns).
Lemma kept_sound ns : kept_b ns = true -> ~ stray ns.
Proof.
  intros H (n & e & O & X & y & S). unfold kept_b in H. rewrite forallb_forall in H. specialize (H _ (nodes_sound _ _ _ O)). cbn [fst snd orb] in H. rewrite forallb_forall in H.
  specialize (H _ (exprs_sound _ _ X)). unfold loop_free in H. rewrite forallb_forall in H. specialize (H _ (subs_sound _ _ S)). discriminate H.
Qed.
Lemma loops_sound ns : loops_b ns = true -> loops_kept ns.
Proof.
  intros H. apply andb_prop in H as [H1 H2]. split; [apply kept_sound, H1|]. intros b w1 x body w2 O. apply kept_sound. rewrite forallb_forall in H2. exact (H2 _ (nodes_sound _ _ _ O)).
Qed.
Definition params (ts : list (str * list node)) (m : str) : list str :=
  concat (map (fun t : str * list node => concat (map (fun x : bool * node => match snd x with NMacro _ y ps _ _ => if str_eqb m y then ps else [] | _ => [] end) (nodes (snd t)))) ts).
Definition apart_b (ts : list (str * list node)) : bool :=
  forallb (fun t : str * list node => forallb (fun x : bool * node => match snd x with
    | NMacro _ _ ps _ _ => forallb (fun x => negb (mem_str x rust_keywords)) ps
    | NCall _ _ m args => forallb (fun a => match a with Var x => negb (str_eqb x (lit "self")) || negb (mem_str (rust_name x) (params ts m)) | Attr _ _ => true | _ =>
                                      forallb (fun s => match s with Var y => negb (mem_str (rust_name y) (params ts m)) | _ => true end) (subs a) end) args
    | _ => true end) (nodes (snd t))) ts.
Lemma params_sound ts m x : parameter ts m x -> In x (params ts m).
Proof.
  intros (p & ns & b & w1 & ps & body & w2 & H1 & H2 & H3). apply in_concat. eexists. split; [apply in_map, H1|]. cbn [snd]. apply in_concat. eexists. split; [apply in_map, (nodes_sound _ _ _ H2)|]. cbn [snd].
  rewrite str_eqb_refl. exact H3.
Qed.
Lemma apart_sound ts : apart_b ts = true -> parameters_apart ts.
Proof.
  intros H2. unfold apart_b in H2. rewrite forallb_forall in H2. split.
  - intros m x (p & ns & b & w1 & ps & body & w2 & Hp & O & Hx) K. specialize (H2 _ Hp). cbn [snd] in H2. rewrite forallb_forall in H2. specialize (H2 _ (nodes_sound _ _ _ O)). cbn [snd] in H2. rewrite forallb_forall in H2. specialize (H2 _ Hx).
    rewrite (proj2 (mem_str_In x rust_keywords) K) in H2. discriminate H2.
  - intros p ns b w sc m args a y Hp O Ha BL S K. specialize (H2 _ Hp). cbn [snd] in H2. rewrite forallb_forall in H2. specialize (H2 _ (nodes_sound _ _ _ O)). cbn [snd] in H2. rewrite forallb_forall in H2. specialize (H2 _ Ha).
    pose proof (proj2 (mem_str_In _ _) (params_sound _ _ _ K)) as KM.
    assert (G : forallb (fun s => match s with Var y => negb (mem_str (rust_name y) (params ts m)) | _ => true end) (subs a) = true -> False).
    { intros F. rewrite forallb_forall in F. specialize (F _ (subs_sound _ _ S)). cbn beta iota in F. rewrite KM in F. discriminate F. }
    destruct a; try exact (G H2); [|contradiction]. cbn [bound_by_let] in BL. subst s. inversion S as [|? k ? Hk]; [|destruct Hk]. subst y. rewrite KM in H2. discriminate H2.
Qed.

(** C65, an example: macros with values, names and fields as arguments, lets before and after use, loops with conditions and [loop.…],
    patterns in if let and match, filter blocks, includes and blocks of a base template; as a whole and as a fragment. *)
Definition ex_dir : dir :=
  [(main, lit "{% extends ""base"" %}{% macro m(v, w, u) %}{{ v }}{{ w }}{% for i in u if i.ok %}{{ i }}{{ loop.index }}{% endfor %}{% endmacro %}{% block b %}{% let q %}{% let q = 1 %}{% for (x, y) in xs %}{{ loop.first }}{% for z in y if z > x %}{{ z }}{{ q }}{% else %}{{ x }}{% endfor %}{{ loop.cycle([x, y]) }}{% endfor %}{% let q = q + k %}{% call m(1 + q, q, self.p) %}{% filter upper %}{{ q|f(x) }}{% endfilter %}{% endblock %}");
   (lit "base", lit "{% let t = a.b %}{% for r in t.rs %}{% block b %}{% endblock %}{% include ""inc"" %}{% endfor %}{{ t }}");
   (lit "inc", lit "{% if let Some(p) = k && p > r %}{{ p }}{% else if let E { e, f: (g, _) } = t %}{{ e }}{{ g }}{% endif %}{% match r %}{% when Some with (h) %}{{ h }}{% when t %}{{ t }}{% endmatch %}{{ t }}")].
(** Whether the conditions hold, and the names used anywhere in the code. *)
Definition seen (block : option str) (d : dir) : option (bool * list str) :=
  match t_templates d main, t_code d block main with
  | GOk ts, GOk (code, _) => Some (forallb (fun t : str * list node => loops_b (snd t)) ts && apart_b ts,
      nodup (list_eq_dec N.eq_dec) (concat (map names (all_values code))))
  | _, _ => None
  end.
Lemma seen_bound block d l : seen block d = Some (true, l) -> exists templates code z, parsed templates /\ (forall p ns, In (p, ns) templates -> loops_kept ns) /\
  parameters_apart templates /\ build_template (t_inp block main) (t_find d) FUEL templates = GOk (code, z) /\ all_unbound [lit "self"] code = [].
Proof.
  unfold seen, t_code. destruct (t_templates d main) as [ts| | |] eqn:T; try discriminate. cbn [gbind]. destruct (build_template (t_inp block main) (t_find d) FUEL ts) as [[code z]| | |] eqn:E; try discriminate.
  intros [= H _]. apply andb_prop in H as [H1 H2]. exists ts, code, z. rewrite forallb_forall in H1.
  assert (HL : forall p ns, In (p, ns) ts -> loops_kept ns) by (intros p ns Hin; apply loops_sound, (H1 _ Hin)). apply apart_sound in H2.
  pose proof (t_parsed _ _ T) as HP. split; [exact HP|]. split; [exact HL|]. split; [exact H2|]. split; [exact E|]. eapply C65_names_bound_partial; eassumption.
Qed.
Example C65_example :
  seen None ex_dir = Some (true, [lit "z"; lit "x"; lit "y"; lit "v"; lit "i"; lit "_loop_item"; lit "q"; lit "__filter_block0"; lit "self"; lit "p"; lit "e"; lit "g"; lit "r"; lit "h"; lit "t"]) /\
  seen (Some (lit "b")) ex_dir = Some (true, [lit "z"; lit "x"; lit "y"; lit "v"; lit "i"; lit "_loop_item"; lit "q"; lit "__filter_block0"; lit "self"; lit "p"; lit "t"; lit "r"]).
Proof. vm_compute. split; reflexivity. Qed.

(** ** What the conditions are for *)
Definition unbound_in (block : option str) (d : dir) (l : list str) : Prop := exists templates code z, parsed templates /\
  build_template (t_inp block main) (t_find d) FUEL templates = GOk (code, z) /\ all_unbound [lit "self"] code = l.
Definition open (block : option str) (d : dir) : option (list str) := match t_code d block main with GOk (code, _) => Some (all_unbound [lit "self"] code) | _ => None end.
Lemma open_sound block d l : open block d = Some l -> unbound_in block d l.
Proof.
  unfold open, t_code. destruct (t_templates d main) as [ts| | |] eqn:T; try discriminate. cbn [gbind]. destruct (build_template (t_inp block main) (t_find d) FUEL ts) as [[code z]| | |] eqn:E; try discriminate.
  intros [= H]. exists ts, code, z. split; [eapply t_parsed, T|]. split; [exact E|exact H].
Qed.
(** C65.  Without a condition it is false: [loop.index] outside of a loop is the name [_loop_item], which nothing binds; also in a
    fragment whose loop is not part of it; *)
Theorem C65_loop_refuted : exists d d' : dir, unbound_in None d [LOOP] /\ unbound_in (Some (lit "b")) d' [LOOP].
Proof.
  exists (one (lit "{{ loop.index }}")), (one (lit "{% block a %}{% for x in xs %}{% block b %}{% if loop.first %}1{% endif %}{% endblock %}{% endfor %}{% endblock %}")).
  split; apply open_sound; vm_compute; reflexivity.
Qed.
Print Assumptions C65_loop_refuted.
(** an argument that mentions a parameter is taken for the parameter, which is bound only by the same let; *)
Theorem C65_argument_refuted : exists d : dir, unbound_in None d [lit "a"].
Proof. exists (one (lit "{% macro m(a, b) %}{{ a }}{{ b }}{% endmacro %}{% call m(1, a + 1) %}")). apply open_sound. vm_compute. reflexivity. Qed.
Print Assumptions C65_argument_refuted.
(** a let of a parameter that is a keyword assigns to a variable that does not exist. *)
Theorem C65_keyword_refuted : exists d : dir, unbound_in None d [lit "r#type"; lit "r#type"].
Proof. exists (one (lit "{% macro m(type) %}{% let type = 2 %}{{ type }}{% endmacro %}{% call m(1) %}")). apply open_sound. vm_compute. reflexivity. Qed.
Print Assumptions C65_keyword_refuted.
