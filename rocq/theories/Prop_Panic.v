(** * C41: when deriving a template does not panic; C51: the size hint is always defined.  Conditions in PanicSpec.v. *)
From Coq Require Import Lia ZArith ZifyBool ZifyNat ZifyN.
From Verif Require Import Base Ws Config ConfigFacts Nom Ast Lex ParseExpr ParseNode ParseSpec ParseTests NodeFacts TplFacts Ident IdentFacts GenExpr Heritage Gen HeritageSpec HeritageFacts UsedFacts TreeSpec ApartFacts PanicSpec PanicFacts PanicGen PanicTop FuelFacts Prop_Parse Sem RefSem TestWorld.
From Verif Require SimScope FlatFacts.
Local Open Scope N_scope.

(** Deriving: the search for the files a template uses, then the generator.  Parsing as in C19: an answer or an error. *)
Definition parse_with lc dbg sy (s : str) : res (list node) :=
  match from_str lc dbg sy s with Some (inl ns) => Ok ns | Some (inr _) => Err (lit "syntax error") | None => Panic end.
Definition derive inp find load parse (files depth : nat) (src : str) : gres (list stmt * N) :=
  let* ts := find_used_templates find load parse files (f_path inp) src in build_template inp find depth ts.

Section Search.
  Variables (find : str -> str -> res str) (load : str -> res str) (parse : str -> res (list node)).
  Hypothesis Hfind : forall a b, find a b <> Panic.
  Hypothesis Hload : forall a, load a <> Panic.
  Hypothesis Hparse : forall a, parse a <> Panic.
  Lemma not_panic {A} (r : res A) : r <> Panic -> rsafe r any.
  Proof. destruct r; intros H; [exact I|exact I|exact (H eq_refl)]. Qed.
  Lemma add_safe p st : rsafe (add_to_check load p st) any.
  Proof. unfold add_to_check. destruct (get p (u_map st)); [exact I|]. eapply rsafe_bind; [apply not_panic, Hload|]. intros; exact I. Qed.
  Lemma used_nodes_safe path top : forall ns st stack, rsafe (used_nodes find load path top ns st stack) any.
  Proof.
    induction ns as [|n ns IH]; intros st stack; [exact I|]. cbn [used_nodes]. eapply rsafe_bind with (Q := any); [|intros [st' more] _; apply IH].
    destruct n; cbn [used_node]; try exact I; try (destruct top; [|exact I]).
    - eapply rsafe_bind; [apply not_panic, Hfind|]. intros q _. destruct (str_eqb path q); [exact I|]. destruct (existsb _ _); [exact I|].
      eapply rsafe_bind; [apply add_safe|]. intros; exact I.
    - eapply rsafe_bind; [apply not_panic, Hfind|]. intros q _. eapply rsafe_bind; [apply add_safe|]. intros; exact I.
    - eapply rsafe_bind; [apply not_panic, Hfind|]. intros q _. eapply rsafe_bind; [apply add_safe|]. intros; exact I.
  Qed.
  Lemma used_file_safe : forall fuel path top stack st, gsafe (used_file find load fuel path top stack st) any.
  Proof.
    induction fuel as [|f IH]; intros path top stack st; destruct stack as [|ns stack]; try exact I. cbn [used_file].
    eapply gsafe_bind; [apply gsafe_res, used_nodes_safe|]. intros [st' stack2] _. apply IH.
  Qed.
  Lemma search_safe : forall fuel st, gsafe (used_loop find load parse fuel st) any.
  Proof.
    induction fuel as [|f IH]; intros st; cbn [used_loop]; destruct (u_check st) as [|[path src] check]; try exact I.
    eapply gsafe_bind; [apply gsafe_res, not_panic, Hparse|]. intros nodes _. eapply gsafe_bind; [apply used_file_safe|]. intros st' _. apply IH.
  Qed.
End Search.

Section Derive.
  Variables (lc : N -> bool) (dbg : str -> str) (sy : syntax).
  Hypothesis Hsy : syntax_valid sy.
  Variables (inp : ginput) (find : str -> str -> res str) (load : str -> res str) (src : str).
  Hypothesis Hfind : forall a b, find a b <> Panic.
  Hypothesis Hload : forall a, load a <> Panic.
  Hypothesis Hsrc : forall s, load (f_path inp) = Ok s -> s = src.
  Let parse := parse_with lc dbg sy.
  Lemma parse_safe s : parse s <> Panic.
  Proof. unfold parse, parse_with. destruct (C19_always_answers lc dbg sy s Hsy) as [[?|?] ->]; discriminate. Qed.
  Lemma parse_ok s ns : parse s = Ok ns -> from_str lc dbg sy s = Some (inl ns).
  Proof. unfold parse, parse_with. destruct (from_str lc dbg sy s) as [[?|?]|]; intros E; inversion E; reflexivity. Qed.
  (** The files that deriving reads: the template and those it refers to, directly or not. *)
  Definition file (p : str) (ns : list node) : Prop :=
    reachable find load parse (f_path inp) src p /\ contents load parse (f_path inp) src p ns.
  (** C41: if blocks stand outside of macros and filter blocks, names of included files mean the same everywhere, and the depth
      of expansion times the braces opened in one file is below 60, then deriving does not panic. *)
  Theorem no_panic D files depth :
    (forall p ns, file p ns -> nestl ns <= D /\ blocks_placed ns /\ forall x, includes ns x -> find x p = find x (f_path inp)) ->
    N.of_nat depth * (D + 1) <= 59 ->
    derive inp find load parse files depth src <> GPanic /\
    (derive inp find load parse files depth src <> GFuel -> forall more, (depth <= more)%nat ->
       derive inp find load parse files more src = derive inp find load parse files depth src).
  Proof.
    intros HF L. unfold derive. split.
    - pose proof (search_safe find load parse Hfind Hload parse_safe files {| u_map := []; u_check := [(f_path inp, src)]; u_graph := [] |}) as SS.
      unfold find_used_templates in *. destruct (used_loop find load parse files _) as [ts| | |] eqn:E; try discriminate; [|contradiction]. cbn [gbind].
      destruct (find_used_spec find load parse (f_path inp) src Hsrc files ts E) as (ND & C & R).
      assert (F : forall p ns, In (p, ns) ts -> file p ns).
      { intros p ns Hin. apply (SimScope.in_get p ns _ ND) in Hin. split; [apply R; congruence|apply C, Hin]. }
      apply (build_safe inp find D ts Hfind); try (intros p ns Hin; apply (HF p ns (F _ _ Hin)); fail); auto.
      + intros p ns Hin. destruct (F _ _ Hin) as [_ (s & _ & P)]. apply parse_ok in P. split; [exact (from_str_wf lc dbg sy (valid_nonempty _ Hsy) s ns P)|exact (from_str_tidy _ _ _ _ _ P)].
      + intros p ns x q Hin Hm Hq. destruct (F _ _ Hin) as [F1 F2]. apply R. eapply reach_next; eassumption.
      + intros p ns x Hin Hx. destruct (HF p ns (F _ _ Hin)) as (_ & _ & H). apply H, Hx.
      + apply R. constructor.
    - intros N more LE. destruct (find_used_templates find load parse files (f_path inp) src) as [ts| | |]; try reflexivity. cbn [gbind] in *.
      apply build_le; assumption.
  Qed.
End Derive.

(** C41, the conditions in view: every file that is read has its blocks outside of macros and filter blocks (see
    C41_block_in_macro_refuted, C41_block_in_filter_refuted); included files are found from every file as from the derived one
    (see C37_relative_include_refuted); and the nesting is bounded (see C41_nesting_refuted).  Missing for C41 is only what
    these refutations exclude, and expansion that goes deeper than [59 / (D + 1)] without an end or an error. *)
Theorem C41_no_panic_partial lc dbg sy inp find load src D files depth : syntax_valid sy ->
  (forall a b, find a b <> Panic) -> (forall a, load a <> Panic) -> (forall s, load (f_path inp) = Ok s -> s = src) ->
  let parse := parse_with lc dbg sy in
  (forall p ns, reachable find load parse (f_path inp) src p -> contents load parse (f_path inp) src p ns ->
     nestl ns <= D /\ blocks_placed ns /\ forall x, includes ns x -> find x p = find x (f_path inp)) ->
  N.of_nat depth * (D + 1) <= 59 ->
  derive inp find load parse files depth src <> GPanic /\
  (derive inp find load parse files depth src <> GFuel -> forall more, (depth <= more)%nat ->
     derive inp find load parse files more src <> GPanic).
Proof.
  intros Hsy H1 H2 H3 parse HF L. destruct (no_panic lc dbg sy Hsy inp find load src H1 H2 H3 D files depth) as [A B].
  - intros p ns [F1 F2]. exact (HF p ns F1 F2).
  - exact L.
  - split; [exact A|]. intros N more LE. fold parse in B. rewrite (B N more LE). exact A.
Qed.
Print Assumptions C41_no_panic_partial.
(** The search for files alone never panics. *)
Theorem C41_search lc dbg sy find load files path src : syntax_valid sy ->
  (forall a b, find a b <> Panic) -> (forall a, load a <> Panic) ->
  find_used_templates find load (parse_with lc dbg sy) files path src <> GPanic.
Proof.
  intros Hsy H1 H2 E. pose proof (search_safe find load _ H1 H2 (parse_safe lc dbg sy Hsy) files {| u_map := []; u_check := [(path, src)]; u_graph := [] |}) as S.
  unfold find_used_templates in E. rewrite E in S. exact S.
Qed.
Print Assumptions C41_search.

(** ** Examples *)
Fixpoint any_block (n : node) : bool :=
  let many := existsb any_block in
  match n with
  | NIf _ cs => existsb (fun c => match c with Cond _ _ ns => many ns end) cs
  | NMatch _ _ arms _ => existsb (fun c => match c with When _ _ ns => many ns end) arms
  | NLoop _ _ _ _ body _ els _ => many body || many els
  | NBlockDef _ _ _ _ => true
  | NMacro _ _ _ ns _ | NFilterBlock _ _ _ ns _ => many ns
  | _ => false
  end.
Fixpoint place_ok (n : node) : bool :=
  let many := forallb place_ok in
  match n with
  | NIf _ cs => forallb (fun c => match c with Cond _ _ ns => many ns end) cs
  | NMatch _ _ arms _ => forallb (fun c => match c with When _ _ ns => many ns end) arms
  | NLoop _ _ _ _ body _ els _ => many body && many els
  | NBlockDef _ _ ns _ => many ns
  | NMacro _ _ _ ns _ | NFilterBlock _ _ _ ns _ => negb (existsb any_block ns)
  | _ => true
  end.
Lemma any_block_mono b n b' k : inside b n b' k -> any_block k = true -> any_block n = true.
Proof.
  intros H E. induction H as [b n|b n b1 m b2 k HC HI IH]; [exact E|]. specialize (IH E).
  destruct HC; cbn [any_block]; try apply orb_true_iff; try reflexivity.
  - apply existsb_exists. eexists. split; [eassumption|]. cbn beta iota. apply existsb_exists. exists m. auto.
  - apply existsb_exists. eexists. split; [eassumption|]. cbn beta iota. apply existsb_exists. exists m. auto.
  - left. apply existsb_exists. exists m. auto.
  - right. apply existsb_exists. exists m. auto.
  - apply existsb_exists. exists m. auto.
  - apply existsb_exists. exists m. auto.
Qed.
Lemma place_inside b n b' k : inside b n b' k -> place_ok n = true -> encloses k = true -> any_block k = false.
Proof.
  intros H P E. destruct (any_block k) eqn:A; [exfalso|reflexivity].
  induction H as [b n|b n b1 m b2 k HC HI IH].
  - destruct n; cbn [encloses] in E; try discriminate E; cbn [place_ok] in P; cbn [any_block] in A; rewrite A in P; discriminate P.
  - pose proof (any_block_mono _ _ _ _ HI A) as AM.
    destruct HC; cbn [place_ok] in P; try (apply andb_true_iff in P as [P1 P2]); try (rewrite forallb_forall in *; auto; fail).
    + rewrite forallb_forall in P. specialize (P _ H). cbn beta iota in P. rewrite forallb_forall in P. auto.
    + rewrite forallb_forall in P. specialize (P _ H). cbn beta iota in P. rewrite forallb_forall in P. auto.
    + assert (X : existsb any_block ns = true) by (apply existsb_exists; exists m; auto). rewrite X in P. discriminate P.
    + assert (X : existsb any_block ns = true) by (apply existsb_exists; exists m; auto). rewrite X in P. discriminate P.
Qed.
Lemma place_sound ns : forallb place_ok ns = true -> blocks_placed ns.
Proof.
  intros H b n b' w1 x l w2 (m & Hm & I1) E I2. rewrite forallb_forall in H. pose proof (place_inside _ _ _ _ I1 (H _ Hm) E) as F.
  pose proof (any_block_mono _ _ _ _ I2 eq_refl). congruence.
Qed.
(** Files by name, without directories: what C41 needs of them. *)
Definition t_derive (d : dir) (depth : nat) : gres (list stmt * N) :=
  let* src := of_res (t_load d main) in derive (t_inp None main) (t_find d) (t_load d) (parse_with t_lower t_debug default_syntax) FUEL depth src.
Definition calm_dir (d : dir) (D : N) (depth : nat) : bool :=
  match t_load d main with
  | Ok src => match find_used_templates (t_find d) (t_load d) (parse_with t_lower t_debug default_syntax) FUEL main src with
              | GOk ts => forallb (fun x => (nestl (snd x) <=? D) && forallb place_ok (snd x)) ts
              | _ => false
              end
  | _ => false
  end && (N.of_nat depth * (D + 1) <=? 59) && match t_derive d depth with GFuel => false | _ => true end.
Lemma calm_dir_sound d D depth : calm_dir d D depth = true -> forall more, (depth <= more)%nat -> t_derive d more <> GPanic.
Proof.
  unfold calm_dir, t_derive. destruct (t_load d main) as [src| |] eqn:EL; try discriminate. cbn [of_res gbind].
  destruct (find_used_templates (t_find d) (t_load d) (parse_with t_lower t_debug default_syntax) FUEL main src) as [ts| | |] eqn:EF; try discriminate.
  intros H more LE. apply andb_true_iff in H as [H H2]. apply andb_true_iff in H as [H H1]. rewrite forallb_forall in H.
  assert (HL : forall s, t_load d main = Ok s -> s = src) by (intros s E; congruence).
  apply (C41_no_panic_partial t_lower t_debug default_syntax (t_inp None main) (t_find d) (t_load d) src D FUEL depth default_valid); auto.
  - intros a b. unfold t_find. destruct (get a d); discriminate.
  - intros a. unfold t_load. destruct (get a d); discriminate.
  - intros p ns R C. destruct (find_used_spec _ _ _ _ _ HL _ _ EF) as (ND & CT & RR).
    destruct (get p ts) as [ns'|] eqn:G; [|exfalso; apply (proj2 (RR p) R), G]. pose proof (contents_det _ _ _ _ HL _ _ _ C (CT _ _ G)) as ->.
    specialize (H (p, ns') (FlatFacts.get_in _ _ _ G)). cbn [snd] in H. apply andb_true_iff in H as [A B]. split; [lia|]. split; [apply place_sound, B|]. reflexivity.
  - lia.
  - intros E. unfold derive in *. rewrite E in H2. discriminate H2.
Qed.
Definition ex_calm : dir :=
  [(main, lit "{% extends ""base"" %}{% import ""macros"" as m %}
{% block body %}{% for x in l %}{% if x > 0 %}{{ x|upper }}{% call m::show(x, y = 2) %}{% else %}{% include ""inc"" %}{% endif %}{% else %}none{% endfor %}{% call super() %}{% endblock %}");
   (lit "base", lit "<{% block body %}{% filter upper %}a{{ a }}{% endfilter %}{% endblock %}>");
   (lit "macros", lit "{% macro show(x, y) %}{% match x %}{% when Some with (z) %}{{ z }}{% when _ %}{{ y }}{% endmatch %}{% endmacro %}");
   (lit "inc", lit "{% let a = 1 %}{{ a }}")].
Example C41_example : forall more, (8 <= more)%nat -> t_derive ex_calm more <> GPanic.
Proof. apply (calm_dir_sound _ 6). vm_compute. reflexivity. Qed.
Example C41_example_code : exists c z, t_derive ex_calm 8 = GOk (c, z).
Proof. eexists _, _. vm_compute. reflexivity. Qed.
(** A template with an error: no panic either. *)
Example C41_example_error : forall more, (8 <= more)%nat -> t_derive (one (lit "{% call m() %}")) more <> GPanic.
Proof. apply (calm_dir_sound _ 6). vm_compute. reflexivity. Qed.

(** ** C51 *)
(** The size hint of an if and of a match is the median of the sizes of its branches.  In every template the parser accepts
    there are such branches, so that the median is defined whatever is in them. *)
Lemma sizes_of_branches inp f w : forall cs first st a b c sizes e st', gen_branches inp f w first cs st = GOk (a, b, c, sizes, e, st') -> length sizes = length cs.
Proof.
  induction cs as [|[w' t ns] cs IH]; intros first st a b c sizes e st' E; cbn [gen_branches] in E.
  - apply gbind_inv in E as ([[? ?] ?] & _ & E). apply gbind_inv in E as (? & _ & E). apply gbind_inv in E as (? & _ & E). injection E as <- <- <- <- <- <-. reflexivity.
  - apply gbind_inv in E as ([[? ?] ?] & _ & E). apply gbind_inv in E as (? & _ & E). apply gbind_inv in E as ([? ?] & _ & E). apply gbind_inv in E as ([[? ?] ?] & _ & E).
    apply gbind_inv in E as ([[[[[? ?] ?] sizes'] ?] ?] & K & E). injection E as <- <- <- <- <- <-. cbn [length]. f_equal. exact (IH _ _ _ _ _ _ _ _ K).
Qed.
Lemma sizes_of_arms inp f w : forall cs first st a b c sizes st', gen_arms inp f w first cs st = GOk (a, b, c, sizes, st') -> length sizes = length cs.
Proof.
  induction cs as [|[w' t ns] cs IH]; intros first st a b c sizes st' E; cbn [gen_arms] in E.
  - apply gbind_inv in E as ([[? ?] ?] & _ & E). apply gbind_inv in E as (? & _ & E). apply gbind_inv in E as (? & _ & E). injection E as <- <- <- <- <-. reflexivity.
  - apply gbind_inv in E as ([[? ?] ?] & _ & E). apply gbind_inv in E as (? & _ & E). apply gbind_inv in E as ([? ?] & _ & E). apply gbind_inv in E as ([[? ?] ?] & _ & E).
    apply gbind_inv in E as ([[[[? ?] ?] sizes'] ?] & K & E). injection E as <- <- <- <- <-. cbn [length]. f_equal. exact (IH _ _ _ _ _ _ _ K).
Qed.
Theorem C51_if_defined lc dbg sy src ns b w cs inp f first st x y z sizes has_else st' : syntax_valid sy -> from_str lc dbg sy src = Some (inl ns) ->
  occurs ns b (NIf w cs) -> gen_branches inp f w first cs st = GOk (x, y, z, sizes, has_else, st') ->
  exists hint, median (if has_else then sizes else sizes ++ [0]) = Ok hint.
Proof.
  intros Hsy HP HO HG. pose proof (occurs_wf _ _ _ (from_str_wf lc dbg sy (valid_nonempty _ Hsy) src ns HP) HO) as W. inversion W; subst.
  pose proof (sizes_of_branches _ _ _ _ _ _ _ _ _ _ _ _ HG) as L. cbn [length] in L.
  destruct (median_defined (if has_else then sizes else sizes ++ [0])) as (m & M & _); [|exists m; exact M].
  destruct sizes; [discriminate L|]. destruct has_else; discriminate.
Qed.
Print Assumptions C51_if_defined.
Theorem C51_match_defined lc dbg sy src ns b w1 e arms w2 inp f first st x y z sizes st' : syntax_valid sy -> from_str lc dbg sy src = Some (inl ns) ->
  occurs ns b (NMatch w1 e arms w2) -> gen_arms inp f w2 first arms st = GOk (x, y, z, sizes, st') ->
  exists hint, median sizes = Ok hint.
Proof.
  intros Hsy HP HO HG. pose proof (occurs_wf _ _ _ (from_str_wf lc dbg sy (valid_nonempty _ Hsy) src ns HP) HO) as W. inversion W; subst.
  pose proof (sizes_of_arms _ _ _ _ _ _ _ _ _ _ _ HG) as L. cbn [length] in L.
  destruct (median_defined sizes) as (m & M & _); [|exists m; exact M]. destruct sizes; discriminate.
Qed.
Print Assumptions C51_match_defined.
(** The hint of a whole template. *)
Example C51_example : exists c, t_derive (one (lit "abc{% if a %}de{% else if b %}f{% endif %}{% match x %}{% when _ %}{% endmatch %}")) 5 = GOk (c, 6).
Proof. eexists. vm_compute. reflexivity. Qed.

(** ** C41: without an expression there may be one condition more, and no further one. *)
Fixpoint nested_texts (n : nat) : str :=
  match n with O => lit "t" | S n' => lit "{% if a == a %}" ++ nested_texts n' ++ lit "{% endif %}" end.
Theorem C41_text_nesting_refuted : exists src less,
  src = lit "{% if a == a %}" ++ less ++ lit "{% endif %}" /\ t_code (one src) None main = GPanic /\
  match t_code (one less) None main with GOk _ => True | _ => False end.
Proof. exists (nested_texts 62), (nested_texts 61). split; [reflexivity|]. split; [vm_compute; reflexivity|vm_compute; exact I]. Qed.
Print Assumptions C41_text_nesting_refuted.
