(** * When the expansion of a template ends: C40.  Specification in EndSpec.v. *)
From Coq Require Import Relation_Operators.
From Verif Require Import Base Ws Ast GenExpr Heritage Gen HeritageSpec HeritageFacts FuelFacts EndSpec EndFacts TestWorld.
Local Open Scope N_scope.

Section End.
  Variables (inp : ginput) (find : str -> str -> res str) (templates : list (str * list node)) (contexts : list (str * context)) (ctx : context).
  Hypothesis HB : build_contexts find templates = GOk contexts.
  Hypothesis HG : get (f_path inp) contexts = Some ctx.
  (** If no template is its own ancestor and no body of a template, block or macro leads back to itself, the expansion ends:
      with code, with an error, or with a panic.  The rest of C40 (that it always ends) is false, see Prop_Gen.v. *)
  Theorem C40_expansion_ends_partial : all_lineages contexts -> (forall p, opened contexts ctx = Some p -> ends inp contexts find p) ->
    exists fuel, forall more, (fuel <= more)%nat -> build_template inp find more templates <> GFuel.
  Proof.
    intros HL HE. destruct (build_ends inp find templates contexts ctx HB HG HL HE) as [f Hf]. exists f. intros more L. rewrite (build_le inp find f more templates L Hf). exact Hf.
  Qed.
  (** The condition is needed: a template for which code was generated has no endless chain. *)
  Theorem C40_compiled_ends fuel out p : build_template inp find fuel templates = GOk out -> opened contexts ctx = Some p -> ends inp contexts find p.
  Proof.
    intros E Eo. assert (E' : build_template inp find (fuel + S (length contexts)) templates = GOk out).
    { rewrite <- E. apply build_le; [apply Nat.le_add_r|congruence]. }
    refine (build_ended inp find templates contexts ctx HB HG _ out p _ E' Eo).
    rewrite Nat.add_succ_r. apply Nat.lt_succ_r, Nat.le_add_l.
  Qed.
  (** So nothing is ever generated for a template that leads to a body that contains itself. *)
  Theorem C40_cycle_not_compiled p q fuel out : opened contexts ctx = Some p -> (p = q \/ clos_trans_1n piece (leads inp contexts find) p q) ->
    clos_trans_1n piece (leads inp contexts find) q q -> build_template inp find fuel templates <> GOk out.
  Proof.
    intros Eo Hq C E. pose proof (C40_compiled_ends fuel out p E Eo) as En.
    assert (En' : ends inp contexts find q).
    { destruct Hq as [<-|Hq]; [exact En|]. clear Eo E C. induction Hq as [a b L|a b c L _ IH]; destruct En as [En]; [exact (En b L)|]. apply IH, En, L. }
    exact (ends_apart inp contexts find q En' q C eq_refl).
  Qed.
  (** A measure that goes down from a body to what is expanded in it shows that the expansion ends. *)
  Theorem C40_ranked_partial (rank : piece -> nat) : all_lineages contexts -> (forall p q, leads inp contexts find p q -> (rank q < rank p)%nat) ->
    exists fuel, forall more, (fuel <= more)%nat -> build_template inp find more templates <> GFuel.
  Proof.
    intros HL HR. apply C40_expansion_ends_partial; [exact HL|]. intros p _.
    enough (H : forall n p, (rank p < n)%nat -> ends inp contexts find p) by exact (H _ p (Nat.lt_succ_diag_r _)).
    clear p. induction n as [|n IH]; intros p L; [inversion L|]. constructor. intros q Q. apply IH. specialize (HR p q Q).
    eapply Nat.lt_le_trans; [exact HR|]. apply Nat.lt_succ_r. exact L.
  Qed.
End End.
(** The search for a variable for a filter block ends within the number of local variables. *)
Theorem C40_filter_name_found m : exists x, fresh_filter_name (chain_size m) m O = GOk x /\ ch_get m x = None.
Proof.
  assert (H : forall fuel id, fresh_filter_name fuel m id = GFuel \/ exists x, fresh_filter_name fuel m id = GOk x /\ ch_get m x = None).
  { induction fuel as [|f IH]; intros id; cbn [fresh_filter_name]; destruct (ch_get m (filter_block_name id)) eqn:E; eauto. }
  destruct (H (chain_size m) O) as [H1|H1]; [destruct (fresh_ends m H1)|exact H1].
Qed.

(** ** Examples *)
(** A template with a parent, super(), a macro that is used in a block, an imported macro and an included template with a parent *)
Definition family : dir :=
  [(main, lit "{% extends ""base"" %}{% import ""m"" as m %}{% macro w(x) %}<{{ x }}>{% endmacro %}{% block a %}{% call super() %}{% call w(1) %}{% call m::k() %}{% for i in v %}{% include ""inc"" %}{% endfor %}{% endblock %}");
   (lit "base", lit "[{% block a %}{% block b %}b{% endblock %}{% endblock %}]");
   (lit "m", lit "{% macro k() %}{% call l() %}{% endmacro %}{% macro l() %}l{% endmacro %}");
   (lit "inc", lit "{% extends ""base"" %}{% block b %}i{% endblock %}")].
Definition oks {A} (g : gres A) (d : A) : A := match g with GOk a => a | _ => d end.
Definition fm_templates := Eval vm_compute in oks (t_templates family main) [].
Definition fm_contexts := Eval vm_compute in oks (build_contexts (t_find family) fm_templates) [].
Lemma lineage_found contexts fuel c h : heritage_new fuel contexts c = GOk h -> exists l, lineage contexts c l.
Proof.
  unfold heritage_new. generalize (map (fun x => (fst x, [(c, snd x)])) (c_blocks c)). revert c.
  induction fuel as [|f IH]; intros c bs E; cbn [heritage_loop] in E; destruct (c_extends c) as [p|] eqn:Ex; try discriminate E.
  - exists [c]. constructor. exact Ex.
  - destruct (get p contexts) as [c'|] eqn:G; [|discriminate E]. destruct (IH _ _ E) as [l L]. exists (c :: l). econstructor; eassumption.
  - exists [c]. constructor. exact Ex.
Qed.
Lemma family_lineages : all_lineages fm_contexts.
Proof.
  intros p c G. assert (I : In c (map snd fm_contexts)) by (apply get_in in G; exact (in_map snd _ _ G)).
  assert (H : Forall (fun c => match heritage_new 9 fm_contexts c with GOk _ => true | _ => false end = true) (map snd fm_contexts)) by (repeat constructor; vm_compute; reflexivity).
  rewrite Forall_forall in H. specialize (H c I). destruct (heritage_new 9 fm_contexts c) as [h|m| |] eqn:E; try discriminate H. eapply lineage_found, E.
Qed.
Example C40_example : exists ctx p, build_contexts (t_find family) fm_templates = GOk fm_contexts /\ get main fm_contexts = Some ctx /\ opened fm_contexts ctx = Some p /\
  ends (t_inp None main) fm_contexts (t_find family) p /\ all_lineages fm_contexts /\
  length (flat_map (fun n => match leads_to (t_inp None main) fm_contexts (t_find family) p n with Some q => p_nodes q | None => [] end) (p_nodes p)) = 4%nat.
Proof.
  destruct (get main fm_contexts) as [ctx|] eqn:HG; [|vm_compute in HG; discriminate HG]. assert (HB : build_contexts (t_find family) fm_templates = GOk fm_contexts) by (vm_compute; reflexivity).
  destruct (opened fm_contexts ctx) as [p|] eqn:Eo; [|vm_compute in HG; injection HG as <-; vm_compute in Eo; discriminate Eo].
  exists ctx, p. split; [exact HB|]. split; [reflexivity|]. split; [exact Eo|]. split; [|split].
  - destruct (build_template (t_inp None main) (t_find family) 9 fm_templates) as [out|m| |] eqn:E; [|vm_compute in E; discriminate E..].
    exact (C40_compiled_ends (t_inp None main) (t_find family) fm_templates fm_contexts ctx HB HG 9 out p E Eo).
  - exact family_lineages.
  - vm_compute in HG. injection HG as <-. vm_compute in Eo. injection Eo as <-. vm_compute. reflexivity.
Qed.
(** A macro that calls another one that calls the first *)
Definition ping : dir := [(main, lit "{% macro a() %}{% call b() %}{% endmacro %}{% macro b() %}-{% call a() %}{% endmacro %}{% call a() %}")].
Definition pg_templates := Eval vm_compute in oks (t_templates ping main) [].
Definition pg_contexts := Eval vm_compute in oks (build_contexts (t_find ping) pg_templates) [].
Definition pg_ctx := Eval vm_compute in match get main pg_contexts with Some c => c | None => no_context end.
Definition pg_start : piece := {| p_her := None; p_ctx := pg_ctx; p_sup := None; p_nodes := c_nodes pg_ctx |}.
Definition pg_piece (x : str) : piece :=
  Eval vm_compute in {| p_her := None; p_ctx := pg_ctx; p_sup := None; p_nodes := match get x (c_macros pg_ctx) with Some d => k_nodes d | None => [] end |}.
Example C40_ping_pong fuel out : build_template (t_inp None main) (t_find ping) fuel pg_templates <> GOk out.
Proof.
  assert (L1 : leads (t_inp None main) pg_contexts (t_find ping) (pg_piece (lit "a")) (pg_piece (lit "b"))).
  { eexists. split; [vm_compute; left; reflexivity|vm_compute; reflexivity]. }
  assert (L2 : leads (t_inp None main) pg_contexts (t_find ping) (pg_piece (lit "b")) (pg_piece (lit "a"))).
  { eexists. split; [vm_compute; right; left; reflexivity|vm_compute; reflexivity]. }
  assert (L0 : leads (t_inp None main) pg_contexts (t_find ping) pg_start (pg_piece (lit "a"))).
  { eexists. split; [vm_compute; do 2 right; left; reflexivity|vm_compute; reflexivity]. }
  apply (C40_cycle_not_compiled (t_inp None main) (t_find ping) pg_templates pg_contexts pg_ctx ltac:(vm_compute; reflexivity) ltac:(vm_compute; reflexivity) pg_start (pg_piece (lit "a"))).
  - vm_compute. reflexivity.
  - right. constructor. exact L0.
  - eapply t1n_trans; [exact L1|]. constructor. exact L2.
Qed.
(** Two local variables with the names tried first *)
Example C40_filter_name_example : let m := Chain None [[(filter_block_name 0, m_default)]; [(filter_block_name 1, m_default)]] in
  fresh_filter_name (chain_size m) m O = GOk (filter_block_name 2).
Proof. vm_compute. reflexivity. Qed.

Print Assumptions C40_expansion_ends_partial.
Print Assumptions C40_compiled_ends.
Print Assumptions C40_cycle_not_compiled.
Print Assumptions C40_ranked_partial.
Print Assumptions C40_filter_name_found.
