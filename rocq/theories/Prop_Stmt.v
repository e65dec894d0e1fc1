(** * C63: the statements of the generated code keep to the grammar of Rust.  Specification in StmtSpec.v. *)
From Verif Require Import Base Ws Config Nom Ast Lex ParseExpr ParseNode ParseSpec TreeSpec TplFacts Ident GenExpr Heritage Gen PanicTop Prop_Flat StmtSpec TestWorld.
From Verif Require GroupGen StmtGen.
From Coq Require Import Lia.
Local Open Scope N_scope.

(** C63.  For every set of parsed templates and every input (also for a block fragment): if no break or continue reaches out of a
    block, an else is the last part of its if, and the target of a loop with a condition and of a declaration is not a choice of
    patterns, then every statement of the generated code stands where Rust allows it.  Full statement: for every set of parsed
    templates.  It is false without any one of these conditions, see the refutations below. *)
Theorem C63_statements_partial inp find fuel templates code z :
  parsed templates -> (forall p ns, In (p, ns) templates -> orderly_template ns) ->
  build_template inp find fuel templates = GOk (code, z) -> Forall (allowed false) code.
Proof.
  intros HP HO E. eapply StmtGen.build_allowed; [|exact E]. intros p ns Hin. destruct (HP p ns Hin) as (lc & dbg & sy & src & Hsy & Q).
  apply StmtGen.orderly_own; [exact (from_str_wf lc dbg sy Hsy src ns Q)|exact (HO p ns Hin)].
Qed.
Print Assumptions C63_statements_partial.

(** ** A check for examples *)
Definition no_alts (p : target) : bool := match p with TOrChain _ => false | _ => true end.
Fixpoint else_last (cs : list cond) : bool :=
  match cs with [] => true | Cond _ None _ :: l => match l with [] => true | _ => false end | _ :: l => else_last l end.
Fixpoint tidy (b : bool) (n : node) : bool :=
  match n with
  | NIf _ cs => else_last cs && forallb (fun c => match c with Cond _ _ ns => forallb (tidy b) ns end) cs
  | NMatch _ _ arms _ => forallb (fun c => match c with When _ _ ns => forallb (tidy b) ns end) arms
  | NLoop _ v _ c body _ els _ => match c with Some _ => no_alts v | None => true end && (forallb (tidy true) body && forallb (tidy b) els)
  | NBlockDef _ _ ns _ => forallb (tidy false) ns
  | NMacro _ _ _ ns _ | NFilterBlock _ _ _ ns _ => forallb (tidy b) ns
  | NLet _ v None => no_alts v
  | NBreak _ | NContinue _ => b
  | _ => true
  end.
Lemma no_alts_sound p : no_alts p = true -> no_alternatives p.
Proof. intros H l ->. discriminate H. Qed.
Lemma else_last_sound : forall cs, else_last cs = true -> forall w ns before after, cs = before ++ Cond w None ns :: after -> after = [].
Proof.
  induction cs as [|[w0 t0 ns0] cs IH]; intros H w ns before after E; [destruct before; discriminate E|].
  destruct before as [|c before]; cbn [app] in E.
  - injection E as -> -> -> ->. cbn [else_last] in H. destruct after; [reflexivity|discriminate H].
  - injection E as _ E2. cbn [else_last] in H. destruct t0 as [t0|]; [eapply IH; [exact H|exact E2]|]. subst cs. destruct before; discriminate H.
Qed.
Lemma forallb_weak {A} (f g : A -> bool) l : Forall (fun x => f x = true -> g x = true) l -> forallb f l = true -> forallb g l = true.
Proof. rewrite !forallb_forall, Forall_forall. auto. Qed.
Lemma tidy_mono : forall n, tidy false n = true -> forall b, tidy b n = true.
Proof.
  induction n using node_ind_all; intros HT b; cbn [tidy] in *.
  - destruct n; try contradiction; cbn [tidy] in *; try assumption; discriminate HT.
  - apply andb_prop in HT as [HT1 HT2]. rewrite HT1. cbn [andb]. eapply forallb_weak; [|exact HT2]. eapply Forall_impl; [|exact H]. intros [w' t ns] K. cbn in K |- *. apply forallb_weak. eapply Forall_impl; [|exact K]. auto.
  - eapply forallb_weak; [|exact HT]. eapply Forall_impl; [|exact H]. intros [w' t ns] K. cbn in K |- *. apply forallb_weak. eapply Forall_impl; [|exact K]. auto.
  - apply andb_prop in HT as [HT1 HT2]. apply andb_prop in HT2 as [HT2 HT3]. rewrite HT1, HT2. cbn [andb]. eapply forallb_weak; [|exact HT3]. eapply Forall_impl; [|exact H0]. auto.
  - exact HT.
  - eapply forallb_weak; [|exact HT]. eapply Forall_impl; [|exact H]. auto.
  - eapply forallb_weak; [|exact HT]. eapply Forall_impl; [|exact H]. auto.
Qed.
Lemma tidy_child b n b' m : child b n b' m -> tidy b n = true -> tidy b' m = true.
Proof.
  destruct 1; intros HT; cbn [tidy] in HT.
  - apply andb_prop in HT as [_ HT]. rewrite forallb_forall in HT. specialize (HT _ H). cbv beta iota in HT. rewrite forallb_forall in HT. auto.
  - rewrite forallb_forall in HT. specialize (HT _ H). cbv beta iota in HT. rewrite forallb_forall in HT. auto.
  - apply andb_prop in HT as [_ HT]. apply andb_prop in HT as [HT _]. rewrite forallb_forall in HT. auto.
  - apply andb_prop in HT as [_ HT]. apply andb_prop in HT as [_ HT]. rewrite forallb_forall in HT. auto.
  - rewrite forallb_forall in HT. apply tidy_mono; auto.
  - rewrite forallb_forall in HT. auto.
  - rewrite forallb_forall in HT. auto.
Qed.
Lemma tidy_inside b n b' m : inside b n b' m -> tidy b n = true -> tidy b' m = true.
Proof. induction 1; auto. intros HT. apply IHinside. eapply tidy_child; eassumption. Qed.
Lemma tidy_orderly b n : tidy b n = true -> orderly n.
Proof.
  destruct n; cbn [tidy orderly]; try exact (fun _ => I).
  - match goal with |- match ?v with _ => _ end = true -> _ => destruct v end; [exact (fun _ => I)|apply no_alts_sound].
  - intros H. apply andb_prop in H as [H _]. apply else_last_sound, H.
  - match goal with |- match ?v with _ => _ end && _ = true -> _ => destruct v end; [|exact (fun _ => I)]. intros H. apply andb_prop in H as [H _]. apply no_alts_sound, H.
  - intros H (w & [(n & Hn & Hi)|(n & Hn & Hi)]); rewrite forallb_forall in H; pose proof (tidy_inside _ _ _ _ Hi (H n Hn)) as K; discriminate K.
Qed.
Lemma tidy_template ns : forallb (tidy false) ns = true -> orderly_template ns.
Proof. intros H b m (n & Hn & Hi). rewrite forallb_forall in H. eapply tidy_orderly, tidy_inside; [exact Hi|apply H, Hn]. Qed.

(** C63, an example: an if with else if and else, break in a condition in a loop inside of a block, a continue in the else of an
    inner loop, declarations and assignments, a macro with a value as argument, an included file; as a whole and as a fragment. *)
Definition ex_dir : dir :=
  [(main, lit "{% extends ""base"" %}{% macro m(v) %}{% for i in v if i.ok %}{% break %}{% endfor %}{% endmacro %}{% block b %}{% for (x, A or B) in xs %}{% for y in x %}{% else %}{% continue %}{% endfor %}{% if x %}{% break %}{% else if let P or Q = y %}2{% else %}3{% endif %}{% endfor %}{% call m(1 + 2) %}{% endblock %}");
   (lit "base", lit "{% let q %}{% let q = 1 %}{% for z in zs %}{% block b %}{% endblock %}{% include ""inc"" %}{% endfor %}");
   (lit "inc", lit "{% match k %}{% when 1 or 2 %}a{% when _ %}b{% endmatch %}")].
Fixpoint count (f : stmt -> bool) (s : stmt) : nat :=
  let many l := fold_right Nat.add O (map (count f) l) in
  ((if f s then 1 else 0) + match s with
   | SIf l => fold_right Nat.add O (map (fun x => many (snd x)) l)
   | SMatch _ l => fold_right Nat.add O (map (fun x => many (snd x)) l)
   | SLoop _ _ _ _ _ b e t => many b + many e + many t
   | SBlock l => many l
   | _ => 0
   end)%nat.
Definition jump (s : stmt) : bool := match s with SBreak | SContinue => true | _ => false end.
Definition branch (s : stmt) : bool := match s with SIf [_; _; (RElse, _)] => true | _ => false end.
Definition binding (s : stmt) : bool := match s with SDeclare _ | SAssign _ _ | SLetTuple _ _ | SMatch _ _ => true | _ => false end.
Definition seen (block : option str) (d : dir) : option (bool * nat * nat * nat) :=
  match t_templates d main, t_code d block main with
  | GOk ts, GOk (code, _) => let sum f := fold_right Nat.add O (map (count f) code) in
                             Some (forallb (fun t => forallb (tidy false) (snd t)) ts, sum jump, sum branch, sum binding)
  | _, _ => None
  end.
Lemma seen_allowed block d a b c : seen block d = Some (true, a, b, c) -> exists templates code z, parsed templates /\ (forall p ns, In (p, ns) templates -> orderly_template ns) /\
  build_template (t_inp block main) (t_find d) FUEL templates = GOk (code, z) /\ Forall (allowed false) code.
Proof.
  unfold seen, t_code. destruct (t_templates d main) as [ts| | |] eqn:T; try discriminate. cbn [gbind]. destruct (build_template (t_inp block main) (t_find d) FUEL ts) as [[code z]| | |] eqn:E; try discriminate.
  intros [= H _ _ _]. exists ts, code, z.
  assert (HO : forall p ns, In (p, ns) ts -> orderly_template ns) by (intros p ns Hin; rewrite forallb_forall in H; specialize (H _ Hin); apply tidy_template, H).
  pose proof (t_parsed _ _ T) as HP. repeat split; try assumption. eapply C63_statements_partial; eassumption.
Qed.
Example C63_example : seen None ex_dir = Some (true, 3, 1, 4)%nat /\ seen (Some (lit "b")) ex_dir = Some (true, 3, 1, 4)%nat.
Proof. vm_compute. split; reflexivity. Qed.

(** ** What the conditions are for *)
Definition misplaced (block : option str) (d : dir) : Prop := exists templates code z, parsed templates /\
  build_template (t_inp block main) (t_find d) FUEL templates = GOk (code, z) /\ ~ Forall (allowed false) code.
Definition bad (s : stmt) : bool :=
  match s with
  | SBreak | SContinue => true
  | SDeclare (TOrChain _) => true
  | SLoop _ _ _ (Some (TOrChain _, _)) _ _ _ _ => true
  | SIf (_ :: (RElse, _) :: _ :: _) => true
  | _ => false
  end.
Lemma bad_sound s : bad s = true -> ~ allowed false s.
Proof.
  destruct s; cbn [bad]; try discriminate; cbn [allowed]; try discriminate.
  - destruct p; try discriminate. intros _ H. exact (H _ eq_refl).
  - destruct branches as [|x1 [|[[] x2] [|x3 l]]]; try discriminate. intros _ [(t & mid & fin & E & F & G) _]. cbn [map fst] in E. injection E as E1 E2.
    destruct mid as [|y mid]; [|inversion F; subst; match goal with H : Forall _ (_ :: _) |- _ => inversion H; subst end; injection E2 as <- _; congruence].
    cbn [app] in E2. destruct G as [-> | ->]; discriminate E2.
  - destruct flt as [[[] e]|]; try discriminate. intros _ [H _]. exact (H _ _ eq_refl _ eq_refl).
Qed.
Definition misplaces (block : option str) (d : dir) : bool :=
  match t_templates d main, t_code d block main with GOk _, GOk (code, _) => existsb bad code | _, _ => false end.
Lemma misplaces_sound block d : misplaces block d = true -> misplaced block d.
Proof.
  unfold misplaces, t_code. destruct (t_templates d main) as [ts| | |] eqn:T; try discriminate. cbn [gbind]. destruct (build_template (t_inp block main) (t_find d) FUEL ts) as [[code z]| | |] eqn:E; try discriminate.
  intros H. exists ts, code, z. split; [eapply t_parsed, T|]. split; [exact E|]. intros F. apply existsb_exists in H as (s & Hs & B). rewrite Forall_forall in F. exact (bad_sound _ B (F s Hs)).
Qed.
(** A block with a break, in a loop of a template that extends another: the parser accepts it for the loop (C22), but the block goes
    where the other template has it, which may be in no loop; and the same when only the block is rendered and the loop is in a block
    around it. *)
Theorem C63_break_refuted : exists d, misplaced None d.
Proof.
  exists [(main, lit "{% extends ""base"" %}{% for x in xs %}{% block b %}{% break %}{% endblock %}{% endfor %}"); (lit "base", lit "{% block b %}{% endblock %}")].
  apply misplaces_sound. vm_compute. reflexivity.
Qed.
Print Assumptions C63_break_refuted.
Theorem C63_break_fragment_refuted : exists d b, misplaced (Some b) d.
Proof. exists (one (lit "{% block o %}{% for x in xs %}{% block b %}{% break %}{% endblock %}{% endfor %}{% endblock %}")), (lit "b"). apply misplaces_sound. vm_compute. reflexivity. Qed.
Print Assumptions C63_break_fragment_refuted.
(** Two else parts in one if. *)
Theorem C63_else_refuted : exists d, misplaced None d.
Proof. exists (one (lit "{% if a %}1{% else %}2{% else %}3{% endif %}")). apply misplaces_sound. vm_compute. reflexivity. Qed.
Print Assumptions C63_else_refuted.
(** A choice of patterns in the condition of a loop, which becomes the parameter of a closure; and in a declaration. *)
Theorem C63_filter_refuted : exists d, misplaced None d.
Proof. exists (one (lit "{% for A or B in xs if c %}{% endfor %}")). apply misplaces_sound. vm_compute. reflexivity. Qed.
Print Assumptions C63_filter_refuted.
Theorem C63_declaration_refuted : exists d, misplaced None d.
Proof. exists (one (lit "{% let A or B %}")). apply misplaces_sound. vm_compute. reflexivity. Qed.
Print Assumptions C63_declaration_refuted.
