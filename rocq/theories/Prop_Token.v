(** * Where the tokens of the generated expressions end: C58.  Specifications in TokenSpec.v, ReadSpec.v, GroupSpec.v and RustSpec.v. *)
From Verif Require Import Base Ws Config Nom Ast Lex ParseExpr ParseNode ParseSpec TreeSpec TplFacts HeritageSpec HeritageFacts Ident GenExpr Heritage Gen GenText LitSpec
  RustText TokenSpec RustSpec Sem ReadSpec ReadFacts GroupSpec GroupFacts RustFacts RustShow TokenFacts TokenRead TokenExpr TokenShow Prop_Flat TestWorld.
From Verif Require GroupGen RustGen Prop_Group Prop_Rust.
From Coq Require Import Lia.
Local Open Scope N_scope.

(** Rust divides the text of the expression as if a blank stood after each of the tokens of the tree: no token runs into the next. *)
Definition kept_apart (xid_start xid_continue : N -> bool) (r : rexpr) : Prop :=
  exists ts, tokens xid_start xid_continue (show r) = Some ts /\
             tokens xid_start xid_continue (concat (map (fun t => text t ++ lit " ") (spaced r))) = Some ts.

(** C58.  For every set of parsed templates (without the five forms named in Prop_Group.v, and with parts that Rust can read one by
    one, see RustSpec.v): no two tokens of a generated expression run together in its text.  With [C58_grouping_partial] this says
    of the text what that says of the tokens.  Full statement: for every set of parsed templates.  What is missing: it is false for
    an index of a number, see [C58_runs_together_refuted], and for parts that Rust cannot read, see the refutations of C60; for
    the other four forms it is not shown. *)
Theorem C58_token_ends_partial xid_start xid_continue inp find fuel templates code z :
  parsed templates -> (forall p ns, In (p, ns) templates -> plain_template ns /\ readable_template xid_start xid_continue ns) ->
  readable_escapers xid_start xid_continue inp ->
  build_template inp find fuel templates = GOk (code, z) ->
  Forall (fun x => kept_apart xid_start xid_continue (snd x)) (all_exprs code).
Proof.
  intros HP HS HE E.
  assert (G : Forall reads_well (all_exprs code)) by (eapply Prop_Group.C58_grouping_partial; [exact HP|intros p ns Hin; apply (HS p ns Hin)|exact E]).
  assert (L : Forall (lexed xid_start xid_continue) (all_exprs code)).
  { eapply (RustGen.build_lexes xid_start xid_continue xid_start); [exact HE| |exact E]. intros p ns Hin. destruct (HP p ns Hin) as (lc & dbg & sy & src & Hsy & Q).
    apply RustGen.good_wf; [exact (from_str_wf lc dbg sy Hsy src ns Q)|apply (HS p ns Hin)]. }
  rewrite Forall_forall in *. intros x Hx. destruct (G x Hx) as [K (t & R & S & _)]. specialize (L x Hx). unfold lexed, lexd in L.
  assert (T : toks (snd x) = toks t) by (unfold toks; rewrite S; reflexivity). rewrite T in R. apply reads_iff in R as [GR _]; [|exact K].
  unfold kept_apart. rewrite <- (spaced_text (snd x)), <- S, spaced_text. apply expr_tokens; [exact GR|]. rewrite S. exact L.
Qed.
Print Assumptions C58_token_ends_partial.

(** ** Example: every expression of the templates of Prop_Group.v and Prop_Rust.v *)
Definition tokens_eqb (a b : option (list str)) : bool :=
  match a, b with Some x, Some y => list_eqb str_eqb x y | _, _ => false end.
Definition apart_b (r : rexpr) : bool := tokens_eqb (tokens Prop_Rust.none Prop_Rust.none (show r)) (tokens Prop_Rust.none Prop_Rust.none (concat (map (fun t => text t ++ lit " ") (spaced r)))).
Definition meets (d : dir) (n : nat) : bool :=
  match t_templates d main, t_code d None main with
  | GOk ts, GOk (code, _) => forallb (fun t => forallb Prop_Group.node_b (snd t) && forallb Prop_Rust.node_b (snd t)) ts && Nat.eqb (length (all_exprs code)) n &&
                             forallb (fun x => apart_b (snd x)) (all_exprs code)
  | _, _ => false
  end.
Lemma list_eqb_str a : forall b, list_eqb str_eqb a b = true -> a = b.
Proof. induction a as [|x a IH]; intros [|y b] H; try discriminate H; [reflexivity|]. cbn [list_eqb] in H. apply andb_prop in H as [H1 H2]. apply str_eqb_eq in H1. f_equal; auto. Qed.
Lemma meets_ok d n : meets d n = true -> exists code z, t_code d None main = GOk (code, z) /\ length (all_exprs code) = n /\ Forall (fun x => kept_apart Prop_Rust.none Prop_Rust.none (snd x)) (all_exprs code).
Proof.
  unfold meets, t_code. intros H. destruct (t_templates d main) as [ts| | |] eqn:T; try discriminate H. cbn [gbind] in *. destruct (build_template _ _ _ ts) as [[code z]| | |] eqn:E; try discriminate H.
  apply andb_prop in H as [H H1]. apply andb_prop in H as [H H2]. exists code, z. split; [reflexivity|]. split; [apply PeanoNat.Nat.eqb_eq, H2|].
  eapply C58_token_ends_partial; [eapply t_parsed, T| |apply Prop_Rust.escapers_ok|exact E].
  intros p ns Hin. rewrite forallb_forall in H. specialize (H _ Hin). cbn [snd] in H. apply andb_prop in H as [A B]. split; [apply Prop_Group.plain_ok, A|apply Prop_Rust.template_ok, B].
Qed.
Example C58_token_ends_example : meets Prop_Rust.ex_rust 26 = true /\ meets Prop_Group.ex_group 19 = true.
Proof. vm_compute. split; reflexivity. Qed.
(** Some expressions with their tokens; last, a text that is not an expression. *)
Definition nm (s : str) : rexpr := RName s.
Definition toks_of (r : rexpr) : option (list str) := tokens Prop_Rust.none Prop_Rust.none (show r).
Example C58_tokens_example :
  toks_of (RBin (lit "&&") (RRef (RRef (nm (lit "a")))) (RUn (lit "!") (RField (nm (lit "r#fn")) (lit "0.1")))) =
    Some [lit "&"; lit "&"; lit "a"; lit "&&"; lit "!"; lit "r#fn"; lit "."; lit "0"; lit "."; lit "1"] /\
  toks_of (RRange (lit "..=") (Some (RTok (lit "1"))) (Some (RBin (lit "<<") (nm (lit "b")) (RTok (lit "2.5e-3f32"))))) =
    Some [lit "1"; lit "..="; lit "b"; lit "<<"; lit "2.5e-3f32"] /\
  toks_of (RIndex (nm (lit "a")) (RRange (lit "..") None None)) = Some [lit "a"; lit "["; lit ".."; lit "]"] /\
  toks_of (RTup [RStr (lit "a\"" b"); RChar (lit "'"); RChar (lit "\'")]) = None /\
  toks_of (RTup [RStr (lit "a\"" b"); RChar (lit "\'")]) = Some [lit "("; lit """a\"" b"""; lit ","; lit "'\''"; lit ","; lit ")"] /\
  tokens Prop_Rust.none Prop_Rust.none (lit "a&&b||c..=d<<=1.0.e") = Some [lit "a"; lit "&&"; lit "b"; lit "||"; lit "c"; lit "..="; lit "d"; lit "<<="; lit "1.0"; lit "."; lit "e"].
Proof. vm_compute. repeat split; reflexivity. Qed.

(** C58.  An index of a number runs into it: [1 .0], the field [0] of the number [1], is written as the number [1.0].  The template
    is one that Rust can read part by part. *)
Definition together (d : dir) : bool :=
  match t_templates d main, t_code d None main with
  | GOk ts, GOk (code, _) => forallb (fun t => forallb Prop_Rust.node_b (snd t)) ts && existsb (fun x => negb (apart_b (snd x))) (all_exprs code)
  | _, _ => false
  end.
Lemma apart_not r : apart_b r = false -> ~ kept_apart Prop_Rust.none Prop_Rust.none r.
Proof.
  intros H (ts & A & B). unfold apart_b in H. rewrite A, B in H. cbn [tokens_eqb] in H. assert (E : forall l, list_eqb str_eqb l l = true) by (induction l as [|x l IH]; cbn [list_eqb]; [reflexivity|rewrite str_eqb_refl; exact IH]).
  rewrite E in H. discriminate H.
Qed.
Theorem C58_runs_together_refuted : exists templates code z, parsed templates /\ (forall p ns, In (p, ns) templates -> readable_template Prop_Rust.none Prop_Rust.none ns) /\
  build_template (t_inp None main) (t_find (one (lit "{{ 1 .0 }}"))) FUEL templates = GOk (code, z) /\ ~ Forall (fun x => kept_apart Prop_Rust.none Prop_Rust.none (snd x)) (all_exprs code).
Proof.
  assert (H : together (one (lit "{{ 1 .0 }}")) = true) by (vm_compute; reflexivity). revert H. generalize (one (lit "{{ 1 .0 }}")). intros d H.
  unfold together, t_code in H. destruct (t_templates d main) as [ts| | |] eqn:T; try discriminate H. cbn [gbind] in *. destruct (build_template _ _ _ ts) as [[code z]| | |] eqn:E; try discriminate H.
  apply andb_prop in H as [H H1]. exists ts, code, z. split; [eapply t_parsed, T|]. split; [|split; [exact E|]].
  - intros p ns Hin. rewrite forallb_forall in H. specialize (H _ Hin). apply Prop_Rust.template_ok, H.
  - apply existsb_exists in H1 as (x & Hx & N). intros F. rewrite Forall_forall in F. exact (apart_not _ (proj1 (negb_true_iff _) N) (F x Hx)).
Qed.
Print Assumptions C58_runs_together_refuted.
