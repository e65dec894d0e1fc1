(** * Block fragments: C36.  Specification in FragSpec.v; what goes wrong is in Prop_Gen.v. *)
From Coq Require Import ZArith.
From Verif Require Import Base Ws Config Nom Ast Lex ParseExpr ParseNode ParseTests Ident IdentFacts GenExpr Heritage Gen Sem RefSem Scoped HeritageSpec HeritageFacts Prop_Heritage GenElab Sim FragSpec FragFacts TestWorld.
From Coq Require Import Lia.
Local Open Scope N_scope.

Lemma in_get' {A} k (v : A) l : get k l = Some v -> In (k, v) l.
Proof. induction l as [|[k' v'] l IH]; cbn [get]; intros E; [discriminate E|]. destruct (str_eqb k k') eqn:K; [apply str_eqb_eq in K as ->; injection E as ->; left; reflexivity|right; auto]. Qed.
Lemma lineage_in contexts c l : lineage contexts c l -> (exists p, get p contexts = Some c) -> forall c', In c' l -> exists p, get p contexts = Some c'.
Proof. induction 1 as [c E|c p c' l E G L IH]; intros H c0 Hin; cbn [In] in Hin; destruct Hin as [<-|Hin]; auto; [destruct Hin|apply IH; [eauto|exact Hin]]. Qed.
Lemma definitions_in x l c d : In (c, d) (definitions x l) -> In c l /\ get x (c_blocks c) = Some d.
Proof.
  induction l as [|c' l IH]; intros H; [destruct H|]. cbn [definitions] in H. destruct (get x (c_blocks c')) as [d'|] eqn:E.
  - destruct H as [[= <- <-]|H]; [split; [left; reflexivity|exact E]|destruct (IH H); split; [right|]; assumption].
  - destruct (IH H). split; [right|]; assumption.
Qed.
Lemma apart_context inp contexts find x path p c : apart inp contexts find x path = true -> get p contexts = Some c ->
  Qc inp contexts find x path c /\ (stands_alone c = true -> forallb (lacks inp contexts find x path) (c_nodes c) = true) /\
  (forall y d, get y (c_blocks c) = Some d -> mem_str y (x :: path) = false -> forallb (lacks inp contexts find x path) (b_nodes d) = true).
Proof.
  intros H G. apply in_get' in G. unfold apart in H. rewrite forallb_forall in H. specialize (H _ G). cbv zeta in H. cbn [snd] in H.
  apply andb_prop in H as [H H3]. apply andb_prop in H as [H1 H2]. rewrite forallb_forall in H1, H2. repeat split.
  - intros y d E. exact (H2 _ (in_get' _ _ _ E)).
  - intros E. rewrite E in H3. exact H3.
  - intros y d E N. specialize (H1 _ (in_get' _ _ _ E)). cbn [fst snd] in H1. rewrite N in H1. exact H1.
Qed.

(** Full statement: for every template that compiles without [block] and has the block [x], it compiles with [block = "x"] and
    what is written is [render] of the fragment.  This is false, see C36_other_block_refuted and the others in Prop_Gen.v and
    below.  Proved here: for a block that stands, inside of any number of other blocks, at the top of the base template.  What
    is missing: a block inside of an if, a loop, a macro or an included template; lets, ifs, matches, loops, calls, includes
    and filter blocks beside the block in the base template and in the blocks around it, and other blocks after it in the
    blocks around it; and that it compiles.  Each block around it takes one step of [fuel]. *)
Theorem C36_fragment_partial inp find fuel fuel' templates contexts ctx h x path y last pre w1 body w2 post code z tns fields w :
  build_template inp find fuel templates = GOk (code, z) -> f_block inp = Some x ->
  build_contexts find templates = GOk contexts -> get (f_path inp) contexts = Some ctx -> heritage_new fuel contexts ctx = GOk h ->
  c_nodes (h_root h) = pre ++ NBlockDef w1 y body w2 :: post -> forallb (beside x path) (pre ++ post) = true ->
  holds x path h path (h_root h) y last -> apart inp contexts find x path = true ->
  fuel = (length path + fuel')%nat -> fragment inp contexts find x fuel' h last = GOk tns ->
  scoped fields tns = true -> world_ok w -> render w inp tns <> Unset ->
  run w code = render w inp tns.
Proof.
  intros HB HX HC HG HH HN HP HO HA HFu HF HS HW HU. unfold build_template in HB. rewrite HC in HB. cbn [gbind] in HB. rewrite HG in HB.
  assert (HI : impl_template inp contexts find fuel (Some h) ctx = GOk (code, z) \/ (c_blocks ctx = [] /\ c_extends ctx = None)).
  { destruct (c_blocks ctx) as [|a l], (c_extends ctx) as [e|]; [left|right; auto|left|left]; apply gbind_inv in HB as (her & E1 & E2); apply gbind_inv in E1 as (h' & E1 & E3);
      rewrite HH in E1; injection E1 as <-; rewrite HX in E3; destruct (get x (h_blocks h)); try discriminate E3; injection E3 as <-; exact E2. }
  assert (OK : blocks_ok contexts) by (eapply contexts_blocks_ok; eauto).
  destruct (heritage_new_spec _ _ _ _ OK HH) as (line & L & R & D).
  assert (IN : forall c, In c line -> exists p, get p contexts = Some c) by (apply (lineage_in _ _ _ L); eauto).
  rewrite forallb_app in HP. apply andb_prop in HP as [HP1 HP2].
  assert (HR : exists p, get p contexts = Some (h_root h)).
  { apply IN. rewrite <- R. destruct line as [|c0 line0]; [inversion L|].
    destruct (@exists_last _ (c0 :: line0) ltac:(discriminate)) as (l' & a & Ea). rewrite Ea, last_last. apply in_or_app. right. left. reflexivity. }
  assert (QH : Qh inp contexts find x path (Some h)).
  { intros v defs c d E Hin. rewrite D in E. destruct (definitions v line) as [|d0 ds] eqn:Ed; [discriminate E|]. injection E as <-. rewrite <- Ed in Hin.
    apply definitions_in in Hin as [H1 H2]. destruct (IN _ H1) as (p & Hp). destruct (apart_context _ _ _ _ _ _ _ HA Hp) as (Q1 & _ & Q2). split; [exact Q1|exact (Q2 _ _ H2)]. }
  destruct HI as [HI|[N1 N2]].
  - refine (frag_build inp contexts find x path HX _ fuel fuel' h ctx y last w1 body w2 pre post code z tns fields w QH _ HO HFu HN HP1 HP2 HI HF HS HW HU).
    + intros p c Hp. destruct (apart_context _ _ _ _ _ _ _ HA Hp) as (Q1 & Q2 & _). auto.
    + destruct HR as (p & Hp). exact (proj1 (apart_context _ _ _ _ _ _ _ HA Hp)).
  - (* without blocks there is no fragment *)
    exfalso. assert (line = [ctx]) as -> by (inversion L; subst; [reflexivity|congruence]). specialize (D x). cbn [definitions] in D. rewrite N1 in D. cbn in D.
    unfold fragment in HF. destruct fuel' as [|f]; [discriminate HF|]. cbn [elab] in HF. unfold elab_nodes in HF. cbn in HF. rewrite D in HF. discriminate HF.
Qed.
Print Assumptions C36_fragment_partial.

(** The same from the source text on, for the concrete world used in examples. *)
Fixpoint split_block (x : str) (l : list node) : option (list node * list node) :=
  match l with
  | [] => None
  | n :: l' => match n with
               | NBlockDef _ y _ _ => if str_eqb y x then Some ([], l') else option_map (fun p => (n :: fst p, snd p)) (split_block x l')
               | _ => option_map (fun p => (n :: fst p, snd p)) (split_block x l')
               end
  end.
Lemma split_block_ok x l a b : split_block x l = Some (a, b) -> exists w1 body w2, l = a ++ NBlockDef w1 x body w2 :: b.
Proof.
  revert a b. induction l as [|n l IH]; intros a b E; [discriminate E|].
  assert (G : option_map (fun p => (n :: fst p, snd p)) (split_block x l) = Some (a, b) -> exists w1 body w2, n :: l = a ++ NBlockDef w1 x body w2 :: b).
  { destruct (split_block x l) as [[a' b']|]; [|discriminate]. intros [= <- <-]. cbn [fst snd]. destruct (IH _ _ eq_refl) as (w1 & bd & w2 & ->). exists w1, bd, w2. reflexivity. }
  cbn [split_block] in E. destruct n; try exact (G E). destruct (str_eqb name x) eqn:K; [|exact (G E)]. apply str_eqb_eq in K as ->. injection E as <- <-. exists w1, nodes, w2. reflexivity.
Qed.
(** The first of the blocks around [x], or [x] *)
Definition outermost (x : str) (p : list str) : str := match p with [] => x | y :: _ => y end.
Fixpoint find_last (x : str) (path : list str) (h : heritage) (p : list str) (ctx : context) : option context :=
  match p with
  | [] => Some ctx
  | y :: p' =>
      match get y (h_blocks h) with
      | Some ((c, d) :: _) =>
          match split_block (outermost x p') (b_nodes d) with
          | Some (pre, post) => if negb (str_eqb y x) && forallb (fun n => quiet n || another_block x path n) pre && forallb quiet post
                                then find_last x path h p' (merge_context ctx c) else None
          | None => None
          end
      | _ => None
      end
  end.
Lemma find_last_ok x path h p : forall ctx last, find_last x path h p ctx = Some last -> holds x path h p ctx (outermost x p) last.
Proof.
  induction p as [|y p IH]; intros ctx last E; cbn [find_last] in E; [injection E as <-; constructor|].
  destruct (get y (h_blocks h)) as [[|[c d] ds]|] eqn:Ed; try discriminate E. destruct (split_block _ _) as [[pre post]|] eqn:Es; [|discriminate E].
  destruct (negb (str_eqb y x) && _ && _) eqn:Eb; [|discriminate E]. apply andb_prop in Eb as [Eb E3]. apply andb_prop in Eb as [E1 E2].
  apply split_block_ok in Es as (w1 & bd & w2 & En). cbn [outermost]. eapply holds_in; [|exact Ed|exact En|exact E2|exact E3|exact (IH _ _ E)].
  intros ->. rewrite str_eqb_refl in E1. discriminate E1.
Qed.
(** The fragment of a template in the directory, inside of the blocks [path]; no result if the theorem does not speak about it. *)
Definition t_fragment (d : dir) (path : list str) (x : str) (fields : list str) : option (list tnode) :=
  let inp := t_inp (Some x) main in
  match t_templates d main with
  | GOk ts => match build_contexts (t_find d) ts with
    | GOk cs => match get main cs with
      | Some c => match heritage_new FUEL cs c with
        | GOk h => match split_block (outermost x path) (c_nodes (h_root h)), find_last x path h path (h_root h) with
          | Some (pre, post), Some last => match fragment inp cs (t_find d) x (FUEL - length path) h last with
            | GOk tns => if forallb (beside x path) (pre ++ post) && apart inp cs (t_find d) x path && scoped fields tns && Nat.leb (length path) FUEL then Some tns else None
            | _ => None
            end
          | _, _ => None
          end
        | _ => None end
      | None => None end
    | _ => None end
  | _ => None end.
Theorem C36_source_partial d path x self fields tns code z : t_code d (Some x) main = GOk (code, z) -> t_fragment d path x fields = Some tns ->
  render (cworld self) (t_inp (Some x) main) tns <> Unset -> t_run d (Some x) main self = GOk (render (cworld self) (t_inp (Some x) main) tns).
Proof.
  unfold t_fragment, t_run, t_code. cbv zeta. destruct (t_templates d main) as [ts| | |]; try discriminate. cbn [gbind]. intros EB HF HU. rewrite EB. cbn [gbind]. f_equal.
  destruct (build_contexts (t_find d) ts) as [cs| | |] eqn:EC; try discriminate HF. destruct (get main cs) as [c|] eqn:EG; [|discriminate HF].
  destruct (heritage_new FUEL cs c) as [h| | |] eqn:EH; try discriminate HF. destruct (split_block (outermost x path) (c_nodes (h_root h))) as [[pre post]|] eqn:ES; [|discriminate HF].
  destruct (find_last x path h path (h_root h)) as [last|] eqn:EL; [|discriminate HF].
  destruct (fragment (t_inp (Some x) main) cs (t_find d) x (FUEL - length path) h last) as [t| | |] eqn:EF; try discriminate HF.
  destruct (forallb (beside x path) (pre ++ post)) eqn:E1; [|discriminate HF]. destruct (apart _ _ _ _ _) eqn:E2; [|discriminate HF]. destruct (scoped fields t) eqn:E3; [|discriminate HF].
  destruct (Nat.leb (length path) FUEL) eqn:E4; [|discriminate HF]. injection HF as ->. apply split_block_ok in ES as (w1 & bd & w2 & HN). apply find_last_ok in EL.
  eapply C36_fragment_partial; [exact EB|reflexivity|exact EC|exact EG|exact EH|exact HN|exact E1|exact EL|exact E2| |exact EF|exact E3|apply cworld_ok|exact HU].
  apply PeanoNat.Nat.leb_le in E4. generalize dependent FUEL. intros. lia.
Qed.
Print Assumptions C36_source_partial.

(** The block is inherited from the parent and overridden, calls the definition in the parent and a macro; there are texts,
    expressions and other blocks (with a loop in one) around it in the base template. *)
Definition ex_frag : dir :=
  [(main, lit "{% extends ""mid"" %}{% macro m(p) %}<{{ p }}>{% endmacro %}{% block x -%}  main {{ a }}{% call m(b) %}{% call super() -%}
 {% let c = 3 %}{{ c }}{% if a == b %}no{% else %}yes{% endif %}{% endblock %}{% block y %}{% for i in l %}{{ i }}{% call m(i) %}{% endfor %}{% endblock %}");
   (lit "mid", lit "{% extends ""base"" %}{% block x %}mid{% block in %}[{{ a }}]{% endblock %}{% endblock %}");
   (lit "base", lit "before {{ b }}{# comment #}{% block y %}{% include ""inc"" %}{% endblock %} {% block x %}base{% endblock %} between {% block z %}{{ a }}{% if a == a %}z{% endif %}{% endblock %}{{ a }} after");
   (lit "inc", lit "i {{ a }}")].
Definition ex_frag_self : cv := struct [(lit "a", CS (lit "A&")); (lit "b", CS (lit "B")); (lit "l", CL [CN 1; CN 2])].
Example C36_example : exists tns, t_fragment ex_frag [] (lit "x") [lit "a"; lit "b"; lit "l"] = Some tns /\
  render (cworld ex_frag_self) (t_inp (Some (lit "x")) main) tns = Done (lit "main A&amp;<B>mid[A&amp;]3yes") /\
  t_run ex_frag (Some (lit "x")) main ex_frag_self = GOk (Done (lit "main A&amp;<B>mid[A&amp;]3yes")) /\
  t_run ex_frag None main ex_frag_self = GOk (Done (lit "before B1<1>2<2> main A&amp;<B>mid[A&amp;]3yes between A&amp;zA&amp; after")).
Proof. eexists. split; [vm_compute; reflexivity|]. repeat split; vm_compute; reflexivity. Qed.

(** The block stands in a block that stands in another, which the derived template overrides; with a macro seen only there. *)
Definition ex_nested : dir :=
  [(main, lit "{% extends ""base"" %}{% macro m(p) %}<{{ p }}>{% endmacro %}{% block z %}lost {{ a }}{% block o %}{% for i in l %}{{ i }}{% endfor %}{% endblock %}
{% block y %}lost{% block x %}{{ a }}{% call m(b) %}{% endblock %}{{ b }}{% endblock %}{# #} lost{% endblock %}");
   (lit "base", lit "before {{ b }}{% block z %}base{% endblock %} {% block q %}{% if a == a %}q{% endif %}{% endblock %}{{ a }} after")].
Example C36_nested_example : exists tns, t_fragment ex_nested [lit "z"; lit "y"] (lit "x") [lit "a"; lit "b"; lit "l"] = Some tns /\
  render (cworld ex_frag_self) (t_inp (Some (lit "x")) main) tns = Done (lit "A&amp;<B>") /\
  t_run ex_nested (Some (lit "x")) main ex_frag_self = GOk (Done (lit "A&amp;<B>")).
Proof. eexists. split; [vm_compute; reflexivity|]. split; vm_compute; reflexivity. Qed.

(** What the block shows last is lost, if after it, in the block around it, there is a tag other than an expression or a comment:
    another block, an if, a let and so on. *)
Theorem C36_nested_block_refuted :
  exists self, t_run (one (lit "{% block y %}{% block x %}u{% endblock %}{% block z %}{% endblock %}{% endblock %}")) (Some (lit "x")) main self = GOk (Done []) /\
  t_run (one (lit "{% block y %}{% block x %}u{% endblock %}{% if a == a %}{% endif %}{% endblock %}")) (Some (lit "x")) main self = GOk (Done []) /\
  t_run (one (lit "{% block y %}{% block x %}u{% endblock %}{% let q = 1 %}{% endblock %}")) (Some (lit "x")) main self = GOk (Done []).
Proof. exists ex_frag_self. repeat split; vm_compute; reflexivity. Qed.
Print Assumptions C36_nested_block_refuted.
(** A filter block after the block loses the end of it. *)
Theorem C36_filter_block_refuted :
  exists self, t_run (one (lit "{% block x %}u{% endblock %}{% filter upper %}q{% endfilter %}")) (Some (lit "x")) main self = GOk (Done []) /\
  t_run (one (lit "{% block x %}u{% endblock %}{% filter upper %}q{% endfilter %}")) None main self = GOk (Done (lit "uQ")).
Proof. exists ex_frag_self. split; vm_compute; reflexivity. Qed.
(** The block of that name in an included template is written as well. *)
Theorem C36_included_block_refuted :
  exists self, t_run [(main, lit "{% block x %}u{% endblock %}{% include ""inc"" %}"); (lit "inc", lit "p{% block x %}v{% endblock %}q")] (Some (lit "x")) main self = GOk (Done (lit "uv")).
Proof. exists ex_frag_self. vm_compute; reflexivity. Qed.
