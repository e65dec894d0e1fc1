(** * Whitespace control in whole templates: C26, C52.  Specification in FlatSpec.v. *)
From Verif Require Import Base Ws Config Nom Ast Lex ParseExpr ParseNode ParseSpec ParseTests NodeFacts TplFacts GenExpr Heritage Gen RefSem HeritageSpec HeritageFacts UsedFacts SimScope GenElab Sem Scoped Sim FlatSpec FlatFacts TestWorld.
Local Open Scope N_scope.

Lemma wf_lits : forall n b, wf_node b n -> forall l, In l (lits n) -> lit_ok l.
Proof.
  fix IH 1. intros n.
  destruct n; intros b0 HW l0 Hl; cbn [lits] in Hl; try contradiction Hl.
  - inversion HW; subst. destruct Hl as [<-|[]]. match goal with H : wf_literal _ |- _ => destruct H as (_ & _ & H & _); exact H end.
  - assert (HF : Forall (wf_cond b0) branches) by (inversion HW; subst; assumption). clear HW. induction branches as [|[w' t ns] l' IHl]; [destruct Hl|]. cbn [map concat] in Hl.
    inversion HF as [|? ? H1 H2]; subst. apply in_app_iff in Hl as [Hl|Hl]; [|apply IHl; assumption]. inversion H1 as [? ? ? ? _ H3]; subst. clear - IH Hl H3.
    induction ns as [|x ns IHn]; [destruct Hl|]. inversion H3; subst. cbn [map concat] in Hl. apply in_app_iff in Hl as [Hl|Hl]; [exact (IH _ _ H1 _ Hl)|apply IHn; assumption].
  - assert (HF : Forall (wf_when b0) arms) by (inversion HW; subst; assumption). clear HW. induction arms as [|[w' t ns] l' IHl]; [destruct Hl|]. cbn [map concat] in Hl.
    inversion HF as [|? ? H1 H2]; subst. apply in_app_iff in Hl as [Hl|Hl]; [|apply IHl; assumption]. inversion H1 as [? ? ? ? _ H3]; subst. clear - IH Hl H3.
    induction ns as [|x ns IHn]; [destruct Hl|]. inversion H3; subst. cbn [map concat] in Hl. apply in_app_iff in Hl as [Hl|Hl]; [exact (IH _ _ H1 _ Hl)|apply IHn; assumption].
  - assert (HF : Forall (wf_node true) body /\ Forall (wf_node b0) else_nodes) by (inversion HW; subst; split; assumption). clear HW. destruct HF as [H3 H4]. apply in_app_iff in Hl as [Hl|Hl].
    + clear H4. induction body as [|x ns IHn]; [destruct Hl|]. inversion H3; subst. cbn [map concat] in Hl. apply in_app_iff in Hl as [Hl|Hl]; [exact (IH _ _ H1 _ Hl)|apply IHn; assumption].
    + clear H3. induction else_nodes as [|x ns IHn]; [destruct Hl|]. inversion H4; subst. cbn [map concat] in Hl. apply in_app_iff in Hl as [Hl|Hl]; [exact (IH _ _ H1 _ Hl)|apply IHn; assumption].
  - assert (H3 : Forall (wf_node b0) nodes) by (inversion HW; subst; assumption). clear HW.
    induction nodes as [|x ns IHn]; [destruct Hl|]. inversion H3; subst. cbn [map concat] in Hl. apply in_app_iff in Hl as [Hl|Hl]; [exact (IH _ _ H1 _ Hl)|apply IHn; assumption].
  - assert (H3 : Forall (wf_node b0) nodes) by (inversion HW; subst; assumption). clear HW.
    induction nodes as [|x ns IHn]; [destruct Hl|]. inversion H3; subst. cbn [map concat] in Hl. apply in_app_iff in Hl as [Hl|Hl]; [exact (IH _ _ H1 _ Hl)|apply IHn; assumption].
  - inversion HW; subst. destruct Hl as [<-|[]]. match goal with H : wf_literal _ |- _ => destruct H as (_ & _ & H & _); exact H end.
  - assert (H3 : Forall (wf_node b0) nodes) by (inversion HW; subst; assumption). clear HW.
    induction nodes as [|x ns IHn]; [destruct Hl|]. inversion H3; subst. cbn [map concat] in Hl. apply in_app_iff in Hl as [Hl|Hl]; [exact (IH _ _ H1 _ Hl)|apply IHn; assumption].
Qed.
(** The templates are what the parser made of some sources. *)
Definition parsed (templates : list (str * list node)) : Prop :=
  forall p ns, In (p, ns) templates -> exists lc dbg sy src, tags_nonempty sy /\ from_str lc dbg sy src = Some (inl ns).
Lemma parsed_good templates : parsed templates -> forall p ns, In (p, ns) templates -> lits_good ns.
Proof.
  intros H p ns Hin. destruct (H p ns Hin) as (lc & dbg & sy & src & Hsy & E). pose proof (from_str_wf lc dbg sy Hsy src ns E) as W.
  intros l Hl. apply in_concat in Hl as (x & Hx & Hl). apply in_map_iff in Hx as (n & <- & Hn). rewrite Forall_forall in W. exact (wf_lits _ _ (W n Hn) _ Hl).
Qed.

(** C26.  For every set of templates: the text in the template put together (what is rendered besides expressions, see C29) is
    that of every piece on its own between the two tags around it, wherever they stand: in branches, loops, macros, blocks or
    included files. *)
Theorem C26_whole_template inp find fuel templates contexts ctx tns :
  parsed templates -> build_contexts find templates = GOk contexts -> get (f_path inp) contexts = Some ctx ->
  assemble inp find fuel templates = GOk tns ->
  exists her its, chain_of fuel contexts ctx her /\ flat inp contexts find her (base_of her ctx) None (c_nodes (base_of her ctx)) its /\
    texts_in tns = page (f_ws inp) None its.
Proof. intros HP. apply assemble_flat, parsed_good, HP. Qed.
Print Assumptions C26_whole_template.

(** C52.  A call in the template: before it, the text is as before a tag with the left marker of the call; then comes the text
    of the macro between its own two tags; then the text as after a tag with the right marker of the call. *)
Theorem C52_macro_call inp find fuel templates contexts ctx tns her l1 w scope name args l2 :
  parsed templates -> build_contexts find templates = GOk contexts -> get (f_path inp) contexts = Some ctx ->
  assemble inp find fuel templates = GOk tns -> chain_of fuel contexts ctx her ->
  c_nodes (base_of her ctx) = l1 ++ NCall w scope name args :: l2 -> name <> lit "super" ->
  let trim := hd_or (f_ws inp) in
  let base := base_of her ctx in
  exists def c a m b, macro_found contexts base name scope def c /\
    flat inp contexts find her base None l1 a /\ flat inp contexts find her c None (k_nodes def) m /\ flat inp contexts find her base None l2 b /\
    texts_in tns = page (f_ws inp) None (a ++ [XTag w]) ++
                   page (f_ws inp) (Some (trim (ws_r (k_ws1 def)))) (m ++ [XTag (k_ws2 def)]) ++
                   page (f_ws inp) (Some (trim (ws_r w))) b.
Proof.
  intros HP HB HG HA HC HN Hs trim base. destruct (C26_whole_template _ _ _ _ _ _ _ HP HB HG HA) as (her' & its & HC' & F & T).
  assert (her' = her) as ->.
  { destruct HC as [? ?|h D E], HC' as [? ?|h' D' E']; try reflexivity; try (destruct D; congruence); try (destruct D'; congruence). }
  rewrite HN in F. apply flat_app in F as (a & b0 & -> & F1 & F2). inversion F2 as [|? ? ? ? ? n0 b F3 F4]; subst.
  inversion F3; subst; try discriminate; try congruence. eexists _, _, a, _, b. split; [eassumption|]. split; [exact F1|]. split; [eassumption|]. split; [exact F4|].
  rewrite T. cbn [app]. rewrite page_split. cbn [ws_r]. f_equal; [apply page_left; reflexivity|]. rewrite <- app_assoc. cbn [app]. rewrite page_split. cbn [ws_r]. f_equal. apply page_left. reflexivity.
Qed.
Print Assumptions C52_macro_call.

(** A template without expressions or choices, put together: text, blocks, included files and calls of macros without
    parameters. *)
Fixpoint fixed (n : tnode) : bool :=
  match n with
  | TText _ => true
  | TBlock b | TInclude b | TMacro [] b => forallb fixed b
  | _ => false
  end.
Lemma fixed_scoped : forall n, fixed n = true -> top_names n = [] /\ forall A P F G, scoped_node A P F G n = Some G.
Proof.
  assert (L : forall l, Forall (fun n => fixed n = true -> top_names n = [] /\ forall A P F G, scoped_node A P F G n = Some G) l -> forallb fixed l = true ->
              (fix many (l : list tnode) : list str := match l with [] => [] | n :: l' => top_names n ++ many l' end) l = [] /\
              tops l = [] /\ forall A P F G, closed (scoped_node A P F) G l = true).
  { induction l as [|n l IH]; intros HF H; [repeat split|]. inversion HF as [|? ? H1 H2]; subst. cbn [forallb] in H. apply andb_prop in H as [Hn Hl].
    destruct (H1 Hn) as [T S]. destruct (IH H2 Hl) as (M & T' & S'). split; [rewrite T; exact M|]. split; [unfold tops in *; cbn [map concat]; rewrite T; exact T'|].
    intros A P F G. specialize (S' A P F G). unfold closed in *. cbn [scoped_list]. rewrite S. exact S'. }
  induction n using tnode_ind'; intros E; try discriminate E; cbn [fixed] in E; [split; reflexivity|..].
  - destruct (L _ H E) as (M & T & S). split; [exact M|]. intros A P F G. cbn [scoped_node]. rewrite S, T. reflexivity.
  - destruct (L _ H E) as (M & T & S). split; [exact M|]. intros A P F G. cbn [scoped_node]. rewrite S, T. reflexivity.
  - match goal with E : (match ?l with [] => _ | _ => _ end) = true |- _ => destruct l; [|discriminate E] end. destruct (L _ H E) as (M & T & S). split; [reflexivity|].
    intros A P F G. cbn [scoped_node]. rewrite S. reflexivity.
Qed.
Lemma fixed_list_scoped F G A P l : forallb fixed l = true -> closed (scoped_node A P F) G l = true.
Proof.
  unfold closed. induction l as [|n l IH]; intros H; [reflexivity|]. cbn [forallb] in H. apply andb_prop in H as [Hn Hl]. cbn [scoped_list].
  rewrite (proj2 (fixed_scoped n Hn)). apply IH, Hl.
Qed.
Lemma mean_list_cons w f n l en st : mean_list w f (n :: l) en st =
  let^ (o, en, st, fl) := f n en st in
  match fl with Next => let^ (o', en, st, fl) := mean_list w f l en st in Done (tapp o o', en, st, fl) | _ => Done (o, en, st, fl) end.
Proof. reflexivity. Qed.
Lemma fixed_mean w inp : forall n, fixed n = true -> forall lp en st, mean w inp lp n en st = Done (Some (all_text n), en, st, Next).
Proof.
  assert (L : forall l, Forall (fun n => fixed n = true -> forall lp en st, mean w inp lp n en st = Done (Some (all_text n), en, st, Next)) l -> forallb fixed l = true ->
              forall lp en st, mean_list w (mean w inp lp) l en st = Done (Some (texts_in l), en, st, Next)).
  { induction l as [|n l IH]; intros HF H lp en st; [reflexivity|]. inversion HF as [|? ? H1 H2]; subst. cbn [forallb] in H. apply andb_prop in H as [Hn Hl].
    rewrite mean_list_cons, (H1 Hn). cbn [obnd]. rewrite (IH H2 Hl). reflexivity. }
  induction n using tnode_ind'; intros E lp en st; try discriminate E; cbn [fixed] in E; [reflexivity|..].
  - cbn [mean]. unfold mean_scope. rewrite (L _ H E). reflexivity.
  - cbn [mean]. unfold mean_scope. rewrite (L _ H E). reflexivity.
  - match goal with E : (match ?l with [] => _ | _ => _ end) = true |- _ => destruct l; [|discriminate E] end. cbn [mean out_map obnd map combine]. unfold mean_scope. rewrite (L _ H E). reflexivity.
Qed.
Lemma fixed_render w inp l : forallb fixed l = true -> render w inp l = Done (texts_in l).
Proof.
  intros H. unfold render. assert (M : forall en st, mean_list w (mean w inp None) l en st = Done (Some (texts_in l), en, st, Next)).
  { induction l as [|n l IH]; intros en st; [reflexivity|]. cbn [forallb] in H. apply andb_prop in H as [Hn Hl].
    rewrite mean_list_cons,  (fixed_mean _ _ _ Hn). cbn [obnd]. rewrite (IH Hl). reflexivity. }
  rewrite M. reflexivity.
Qed.

(** C26.  What the generated code of such a template writes. *)
Theorem C26_written inp find fuel templates contexts ctx tns code z w :
  parsed templates -> build_contexts find templates = GOk contexts -> get (f_path inp) contexts = Some ctx ->
  assemble inp find fuel templates = GOk tns -> forallb fixed tns = true ->
  build_template inp find fuel templates = GOk (code, z) -> f_block inp = None -> world_ok w ->
  exists her its, chain_of fuel contexts ctx her /\ flat inp contexts find her (base_of her ctx) None (c_nodes (base_of her ctx)) its /\
    run w code = Done (page (f_ws inp) None its).
Proof.
  intros HP HB HG HA HF HC HN HW. destruct (C26_whole_template _ _ _ _ _ _ _ HP HB HG HA) as (her & its & H1 & H2 & T). exists her, its. split; [exact H1|]. split; [exact H2|].
  rewrite <- T, <- (fixed_render w inp tns HF). refine (build_ok _ _ _ _ _ _ _ [] _ HC HN HA _ HW _).
  - unfold scoped. cbn [forallb]. exact (fixed_list_scoped [] [] [] [] tns HF).
  - rewrite (fixed_render w inp tns HF). discriminate.
Qed.
Print Assumptions C26_written.

(** The templates of an example are parsed from its files. *)
Lemma t_parsed d ts : t_templates d main = GOk ts -> parsed ts.
Proof.
  unfold t_templates. intros H. apply gbind_inv in H as (src & Hs & H). apply of_res_inv in Hs.
  assert (HL : forall s, t_load d main = Ok s -> s = src) by (intros s E; congruence).
  destruct (find_used_spec _ _ _ _ _ HL _ _ H) as (ND & C & _). intros p ns Hin. apply (in_get p ns _ ND) in Hin. destruct (C p ns Hin) as (s & _ & P).
  exists t_lower, t_debug, default_syntax, s. split; [repeat split; intro K; vm_compute in K; discriminate K|]. unfold t_parse, test, test_sy in P.
  destruct (from_str t_lower t_debug default_syntax s) as [[x|e]|]; try discriminate P. injection P as ->. reflexivity.
Qed.
Definition all_fixed (d : dir) : bool :=
  match t_code d None main, t_mean d main with GOk _, GOk tns => forallb fixed tns | _, _ => false end.
(** A page with a parent, a macro, an included file and markers on every side. *)
Definition ex_page : dir :=
  [(main, lit "{% extends ""base"" %}{% macro m() -%}  M  {%~ endmacro +%}
{%+ block body -%}  a  {%- include ""inc"" ~%}

 b {%- call m() -%}  c {% call super() -%} {# x -#} d {%- endblock ~%} e");
   (lit "base", lit " [ {% block body ~%}  default
 {%- endblock -%} ] ");
   (lit "inc", lit "  i  ")].
Example C26_page : all_fixed ex_page = true /\ t_run ex_page None main (struct []) = GOk (Done (lit " [ a  i  
bM c  defaultd] ")) := ltac:(split; vm_compute; reflexivity).

(** A call between two pieces of text, with markers of its own and in the macro. *)
Definition ex_call : dir := one (lit "{% macro m() -%}  M  {%- endmacro %} a {%~ call m() +%}  b").
Example C52_example : all_fixed ex_call = true /\ t_run ex_call None main (struct []) = GOk (Done (lit " a M  b")) :=
  ltac:(split; vm_compute; reflexivity).
Definition ex_call_plus : dir := one (lit "{% macro m() +%}  M  {%~ endmacro %} a {%- call m() ~%}  b").
Example C52_example_plus : all_fixed ex_call_plus = true /\ t_run ex_call_plus None main (struct []) = GOk (Done (lit " a  M  b")) :=
  ltac:(split; vm_compute; reflexivity).
