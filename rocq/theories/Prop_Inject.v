(** * C68: no value can put markup into the output.
    [all_plain], [template_text], [made], [shielded], [all_writes], [markup_char], [html_in]: InjectSpec.v. *)
From Coq Require Import ZArith.
From Verif Require Import Base Utf8 Ws Ast GenExpr Heritage Gen Sem Escape EscapeFacts TreeSpec InjectSpec TestWorld.
From Verif Require GroupGen StmtGen InjectGen.
From Coq Require Import Lia.
Local Open Scope N_scope.

(** ** Templates *)
Lemma plain_child b n b' m : child b n b' m -> plain n = true -> plain m = true.
Proof.
  intros C H. destruct C; cbn [plain] in H; rewrite ?andb_true_iff, ?forallb_forall in H.
  - specialize (H _ H0). cbn in H. rewrite forallb_forall in H. auto.
  - specialize (H _ H0). cbn in H. rewrite forallb_forall in H. auto.
  - exact (proj1 H _ H0).
  - exact (proj2 H _ H0).
  - exact (H _ H0).
  - exact (H _ H0).
  - exact (proj2 H _ H0).
Qed.
Lemma plain_inside b n b' m : inside b n b' m -> plain n = true -> plain m = true.
Proof. induction 1 as [|b n b1 m b2 k C _ IH]; intros H; [exact H|]. apply IH. eapply plain_child; eassumption. Qed.
Lemma templates_good templates : all_plain templates = true -> forall p ns, In (p, ns) templates -> Forall (InjectGen.good (template_text templates)) ns.
Proof.
  intros H p ns HI. unfold all_plain in H. rewrite forallb_forall in H. specialize (H _ HI). cbn [snd] in H. rewrite forallb_forall in H.
  apply Forall_forall. intros n Hn b b' m HM. pose proof (plain_inside _ _ _ _ HM (H _ Hn)) as PM.
  destruct (GroupGen.inside_any _ _ _ _ HM false) as [b1 HM']. assert (O : occurs ns b1 m) by (exists n; auto).
  assert (X : forall t, text_of m t -> template_text templates t) by (intros t Ht; right; right; exists p, ns, b1, m; auto).
  destruct m; cbn [InjectGen.own]; try exact I.
  - split; [|split]; apply X; cbn [text_of]; auto.
  - cbn [plain] in PM. apply negb_true_iff in PM. exact PM.
  - split; [|split]; apply X; cbn [text_of]; auto.
  - cbn [plain] in PM. apply andb_prop in PM as [PM _]. apply negb_true_iff in PM. exact PM.
Qed.

(** ** The code *)
(** Every write of the generated code is text of the templates, or a format string all of whose arguments go through the escaper
    of the template. *)
Theorem C68_writes : forall inp find fuel templates code z,
  all_plain templates = true -> build_template inp find fuel templates = GOk (code, z) ->
  Forall (fun s => match s with
                   | SWriteStr t => exists l, t = concat l /\ Forall (template_text templates) l
                   | SWriteFmt _ args => Forall (fun a => shielded (f_escaper inp) (snd a)) args
                   | _ => False
                   end) (all_writes code).
Proof.
  intros inp find fuel templates code z HP E.
  pose proof (InjectGen.build_writes (template_text templates) (or_introl eq_refl) (or_intror (or_introl eq_refl)) _ inp find fuel templates code z eq_refl (templates_good _ HP) E) as K.
  unfold InjectGen.cok in K. rewrite Forall_forall in K. apply Forall_forall. intros s Hs. specialize (K _ Hs).
  assert (W : match s with SWriteStr _ | SWriteFmt _ _ => True | _ => False end).
  { clear - Hs. revert Hs. assert (A : forall s0, Forall (fun s => match s with SWriteStr _ | SWriteFmt _ _ => True | _ => False end) (writes s0)).
    { assert (M : forall l, Forall (fun s0 => Forall (fun s => match s with SWriteStr _ | SWriteFmt _ _ => True | _ => False end) (writes s0)) l ->
                    Forall (fun s => match s with SWriteStr _ | SWriteFmt _ _ => True | _ => False end) (all_writes l)).
      { induction 1; cbn [all_writes]; [constructor|]. apply Forall_app. auto. }
      apply StmtGen.stmt_all.
      - intros []; try exact I; repeat constructor.
      - intros l H. cbn [writes]. induction H as [|[t b] l H _ IH]; cbn [map concat]; [constructor|]. apply Forall_app. split; [apply M, H|exact IH].
      - intros e l H. cbn [writes]. induction H as [|[t b] l H _ IH]; cbn [map concat]; [constructor|]. apply Forall_app. split; [apply M, H|exact IH].
      - intros h it k f v b e t H1 H2 H3. cbn [writes]. apply Forall_app. split; [apply M, H1|]. apply Forall_app. split; apply M; assumption.
      - intros l H. apply M, H. }
    induction code as [|s0 code IH]; intros Hs; [destruct Hs|]. cbn [all_writes] in Hs. apply in_app_iff in Hs as [Hs|Hs]; [|apply IH, Hs].
    specialize (A s0). rewrite Forall_forall in A. apply A, Hs. }
  destruct s; try contradiction; [exact K|apply K].
Qed.
Print Assumptions C68_writes.

(** ** The output *)
(** In every world: the output is made of texts of the templates and of escaped values, whatever the values are and whatever the
    filters, functions and the user's code do. *)
Theorem C68_output : forall w inp find fuel templates code z s, world_ok w ->
  all_plain templates = true -> build_template inp find fuel templates = GOk (code, z) -> run w code = Done s ->
  made (template_text templates) (fun d => exists v, d = w_escape w (f_escaper inp) v) s.
Proof.
  intros w inp find fuel templates code z s W HP E R.
  pose proof (InjectGen.build_writes (template_text templates) (or_introl eq_refl) (or_intror (or_introl eq_refl)) _ inp find fuel templates code z eq_refl (templates_good _ HP) E) as K.
  exact (InjectGen.run_made _ _ w W code s K R).
Qed.
Print Assumptions C68_output.
(** For any set of characters the escaper never writes: those in the output come from texts of the templates, and they are all of
    these texts' characters, in order. *)
Lemma made_filter (T E : str -> Prop) (active : N -> bool) s : made T E s -> (forall d, E d -> Forall (fun c => active c = false) d) ->
  exists ts, Forall T ts /\ List.filter active s = concat (map (List.filter active) ts).
Proof.
  intros H HE. induction H as [|t s HT _ (ts & F & IH)|d s HD _ (ts & F & IH)].
  - exists []. split; [constructor|reflexivity].
  - exists (t :: ts). split; [constructor; assumption|]. rewrite filter_app, IH. reflexivity.
  - exists ts. split; [exact F|]. rewrite filter_app, IH. specialize (HE _ HD).
    replace (List.filter active d) with (@nil N); [reflexivity|]. clear - HE. induction HE as [|c d H _ IH]; [reflexivity|]. cbn [List.filter]. rewrite H. exact IH.
Qed.
Theorem C68_active : forall w inp find fuel templates code z s (active : N -> bool), world_ok w ->
  (forall v, Forall (fun c => active c = false) (w_escape w (f_escaper inp) v)) ->
  all_plain templates = true -> build_template inp find fuel templates = GOk (code, z) -> run w code = Done s ->
  exists ts, Forall (template_text templates) ts /\ List.filter active s = concat (map (List.filter active) ts).
Proof.
  intros w inp find fuel templates code z s active W HA HP E R. eapply made_filter; [eapply C68_output; eassumption|]. intros d [v ->]. apply HA.
Qed.
Print Assumptions C68_active.

(** ** HTML *)
(** What the HTML escaper writes, on any bytes at all. *)
Lemma slice_is s a b t : slice s a b = Some t -> t = firstn (b - a) (skipn a s).
Proof. unfold slice. intros H. repeat match type of H with (if ?x then _ else _) = _ => destruct x; try discriminate H end. injection H as <-. reflexivity. Qed.
Lemma firstn_here (a b : str) : firstn (length a) (a ++ b) = a.
Proof. rewrite firstn_app, Nat.sub_diag, firstn_all. apply app_nil_r. Qed.
Lemma skipn_here (a b : str) : skipn (length a) (a ++ b) = b.
Proof. rewrite skipn_app, Nat.sub_diag, skipn_all. reflexivity. Qed.
Lemma html_loop_any : forall rest written pend ps, Forall (fun c => special c = false) pend ->
  html_loop (written ++ pend ++ rest) rest (length written + length pend) (length written) = Some ps -> concat ps = pend ++ flat_map html_entity rest.
Proof.
  induction rest as [|c rest IH]; intros written pend ps HP E; cbn [html_loop] in E.
  - destruct (slice _ _ _) as [t|] eqn:S; [|discriminate E]. injection E as <-. apply slice_is in S. rewrite app_nil_r in S. rewrite skipn_here, app_length in S.
    replace (length written + length pend - length written)%nat with (length pend) in S by lia. rewrite firstn_all in S. subst t. reflexivity.
  - rewrite lookup_spec in E. cbn [obind] in E. destruct (special c) eqn:SC.
    + unfold special in SC. rewrite SC in E. destruct (slice _ _ _) as [t|] eqn:S; [|discriminate E]. cbn [obind] in E. apply slice_is in S.
      rewrite skipn_here in S. replace (length written + length pend - length written)%nat with (length pend) in S by lia. rewrite firstn_here in S. subst t.
      destruct (html_loop _ rest _ _) as [r|] eqn:R; [|discriminate E]. injection E as <-.
      specialize (IH (written ++ pend ++ [c]) [] r (Forall_nil _)). cbn [app length] in IH. rewrite !app_length in IH. cbn [length] in IH.
      replace (length written + (length pend + 1) + 0)%nat with (S (length written + length pend)) in IH by lia.
      replace (length written + (length pend + 1))%nat with (length written + length pend + 1)%nat in IH by lia.
      rewrite <- !app_assoc in IH. cbn [app] in IH. specialize (IH R). cbn [concat flat_map]. rewrite IH. reflexivity.
    + assert (SC' := SC). unfold special in SC'. rewrite SC' in E.
      specialize (IH written (pend ++ [c]) ps). rewrite app_length in IH. cbn [length] in IH.
      replace (length written + (length pend + 1))%nat with (S (length written + length pend)) in IH by lia.
      rewrite <- !app_assoc in IH. cbn [app] in IH. cbn [flat_map]. rewrite html_entity_plain by exact SC.
      apply IH; [|exact E]. apply Forall_app. split; [exact HP|repeat constructor; exact SC].
Qed.
Lemma html_any s ps : html_write_escaped s = Some ps -> concat ps = flat_map html_entity s.
Proof. intros E. exact (html_loop_any s [] [] ps (Forall_nil _) E). Qed.
Lemma html_clean w esc : html_in w esc -> forall v, Forall (fun c => markup_char c = false) (w_escape w esc v).
Proof.
  intros H v. rewrite H. destruct (html_write_escaped v) as [ps|] eqn:E; [|constructor]. rewrite (html_any _ _ E). apply Forall_forall. intros c Hc.
  apply in_flat_map in Hc as (b & _ & Hc). apply entity_no_lt in Hc as (A1 & A2 & A3 & A4). unfold markup_char.
  apply N.eqb_neq in A1, A2, A3, A4. rewrite A1, A2, A3, A4. reflexivity.
Qed.
(** With the HTML escaper: the [<], [>] and quotes of the output are those of the texts of the templates. *)
Theorem C68_markup : forall w inp find fuel templates code z s, world_ok w -> html_in w (f_escaper inp) ->
  all_plain templates = true -> build_template inp find fuel templates = GOk (code, z) -> run w code = Done s ->
  exists ts, Forall (template_text templates) ts /\ List.filter markup_char s = concat (map (List.filter markup_char) ts).
Proof. intros w inp find fuel templates code z s W HH HP E R. eapply C68_active; [exact W|apply html_clean, HH|exact HP|exact E|exact R]. Qed.
Print Assumptions C68_markup.
(** A template without markup of its own shows none. *)
Theorem C68_no_markup : forall w inp find fuel templates code z s, world_ok w -> html_in w (f_escaper inp) -> all_plain templates = true ->
  (forall t, template_text templates t -> Forall (fun c => markup_char c = false) t) ->
  build_template inp find fuel templates = GOk (code, z) -> run w code = Done s -> Forall (fun c => markup_char c = false) s.
Proof.
  intros w inp find fuel templates code z s W HH HP HT E R. destruct (C68_markup _ _ _ _ _ _ _ _ W HH HP E R) as (ts & F & K).
  assert (Z : concat (map (List.filter markup_char) ts) = []).
  { clear K. induction F as [|t ts Ht _ IH]; [reflexivity|]. cbn [map concat]. rewrite IH, app_nil_r. specialize (HT _ Ht). clear - HT.
    induction HT as [|c t H _ IH]; [reflexivity|]. cbn [List.filter]. rewrite H. exact IH. }
  rewrite Z in K. clear - K. apply Forall_forall. intros c Hc. destruct (markup_char c) eqn:M; [|reflexivity].
  assert (X : In c (List.filter markup_char s)) by (apply filter_In; auto). rewrite K in X. destruct X.
Qed.
Print Assumptions C68_no_markup.

(** ** Examples *)
Lemma cworld_html self : html_in (cworld self) (f_escaper (t_inp None main)).
Proof. intros s. reflexivity. Qed.
Definition ex_self : cv := struct [(lit "a", CS (lit "<b>")); (lit "xs", CL [CS (lit "<i>"); CS (lit "'")])].
(** A base template, a macro from an imported file, a loop, variables and an argument that were marked safe, a filter block. *)
Definition ex_dir : dir :=
  [(main, lit "{% extends ""base.html"" %}{% import ""m.html"" as m %}{% block b %}{% for x in xs %}<li>{% let y = x|safe %}{{ y }}</li>{% endfor %}{% call m::f(a|safe) %}{% filter upper %}<{{ a }}>{% endfilter %}{% endblock %}");
   (lit "base.html", lit "<ul>{% block b %}{% endblock %}</ul>");
   (lit "m.html", lit "{% macro f(v) %}<em>{{ v }}{{ v|escape }}</em>{% endmacro %}")].
Definition plain_all (d : dir) : bool := match t_templates d main with GOk ts => all_plain ts | _ => false end.
Example C68_example : plain_all ex_dir = true /\ t_run ex_dir None main ex_self =
  GOk (Done (lit "<ul><li>&lt;i&gt;</li><li>&#x27;</li><em>&lt;b&gt;&lt;b&gt;</em>&lt;&amp;LT;B&amp;GT;&gt;</ul>")).
Proof. split; vm_compute; reflexivity. Qed.
(** The hypothesis is needed: a shown [safe], or [escape] with another escaper, lets markup through. *)
Example C68_safe_shown : plain_all (one (lit "{{ a|safe }}")) = false /\ t_run (one (lit "{{ a|safe }}")) None main ex_self = GOk (Done (lit "<b>")) /\
  plain_all (one (lit "{{ a|escape(""none"") }}")) = false /\ t_run (one (lit "{{ a|escape(""none"") }}")) None main ex_self = GOk (Done (lit "<b>")) /\
  plain_all (one (lit "{% filter safe %}{{ a }}<{% endfilter %}")) = false /\ t_run (one (lit "{% filter safe %}{{ a }}<{% endfilter %}")) None main ex_self = GOk (Done (lit "&lt;b&gt;<")).
Proof. repeat split; vm_compute; reflexivity. Qed.
(** The hypotheses of [C68_no_markup] are met by a template whose texts have no markup. *)
Definition ex_words : list (str * list node) :=
  [(main, [NLit {| lws := []; lval := lit "Hi"; rws := lit " " |}; NExpr no_ws (Var (lit "a")); NLit {| lws := []; lval := lit "!"; rws := [] |}])].
Lemma ex_words_texts : forall t, template_text ex_words t -> Forall (fun c => markup_char c = false) t.
Proof.
  intros t [->|[->|(p & ns & b & m & HI & (n & Hn & HM) & Ht)]]; [repeat constructor|repeat constructor|].
  destruct HI as [[= <- <-]|[]]. destruct Hn as [<-|[<-|[<-|[]]]]; (inversion HM as [|? ? ? ? ? ? C]; subst; [|inversion C]); cbn in Ht; try contradiction;
    destruct Ht as [->|[->| ->]]; repeat constructor.
Qed.
Example C68_words : t_templates (one (lit "Hi {{ a }}!")) main = GOk ex_words /\ all_plain ex_words = true /\
  (forall t, template_text ex_words t -> Forall (fun c => markup_char c = false) t) /\
  t_run (one (lit "Hi {{ a }}!")) None main ex_self = GOk (Done (lit "Hi &lt;b&gt;!")).
Proof. split; [vm_compute; reflexivity|]. split; [vm_compute; reflexivity|]. split; [exact ex_words_texts|vm_compute; reflexivity]. Qed.
