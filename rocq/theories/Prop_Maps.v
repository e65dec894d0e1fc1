(** * C67: the output of the macro does not depend on the order of hash maps.  The orders are in Order.v. *)
From Verif Require Import Base Ws Config Nom Ast GenExpr Heritage Gen HeritageSpec HeritageFacts RexprFacts GenText Derive Order OrderFacts TestWorld Prop_Derive.
From Coq Require Import Permutation Lia.
Local Open Scope N_scope.

(** C67, the code.  Whatever the order in which the templates are gone through, and the orders in which the contexts and the blocks,
    macros and imports in them are: if one of them leads to code, all lead to the same statements and the same size hint. *)
Theorem C67_code inp find fuel templates ts x : reordered templates ts -> build_template inp find fuel templates = GOk x ->
  exists made, build_contexts find ts = GOk made /\ forall cs, same_contexts made cs -> build_from inp find fuel cs = GOk x.
Proof.
  intros R E. change (build_template inp find fuel templates) with (gbind (build_contexts find templates) (build_from inp find fuel)) in E.
  apply gbind_inv in E as (cs0 & E0 & E). destruct (made_same find _ _ _ R E0) as (made & E1 & S & _). exists made. split; [exact E1|].
  intros cs HS. rewrite <- (same_contexts_eq _ _ _ _ _ HS). rewrite <- (same_contexts_eq _ _ _ _ _ S). exact E.
Qed.
Print Assumptions C67_code.

(** The line of the generated code for a file it was made from *)
Definition file_lines (plain : N -> bool) (fs : list str) : str := concat (map (fun f => lit "include_bytes ! (" ++ debug_str plain f ++ lit ") ;" ++ NL) fs).
Lemma text_cut w d a i ps code size : exists before after,
  source_text (o_plain w) (frame_of w d a i ps) code size = before ++ file_lines (o_plain w) ps ++ after /\
  forall qs, source_text (o_plain w) (frame_of w d a i qs) code size = before ++ file_lines (o_plain w) qs ++ after.
Proof.
  assert (E : forall ps, code_text (o_plain w) (map SIncludeBytes ps) = file_lines (o_plain w) ps) by (intros l; unfold code_text; rewrite map_map; reflexivity).
  unfold source_text, impl_template_text. cbn [fr_files frame_of].
  exists (header_text (frame_of w d a i ps) (CRATE ++ lit "::Template") ++ lit "fn render_into(&self, writer: &mut (impl ::std::fmt::Write + ?Sized)) -> " ++ CRATE ++ lit "::Result<()> {" ++ NL).
  eexists. split; [|intros qs]; rewrite E; repeat rewrite <- app_assoc; reflexivity.
Qed.
(** C67, the text.  Full statement: two runs of the macro on the same files give the same text.  That is false (below).  Proved: if
    both succeed, the texts differ at most in the order of the lines that name the files. *)
Theorem C67_text_partial w files depth d s s' : may_build w files depth d s -> may_build w files depth d s' ->
  exists before fs fs' after, Permutation fs fs' /\ s = before ++ file_lines (o_plain w) fs ++ after /\ s' = before ++ file_lines (o_plain w) fs' ++ after.
Proof.
  intros (a & toml & cfg & i & src & ts & ts1 & made & cs & ps & code & size & A1 & A2 & A3 & A4 & A5 & A6 & R & M & SC & CP & BF & ->)
         (a' & toml' & cfg' & i' & src' & ts' & ts1' & made' & cs' & ps' & code' & size' & A1' & A2' & A3' & A4' & A5' & A6' & R' & M' & SC' & CP' & BF' & ->).
  assert (a' = a) by congruence. subst a'. assert (toml' = toml) by congruence. subst toml'. assert (cfg' = cfg) by congruence. subst cfg'. assert (i' = i) by congruence. subst i'.
  assert (src' = src) by congruence. subst src'. assert (ts' = ts) by congruence. subst ts'. clear A1' A2' A3' A4' A5' A6'.
  assert (RR : reordered ts1 ts1') by (split; [apply (reordered_nodup _ _ R)|]; eapply Permutation_trans; [apply Permutation_sym, R|apply R']).
  destruct (made_same _ _ _ _ RR M) as (m & Em & S1 & _). rewrite M' in Em. injection Em as <-.
  rewrite <- (same_contexts_eq _ _ _ _ _ SC) in BF. rewrite <- (same_contexts_eq _ _ _ _ _ SC') in BF'. rewrite <- (same_contexts_eq _ _ _ _ _ S1) in BF'. rewrite BF in BF'. injection BF' as <- <-.
  assert (P : Permutation (map fst cs) (map fst cs')).
  { eapply Permutation_trans; [apply Permutation_sym, same_keys, SC|]. eapply Permutation_trans; [apply same_keys, S1|apply same_keys, SC']. }
  destruct (paths_permuted _ _ _ _ _ P _ CP) as (q & Q & PQ). rewrite CP' in Q. injection Q as <-.
  destruct (text_cut w d a i ps code size) as (before & after & T0 & T). exists before, ps, ps', after. split; [exact PQ|]. split; [exact T0|apply T].
Qed.
Print Assumptions C67_text_partial.
(** Whether the macro succeeds does not depend on the orders: if it may, it does in the order of Derive.v; and what it returns in that
    order is among what it may return. *)
Theorem C67_success w files depth d : (forall s, build_source w files depth d = GOk s -> may_build w files depth d s) /\
  forall s, may_build w files depth d s -> exists s', build_source w files depth d = GOk s'.
Proof.
  split.
  - unfold build_source. intros s H. apply gbind_inv in H as (a & Ha & H). apply of_res_inv in Ha. apply gbind_inv in H as (toml & Ht & H). apply of_res_inv in Ht.
    apply gbind_inv in H as (cfg & Hc & H). apply of_res_inv in Hc. apply gbind_inv in H as (i & Hi & H). apply of_res_inv in Hi.
    apply gbind_inv in H as (src & Hs & H). apply of_res_inv in Hs. apply gbind_inv in H as (ts & Hts & H). apply gbind_inv in H as (ps & Hps & H). apply of_res_inv in Hps.
    apply gbind_inv in H as ([code size] & Hb & H). injection H as <-.
    match type of Hb with build_template ?inp ?find ?fuel ?ts = _ => change (gbind (build_contexts find ts) (build_from inp find fuel) = GOk (code, size)) in Hb end.
    apply gbind_inv in Hb as (made & M & Hb). assert (R : reordered ts ts) by (split; [eapply used_listed, Hts|apply Permutation_refl]).
    destruct (made_same _ _ _ _ R M) as (m & Em & S1 & _). rewrite M in Em. injection Em as <-.
    exists a, toml, cfg, i, src, ts, ts, made, made, ps, code, size. repeat (split; [first [assumption | rewrite (contexts_keys _ _ _ M); assumption]|]). reflexivity.
  - intros s (a & toml & cfg & i & src & ts & ts1 & made & cs & ps & code & size & A1 & A2 & A3 & A4 & A5 & A6 & R & M & SC & CP & BF & ->).
    assert (RR : reordered ts1 ts) by (split; [apply (reordered_nodup _ _ R)|apply Permutation_sym, R]).
    destruct (made_same _ _ _ _ RR M) as (m & Em & S1 & _). rewrite <- (same_contexts_eq _ _ _ _ _ SC) in BF. rewrite (same_contexts_eq _ _ _ _ _ S1) in BF.
    assert (P : Permutation (map fst cs) (map fst ts)).
    { eapply Permutation_trans; [apply Permutation_sym, same_keys, SC|]. rewrite (contexts_keys _ _ _ M). apply Permutation_map, RR. }
    destruct (paths_permuted _ _ _ _ _ P _ CP) as (q & Q & _).
    exists (source_text (o_plain w) (frame_of w d a i q) code size). unfold build_source. rewrite A1. cbn [of_res gbind]. rewrite A2. cbn [of_res gbind]. rewrite A3. cbn [of_res gbind]. rewrite A4. cbn [of_res gbind].
    rewrite A5. cbn [of_res gbind]. rewrite A6. cbn [gbind]. rewrite Q. cbn [of_res gbind].
    change (build_template (ginput_of w cfg i) (find_from w cfg) depth ts) with (gbind (build_contexts (find_from w cfg) ts) (build_from (ginput_of w cfg i) (find_from w cfg) depth)).
    rewrite Em. cbn [gbind]. rewrite BF. reflexivity.
Qed.
Print Assumptions C67_success.

(** ** Two runs *)
Lemma ordered_may order w files depth d s : (forall l, Permutation l (order l)) -> build_ordered order w files depth d = GOk s -> may_build w files depth d s.
Proof.
  intros HO H. unfold build_ordered in H. apply gbind_inv in H as (a & Ha & H). apply of_res_inv in Ha. apply gbind_inv in H as (toml & Ht & H). apply of_res_inv in Ht.
  apply gbind_inv in H as (cfg & Hc & H). apply of_res_inv in Hc. apply gbind_inv in H as (i & Hi & H). apply of_res_inv in Hi.
  apply gbind_inv in H as (src & Hs & H). apply of_res_inv in Hs. apply gbind_inv in H as (ts & Hts & H). apply gbind_inv in H as (made & M & H). apply gbind_inv in H as (ps & Hps & H). apply of_res_inv in Hps.
  apply gbind_inv in H as ([code size] & Hb & H). injection H as <-. assert (R : reordered ts (order ts)) by (split; [eapply used_listed, Hts|apply HO]).
  assert (RR : reordered (order ts) (order ts)) by (split; [apply (reordered_nodup _ _ R)|apply Permutation_refl]).
  destruct (made_same _ _ _ _ RR M) as (m & Em & S1 & _). rewrite M in Em. injection Em as <-.
  exists a, toml, cfg, i, src, ts, (order ts), made, made, ps, code, size. repeat (split; [assumption|]). reflexivity.
Qed.
Definition ordered_text (order : list (str * list node) -> list (str * list node)) (fs : dir) (d : item) : str :=
  match build_ordered order (ex_world fs) 9 9 d with GOk s => s | _ => [] end.
Definition named_in_order (x y s : str) : bool :=
  (fix go (s : str) : bool := match s with [] => false | c :: t => if starts_with x s then contains y s else if starts_with y s then false else go t end) s.
(** The text is not the same each time: the same struct and files, two texts. *)
Theorem C67_text_refuted : exists w files depth d s s', may_build w files depth d s /\ may_build w files depth d s' /\ s <> s'.
Proof.
  exists (ex_world ex_files), 9%nat, 9%nat, ex_page, (ordered_text (fun l => l) ex_files ex_page), (ordered_text (@rev _) ex_files ex_page).
  assert (K : forall order, (forall l, Permutation l (order l)) -> ordered_text order ex_files ex_page <> [] -> may_build (ex_world ex_files) 9 9 ex_page (ordered_text order ex_files ex_page)).
  { intros order HO. unfold ordered_text. destruct (build_ordered order (ex_world ex_files) 9 9 ex_page) eqn:E; try congruence. intros _. eapply ordered_may; eassumption. }
  assert (F : forall s s', named_in_order (lit "base.html") (lit "main.html") s = true -> named_in_order (lit "base.html") (lit "main.html") s' = false -> s <> s') by congruence.
  split; [apply K; [apply Permutation_refl|]|split; [apply K; [apply Permutation_rev|]|]].
  - intros Q. assert (X : match ordered_text (fun l => l) ex_files ex_page with [] => false | _ => true end = true) by (vm_compute; reflexivity). rewrite Q in X. discriminate X.
  - intros Q. assert (X : match ordered_text (@rev _) ex_files ex_page with [] => false | _ => true end = true) by (vm_compute; reflexivity). rewrite Q in X. discriminate X.
  - apply F; vm_compute; reflexivity.
Qed.
Print Assumptions C67_text_refuted.
(** Nor is the error: with mistakes in two templates, either is reported. *)
Definition mistakes : dir :=
  [(lit "/p/templates/main.html", lit "{% include ""a.html"" %}{% include ""b.html"" %}");
   (lit "/p/templates/a.html", lit "{% if x %}{% macro m() %}{% endmacro %}{% endif %}");
   (lit "/p/templates/b.html", lit "{% extends ""c.html"" %}{% extends ""d.html"" %}");
   (lit "/p/templates/c.html", lit "c"); (lit "/p/templates/d.html", lit "d")].
Theorem C67_error_refuted : exists w files depth d order m m', (forall l, Permutation l (order l)) /\
  build_ordered (fun l => l) w files depth d = GErr m /\ build_ordered order w files depth d = GErr m' /\ m <> m'.
Proof.
  exists (ex_world mistakes), 9%nat, 9%nat, ex_page, (@rev _). eexists _, _. split; [apply Permutation_rev|].
  split; [vm_compute; reflexivity|]. split; [vm_compute; reflexivity|]. discriminate.
Qed.
Print Assumptions C67_error_refuted.

(** C67, an example: three templates with blocks, a macro and an import, in the order of the search and in reverse; the code is the same. *)
Definition ex_templates : dir :=
  [(main, lit "{% extends ""base"" %}{% import ""lib"" as l %}{% block b %}{% call l::m(1) %}{{ x }}{% endblock %}{% block c %}C{% endblock %}");
   (lit "base", lit "<{% block b %}{% endblock %}|{% block c %}{% endblock %}>"); (lit "lib", lit "{% macro m(v) %}({{ v }}){% endmacro %}{% macro n() %}{% endmacro %}")].
Definition both_orders (d : dir) : option (nat * bool) :=
  match t_templates d main with
  | GOk ts => match build_template (t_inp None main) (t_find d) FUEL ts, build_template (t_inp None main) (t_find d) FUEL (rev ts) with
              | GOk (c, z), GOk (c', z') => Some (length ts, str_eqb (code_text (fun _ => true) c) (code_text (fun _ => true) c') && (z =? z'))
              | _, _ => None
              end
  | _ => None
  end.
Example C67_example : both_orders ex_templates = Some (3%nat, true).
Proof. vm_compute. reflexivity. Qed.
