(** * What a comment says does not matter: more of C17.  No definition here models code in /repo. *)
From Coq Require Import ZArith Lia.
From Verif Require Import Base Nom Ws Config ConfigFacts Ast ParseNode GenExpr Heritage Gen HeritageSpec HeritageFacts UsedFacts RexprFacts PanicTop EndFacts TreeSpec GenText Derive ParseTests Order OrderFacts Prop_Spell.
From Verif Require Prop_Names.
From Verif Require Import Prop_Rename.
Local Open Scope N_scope.

(** Other texts in comments, everywhere in a template *)
Section Comments.
Variable c_text : str -> str.
Fixpoint recomment (n : node) : node :=
  match n with
  | NComment w s => NComment w (c_text s)
  | NMacro w1 name args ns w2 => NMacro w1 name args (map recomment ns) w2
  | NIf w cs => NIf w (map (fun c => match c with Cond w' t ns => Cond w' t (map recomment ns) end) cs)
  | NMatch w1 e arms w2 => NMatch w1 e (map (fun c => match c with When w' t ns => When w' t (map recomment ns) end) arms) w2
  | NLoop w1 v it c body w2 els w3 => NLoop w1 v it c (map recomment body) w2 (map recomment els) w3
  | NBlockDef w1 x ns w2 => NBlockDef w1 x (map recomment ns) w2
  | NFilterBlock w1 x args ns w2 => NFilterBlock w1 x args (map recomment ns) w2
  | _ => n
  end.

(** ** Contexts *)
Definition ren_block (d : block_def) : block_def := {| b_ws1 := b_ws1 d; b_name := b_name d; b_nodes := map recomment (b_nodes d); b_ws2 := b_ws2 d |}.
Definition ren_macro (d : macro_def) : macro_def := {| k_ws1 := k_ws1 d; k_name := k_name d; k_args := k_args d; k_nodes := map recomment (k_nodes d); k_ws2 := k_ws2 d |}.
Definition ren_context (c : context) : context :=
  {| c_nodes := map recomment (c_nodes c); c_extends := c_extends c; c_blocks := mapk idk ren_block (c_blocks c); c_macros := mapk idk ren_macro (c_macros c); c_imports := c_imports c |}.
Definition ren_def (x : context * block_def) : context * block_def := (ren_context (fst x), ren_block (snd x)).
Definition ren_blocks := mapk idk (map ren_def).
Definition ren_heritage (h : heritage) : heritage := {| h_root := ren_context (h_root h); h_blocks := ren_blocks (h_blocks h) |}.
Definition ren_contexts := mapk idk ren_context.
Lemma merge_ren o c : merge_context (ren_context o) (ren_context c) = ren_context (merge_context o c).
Proof. unfold merge_context, ren_context. cbn [c_nodes c_extends c_blocks c_macros c_imports]. rewrite !merged_mapk by apply id_inj. reflexivity. Qed.
Lemma push_ren c : forall l bs, fold_left (fun bs x => push_block (ren_context c) x bs) (mapk idk ren_block l) (ren_blocks bs) = ren_blocks (fold_left (fun bs x => push_block c x bs) l bs).
Proof.
  induction l as [|[k d] l IH]; intros bs; [reflexivity|]. cbn [mapk map fold_left fst snd]. rewrite <- IH. f_equal. unfold push_block, ren_blocks. cbn [fst snd].
  rewrite get_mapk by apply id_inj. rewrite <- put_mapk by apply id_inj. f_equal. destruct (get k bs); cbn [option_map]; [rewrite map_app|]; reflexivity.
Qed.
Lemma heritage_loop_ren contexts : forall fuel c bs, heritage_loop fuel (ren_contexts contexts) (ren_context c) (ren_blocks bs) = gm ren_heritage (heritage_loop fuel contexts c bs).
Proof.
  induction fuel as [|f IH]; intros c bs; cbn [heritage_loop ren_context c_extends]; destruct (c_extends c) as [p|] eqn:E; try reflexivity.
  pose proof (get_mapk idk ren_context p contexts id_inj) as G. unfold idk at 1 in G. unfold ren_contexts at 1. rewrite G. destruct (get p contexts) as [d|]; cbn [option_map gm]; [|reflexivity]. rewrite <- IH. f_equal. apply push_ren.
Qed.
Lemma heritage_new_ren contexts fuel c : heritage_new fuel (ren_contexts contexts) (ren_context c) = gm ren_heritage (heritage_new fuel contexts c).
Proof.
  unfold heritage_new. rewrite <- heritage_loop_ren. f_equal. cbn [ren_context c_blocks]. unfold ren_blocks, mapk. rewrite !map_map. apply map_ext. intros [k d]. reflexivity.
Qed.
Lemma get_contexts contexts p : get p (ren_contexts contexts) = option_map ren_context (get p contexts).
Proof. exact (get_mapk idk ren_context p contexts id_inj). Qed.
Lemma get_blocks h k : get k (h_blocks (ren_heritage h)) = option_map (map ren_def) (get k (h_blocks h)).
Proof. exact (get_mapk idk (map ren_def) k (h_blocks h) id_inj). Qed.

(** ** The generator *)
Section Gen.
  Variables (inp : ginput) (contexts : list (str * context)) (find : str -> str -> res str).
  Section Step.
    Variables expand expand' : option heritage -> context -> list node -> level -> gst -> gres gen.
    Hypothesis HX : forall her ctx ns lv st, expand' (option_map ren_heritage her) (ren_context ctx) (map recomment ns) lv st = expand her ctx ns lv st.
    Variables (her : option heritage) (ctx : context).
    Lemma block_ren name outer st : write_block inp expand' (option_map ren_heritage her) (ren_context ctx) name outer st = write_block inp expand her ctx name outer st.
    Proof.
      unfold write_block. apply gbind_ext. intros cur. apply gbind_ext. intros [[c z] s]. cbv zeta. destruct her as [h|]; cbn [option_map]; [|reflexivity]. rewrite get_blocks.
      destruct (get (fst cur) (h_blocks h)) as [l|]; cbn [option_map]; [|reflexivity]. rewrite nth_map. destruct (nth_error l (snd cur)) as [[cc d]|]; cbn [option_map ren_def fst snd]; [|reflexivity].
      apply gbind_both; [|reflexivity]. rewrite merge_ren. apply (HX (Some h)).
    Qed.
    Lemma call_ren w scope name args st : write_call inp (ren_contexts contexts) expand' (option_map ren_heritage her) (ren_context ctx) w scope name args st = write_call inp contexts expand her ctx w scope name args st.
    Proof.
      unfold write_call. destruct (str_eqb name (lit "super")); [apply block_ren|].
      match goal with |- gbind _ ?f = gbind _ ?g => assert (K : forall def c, f (ren_macro def, ren_context c) = g (def, c)) end.
      { intros def c. cbn [ren_macro k_ws1 k_args k_nodes k_ws2]. cbv zeta. apply gbind_ext. intros [[c0 z] s]. apply gbind_ext. intros u. destruct (negb (Nat.eqb (length args) (length (k_args def)))); [reflexivity|].
        apply gbind_ext. intros nm. apply gbind_ext. intros [[m ns] vs]. apply gbind_ext. intros u1. apply gbind_both; [apply HX|]. reflexivity. }
      assert (G : forall l, get name (mapk idk ren_macro l) = option_map ren_macro (get name l)) by (intros l; exact (get_mapk idk ren_macro name l id_inj)).
      destruct scope as [x|].
      - cbn [ren_context c_imports]. destruct (get x (c_imports ctx)) as [path|]; [|reflexivity]. rewrite get_contexts.
        destruct (get path contexts) as [c|]; cbn [option_map]; [|reflexivity]. cbn [ren_context c_macros]. rewrite G. destruct (get name (c_macros c)); cbn [option_map]; [|reflexivity]. cbn [gbind]. apply K.
      - cbn [ren_context c_macros]. rewrite G. destruct (get name (c_macros ctx)); cbn [option_map]; [|reflexivity]. cbn [gbind]. apply K.
    Qed.
    Lemma include_ren w path st : write_include inp (ren_contexts contexts) find expand' (ren_context ctx) w path st = write_include inp contexts find expand ctx w path st.
    Proof.
      unfold write_include. apply gbind_ext. intros [[c0 z0] s0]. apply gbind_ext. intros p. apply gbind_ext. intros u. rewrite get_contexts. destruct (get p contexts) as [c|]; cbn [option_map]; [|reflexivity]. cbv zeta. rewrite merge_ren.
      set (m := merge_context ctx c). assert (EL : length (ren_contexts contexts) = length contexts) by apply map_length.
      assert (R : match c_blocks (ren_context m), c_extends (ren_context m) with [], None => GOk None
                    | _, _ => let* h := heritage_new (S (length (ren_contexts contexts))) (ren_contexts contexts) (ren_context m) in GOk (Some h) end =
                  gm (option_map ren_heritage) (match c_blocks m, c_extends m with [], None => GOk None | _, _ => let* h := heritage_new (S (length contexts)) contexts m in GOk (Some h) end)).
      { rewrite EL, heritage_new_ren. cbn [ren_context c_blocks c_extends]. destruct (c_blocks m) as [|[k d] l]; cbn [mapk map]; [destruct (c_extends m); [|reflexivity]|]; destruct (heritage_new _ contexts m); reflexivity. }
      rewrite R. destruct (match c_blocks m with [] => _ | _ :: _ => _ end) as [h|e| |]; cbn [gm gbind]; [|reflexivity..].
      apply gbind_both; [|reflexivity]. destruct h as [h|]; cbn [option_map]; [apply (HX (Some h) (h_root h) (c_nodes (h_root h)))|apply (HX None m (c_nodes m))].
    Qed.
    Lemma list_ren f g : forall ns, (forall n, In n ns -> forall st, f (recomment n) st = g n st) -> forall st, gen_list f (map recomment ns) st = gen_list g ns st.
    Proof.
      induction ns as [|n ns IH]; intros H st; [reflexivity|]. cbn [map gen_list]. apply gbind_both; [apply H; left; reflexivity|]. intros [[c z] s].
      apply gbind_both; [apply IH; intros; apply H; right; assumption|]. reflexivity.
    Qed.
    Lemma branches_ren f g w : forall cs, (forall w' t ns, In (Cond w' t ns) cs -> forall st, gen_list f (map recomment ns) st = gen_list g ns st) ->
      forall first st, gen_branches inp f w first (map (fun c => match c with Cond w' t ns => Cond w' t (map recomment ns) end) cs) st = gen_branches inp g w first cs st.
    Proof.
      induction cs as [|[w' t ns] cs IH]; intros H first st; [reflexivity|]. cbn [map gen_branches].
      apply gbind_ext. intros [[c z] s]. apply gbind_ext. intros s1. apply gbind_ext. intros [t' s2]. apply gbind_both; [eapply H; left; reflexivity|]. intros [[bd z'] s3].
      apply gbind_both; [apply IH; intros w0 t0 n0 K; eapply H; right; exact K|]. reflexivity.
    Qed.
    Lemma arms_ren f g w : forall cs, (forall w' t ns, In (When w' t ns) cs -> forall st, gen_list f (map recomment ns) st = gen_list g ns st) ->
      forall first st, gen_arms inp f w first (map (fun c => match c with When w' t ns => When w' t (map recomment ns) end) cs) st = gen_arms inp g w first cs st.
    Proof.
      induction cs as [|[w' t ns] cs IH]; intros H first st; [reflexivity|]. cbn [map gen_arms].
      apply gbind_ext. intros [[c z] s]. apply gbind_ext. intros u. apply gbind_ext. intros [p m]. apply gbind_both; [eapply H; left; reflexivity|]. intros [[bd z'] s3].
      apply gbind_both; [apply IH; intros w0 t0 n0 K; eapply H; right; exact K|]. reflexivity.
    Qed.
    Lemma node_ren : forall n lv st, handle_node inp (ren_contexts contexts) find expand' (option_map ren_heritage her) (ren_context ctx) lv (recomment n) st = handle_node inp contexts find expand her ctx lv n st.
    Proof.
      induction n using node_ind_all; intros lv st; cbn [recomment handle_node].
      - destruct n; try contradiction; cbn [recomment handle_node]; try reflexivity; [apply call_ren|apply include_ren].
      - apply gbind_both; [|reflexivity]. apply branches_ren. intros w' t ns Hc s. rewrite Forall_forall in H. specialize (H _ Hc). cbn in H. rewrite Forall_forall in H. apply list_ren. intros n Hn s'. apply H, Hn.
      - apply gbind_ext. intros [[c z] s]. apply gbind_ext. intros r0. apply gbind_ext. intros u. apply gbind_both; [|reflexivity]. apply arms_ren.
        intros w' t ns Hc s'. rewrite Forall_forall in H. specialize (H _ Hc). cbn in H. rewrite Forall_forall in H. apply list_ren. intros n Hn s''. apply H, Hn.
      - rewrite Forall_forall in *. replace (match map recomment els with [] => false | _ => true end) with (match els with [] => false | _ => true end) by (destruct els; reflexivity). apply loop_ext; intros s; apply list_ren; auto.
      - apply block_ren.
      - reflexivity.
      - rewrite Forall_forall in *. apply filter_ext. intros s. apply list_ren. auto.
    Qed.
    Lemma nodes_ren ns lv st : handle_nodes inp (ren_contexts contexts) find expand' (option_map ren_heritage her) (ren_context ctx) (map recomment ns) lv st = handle_nodes inp contexts find expand her ctx ns lv st.
    Proof. unfold handle_nodes. apply gbind_both; [apply list_ren; intros; apply node_ren|]. reflexivity. Qed.
  End Step.
  Lemma handle_ren : forall fuel her ctx ns lv st, handle inp (ren_contexts contexts) find fuel (option_map ren_heritage her) (ren_context ctx) (map recomment ns) lv st = handle inp contexts find fuel her ctx ns lv st.
  Proof. induction fuel as [|f IH]; intros her ctx ns lv st; [reflexivity|]. cbn [handle]. apply nodes_ren. exact IH. Qed.
  Lemma impl_ren fuel her ctx : impl_template inp (ren_contexts contexts) find fuel (option_map ren_heritage her) (ren_context ctx) = impl_template inp contexts find fuel her ctx.
  Proof. unfold impl_template. cbv zeta. apply gbind_both; [|reflexivity]. destruct her as [h|]; cbn [option_map]; [apply (handle_ren fuel (Some h) (h_root h) (c_nodes (h_root h)))|apply (handle_ren fuel None ctx (c_nodes ctx))]. Qed.
  Lemma from_ren fuel : build_from inp find fuel (ren_contexts contexts) = build_from inp find fuel contexts.
  Proof.
    unfold build_from. rewrite get_contexts. destruct (get (f_path inp) contexts) as [c|]; cbn [option_map]; [|reflexivity].
    set (R := fun c cs => let* h := heritage_new fuel cs c in match f_block inp with
                            | Some b => match get b (h_blocks h) with None => GErr (lit "cannot find block") | Some _ => GOk (Some h) end
                            | None => GOk (Some h) end).
    assert (ER : R (ren_context c) (ren_contexts contexts) = gm (option_map ren_heritage) (R c contexts)).
    { unfold R. rewrite heritage_new_ren. destruct (heritage_new fuel contexts c) as [h| | |]; cbn [gm gbind]; try reflexivity. destruct (f_block inp) as [b|]; [|reflexivity]. rewrite get_blocks. destruct (get b (h_blocks h)); reflexivity. }
    assert (T : match c_blocks (ren_context c), c_extends (ren_context c) with [], None => GOk None | _, _ => R (ren_context c) (ren_contexts contexts) end =
                gm (option_map ren_heritage) (match c_blocks c, c_extends c with [], None => GOk None | _, _ => R c contexts end)).
    { rewrite ER. cbn [ren_context c_blocks c_extends]. destruct (c_blocks c) as [|[k d] l]; cbn [mapk map]; [destruct (c_extends c); reflexivity|reflexivity]. }
    change (gbind (match c_blocks (ren_context c), c_extends (ren_context c) with [], None => GOk None | _, _ => R (ren_context c) (ren_contexts contexts) end) (fun her => impl_template inp (ren_contexts contexts) find fuel her (ren_context c)) =
            gbind (match c_blocks c, c_extends c with [], None => GOk None | _, _ => R c contexts end) (fun her => impl_template inp contexts find fuel her c)).
    rewrite T. destruct (match c_blocks c with [] => _ | _ :: _ => _ end) as [h|e| |]; cbn [gm gbind]; try reflexivity. apply impl_ren.
  Qed.
End Gen.

(** ** Building the contexts *)
Section New.
  Variables (find : str -> str -> res str) (path : str).
  Lemma node_named top n c : context_node find path top (recomment n) (ren_context c) = rm (fun y => (ren_context (fst y), map (map recomment) (snd y))) (context_node find path top n c).
  Proof.
    destruct n; cbn [recomment context_node]; try reflexivity.
    - cbn [rm fst snd]. rewrite !map_map. do 2 f_equal. apply map_ext. intros [w' t ns]. reflexivity.
    - cbn [rm fst snd]. rewrite !map_map. do 2 f_equal. apply map_ext. intros [w' t ns]. reflexivity.
    - destruct top; [|reflexivity]. cbn [ren_context c_extends]. destruct (c_extends c); [reflexivity|]. destruct (find path0 path); reflexivity.
    - cbn [rm fst snd]. do 2 f_equal. unfold ren_context. cbn [c_nodes c_extends c_blocks c_macros c_imports]. rewrite <- (put_mapk idk ren_block) by apply id_inj. reflexivity.
    - destruct top; [|reflexivity]. destruct (find path0 path) as [p| |]; cbn [rbind rm fst snd]; reflexivity.
    - destruct top; [|reflexivity]. cbn [rm fst snd]. do 2 f_equal. unfold ren_context. cbn [c_nodes c_extends c_blocks c_macros c_imports]. rewrite <- (put_mapk idk ren_macro) by apply id_inj. reflexivity.
  Qed.
  Lemma nodes_named top : forall ns c s, context_nodes find path top (map recomment ns) (ren_context c) (map (map recomment) s) = rm (fun y => (ren_context (fst y), map (map recomment) (snd y))) (context_nodes find path top ns c s).
  Proof.
    induction ns as [|n ns IH]; intros c s; [reflexivity|]. cbn [map context_nodes]. rewrite node_named. destruct (context_node find path top n c) as [[c1 more]| |]; cbn [rm rbind fst snd]; try reflexivity.
    rewrite <- map_rev, <- map_app. apply IH.
  Qed.
  Lemma loop_named : forall f s f' top c, context_loop find f path top s c <> GFuel -> context_loop find f' path top (map (map recomment) s) (ren_context c) <> GFuel ->
    context_loop find f' path top (map (map recomment) s) (ren_context c) = gm ren_context (context_loop find f path top s c).
  Proof.
    induction f as [|f IH]; intros [|ns s] f' top c H1 H2; try (destruct f'; reflexivity); [destruct H1; reflexivity|]. destruct f' as [|f']; [destruct H2; reflexivity|]. cbn [map context_loop] in *. rewrite nodes_named in *.
    destruct (context_nodes find path top ns c s) as [[c1 s1]| |]; cbn [rm of_res gbind fst snd gm] in *; try reflexivity. apply IH; assumption.
  Qed.
  Lemma new_named ns : context_new find path (map recomment ns) = gm ren_context (context_new find path ns).
  Proof.
    pose proof (context_new_ends find path ns) as E1. pose proof (context_new_ends find path (map recomment ns)) as E2. unfold context_new in *.
    apply (loop_named _ [ns] _ true {| c_nodes := ns; c_extends := None; c_blocks := []; c_macros := []; c_imports := [] |}); assumption.
  Qed.
End New.
Definition recomment_all (ts : list (str * list node)) : list (str * list node) := map (fun t => (fst t, map recomment (snd t))) ts.
Lemma contexts_named find : forall ts, build_contexts find (recomment_all ts) = gm ren_contexts (build_contexts find ts).
Proof.
  induction ts as [|[p ns] ts IH]; [reflexivity|]. cbn [recomment_all map fst snd build_contexts]. rewrite new_named. destruct (context_new find p ns) as [c| | |]; cbn [gm gbind]; try reflexivity.
  change (map (fun t => (fst t, map recomment (snd t))) ts) with (recomment_all ts). rewrite IH. destruct (build_contexts find ts); reflexivity.
Qed.
End Comments.

Lemma recomment_same c inp find fuel ts : build_template inp find fuel (recomment_all c ts) = build_template inp find fuel ts.
Proof.
  change (gbind (build_contexts find (recomment_all c ts)) (build_from inp find fuel) = gbind (build_contexts find ts) (build_from inp find fuel)).
  rewrite contexts_named. destruct (build_contexts find ts) as [cs|m| |]; cbn [gm gbind]; try reflexivity. apply from_ren.
Qed.
(** C17.  Templates that are the same once all comments say nothing give the same code, or the same error. *)
Theorem C17_content inp find fuel ts ts' : recomment_all (fun _ => []) ts' = recomment_all (fun _ => []) ts -> build_template inp find fuel ts' = build_template inp find fuel ts.
Proof. intros H. rewrite <- (recomment_same (fun _ => []) inp find fuel ts), <- H. symmetry. apply recomment_same. Qed.
Print Assumptions C17_content.
(** And so it is in a whole project, with search and parser. *)
Lemma recomment_uses c find load path top n st : used_node find load path top (recomment c n) st = rm (fun y => (fst y, map (map (recomment c)) (snd y))) (used_node find load path top n st).
Proof.
  destruct n; cbn [recomment used_node]; try (destruct top); try reflexivity; cbn [rm fst snd]; rewrite ?map_map; try (do 2 f_equal; apply map_ext; intros [w' t ns]; reflexivity);
    destruct (find path0 path) as [p|m|]; cbn [rbind rm]; try reflexivity; try (destruct (str_eqb path p); [reflexivity|]; destruct (existsb _ _); [reflexivity|]); destruct (add_to_check load p _); reflexivity.
Qed.
Theorem C17_project c w w' d files depth a cfg i src src' :
  other_files w w' -> o_xid_start w' = o_xid_start w -> o_xid_continue w' = o_xid_continue w -> prepared w d a cfg i src -> prepared w' d a cfg i src' ->
  parse_text w' (i_syntax i) src' = rm (map (recomment c)) (parse_text w (i_syntax i) src) -> Prop_Names.changed_files (recomment c) w w' cfg (i_syntax i) ->
  derive_template w' files depth d = derive_template w files depth d.
Proof. apply Prop_Names.project_same; [intros; apply recomment_uses|]. intros find ts. apply recomment_same. Qed.
Print Assumptions C17_project.

(** ** Examples *)
Definition C17_text (s : str) : node := NLit {| lws := []; lval := s; rws := [] |}.
Definition C17_inp : ginput := {| f_escaper := lit "::askama::Html"; f_escapers := []; f_json := false; f_ws := Preserve; f_block := None; f_path := lit "m" |}.
Definition C17_page (s1 s2 : str) : list (str * list node) :=
  [(lit "m", [NComment no_ws s1; C17_text (lit "a"); NMacro no_ws (lit "f") [] [NComment no_ws s2; C17_text (lit "b")] no_ws; NCall no_ws None (lit "f") []; NComment no_ws s2])].
Example C17_content_example : recomment_all (fun _ => []) (C17_page (lit "one") (lit "two")) = recomment_all (fun _ => []) (C17_page (lit "two") (lit " three {{ x }} ")) /\
  match build_template C17_inp (fun n _ => Ok n) 9 (C17_page (lit "one") (lit "two")) with GOk (c, _) => negb (Nat.eqb (length c) 0) | _ => false end = true.
Proof. split; vm_compute; reflexivity. Qed.
Definition kpage : str := lit "{% import ""b.html"" as l %}{# one #}{% call l::hi(x) %}".
Definition kpage' : str := lit "{% import ""b.html"" as l %}{# {{ y }} #}{% call l::hi(x) %}".
Definition klib : str := lit "{% macro hi(a) %}<{# one #}{{ a }}>{% endmacro %}".
Definition klib' : str := lit "{% macro hi(a) %}<{# {{ y }} #}{{ a }}>{% endmacro %}".
(** The content of a comment in the tree ends with its closing delimiter. *)
Definition kc (s : str) : str := lit " {{ y }} #}".
Example C17_project_example : (exists s, derive_template (Prop_Names.shelved kpage klib) 9 9 item1 = GOk (Code s)) /\ other_files (Prop_Names.shelved kpage klib) (Prop_Names.shelved kpage' klib') /\
  prepared (Prop_Names.shelved kpage klib) item1 a1 the_config (the_input default_syntax) kpage /\ prepared (Prop_Names.shelved kpage' klib') item1 a1 the_config (the_input default_syntax) kpage' /\
  parse_text (Prop_Names.shelved kpage' klib') default_syntax kpage' = rm (map (recomment kc)) (parse_text (Prop_Names.shelved kpage klib) default_syntax kpage) /\
  Prop_Names.changed_files (recomment kc) (Prop_Names.shelved kpage klib) (Prop_Names.shelved kpage' klib') the_config default_syntax.
Proof.
  split; [eexists; vm_compute; reflexivity|]. split; [repeat split|]. split; [exists (lit "x"); repeat split; vm_compute; reflexivity|]. split; [exists (lit "x"); repeat split; vm_compute; reflexivity|].
  split; [vm_compute; reflexivity|]. apply Prop_Names.shelved_files; vm_compute; reflexivity.
Qed.
