(** * The names of macros and of import scopes do not matter: C74.  No definition here models code in /repo. *)
From Coq Require Import ZArith Lia.
From Verif Require Import Base Ws Config Ast ParseNode GenExpr Heritage Gen HeritageSpec HeritageFacts RexprFacts PanicTop EndFacts TreeSpec Order OrderFacts.
Local Open Scope N_scope.

(** Other names for macros and for the scopes of imports, everywhere in a template *)
Section Names.
Variables (r q : str -> str).
Fixpoint rename (n : node) : node :=
  match n with
  | NCall w scope name args => NCall w (option_map q scope) (r name) args
  | NImport w p scope => NImport w p (q scope)
  | NMacro w1 name args ns w2 => NMacro w1 (r name) args (map rename ns) w2
  | NIf w cs => NIf w (map (fun c => match c with Cond w' t ns => Cond w' t (map rename ns) end) cs)
  | NMatch w1 e arms w2 => NMatch w1 e (map (fun c => match c with When w' t ns => When w' t (map rename ns) end) arms) w2
  | NLoop w1 v it c body w2 els w3 => NLoop w1 v it c (map rename body) w2 (map rename els) w3
  | NBlockDef w1 x ns w2 => NBlockDef w1 x (map rename ns) w2
  | NFilterBlock w1 x args ns w2 => NFilterBlock w1 x args (map rename ns) w2
  | _ => n
  end.
Hypothesis r_inj : forall x y, r x = r y -> x = y.
Hypothesis q_inj : forall x y, q x = q y -> x = y.
Hypothesis r_super : forall x, r x = lit "super" <-> x = lit "super".

(** ** Maps with other keys and values *)
Definition mapk {A B} (k : str -> str) (f : A -> B) (l : list (str * A)) : list (str * B) := map (fun x => (k (fst x), f (snd x))) l.
Definition injective (k : str -> str) : Prop := forall x y, k x = k y -> x = y.
Lemma eqb_inj k x y : injective k -> str_eqb (k x) (k y) = str_eqb x y.
Proof. intros H. destruct (str_eqb x y) eqn:E; [apply str_eqb_eq in E as ->; apply str_eqb_refl|]. apply str_eqb_neq. intros K. apply H in K. apply str_eqb_neq in E. contradiction. Qed.
Lemma get_mapk {A B} k (f : A -> B) x l : injective k -> get (k x) (mapk k f l) = option_map f (get x l).
Proof. intros H. induction l as [|[y v] l IH]; [reflexivity|]. cbn [mapk map get fst snd]. rewrite eqb_inj by exact H. destruct (str_eqb x y); [reflexivity|exact IH]. Qed.
Lemma put_mapk {A B} k (f : A -> B) x v l : injective k -> put (k x) (f v) (mapk k f l) = mapk k f (put x v l).
Proof. intros H. induction l as [|[y u] l IH]; [reflexivity|]. cbn [mapk map put fst snd]. rewrite eqb_inj by exact H. destruct (str_eqb x y); [reflexivity|]. cbn [map fst snd]. f_equal. exact IH. Qed.
Lemma put_new_mapk {A B} k (f : A -> B) x v l : injective k -> put_new (k x) (f v) (mapk k f l) = mapk k f (put_new x v l).
Proof. intros H. unfold put_new. rewrite get_mapk by exact H. destruct (get x l); cbn [option_map]; [reflexivity|apply put_mapk, H]. Qed.
Lemma merged_mapk {A B} k (f : A -> B) : injective k -> forall o l, fold_left (fun l x => put_new (fst x) (snd x) l) (mapk k f o) (mapk k f l) = mapk k f (fold_left (fun l x => put_new (fst x) (snd x) l) o l).
Proof. intros H. induction o as [|[x v] o IH]; intros l; [reflexivity|]. cbn [mapk map fold_left fst snd]. rewrite put_new_mapk by exact H. apply IH. Qed.
Definition idk (x : str) : str := x.
Lemma id_inj : injective idk.
Proof. intros x y H. exact H. Qed.

(** ** Contexts *)
Definition ren_block (d : block_def) : block_def := {| b_ws1 := b_ws1 d; b_name := b_name d; b_nodes := map rename (b_nodes d); b_ws2 := b_ws2 d |}.
Definition ren_macro (d : macro_def) : macro_def := {| k_ws1 := k_ws1 d; k_name := r (k_name d); k_args := k_args d; k_nodes := map rename (k_nodes d); k_ws2 := k_ws2 d |}.
Definition ren_context (c : context) : context :=
  {| c_nodes := map rename (c_nodes c); c_extends := c_extends c; c_blocks := mapk idk ren_block (c_blocks c); c_macros := mapk r ren_macro (c_macros c); c_imports := mapk q idk (c_imports c) |}.
Definition ren_def (x : context * block_def) : context * block_def := (ren_context (fst x), ren_block (snd x)).
Definition ren_blocks := mapk idk (map ren_def).
Definition ren_heritage (h : heritage) : heritage := {| h_root := ren_context (h_root h); h_blocks := ren_blocks (h_blocks h) |}.
Definition ren_contexts := mapk idk ren_context.
Definition gm {A B} (f : A -> B) (x : gres A) : gres B := match x with GOk a => GOk (f a) | GErr m => GErr m | GPanic => GPanic | GFuel => GFuel end.
Lemma merge_ren o c : merge_context (ren_context o) (ren_context c) = ren_context (merge_context o c).
Proof. unfold merge_context, ren_context. cbn [c_nodes c_extends c_blocks c_macros c_imports]. rewrite !merged_mapk by assumption. reflexivity. Qed.
Lemma push_ren c : forall l bs, fold_left (fun bs x => push_block (ren_context c) x bs) (mapk idk ren_block l) (ren_blocks bs) = ren_blocks (fold_left (fun bs x => push_block c x bs) l bs).
Proof.
  induction l as [|[k d] l IH]; intros bs; [reflexivity|]. cbn [mapk map fold_left fst snd]. rewrite <- IH. f_equal. unfold push_block, ren_blocks. cbn [fst snd].
  rewrite get_mapk by apply id_inj. rewrite <- put_mapk by apply id_inj. f_equal. destruct (get k bs); cbn [option_map]; [rewrite map_app|]; reflexivity.
Qed.
Lemma heritage_loop_ren contexts : forall fuel c bs, heritage_loop fuel (ren_contexts contexts) (ren_context c) (ren_blocks bs) = gm ren_heritage (heritage_loop fuel contexts c bs).
Proof.
  induction fuel as [|f IH]; intros c bs; cbn [heritage_loop ren_context c_extends]; destruct (c_extends c) as [p|] eqn:E; try reflexivity.
  pose proof (get_mapk idk ren_context p contexts id_inj) as G. unfold idk at 1 in G. unfold ren_contexts at 1. rewrite G. destruct (get p contexts) as [d|]; cbn [option_map gm]; [|reflexivity]. rewrite <- IH. f_equal. apply push_ren.
Qed.
Lemma heritage_new_ren contexts fuel c : heritage_new fuel (ren_contexts contexts) (ren_context c) = gm ren_heritage (heritage_new fuel contexts c).
Proof.
  unfold heritage_new. rewrite <- heritage_loop_ren. f_equal. cbn [ren_context c_blocks]. unfold ren_blocks, mapk. rewrite !map_map. apply map_ext. intros [k d]. reflexivity.
Qed.
Lemma get_contexts contexts p : get p (ren_contexts contexts) = option_map ren_context (get p contexts).
Proof. exact (get_mapk idk ren_context p contexts id_inj). Qed.
Lemma get_blocks h k : get k (h_blocks (ren_heritage h)) = option_map (map ren_def) (get k (h_blocks h)).
Proof. exact (get_mapk idk (map ren_def) k (h_blocks h) id_inj). Qed.
Lemma nth_map {A B} (f : A -> B) : forall l n, nth_error (map f l) n = option_map f (nth_error l n).
Proof. induction l as [|x l IH]; intros [|n]; cbn; auto. Qed.

(** ** The generator *)
Section Gen.
  Variables (inp : ginput) (contexts : list (str * context)) (find : str -> str -> res str).
  Section Step.
    Variables expand expand' : option heritage -> context -> list node -> level -> gst -> gres gen.
    Hypothesis HX : forall her ctx ns lv st, expand' (option_map ren_heritage her) (ren_context ctx) (map rename ns) lv st = expand her ctx ns lv st.
    Variables (her : option heritage) (ctx : context).
    Lemma block_ren name outer st : write_block inp expand' (option_map ren_heritage her) (ren_context ctx) name outer st = write_block inp expand her ctx name outer st.
    Proof.
      unfold write_block. apply gbind_ext. intros cur. apply gbind_ext. intros [[c z] s]. cbv zeta. destruct her as [h|]; cbn [option_map]; [|reflexivity]. rewrite get_blocks.
      destruct (get (fst cur) (h_blocks h)) as [l|]; cbn [option_map]; [|reflexivity]. rewrite nth_map. destruct (nth_error l (snd cur)) as [[cc d]|]; cbn [option_map ren_def fst snd]; [|reflexivity].
      apply gbind_both; [|reflexivity]. rewrite merge_ren. apply (HX (Some h)).
    Qed.
    Lemma call_ren w scope name args st : write_call inp (ren_contexts contexts) expand' (option_map ren_heritage her) (ren_context ctx) w (option_map q scope) (r name) args st = write_call inp contexts expand her ctx w scope name args st.
    Proof.
      assert (E : str_eqb (r name) (lit "super") = str_eqb name (lit "super")).
      { destruct (str_eqb name (lit "super")) eqn:E; [apply str_eqb_eq in E; apply (proj2 (r_super name)) in E; rewrite E; apply str_eqb_refl|]. apply str_eqb_neq. intros K. apply (proj1 (r_super name)) in K. rewrite K, str_eqb_refl in E. discriminate E. }
      unfold write_call. rewrite E. destruct (str_eqb name (lit "super")); [apply block_ren|]. clear E.
      match goal with |- gbind _ ?f = gbind _ ?g => assert (K : forall def c, f (ren_macro def, ren_context c) = g (def, c)) end.
      { intros def c. cbn [ren_macro k_ws1 k_args k_nodes k_ws2]. cbv zeta. apply gbind_ext. intros [[c0 z] s]. apply gbind_ext. intros u. destruct (negb (Nat.eqb (length args) (length (k_args def)))); [reflexivity|].
        apply gbind_ext. intros nm. apply gbind_ext. intros [[m ns] vs]. apply gbind_ext. intros u1. apply gbind_both; [apply HX|]. reflexivity. }
      destruct scope as [x|]; cbn [option_map].
      - cbn [ren_context c_imports]. rewrite (get_mapk q idk x) by exact q_inj. destruct (get x (c_imports ctx)) as [path|]; cbn [option_map]; [|reflexivity]. unfold idk at 1. rewrite get_contexts.
        destruct (get path contexts) as [c|]; cbn [option_map]; [|reflexivity]. cbn [ren_context c_macros]. rewrite (get_mapk r ren_macro name) by exact r_inj. destruct (get name (c_macros c)); cbn [option_map]; [|reflexivity]. cbn [gbind]. apply K.
      - cbn [ren_context c_macros]. rewrite (get_mapk r ren_macro name) by exact r_inj. destruct (get name (c_macros ctx)); cbn [option_map]; [|reflexivity]. cbn [gbind]. apply K.
    Qed.
    Lemma include_ren w path st : write_include inp (ren_contexts contexts) find expand' (ren_context ctx) w path st = write_include inp contexts find expand ctx w path st.
    Proof.
      unfold write_include. apply gbind_ext. intros [[c0 z0] s0]. apply gbind_ext. intros p. apply gbind_ext. intros u. rewrite get_contexts. destruct (get p contexts) as [c|]; cbn [option_map]; [|reflexivity]. cbv zeta. rewrite merge_ren.
      set (m := merge_context ctx c). assert (EL : length (ren_contexts contexts) = length contexts) by apply map_length.
      assert (R : match c_blocks (ren_context m), c_extends (ren_context m) with [], None => GOk None
                    | _, _ => let* h := heritage_new (S (length (ren_contexts contexts))) (ren_contexts contexts) (ren_context m) in GOk (Some h) end =
                  gm (option_map ren_heritage) (match c_blocks m, c_extends m with [], None => GOk None | _, _ => let* h := heritage_new (S (length contexts)) contexts m in GOk (Some h) end)).
      { rewrite EL, heritage_new_ren. cbn [ren_context c_blocks c_extends]. destruct (c_blocks m) as [|[k d] l]; cbn [mapk map]; [destruct (c_extends m); [|reflexivity]|]; destruct (heritage_new _ contexts m); reflexivity. }
      rewrite R. destruct (match c_blocks m with [] => _ | _ :: _ => _ end) as [h|e| |]; cbn [gm gbind]; [|reflexivity..].
      apply gbind_both; [|reflexivity]. destruct h as [h|]; cbn [option_map]; [apply (HX (Some h) (h_root h) (c_nodes (h_root h)))|apply (HX None m (c_nodes m))].
    Qed.
    Lemma list_ren f g : forall ns, (forall n, In n ns -> forall st, f (rename n) st = g n st) -> forall st, gen_list f (map rename ns) st = gen_list g ns st.
    Proof.
      induction ns as [|n ns IH]; intros H st; [reflexivity|]. cbn [map gen_list]. apply gbind_both; [apply H; left; reflexivity|]. intros [[c z] s].
      apply gbind_both; [apply IH; intros; apply H; right; assumption|]. reflexivity.
    Qed.
    Lemma branches_ren f g w : forall cs, (forall w' t ns, In (Cond w' t ns) cs -> forall st, gen_list f (map rename ns) st = gen_list g ns st) ->
      forall first st, gen_branches inp f w first (map (fun c => match c with Cond w' t ns => Cond w' t (map rename ns) end) cs) st = gen_branches inp g w first cs st.
    Proof.
      induction cs as [|[w' t ns] cs IH]; intros H first st; [reflexivity|]. cbn [map gen_branches].
      apply gbind_ext. intros [[c z] s]. apply gbind_ext. intros s1. apply gbind_ext. intros [t' s2]. apply gbind_both; [eapply H; left; reflexivity|]. intros [[bd z'] s3].
      apply gbind_both; [apply IH; intros w0 t0 n0 K; eapply H; right; exact K|]. reflexivity.
    Qed.
    Lemma arms_ren f g w : forall cs, (forall w' t ns, In (When w' t ns) cs -> forall st, gen_list f (map rename ns) st = gen_list g ns st) ->
      forall first st, gen_arms inp f w first (map (fun c => match c with When w' t ns => When w' t (map rename ns) end) cs) st = gen_arms inp g w first cs st.
    Proof.
      induction cs as [|[w' t ns] cs IH]; intros H first st; [reflexivity|]. cbn [map gen_arms].
      apply gbind_ext. intros [[c z] s]. apply gbind_ext. intros u. apply gbind_ext. intros [p m]. apply gbind_both; [eapply H; left; reflexivity|]. intros [[bd z'] s3].
      apply gbind_both; [apply IH; intros w0 t0 n0 K; eapply H; right; exact K|]. reflexivity.
    Qed.
    Lemma node_ren : forall n lv st, handle_node inp (ren_contexts contexts) find expand' (option_map ren_heritage her) (ren_context ctx) lv (rename n) st = handle_node inp contexts find expand her ctx lv n st.
    Proof.
      induction n using node_ind_all; intros lv st; cbn [rename handle_node].
      - destruct n; try contradiction; cbn [rename handle_node]; try reflexivity; [apply call_ren|apply include_ren].
      - apply gbind_both; [|reflexivity]. apply branches_ren. intros w' t ns Hc s. rewrite Forall_forall in H. specialize (H _ Hc). cbn in H. rewrite Forall_forall in H. apply list_ren. intros n Hn s'. apply H, Hn.
      - apply gbind_ext. intros [[c z] s]. apply gbind_ext. intros r0. apply gbind_ext. intros u. apply gbind_both; [|reflexivity]. apply arms_ren.
        intros w' t ns Hc s'. rewrite Forall_forall in H. specialize (H _ Hc). cbn in H. rewrite Forall_forall in H. apply list_ren. intros n Hn s''. apply H, Hn.
      - rewrite Forall_forall in *. replace (match map rename els with [] => false | _ => true end) with (match els with [] => false | _ => true end) by (destruct els; reflexivity). apply loop_ext; intros s; apply list_ren; auto.
      - apply block_ren.
      - reflexivity.
      - rewrite Forall_forall in *. apply filter_ext. intros s. apply list_ren. auto.
    Qed.
    Lemma nodes_ren ns lv st : handle_nodes inp (ren_contexts contexts) find expand' (option_map ren_heritage her) (ren_context ctx) (map rename ns) lv st = handle_nodes inp contexts find expand her ctx ns lv st.
    Proof. unfold handle_nodes. apply gbind_both; [apply list_ren; intros; apply node_ren|]. reflexivity. Qed.
  End Step.
  Lemma handle_ren : forall fuel her ctx ns lv st, handle inp (ren_contexts contexts) find fuel (option_map ren_heritage her) (ren_context ctx) (map rename ns) lv st = handle inp contexts find fuel her ctx ns lv st.
  Proof. induction fuel as [|f IH]; intros her ctx ns lv st; [reflexivity|]. cbn [handle]. apply nodes_ren. exact IH. Qed.
  Lemma impl_ren fuel her ctx : impl_template inp (ren_contexts contexts) find fuel (option_map ren_heritage her) (ren_context ctx) = impl_template inp contexts find fuel her ctx.
  Proof. unfold impl_template. cbv zeta. apply gbind_both; [|reflexivity]. destruct her as [h|]; cbn [option_map]; [apply (handle_ren fuel (Some h) (h_root h) (c_nodes (h_root h)))|apply (handle_ren fuel None ctx (c_nodes ctx))]. Qed.
  Lemma from_ren fuel : build_from inp find fuel (ren_contexts contexts) = build_from inp find fuel contexts.
  Proof.
    unfold build_from. rewrite get_contexts. destruct (get (f_path inp) contexts) as [c|]; cbn [option_map]; [|reflexivity].
    set (R := fun c cs => let* h := heritage_new fuel cs c in match f_block inp with
                            | Some b => match get b (h_blocks h) with None => GErr (lit "cannot find block") | Some _ => GOk (Some h) end
                            | None => GOk (Some h) end).
    assert (ER : R (ren_context c) (ren_contexts contexts) = gm (option_map ren_heritage) (R c contexts)).
    { unfold R. rewrite heritage_new_ren. destruct (heritage_new fuel contexts c) as [h| | |]; cbn [gm gbind]; try reflexivity. destruct (f_block inp) as [b|]; [|reflexivity]. rewrite get_blocks. destruct (get b (h_blocks h)); reflexivity. }
    assert (T : match c_blocks (ren_context c), c_extends (ren_context c) with [], None => GOk None | _, _ => R (ren_context c) (ren_contexts contexts) end =
                gm (option_map ren_heritage) (match c_blocks c, c_extends c with [], None => GOk None | _, _ => R c contexts end)).
    { rewrite ER. cbn [ren_context c_blocks c_extends]. destruct (c_blocks c) as [|[k d] l]; cbn [mapk map]; [destruct (c_extends c); reflexivity|reflexivity]. }
    change (gbind (match c_blocks (ren_context c), c_extends (ren_context c) with [], None => GOk None | _, _ => R (ren_context c) (ren_contexts contexts) end) (fun her => impl_template inp (ren_contexts contexts) find fuel her (ren_context c)) =
            gbind (match c_blocks c, c_extends c with [], None => GOk None | _, _ => R c contexts end) (fun her => impl_template inp contexts find fuel her c)).
    rewrite T. destruct (match c_blocks c with [] => _ | _ :: _ => _ end) as [h|e| |]; cbn [gm gbind]; try reflexivity. apply impl_ren.
  Qed.
End Gen.

(** ** Building the contexts *)
Section New.
  Variables (find : str -> str -> res str) (path : str).
  Definition rm {A B} (f : A -> B) (x : res A) : res B := match x with Ok a => Ok (f a) | Err m => Err m | Panic => Panic end.
  Lemma node_named top n c : context_node find path top (rename n) (ren_context c) = rm (fun y => (ren_context (fst y), map (map rename) (snd y))) (context_node find path top n c).
  Proof.
    destruct n; cbn [rename context_node]; try reflexivity.
    - cbn [rm fst snd]. rewrite !map_map. do 2 f_equal. apply map_ext. intros [w' t ns]. reflexivity.
    - cbn [rm fst snd]. rewrite !map_map. do 2 f_equal. apply map_ext. intros [w' t ns]. reflexivity.
    - destruct top; [|reflexivity]. cbn [ren_context c_extends]. destruct (c_extends c); [reflexivity|]. destruct (find path0 path); reflexivity.
    - cbn [rm fst snd]. do 2 f_equal. unfold ren_context. cbn [c_nodes c_extends c_blocks c_macros c_imports]. rewrite <- (put_mapk idk ren_block) by apply id_inj. reflexivity.
    - destruct top; [|reflexivity]. destruct (find path0 path) as [p| |]; cbn [rbind rm fst snd]; try reflexivity. do 2 f_equal. unfold ren_context. cbn [c_nodes c_extends c_blocks c_macros c_imports]. rewrite <- (put_mapk q idk) by exact q_inj. reflexivity.
    - destruct top; [|reflexivity]. cbn [rm fst snd]. do 2 f_equal. unfold ren_context. cbn [c_nodes c_extends c_blocks c_macros c_imports]. rewrite <- (put_mapk r ren_macro) by exact r_inj. reflexivity.
  Qed.
  Lemma nodes_named top : forall ns c s, context_nodes find path top (map rename ns) (ren_context c) (map (map rename) s) = rm (fun y => (ren_context (fst y), map (map rename) (snd y))) (context_nodes find path top ns c s).
  Proof.
    induction ns as [|n ns IH]; intros c s; [reflexivity|]. cbn [map context_nodes]. rewrite node_named. destruct (context_node find path top n c) as [[c1 more]| |]; cbn [rm rbind fst snd]; try reflexivity.
    rewrite <- map_rev, <- map_app. apply IH.
  Qed.
  Lemma loop_named : forall f s f' top c, context_loop find f path top s c <> GFuel -> context_loop find f' path top (map (map rename) s) (ren_context c) <> GFuel ->
    context_loop find f' path top (map (map rename) s) (ren_context c) = gm ren_context (context_loop find f path top s c).
  Proof.
    induction f as [|f IH]; intros [|ns s] f' top c H1 H2; try (destruct f'; reflexivity); [destruct H1; reflexivity|]. destruct f' as [|f']; [destruct H2; reflexivity|]. cbn [map context_loop] in *. rewrite nodes_named in *.
    destruct (context_nodes find path top ns c s) as [[c1 s1]| |]; cbn [rm of_res gbind fst snd gm] in *; try reflexivity. apply IH; assumption.
  Qed.
  Lemma new_named ns : context_new find path (map rename ns) = gm ren_context (context_new find path ns).
  Proof.
    pose proof (context_new_ends find path ns) as E1. pose proof (context_new_ends find path (map rename ns)) as E2. unfold context_new in *.
    apply (loop_named _ [ns] _ true {| c_nodes := ns; c_extends := None; c_blocks := []; c_macros := []; c_imports := [] |}); assumption.
  Qed.
End New.
Definition rename_all (ts : list (str * list node)) : list (str * list node) := map (fun t => (fst t, map rename (snd t))) ts.
Lemma contexts_named find : forall ts, build_contexts find (rename_all ts) = gm ren_contexts (build_contexts find ts).
Proof.
  induction ts as [|[p ns] ts IH]; [reflexivity|]. cbn [rename_all map fst snd build_contexts]. rewrite new_named. destruct (context_new find p ns) as [c| | |]; cbn [gm gbind]; try reflexivity.
  change (map (fun t => (fst t, map rename (snd t))) ts) with (rename_all ts). rewrite IH. destruct (build_contexts find ts); reflexivity.
Qed.
End Names.

(** C74.  Macros and scopes may have any other names, as long as different ones get different names, in definitions and calls alike; only
    the name super is special.  The generated code is the same.  So is the kind of the error; some messages in
    generator.rs:573-604 hold the name, which the model leaves out of them. *)
Theorem C74_names r q inp find fuel ts : (forall x y, r x = r y -> x = y) -> (forall x y, q x = q y -> x = y) -> (forall x, r x = lit "super" <-> x = lit "super") ->
  build_template inp find fuel (rename_all r q ts) = build_template inp find fuel ts.
Proof.
  intros H1 H2 H3. change (gbind (build_contexts find (rename_all r q ts)) (build_from inp find fuel) = gbind (build_contexts find ts) (build_from inp find fuel)).
  rewrite contexts_named by assumption. destruct (build_contexts find ts) as [cs|m| |]; cbn [gm gbind]; try reflexivity. apply from_ren; assumption.
Qed.
Print Assumptions C74_names.

(** Every name but super gets one letter more *)
Definition C74_r (x : str) : str := if str_eqb x (lit "super") then x else 109 :: x.
Definition C74_q (x : str) : str := 115 :: x.
Lemma C74_r_super x : C74_r x = lit "super" <-> x = lit "super".
Proof. unfold C74_r. destruct (str_eqb x (lit "super")) eqn:E; [tauto|]. apply str_eqb_neq in E. split; [intros K; discriminate K|contradiction]. Qed.
Lemma C74_r_inj x y : C74_r x = C74_r y -> x = y.
Proof.
  intros H. destruct (str_eqb x (lit "super")) eqn:E.
  - apply str_eqb_eq in E. subst x. symmetry. apply C74_r_super. rewrite <- H. apply C74_r_super. reflexivity.
  - destruct (str_eqb y (lit "super")) eqn:F.
    + apply str_eqb_eq in F. subst y. apply C74_r_super. rewrite H. apply C74_r_super. reflexivity.
    + unfold C74_r in H. rewrite E, F in H. congruence.
Qed.
Definition C74_text (s : str) : node := NLit {| lws := []; lval := s; rws := [] |}.
Definition C74_inp : ginput := {| f_escaper := lit "::askama::Html"; f_escapers := []; f_json := false; f_ws := Preserve; f_block := None; f_path := lit "m" |}.
Definition C74_page : list node := [NExtends (lit "b"); NImport no_ws (lit "l") (lit "s"); NMacro no_ws (lit "hi") [lit "x"] [C74_text (lit "hi "); NExpr no_ws (Var (lit "x"))] no_ws;
  NBlockDef no_ws (lit "main") [NCall no_ws None (lit "super") []; NIf no_ws [Cond no_ws (Some {| ct_target := None; ct_expr := Var (lit "on") |}) [NCall no_ws (Some (lit "s")) (lit "hi") []]]; NCall no_ws None (lit "hi") [Var (lit "y")]] no_ws].
Definition C74_lib : list node := [NMacro no_ws (lit "hi") [] [C74_text (lit "from the library")] no_ws].
Definition C74_base : list node := [C74_text (lit "<"); NBlockDef no_ws (lit "main") [C74_text (lit "base")] no_ws; C74_text (lit ">")].
Definition C74_all : list (str * list node) := [(lit "m", C74_page); (lit "l", C74_lib); (lit "b", C74_base)].
Example C74_example :
  (rename_all C74_r C74_q C74_all <> C74_all) /\ build_template C74_inp (fun n _ => Ok n) 9 (rename_all C74_r C74_q C74_all) = build_template C74_inp (fun n _ => Ok n) 9 C74_all /\
  match build_template C74_inp (fun n _ => Ok n) 9 C74_all with GOk (c, _) => negb (Nat.eqb (length c) 0) | _ => false end = true.
Proof.
  split; [vm_compute; discriminate|]. split; [|vm_compute; reflexivity]. apply C74_names; [exact C74_r_inj| |exact C74_r_super]. intros x y H. unfold C74_q in H. congruence.
Qed.
(** Two macros must not get the same name. *)
Example C74_injective_example : exists ts, build_template C74_inp (fun n _ => Ok n) 9 (rename_all (fun _ => lit "a") C74_q ts) <> build_template C74_inp (fun n _ => Ok n) 9 ts.
Proof.
  exists [(lit "m", [NMacro no_ws (lit "a") [] [C74_text (lit "one")] no_ws; NMacro no_ws (lit "b") [] [C74_text (lit "two")] no_ws; NCall no_ws None (lit "a") []])].
  vm_compute. discriminate.
Qed.
