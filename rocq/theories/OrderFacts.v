(** * Facts behind Prop_Maps.v: the generator looks at contexts and their maps by key only. *)
From Verif Require Import Base Ws Config Ast GenExpr Heritage Gen HeritageSpec HeritageFacts RexprFacts PanicTop EndFacts GenText Derive Order.
From Coq Require Import Permutation Lia.
Local Open Scope N_scope.

(** ** Maps by key *)
Definition alike {A} (l l' : list (str * A)) : Prop := forall k, get k l = get k l'.
Lemma in_get {A} k (v : A) l : NoDup (map fst l) -> In (k, v) l -> get k l = Some v.
Proof.
  induction l as [|[k' v'] l IH]; intros ND H; [destruct H|]. inversion ND as [|? ? H1 H2]; subst. cbn [get]. destruct H as [[= -> ->]|H]; [rewrite str_eqb_refl; reflexivity|].
  destruct (str_eqb k k') eqn:E; [|apply IH; assumption]. apply str_eqb_eq in E as ->. exfalso. apply H1. apply in_map_iff. exists (k', v). auto.
Qed.
Lemma reordered_nodup {A} (l l' : list (str * A)) : reordered l l' -> NoDup (map fst l').
Proof. intros [H1 H2]. eapply Permutation_NoDup; [apply Permutation_map, H2|exact H1]. Qed.
Lemma reordered_alike {A} (l l' : list (str * A)) : reordered l l' -> alike l l'.
Proof.
  intros R k. pose proof (reordered_nodup _ _ R) as ND'. destruct R as [ND P]. destruct (get k l) as [v|] eqn:E.
  - symmetry. apply in_get; [exact ND'|]. eapply Permutation_in; [exact P|apply get_in, E].
  - destruct (get k l') as [v|] eqn:E'; [|reflexivity]. apply get_in in E'. apply (Permutation_in _ (Permutation_sym P)) in E'. apply (in_get _ _ _ ND) in E'. congruence.
Qed.
Lemma alike_nil {A} (l l' : list (str * A)) : alike l l' -> (l = [] <-> l' = []).
Proof.
  intros H. split; intros ->.
  - destruct l' as [|[k v] l']; [reflexivity|]. specialize (H k). cbn [get] in H. rewrite str_eqb_refl in H. discriminate H.
  - destruct l as [|[k v] l]; [reflexivity|]. specialize (H k). cbn [get] in H. rewrite str_eqb_refl in H. discriminate H.
Qed.
Definition orel {A B} (R : A -> B -> Prop) (x : option A) (y : option B) : Prop :=
  match x, y with Some a, Some b => R a b | None, None => True | _, _ => False end.
(** Contexts that answer alike; the nodes of a template with a parent are not asked for *)
Record ceq (c c' : context) : Prop := {
  q_nodes : c_extends c = None -> c_nodes c = c_nodes c'; q_extends : c_extends c = c_extends c'; q_blocks : alike (c_blocks c) (c_blocks c');
  q_macros : alike (c_macros c) (c_macros c'); q_imports : alike (c_imports c) (c_imports c');
  q_nodup : NoDup (map fst (c_blocks c)); q_nodup' : NoDup (map fst (c_blocks c')) }.
Lemma same_ceq c c' : same_context c c' -> ceq c c'.
Proof.
  intros (H1 & H2 & H3 & H4 & H5). constructor; try assumption; try (apply reordered_alike; assumption); [intros _; exact H1|apply H3|apply (reordered_nodup _ _ H3)].
Qed.
Lemma merge_ceq o o' c c' : ceq o o' -> ceq c c' -> ceq (merge_context o c) (merge_context o' c').
Proof.
  intros H1 H2. constructor; cbn [merge_context c_nodes c_extends c_blocks c_macros c_imports]; try apply H2.
  - intros k. rewrite !get_merged. rewrite (q_macros _ _ H2), (q_macros _ _ H1). reflexivity.
  - intros k. rewrite !get_merged. rewrite (q_imports _ _ H2), (q_imports _ _ H1). reflexivity.
Qed.
Definition deq (x y : context * block_def) : Prop := ceq (fst x) (fst y) /\ snd x = snd y.
Definition beq (l l' : list (str * list (context * block_def))) : Prop := forall k, orel (Forall2 deq) (get k l) (get k l').
Record heq (h h' : heritage) : Prop := { q_last : c_extends (h_root h) = None; q_root : ceq (h_root h) (h_root h'); q_all : beq (h_blocks h) (h_blocks h') }.
Lemma get_pushed c : forall l bs k, NoDup (map fst l) ->
  get k (fold_left (fun bs x => push_block c x bs) l bs) =
  match get k l with None => get k bs | Some d => Some (match get k bs with Some o => o ++ [(c, d)] | None => [(c, d)] end) end.
Proof.
  induction l as [|[k' d] l IH]; intros bs k ND; [reflexivity|]. inversion ND as [|? ? H1 H2]; subst. cbn [fold_left get]. rewrite IH by exact H2.
  unfold push_block. cbn [fst snd]. rewrite get_put. destruct (str_eqb k k') eqn:E; [|reflexivity]. apply str_eqb_eq in E as ->.
  destruct (get k' l) as [v|] eqn:G; [exfalso; apply H1; apply get_in in G; apply in_map_iff; exists (k', v); auto|]. destruct (get k' bs); reflexivity.
Qed.
Definition grel {A B} (R : A -> B -> Prop) (x : gres A) (y : gres B) : Prop :=
  match x, y with GOk a, GOk b => R a b | GErr m, GErr m' => m = m' | GPanic, GPanic => True | GFuel, GFuel => True | _, _ => False end.
Lemma grel_bind {A B A' B'} (R : A -> A' -> Prop) (S : B -> B' -> Prop) x x' f f' : grel R x x' -> (forall a a', R a a' -> grel S (f a) (f' a')) -> grel S (gbind x f) (gbind x' f').
Proof. intros H K. destruct x, x'; cbn [grel gbind] in *; try contradiction; auto. Qed.
Section Contexts.
  Variables contexts contexts' : list (str * context).
  Hypothesis HC : forall p, orel ceq (get p contexts) (get p contexts').
  Lemma heritage_loop_eq : forall fuel c c' bs bs', ceq c c' -> beq bs bs' -> grel heq (heritage_loop fuel contexts c bs) (heritage_loop fuel contexts' c' bs').
  Proof.
    induction fuel as [|f IH]; intros c c' bs bs' H1 H2; cbn [heritage_loop]; rewrite <- (q_extends _ _ H1); destruct (c_extends c) as [p|] eqn:EC; try (constructor; assumption); try exact I.
    pose proof (HC p) as K. destruct (get p contexts) as [d|], (get p contexts') as [d'|]; cbn [orel] in K; try contradiction; [|exact I]. apply IH; [exact K|].
    intros k. rewrite !get_pushed by apply K. rewrite <- (q_blocks _ _ K k). specialize (H2 k). destruct (get k (c_blocks d)) as [x|]; [|exact H2].
    destruct (get k bs), (get k bs'); cbn [orel] in *; try contradiction; [apply Forall2_app; [exact H2|]|]; (constructor; [split; [exact K|reflexivity]|constructor]).
  Qed.
  Lemma heritage_new_eq fuel c c' : ceq c c' -> grel heq (heritage_new fuel contexts c) (heritage_new fuel contexts' c').
  Proof.
    intros H. unfold heritage_new. apply heritage_loop_eq; [exact H|]. intros k. rewrite !(get_map (fun d => [(_, d)])). rewrite <- (q_blocks _ _ H k).
    destruct (get k (c_blocks c)); cbn; [|exact I]. constructor; [split; [exact H|reflexivity]|constructor].
  Qed.
End Contexts.

(** ** The generator *)
Lemma gbind_ext {A B} (r : gres A) (f g : A -> gres B) : (forall a, f a = g a) -> gbind r f = gbind r g.
Proof. intros H. destruct r; cbn [gbind]; auto. Qed.
Lemma gbind_both {A B} (r r' : gres A) (f g : A -> gres B) : r = r' -> (forall a, f a = g a) -> gbind r f = gbind r' g.
Proof. intros <- H. apply gbind_ext, H. Qed.
Section Ext.
  Variable inp : ginput.
  Variables f g : node -> gst -> gres gen.
  Lemma list_ext : forall ns, (forall n, In n ns -> forall st, f n st = g n st) -> forall st, gen_list f ns st = gen_list g ns st.
  Proof.
    induction ns as [|n ns IH]; intros H st; cbn [gen_list]; [reflexivity|]. apply gbind_both; [apply H; left; reflexivity|]. intros [[c z] s].
    apply gbind_both; [apply IH; intros; apply H; right; assumption|]. reflexivity.
  Qed.
  Lemma branches_ext w : forall cs, (forall w' t ns, In (Cond w' t ns) cs -> forall st, gen_list f ns st = gen_list g ns st) ->
    forall first st, gen_branches inp f w first cs st = gen_branches inp g w first cs st.
  Proof.
    induction cs as [|[w' t ns] cs IH]; intros H first st; cbn [gen_branches]; [reflexivity|].
    apply gbind_ext. intros [[c z] s]. apply gbind_ext. intros s1. apply gbind_ext. intros [t' s2]. apply gbind_both; [eapply H; left; reflexivity|]. intros [[bd z'] s3].
    apply gbind_both; [apply IH; intros w0 t0 n0 K; eapply H; right; exact K|]. reflexivity.
  Qed.
  Lemma arms_ext w : forall cs, (forall w' t ns, In (When w' t ns) cs -> forall st, gen_list f ns st = gen_list g ns st) ->
    forall first st, gen_arms inp f w first cs st = gen_arms inp g w first cs st.
  Proof.
    induction cs as [|[w' t ns] cs IH]; intros H first st; cbn [gen_arms]; [reflexivity|].
    apply gbind_ext. intros [[c z] s]. apply gbind_ext. intros u. apply gbind_ext. intros [p m]. apply gbind_both; [eapply H; left; reflexivity|]. intros [[bd z'] s3].
    apply gbind_both; [apply IH; intros w0 t0 n0 K; eapply H; right; exact K|]. reflexivity.
  Qed.
End Ext.
Lemma loop_ext inp f f' l l' h w1 v it c w2 w3 st : (forall st, f st = f' st) -> (forall st, l st = l' st) -> write_loop inp f l h w1 v it c w2 w3 st = write_loop inp f' l' h w1 v it c w2 w3 st.
Proof.
  intros H1 H2. unfold write_loop. apply gbind_ext. intros r. apply gbind_ext. intros [[c0 z0] s0]. apply gbind_ext. intros u0. apply gbind_ext. intros u1. apply gbind_ext. intros [flt s1].
  apply gbind_ext. intros u2. apply gbind_ext. intros [p m]. apply gbind_ext. intros u3. apply gbind_both; [apply H1|]. intros [[c1 z1] s2]. apply gbind_ext. intros [[c1' z1'] s3].
  apply gbind_ext. intros s4. apply gbind_ext. intros s5. apply gbind_both; [|reflexivity]. destruct h; [|reflexivity]. apply gbind_ext. intros u4. apply gbind_both; [apply H2|]. reflexivity.
Qed.
Lemma filter_ext inp f f' w1 fn a w2 st : (forall st, f st = f' st) -> write_filter_block inp f w1 fn a w2 st = write_filter_block inp f' w1 fn a w2 st.
Proof. intros H. unfold write_filter_block. apply gbind_ext. intros var. apply gbind_both; [apply H|]. reflexivity. Qed.

Section Gen.
  Variables (inp : ginput) (contexts contexts' : list (str * context)) (find : str -> str -> res str).
  Hypothesis HC : forall p, orel ceq (get p contexts) (get p contexts').
  Hypothesis HL : length contexts = length contexts'.
  Section Step.
    Variables expand expand' : option heritage -> context -> list node -> level -> gst -> gres gen.
    Hypothesis HX : forall her her' ctx ctx' ns lv st, orel heq her her' -> ceq ctx ctx' -> expand her ctx ns lv st = expand' her' ctx' ns lv st.
    Variables (her her' : option heritage) (ctx ctx' : context).
    Hypothesis HH : orel heq her her'.
    Hypothesis HK : ceq ctx ctx'.
    Lemma block_ext name outer st : write_block inp expand her ctx name outer st = write_block inp expand' her' ctx' name outer st.
    Proof.
      unfold write_block. apply gbind_ext. intros cur. apply gbind_ext. intros [[c z] s]. cbv zeta.
      destruct her as [h|] eqn:E1, her' as [h'|] eqn:E2; cbn [orel] in HH; try contradiction; [|reflexivity]. pose proof (q_all _ _ HH (fst cur)) as K.
      destruct (get (fst cur) (h_blocks h)) as [l|], (get (fst cur) (h_blocks h')) as [l'|]; cbn [orel] in K; try contradiction; [|reflexivity].
      assert (N : orel deq (nth_error l (snd cur)) (nth_error l' (snd cur))).
      { clear - K. revert l l' K. induction (snd cur) as [|n IH]; intros l l' K; destruct K; cbn [nth_error orel]; auto. }
      destruct (nth_error l (snd cur)) as [[cc d]|], (nth_error l' (snd cur)) as [[cc' d']|]; cbn [orel] in N; try contradiction; [|reflexivity]. destruct N as [N1 N2]. cbn [fst snd] in N1, N2. subst d'.
      apply gbind_both; [|reflexivity]. apply HX; [exact HH|apply merge_ceq; assumption].
    Qed.
    Lemma call_ext w scope name args st : write_call inp contexts expand her ctx w scope name args st = write_call inp contexts' expand' her' ctx' w scope name args st.
    Proof.
      unfold write_call. destruct (str_eqb name (lit "super")); [apply block_ext|].
      set (T := fun x : macro_def * context => let (def, own_ctx) := x in
        let st := push_locals (do_flush_ws inp (ws_l w) st) in
        let* (before, _, st) := write_buf_writable inp st in let* _ := line st in
        let st := do_prepare_ws inp (ws_r (k_ws1 def)) (open_brace st) in
        if negb (Nat.eqb (length args) (length (k_args def))) then GErr (lit "macro expected a different number of arguments")
        else let* named := of_res (named_arguments (k_args def) (rev args) []) in
          let* (m, names, values) := of_res (bind_args inp named args (k_args def) O true (s_locals st)) in
          let st := set_locals m st in
          let* _ := match names with [] => GOk tt | _ => line st end in
          let* (body, z, st) := expand her own_ctx (k_nodes def) LNested st in
          let st := do_flush_ws inp (ws_l (k_ws2 def)) st in
          let* (after, z', st) := write_buf_writable inp st in
          let* st := close_brace st in let* st := pop_locals st in
          let st := do_prepare_ws inp (ws_r w) st in
          let bind := match names with [] => [] | _ => emit st [SLetTuple names values] end in
          GOk (before ++ emit_around st (SBlock (bind ++ body ++ after)) (body ++ after), z + z', st)).
      set (T' := fun x : macro_def * context => let (def, own_ctx) := x in
        let st := push_locals (do_flush_ws inp (ws_l w) st) in
        let* (before, _, st) := write_buf_writable inp st in let* _ := line st in
        let st := do_prepare_ws inp (ws_r (k_ws1 def)) (open_brace st) in
        if negb (Nat.eqb (length args) (length (k_args def))) then GErr (lit "macro expected a different number of arguments")
        else let* named := of_res (named_arguments (k_args def) (rev args) []) in
          let* (m, names, values) := of_res (bind_args inp named args (k_args def) O true (s_locals st)) in
          let st := set_locals m st in
          let* _ := match names with [] => GOk tt | _ => line st end in
          let* (body, z, st) := expand' her' own_ctx (k_nodes def) LNested st in
          let st := do_flush_ws inp (ws_l (k_ws2 def)) st in
          let* (after, z', st) := write_buf_writable inp st in
          let* st := close_brace st in let* st := pop_locals st in
          let st := do_prepare_ws inp (ws_r w) st in
          let bind := match names with [] => [] | _ => emit st [SLetTuple names values] end in
          GOk (before ++ emit_around st (SBlock (bind ++ body ++ after)) (body ++ after), z + z', st)).
      assert (K : forall def c c', ceq c c' -> T (def, c) = T' (def, c')).
      { intros def c c' H. unfold T, T'. cbv zeta. apply gbind_ext. intros [[c0 z] s]. apply gbind_ext. intros u. destruct (negb (Nat.eqb (length args) (length (k_args def)))); [reflexivity|].
        apply gbind_ext. intros nm. apply gbind_ext. intros [[m ns] vs]. apply gbind_ext. intros u1. apply gbind_both; [apply HX; assumption|]. reflexivity. }
      match goal with |- gbind ?r _ = gbind ?r' _ => change (gbind r T = gbind r' T') end. destruct scope as [x|].
      - rewrite <- (q_imports _ _ HK). destruct (get x (c_imports ctx)) as [path|]; [|reflexivity]. pose proof (HC path) as P.
        destruct (get path contexts) as [c|], (get path contexts') as [c'|]; cbn [orel] in P; try contradiction; [|reflexivity].
        rewrite <- (q_macros _ _ P). destruct (get name (c_macros c)); [|reflexivity]. cbn [gbind]. apply K, P.
      - rewrite <- (q_macros _ _ HK). destruct (get name (c_macros ctx)); [|reflexivity]. cbn [gbind]. apply K, HK.
    Qed.
    Lemma include_ext w path st : write_include inp contexts find expand ctx w path st = write_include inp contexts' find expand' ctx' w path st.
    Proof.
      unfold write_include. apply gbind_ext. intros [[c0 z0] s0]. apply gbind_ext. intros p. apply gbind_ext. intros u. pose proof (HC p) as P.
      destruct (get p contexts) as [c|], (get p contexts') as [c'|]; cbn [orel] in P; try contradiction; [|reflexivity]. cbv zeta. pose proof (merge_ceq _ _ _ _ HK P) as M.
      assert (R : grel (orel heq) (match c_blocks (merge_context ctx c), c_extends (merge_context ctx c) with [], None => GOk None
                    | _, _ => let* h := heritage_new (S (length contexts)) contexts (merge_context ctx c) in GOk (Some h) end)
                  (match c_blocks (merge_context ctx' c'), c_extends (merge_context ctx' c') with [], None => GOk None
                    | _, _ => let* h := heritage_new (S (length contexts')) contexts' (merge_context ctx' c') in GOk (Some h) end)).
      { assert (S : grel (orel heq) (let* h := heritage_new (S (length contexts)) contexts (merge_context ctx c) in GOk (Some h)) (let* h := heritage_new (S (length contexts')) contexts' (merge_context ctx' c') in GOk (Some h))).
        { rewrite <- HL. eapply grel_bind; [apply heritage_new_eq; [exact HC|exact M]|]. intros h h' Q. exact Q. }
        pose proof (alike_nil _ _ (q_blocks _ _ M)) as [N1 N2]. rewrite <- (q_extends _ _ M).
        destruct (c_blocks (merge_context ctx c)) as [|x l]; [rewrite (N1 eq_refl)|destruct (c_blocks (merge_context ctx' c')); [discriminate (N2 eq_refl)|exact S]].
        destruct (c_extends (merge_context ctx c)); [exact S|exact I]. }
      destruct (match c_blocks (merge_context ctx c) with [] => _ | _ :: _ => _ end) as [h|e| |] eqn:EH, (match c_blocks (merge_context ctx' c') with [] => _ | _ :: _ => _ end) as [h'|e'| |];
        cbn [grel] in R; try contradiction; [|subst e'; reflexivity|reflexivity|reflexivity]. cbn [gbind].
      assert (Q : ceq match h with Some h0 => h_root h0 | None => merge_context ctx c end match h' with Some h0 => h_root h0 | None => merge_context ctx' c' end).
      { destruct h, h'; cbn [orel] in R; try contradiction; [apply R|exact M]. }
      assert (E : c_extends match h with Some h0 => h_root h0 | None => merge_context ctx c end = None).
      { destruct h as [h|], h' as [h'|]; cbn [orel] in R; try contradiction; [apply R|]. destruct (c_blocks (merge_context ctx c)) as [|x l]; [destruct (c_extends (merge_context ctx c)); [|reflexivity]|];
          apply gbind_inv in EH as (h0 & _ & EH); discriminate EH. }
      rewrite <- (q_nodes _ _ Q E). apply gbind_both; [apply HX; [exact R|exact Q]|]. reflexivity.
    Qed.
    Lemma node_ext : forall n lv st, handle_node inp contexts find expand her ctx lv n st = handle_node inp contexts' find expand' her' ctx' lv n st.
    Proof.
      induction n using node_ind_all; intros lv st; cbn [handle_node].
      - destruct n; try contradiction; cbn [handle_node]; try reflexivity; [apply call_ext|apply include_ext].
      - apply gbind_both; [|reflexivity]. apply branches_ext. intros w' t ns Hc s. rewrite Forall_forall in H. specialize (H _ Hc). cbn in H. rewrite Forall_forall in H. apply list_ext. intros n Hn s'. apply H, Hn.
      - apply gbind_ext. intros [[c z] s]. apply gbind_ext. intros r. apply gbind_ext. intros u. apply gbind_both; [|reflexivity]. apply arms_ext.
        intros w' t ns Hc s'. rewrite Forall_forall in H. specialize (H _ Hc). cbn in H. rewrite Forall_forall in H. apply list_ext. intros n Hn s''. apply H, Hn.
      - rewrite Forall_forall in *. apply loop_ext; intros s; apply list_ext; auto.
      - apply block_ext.
      - reflexivity.
      - rewrite Forall_forall in *. apply filter_ext. intros s. apply list_ext. auto.
    Qed.
    Lemma nodes_ext ns lv st : handle_nodes inp contexts find expand her ctx ns lv st = handle_nodes inp contexts' find expand' her' ctx' ns lv st.
    Proof. unfold handle_nodes. apply gbind_both; [apply list_ext; intros; apply node_ext|]. reflexivity. Qed.
  End Step.
  Lemma handle_ext : forall fuel her her' ctx ctx' ns lv st, orel heq her her' -> ceq ctx ctx' -> handle inp contexts find fuel her ctx ns lv st = handle inp contexts' find fuel her' ctx' ns lv st.
  Proof. induction fuel as [|f IH]; intros her her' ctx ctx' ns lv st H1 H2; [reflexivity|]. cbn [handle]. apply nodes_ext; assumption. Qed.
  Lemma impl_ext fuel her her' ctx ctx' : (her = None -> c_extends ctx = None) -> orel heq her her' -> ceq ctx ctx' -> impl_template inp contexts find fuel her ctx = impl_template inp contexts' find fuel her' ctx'.
  Proof.
    intros H0 H1 H2. unfold impl_template. cbv zeta.
    assert (Q : ceq match her with Some h => h_root h | None => ctx end match her' with Some h => h_root h | None => ctx' end).
    { destruct her, her'; cbn [orel] in H1; try contradiction; [apply H1|exact H2]. }
    assert (E : c_extends match her with Some h => h_root h | None => ctx end = None) by (destruct her, her'; cbn [orel] in H1; try contradiction; [apply H1|apply H0; reflexivity]).
    rewrite <- (q_nodes _ _ Q E). apply gbind_both; [apply handle_ext; assumption|]. reflexivity.
  Qed.
  Lemma from_ext fuel : build_from inp find fuel contexts = build_from inp find fuel contexts'.
  Proof.
    unfold build_from. pose proof (HC (f_path inp)) as P. destruct (get (f_path inp) contexts) as [c|], (get (f_path inp) contexts') as [c'|]; cbn [orel] in P; try contradiction; [|reflexivity].
    set (R := fun c cs => let* h := heritage_new fuel cs c in match f_block inp with
                            | Some b => match get b (h_blocks h) with None => GErr (lit "cannot find block") | Some _ => GOk (Some h) end
                            | None => GOk (Some h) end).
    assert (S : grel (orel heq) (R c contexts) (R c' contexts')).
    { unfold R. eapply grel_bind; [apply heritage_new_eq; [exact HC|exact P]|]. intros h h' Q. destruct (f_block inp) as [b|]; [|exact Q]. pose proof (q_all _ _ Q b) as K.
      destruct (get b (h_blocks h)), (get b (h_blocks h')); cbn [orel] in K; try contradiction; [exact Q|reflexivity]. }
    assert (T : grel (orel heq) (match c_blocks c, c_extends c with [], None => GOk None | _, _ => R c contexts end) (match c_blocks c', c_extends c' with [], None => GOk None | _, _ => R c' contexts' end)).
    { pose proof (alike_nil _ _ (q_blocks _ _ P)) as [N1 N2]. rewrite <- (q_extends _ _ P).
      destruct (c_blocks c) as [|x l]; [rewrite (N1 eq_refl)|destruct (c_blocks c'); [discriminate (N2 eq_refl)|exact S]]. destruct (c_extends c); [exact S|exact I]. }
    change (gbind (match c_blocks c, c_extends c with [], None => GOk None | _, _ => R c contexts end) (fun her => impl_template inp contexts find fuel her c) =
            gbind (match c_blocks c', c_extends c' with [], None => GOk None | _, _ => R c' contexts' end) (fun her => impl_template inp contexts' find fuel her c')).
    destruct (match c_blocks c with [] => _ | _ :: _ => _ end) as [h|e| |] eqn:EH, (match c_blocks c' with [] => _ | _ :: _ => _ end) as [h'|e'| |];
      cbn [grel] in T; try contradiction; [|subst e'; reflexivity|reflexivity|reflexivity]. cbn [gbind]. apply impl_ext; try assumption.
    intros ->. destruct (c_blocks c) as [|x l]; [destruct (c_extends c); [|reflexivity]|]; unfold R in EH; apply gbind_inv in EH as (h0 & _ & EH); cbv beta in EH;
      (destruct (f_block inp) as [b0|]; [destruct (get b0 (h_blocks h0))|]; discriminate EH).
  Qed.
End Gen.
Lemma same_contexts_eq inp find fuel cs cs' : same_contexts cs cs' -> build_from inp find fuel cs = build_from inp find fuel cs'.
Proof.
  intros (m & R & F). apply from_ext.
  - intros p. rewrite (reordered_alike _ _ R p). clear R. induction F as [|[k c] [k' c'] l l' [H1 H2] F IH]; [exact I|]. cbn [fst snd] in H1, H2. subst k'. cbn [get].
    destruct (str_eqb p k); [apply same_ceq, H2|exact IH].
  - destruct R as [_ P]. rewrite (Permutation_length P). clear - F. induction F; cbn [length]; congruence.
Qed.

(** ** Building the contexts *)
Lemma contexts_keys find : forall ts cs, build_contexts find ts = GOk cs -> map fst cs = map fst ts.
Proof.
  induction ts as [|[p ns] ts IH]; intros cs E; cbn [build_contexts] in E; [injection E as <-; reflexivity|].
  apply gbind_inv in E as (c & _ & E). apply gbind_inv in E as (cs' & E & Q). injection Q as <-. cbn [map fst]. f_equal. apply IH, E.
Qed.
Lemma contexts_permuted find ts ts' : Permutation ts ts' -> forall cs, build_contexts find ts = GOk cs -> exists cs', build_contexts find ts' = GOk cs' /\ Permutation cs cs'.
Proof.
  induction 1 as [|[p ns] ts ts' H IH|[p ns] [p' ns'] ts|ts ts1 ts2 H1 IH1 H2 IH2]; intros cs E.
  - exists cs. auto.
  - cbn [build_contexts] in E |- *. apply gbind_inv in E as (c & E1 & E). apply gbind_inv in E as (l & E2 & E). injection E as <-. destruct (IH l E2) as (l' & E3 & P).
    rewrite E1. cbn [gbind]. rewrite E3. exists ((p, c) :: l'). split; [reflexivity|constructor; exact P].
  - cbn [build_contexts] in E |- *. apply gbind_inv in E as (c & E1 & E). apply gbind_inv in E as (l & E2 & E). injection E as <-. apply gbind_inv in E2 as (c' & E3 & E2). apply gbind_inv in E2 as (l' & E4 & E2).
    injection E2 as <-. rewrite E3. cbn [gbind]. rewrite E1. cbn [gbind]. rewrite E4. eexists. split; [reflexivity|constructor].
  - destruct (IH1 cs E) as (cs1 & E1 & P1). destruct (IH2 cs1 E1) as (cs2 & E2 & P2). exists cs2. split; [exact E2|]. eapply Permutation_trans; eassumption.
Qed.
Definition keyed (c : context) : Prop := NoDup (map fst (c_blocks c)) /\ NoDup (map fst (c_macros c)) /\ NoDup (map fst (c_imports c)).
Lemma node_keyed find path top n c c' more : keyed c -> context_node find path top n c = Ok (c', more) -> keyed c'.
Proof.
  intros (H1 & H2 & H3) E. destruct n; cbn [context_node] in E; try (injection E as <- <-; split; [assumption|split; assumption]).
  - destruct top; [|discriminate E]. destruct (c_extends c); [discriminate E|]. apply rbind_inv in E as (q & _ & E). injection E as <- <-. split; [assumption|split; assumption].
  - injection E as <- <-. split; [apply put_NoDup; assumption|split; assumption].
  - destruct top; [|discriminate E]. apply rbind_inv in E as (q & _ & E). injection E as <- <-. split; [assumption|split; [assumption|]]. apply put_NoDup. assumption.
  - destruct top; [|discriminate E]. injection E as <- <-. split; [assumption|split; [|assumption]]. apply put_NoDup. assumption.
Qed.
Lemma nodes_keyed find path top : forall ns c stack c' stack', keyed c -> context_nodes find path top ns c stack = Ok (c', stack') -> keyed c'.
Proof.
  induction ns as [|n ns IH]; intros c stack c' stack' H E; cbn [context_nodes] in E; [injection E as <- <-; exact H|].
  apply rbind_inv in E as ([c1 more] & E1 & E). eapply IH; [eapply node_keyed; [exact H|exact E1]|exact E].
Qed.
Lemma loop_keyed find path : forall fuel top stack c c', keyed c -> context_loop find fuel path top stack c = GOk c' -> keyed c'.
Proof.
  induction fuel as [|f IH]; intros top [|ns stack] c c' H E; cbn [context_loop] in E; try discriminate E; try (injection E as <-; exact H).
  apply gbind_inv in E as ([c1 st1] & E1 & E). apply of_res_inv in E1. eapply IH; [eapply nodes_keyed; [exact H|exact E1]|exact E].
Qed.
Lemma contexts_keyed find : forall ts cs, build_contexts find ts = GOk cs -> Forall (fun x => keyed (snd x)) cs.
Proof.
  induction ts as [|[p ns] ts IH]; intros cs E; cbn [build_contexts] in E; [injection E as <-; constructor|].
  apply gbind_inv in E as (c & E1 & E). apply gbind_inv in E as (cs' & E2 & E). injection E as <-. constructor; [|apply IH, E2].
  cbn [snd]. eapply loop_keyed; [|exact E1]. split; [constructor|split; constructor].
Qed.
Lemma keyed_same c : keyed c -> same_context c c.
Proof. intros (H1 & H2 & H3). repeat split; auto using Permutation_refl. Qed.
(** The contexts of reordered templates are the same contexts, reordered. *)
Lemma made_same find ts ts' cs : reordered ts ts' -> build_contexts find ts = GOk cs -> exists cs', build_contexts find ts' = GOk cs' /\ same_contexts cs cs' /\ same_contexts cs' cs.
Proof.
  intros [ND P] E. destruct (contexts_permuted find ts ts' P cs E) as (cs' & E' & P'). exists cs'. split; [exact E'|].
  assert (N : NoDup (map fst cs)) by (rewrite (contexts_keys _ _ _ E); exact ND).
  assert (N' : NoDup (map fst cs')) by (eapply Permutation_NoDup; [apply Permutation_map, P'|exact N]).
  assert (F : forall l : list (str * context), Forall (fun x => keyed (snd x)) l -> Forall2 (fun x y => fst x = fst y /\ same_context (snd x) (snd y)) l l).
  { induction 1; constructor; auto. split; [reflexivity|apply keyed_same; assumption]. }
  split; [exists cs'|exists cs]; (split; [split; [assumption|auto using Permutation_sym]|apply F; eapply contexts_keyed; eassumption]).
Qed.
Lemma same_keys cs cs' : same_contexts cs cs' -> Permutation (map fst cs) (map fst cs').
Proof.
  intros (m & [_ P] & F). eapply Permutation_trans; [apply Permutation_map, P|]. clear P. induction F as [|x y l l' [H _] F IH]; cbn [map]; [constructor|]. rewrite H. constructor. exact IH.
Qed.
(** ** The search for templates *)
Section Used.
  Variables (find : str -> str -> res str) (load : str -> res str) (parse : str -> res (list node)).
  Definition listed (st : fstate) : Prop := NoDup (map fst (u_map st)).
  Lemma add_listed p st st' : listed st -> add_to_check load p st = Ok st' -> listed st'.
  Proof.
    intros H E. unfold add_to_check in E. destruct (get p (u_map st)); [injection E as <-; exact H|]. apply rbind_inv in E as (src & _ & E). injection E as <-. apply put_NoDup, H.
  Qed.
  Lemma node_listed path top n st st' more : listed st -> used_node find load path top n st = Ok (st', more) -> listed st'.
  Proof.
    intros H E. destruct n; cbn [used_node] in E; try (injection E as <- <-; exact H).
    - destruct top; [|injection E as <- <-; exact H]. apply rbind_inv in E as (q & _ & E). destruct (str_eqb path q); [discriminate E|]. destruct (existsb _ _); [discriminate E|].
      apply rbind_inv in E as (s & E1 & E). injection E as <- <-. eapply add_listed; [|exact E1]. exact H.
    - apply rbind_inv in E as (q & _ & E). apply rbind_inv in E as (s & E1 & E). injection E as <- <-. eapply add_listed; eassumption.
    - destruct top; [|injection E as <- <-; exact H]. apply rbind_inv in E as (q & _ & E). apply rbind_inv in E as (s & E1 & E). injection E as <- <-. eapply add_listed; eassumption.
  Qed.
  Lemma nodes_listed path top : forall ns st stack st' stack', listed st -> used_nodes find load path top ns st stack = Ok (st', stack') -> listed st'.
  Proof.
    induction ns as [|n ns IH]; intros st stack st' stack' H E; cbn [used_nodes] in E; [injection E as <- <-; exact H|].
    apply rbind_inv in E as ([s1 more] & E1 & E). eapply IH; [eapply node_listed; [exact H|exact E1]|exact E].
  Qed.
  Lemma file_listed path : forall fuel top stack st st', listed st -> used_file find load fuel path top stack st = GOk st' -> listed st'.
  Proof.
    induction fuel as [|f IH]; intros top [|ns stack] st st' H E; cbn [used_file] in E; try discriminate E; try (injection E as <-; exact H).
    apply gbind_inv in E as ([s1 st1] & E1 & E). apply of_res_inv in E1. eapply IH; [eapply nodes_listed; [exact H|exact E1]|exact E].
  Qed.
  Lemma loop_listed : forall fuel st l, listed st -> used_loop find load parse fuel st = GOk l -> NoDup (map fst l).
  Proof.
    induction fuel as [|f IH]; intros st l H E; cbn [used_loop] in E; destruct (u_check st) as [|[path src] check]; try discriminate E; try (injection E as <-; exact H).
    apply gbind_inv in E as (nodes & _ & E). apply gbind_inv in E as (s & E1 & E). eapply IH; [|exact E]. apply put_NoDup. eapply file_listed; [|exact E1]. exact H.
  Qed.
  Lemma used_listed fuel path src l : find_used_templates find load parse fuel path src = GOk l -> NoDup (map fst l).
  Proof. intros E. eapply loop_listed; [|exact E]. constructor. Qed.
End Used.
(** ** Paths *)
Lemma paths_permuted w inline own ps ps' : Permutation ps ps' -> forall r, canonical_paths w inline own ps = Ok r -> exists r', canonical_paths w inline own ps' = Ok r' /\ Permutation r r'.
Proof.
  induction 1 as [|p ps ps' H IH|p q ps|ps ps1 ps2 H1 IH1 H2 IH2]; intros r E.
  - exists r. auto.
  - cbn [canonical_paths] in E |- *. destruct (inline && str_eqb p own); [apply IH, E|]. destruct (o_canonical w p) as [c|]; [|discriminate E].
    apply rbind_inv in E as (l & E1 & E). injection E as <-. destruct (IH l E1) as (l' & E2 & P). rewrite E2. exists (c :: l'). split; [reflexivity|constructor; exact P].
  - cbn [canonical_paths] in E |- *. destruct (inline && str_eqb p own), (inline && str_eqb q own); try (exists r; split; [exact E|apply Permutation_refl]);
      destruct (o_canonical w q) as [d|], (o_canonical w p) as [c|]; try discriminate E; cbn [rbind] in E |- *; destruct (canonical_paths w inline own ps) as [l| |]; cbn [rbind] in E |- *; try discriminate E; injection E as <-; eexists; (split; [reflexivity|]); auto using Permutation_refl, perm_swap.
  - destruct (IH1 r E) as (r1 & E1 & P1). destruct (IH2 r1 E1) as (r2 & E2 & P2). exists r2. split; [exact E2|]. eapply Permutation_trans; eassumption.
Qed.
