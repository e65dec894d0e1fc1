(** * Macros that are never called do not matter: C73.  No definition here models code in /repo. *)
From Coq Require Import ZArith Lia.
From Verif Require Import Base Ws Config Ast ParseNode GenExpr Heritage Gen HeritageSpec HeritageFacts RexprFacts PanicTop EndFacts TreeSpec Order OrderFacts.
From Verif Require GroupGen FlatFacts.
Local Open Scope N_scope.

Section Called.
(** The names that may be called *)
Variable U : str -> Prop.
(** Every call in a node is of such a name *)
Definition calls_known (n : node) : Prop := forall b b' m, inside b n b' m -> match m with NCall _ _ name _ => U name | _ => True end.
(** So it is for what stands at the top of a template, but for the bodies of macros with other names *)
Definition known_top (n : node) : Prop := match n with NMacro _ name _ body _ => U name -> Forall calls_known body | _ => calls_known n end.
(** The same node, or a macro of another name with other parameters, another body and other blank handling inside *)
Inductive rewritten : node -> node -> Prop :=
| rw_same n : known_top n -> rewritten n n
| rw_macro w1 w1' name args args' body body' w2 w2' : ~ U name -> ws_l w1' = ws_l w1 -> ws_r w2' = ws_r w2 -> rewritten (NMacro w1 name args body w2) (NMacro w1' name args' body' w2').
Definition rewritten_template (t t' : str * list node) : Prop := fst t = fst t' /\ Forall2 rewritten (snd t) (snd t').

Lemma known_child b n b' m : calls_known n -> child b n b' m -> calls_known m.
Proof. intros H C b1 b2 k K. destruct (GroupGen.inside_any _ _ _ _ K b') as [b3 K']. apply (H b b3). eapply in_child; eassumption. Qed.
Lemma known_is_top n : calls_known n -> known_top n.
Proof. intros H. destruct n; try exact H. intros _. apply Forall_forall. intros m Hm. eapply known_child; [exact H|apply (ch_macro false); exact Hm]. Qed.
Lemma known_rewritten ns : Forall calls_known ns -> Forall2 rewritten ns ns.
Proof. induction 1; constructor; auto. apply rw_same, known_is_top. assumption. Qed.

(** ** Contexts *)
Record near (c c' : context) : Prop := { n_nodes : Forall2 rewritten (c_nodes c) (c_nodes c'); n_extends : c_extends c = c_extends c'; n_blocks : c_blocks c = c_blocks c';
  n_known : forall k d, In (k, d) (c_blocks c) -> Forall calls_known (b_nodes d);
  n_macros : forall k, U k -> get k (c_macros c) = get k (c_macros c') /\ forall d, get k (c_macros c) = Some d -> Forall calls_known (k_nodes d);
  n_imports : c_imports c = c_imports c' }.
Lemma merge_near o o' c c' : near o o' -> near c c' -> near (merge_context o c) (merge_context o' c').
Proof.
  intros H1 H2. constructor; cbn [merge_context c_nodes c_extends c_blocks c_macros c_imports]; try apply H2.
  - intros k Hk. rewrite !get_merged. destruct (n_macros _ _ H2 k Hk) as [<- A2]. destruct (n_macros _ _ H1 k Hk) as [<- A1]. destruct (get k (c_macros c)); auto.
  - rewrite (n_imports _ _ H1), (n_imports _ _ H2). reflexivity.
Qed.
Definition near_def (x y : context * block_def) : Prop := near (fst x) (fst y) /\ snd x = snd y /\ Forall calls_known (b_nodes (snd x)).
Definition near_blocks (l l' : list (str * list (context * block_def))) : Prop := Forall2 (fun x y => fst x = fst y /\ Forall2 near_def (snd x) (snd y)) l l'.
Record near_heritage (h h' : heritage) : Prop := { n_root : near (h_root h) (h_root h'); n_all : near_blocks (h_blocks h) (h_blocks h') }.
Lemma near_get k l l' : near_blocks l l' -> orel (Forall2 near_def) (get k l) (get k l').
Proof. induction 1 as [|[q x] [q' x'] l l' [H1 H2] F IH]; [exact I|]. cbn [fst snd] in H1, H2. subst q'. cbn [get]. destruct (str_eqb k q); [exact H2|exact IH]. Qed.
Lemma near_put k x x' l l' : Forall2 near_def x x' -> near_blocks l l' -> near_blocks (put k x l) (put k x' l').
Proof.
  intros H. induction 1 as [|[q y] [q' y'] l l' [H1 H2] F IH]; [constructor; [split; [reflexivity|exact H]|constructor]|]. cbn [fst snd] in H1, H2. subst q'. cbn [put].
  destruct (str_eqb k q); (constructor; [split; [reflexivity|assumption]|]); [exact F|exact IH].
Qed.
Lemma near_push c c' : near c c' -> forall l bs bs', (forall k d, In (k, d) l -> Forall calls_known (b_nodes d)) -> near_blocks bs bs' ->
  near_blocks (fold_left (fun bs x => push_block c x bs) l bs) (fold_left (fun bs x => push_block c' x bs) l bs').
Proof.
  intros H. induction l as [|[k d] l IH]; intros bs bs' HK HB; [exact HB|]. cbn [fold_left]. apply IH; [intros k0 d0 Hk; apply (HK k0); right; exact Hk|].
  unfold push_block. cbn [fst snd]. assert (D : near_def (c, d) (c', d)) by (split; [exact H|split; [reflexivity|apply (HK k); left; reflexivity]]).
  apply near_put; [|exact HB]. pose proof (near_get k _ _ HB) as G. destruct (get k bs), (get k bs'); cbn [orel] in G; try contradiction; [apply Forall2_app; [exact G|]|]; (constructor; [exact D|constructor]).
Qed.
Section Contexts.
  Variables contexts contexts' : list (str * context).
  Hypothesis HC : forall p, orel near (get p contexts) (get p contexts').
  Lemma heritage_loop_near : forall fuel c c' bs bs', near c c' -> near_blocks bs bs' -> grel near_heritage (heritage_loop fuel contexts c bs) (heritage_loop fuel contexts' c' bs').
  Proof.
    induction fuel as [|f IH]; intros c c' bs bs' H1 H2; cbn [heritage_loop]; rewrite <- (n_extends _ _ H1); destruct (c_extends c) as [p|] eqn:EC; try (constructor; assumption); try exact I.
    pose proof (HC p) as K. destruct (get p contexts) as [d|], (get p contexts') as [d'|]; cbn [orel] in K; try contradiction; [|exact I]. apply IH; [exact K|].
    rewrite <- (n_blocks _ _ K). apply near_push; [exact K|apply K|exact H2].
  Qed.
  Lemma heritage_new_near fuel c c' : near c c' -> grel near_heritage (heritage_new fuel contexts c) (heritage_new fuel contexts' c').
  Proof.
    intros H. unfold heritage_new. apply heritage_loop_near; [exact H|]. rewrite <- (n_blocks _ _ H). pose proof (n_known _ _ H) as K. induction (c_blocks c) as [|[k d] l IH]; [constructor|]. cbn [map fst snd].
    constructor; [|apply IH; intros k0 d0 Hk; apply (K k0); right; exact Hk]. cbn [fst snd]. split; [reflexivity|]. constructor; [|constructor]. split; [exact H|split; [reflexivity|apply (K k); left; reflexivity]].
  Qed.
End Contexts.

(** ** The generator *)
Section Gen.
  Variables (inp : ginput) (contexts contexts' : list (str * context)) (find : str -> str -> res str).
  Hypothesis HC : forall p, orel near (get p contexts) (get p contexts').
  Hypothesis HL : length contexts = length contexts'.
  Section Step.
    Variables expand expand' : option heritage -> context -> list node -> level -> gst -> gres gen.
    Hypothesis HX : forall her her' ctx ctx' ns ns' lv st, orel near_heritage her her' -> near ctx ctx' -> Forall2 rewritten ns ns' -> expand her ctx ns lv st = expand' her' ctx' ns' lv st.
    Variables (her her' : option heritage) (ctx ctx' : context).
    Hypothesis HH : orel near_heritage her her'.
    Hypothesis HK : near ctx ctx'.
    Lemma block_near name outer st : write_block inp expand her ctx name outer st = write_block inp expand' her' ctx' name outer st.
    Proof.
      unfold write_block. apply gbind_ext. intros cur. apply gbind_ext. intros [[c z] s]. cbv zeta.
      destruct her as [h|] eqn:E1, her' as [h'|] eqn:E2; cbn [orel] in HH; try contradiction; [|reflexivity]. pose proof (near_get (fst cur) _ _ (n_all _ _ HH)) as K.
      destruct (get (fst cur) (h_blocks h)) as [l|], (get (fst cur) (h_blocks h')) as [l'|]; cbn [orel] in K; try contradiction; [|reflexivity].
      assert (N0 : orel near_def (nth_error l (snd cur)) (nth_error l' (snd cur))).
      { clear - K. revert l l' K. induction (snd cur) as [|n IH]; intros l l' K; destruct K; cbn [nth_error orel]; auto. }
      destruct (nth_error l (snd cur)) as [[cc d]|], (nth_error l' (snd cur)) as [[cc' d']|]; cbn [orel] in N0; try contradiction; [|reflexivity]. destruct N0 as (N1 & N2 & N3). cbn [fst snd] in N1, N2, N3. subst d'.
      apply gbind_both; [|reflexivity]. apply HX; [exact HH|apply merge_near; assumption|apply known_rewritten, N3].
    Qed.
    Lemma call_near w scope name args st : U name -> write_call inp contexts expand her ctx w scope name args st = write_call inp contexts' expand' her' ctx' w scope name args st.
    Proof.
      intros HU. unfold write_call. destruct (str_eqb name (lit "super")); [apply block_near|].
      set (T := fun x : macro_def * context => let (def, own_ctx) := x in
        let st := push_locals (do_flush_ws inp (ws_l w) st) in
        let* (before, _, st) := write_buf_writable inp st in let* _ := line st in
        let st := do_prepare_ws inp (ws_r (k_ws1 def)) (open_brace st) in
        if negb (Nat.eqb (length args) (length (k_args def))) then GErr (lit "macro expected a different number of arguments")
        else let* named := of_res (named_arguments (k_args def) (rev args) []) in
          let* (m, names, values) := of_res (bind_args inp named args (k_args def) O true (s_locals st)) in
          let st := set_locals m st in
          let* _ := match names with [] => GOk tt | _ => line st end in
          let* (body, z, st) := expand her own_ctx (k_nodes def) LNested st in
          let st := do_flush_ws inp (ws_l (k_ws2 def)) st in
          let* (after, z', st) := write_buf_writable inp st in
          let* st := close_brace st in let* st := pop_locals st in
          let st := do_prepare_ws inp (ws_r w) st in
          let bind := match names with [] => [] | _ => emit st [SLetTuple names values] end in
          GOk (before ++ emit_around st (SBlock (bind ++ body ++ after)) (body ++ after), z + z', st)).
      set (T' := fun x : macro_def * context => let (def, own_ctx) := x in
        let st := push_locals (do_flush_ws inp (ws_l w) st) in
        let* (before, _, st) := write_buf_writable inp st in let* _ := line st in
        let st := do_prepare_ws inp (ws_r (k_ws1 def)) (open_brace st) in
        if negb (Nat.eqb (length args) (length (k_args def))) then GErr (lit "macro expected a different number of arguments")
        else let* named := of_res (named_arguments (k_args def) (rev args) []) in
          let* (m, names, values) := of_res (bind_args inp named args (k_args def) O true (s_locals st)) in
          let st := set_locals m st in
          let* _ := match names with [] => GOk tt | _ => line st end in
          let* (body, z, st) := expand' her' own_ctx (k_nodes def) LNested st in
          let st := do_flush_ws inp (ws_l (k_ws2 def)) st in
          let* (after, z', st) := write_buf_writable inp st in
          let* st := close_brace st in let* st := pop_locals st in
          let st := do_prepare_ws inp (ws_r w) st in
          let bind := match names with [] => [] | _ => emit st [SLetTuple names values] end in
          GOk (before ++ emit_around st (SBlock (bind ++ body ++ after)) (body ++ after), z + z', st)).
      assert (K : forall def c c', near c c' -> Forall calls_known (k_nodes def) -> T (def, c) = T' (def, c')).
      { intros def c c' H HD. unfold T, T'. cbv zeta. apply gbind_ext. intros [[c0 z] s]. apply gbind_ext. intros u. destruct (negb (Nat.eqb (length args) (length (k_args def)))); [reflexivity|].
        apply gbind_ext. intros nm. apply gbind_ext. intros [[m ns] vs]. apply gbind_ext. intros u1. apply gbind_both; [apply HX; [exact HH|exact H|apply known_rewritten, HD]|]. reflexivity. }
      match goal with |- gbind ?r _ = gbind ?r' _ => change (gbind r T = gbind r' T') end. destruct scope as [x|].
      - rewrite <- (n_imports _ _ HK). destruct (get x (c_imports ctx)) as [path|]; [|reflexivity]. pose proof (HC path) as P.
        destruct (get path contexts) as [c|], (get path contexts') as [c'|]; cbn [orel] in P; try contradiction; [|reflexivity].
        destruct (n_macros _ _ P name HU) as [<- A]. destruct (get name (c_macros c)) as [d|]; [|reflexivity]. cbn [gbind]. apply K; [exact P|apply A; reflexivity].
      - destruct (n_macros _ _ HK name HU) as [<- A]. destruct (get name (c_macros ctx)) as [d|]; [|reflexivity]. cbn [gbind]. apply K; [exact HK|apply A; reflexivity].
    Qed.
    Lemma include_near w path st : write_include inp contexts find expand ctx w path st = write_include inp contexts' find expand' ctx' w path st.
    Proof.
      unfold write_include. apply gbind_ext. intros [[c0 z0] s0]. apply gbind_ext. intros p. apply gbind_ext. intros u. pose proof (HC p) as P.
      destruct (get p contexts) as [c|], (get p contexts') as [c'|]; cbn [orel] in P; try contradiction; [|reflexivity]. cbv zeta. pose proof (merge_near _ _ _ _ HK P) as M.
      assert (R : grel (orel near_heritage) (match c_blocks (merge_context ctx c), c_extends (merge_context ctx c) with [], None => GOk None
                    | _, _ => let* h := heritage_new (S (length contexts)) contexts (merge_context ctx c) in GOk (Some h) end)
                  (match c_blocks (merge_context ctx' c'), c_extends (merge_context ctx' c') with [], None => GOk None
                    | _, _ => let* h := heritage_new (S (length contexts')) contexts' (merge_context ctx' c') in GOk (Some h) end)).
      { assert (S : grel (orel near_heritage) (let* h := heritage_new (S (length contexts)) contexts (merge_context ctx c) in GOk (Some h)) (let* h := heritage_new (S (length contexts')) contexts' (merge_context ctx' c') in GOk (Some h))).
        { rewrite <- HL. eapply grel_bind; [apply heritage_new_near; [exact HC|exact M]|]. intros h h' Q. exact Q. }
        rewrite <- (n_blocks _ _ M), <- (n_extends _ _ M). destruct (c_blocks (merge_context ctx c)); [|exact S]. destruct (c_extends (merge_context ctx c)); [exact S|exact I]. }
      destruct (match c_blocks (merge_context ctx c) with [] => _ | _ :: _ => _ end) as [h|e| |], (match c_blocks (merge_context ctx' c') with [] => _ | _ :: _ => _ end) as [h'|e'| |];
        cbn [grel] in R; try contradiction; [|subst e'; reflexivity|reflexivity|reflexivity]. cbn [gbind].
      assert (Q : near match h with Some h0 => h_root h0 | None => merge_context ctx c end match h' with Some h0 => h_root h0 | None => merge_context ctx' c' end).
      { destruct h, h'; cbn [orel] in R; try contradiction; [apply R|exact M]. }
      apply gbind_both; [apply HX; [exact R|exact Q|apply Q]|]. reflexivity.
    Qed.
    Lemma node_near : forall n, calls_known n -> forall lv st, handle_node inp contexts find expand her ctx lv n st = handle_node inp contexts' find expand' her' ctx' lv n st.
    Proof.
      induction n using node_ind_all; intros G lv st; cbn [handle_node].
      - destruct n; try contradiction; cbn [handle_node]; try reflexivity; [apply call_near; exact (G false false _ (in_here _ _))|apply include_near].
      - apply gbind_both; [|reflexivity]. apply branches_ext. intros w' t ns Hc s. rewrite Forall_forall in H. specialize (H _ Hc). cbn in H. rewrite Forall_forall in H. apply list_ext. intros n Hn s'. apply H; [exact Hn|]. eapply known_child; [exact G|]. apply (ch_if false) with (1 := Hc). exact Hn.
      - apply gbind_ext. intros [[c z] s]. apply gbind_ext. intros r. apply gbind_ext. intros u. apply gbind_both; [|reflexivity]. apply arms_ext.
        intros w' t ns Hc s'. rewrite Forall_forall in H. specialize (H _ Hc). cbn in H. rewrite Forall_forall in H. apply list_ext. intros n Hn s''. apply H; [exact Hn|]. eapply known_child; [exact G|]. apply (ch_match false) with (1 := Hc). exact Hn.
      - rewrite Forall_forall in *. apply loop_ext; intros s; apply list_ext; intros n Hn s'; match goal with F : forall x, In x _ -> _ |- _ => apply F; [exact Hn|] end; (eapply known_child; [exact G|]); [apply (ch_body false)|apply (ch_else false)]; exact Hn.
      - apply block_near.
      - reflexivity.
      - rewrite Forall_forall in *. apply filter_ext. intros s. apply list_ext. intros n Hn s'. apply H; [exact Hn|]. eapply known_child; [exact G|]. apply (ch_filter false). exact Hn.
    Qed.
    Lemma top_near n n' : rewritten n n' -> forall lv st, handle_node inp contexts find expand her ctx lv n st = handle_node inp contexts' find expand' her' ctx' lv n' st.
    Proof.
      intros [m H|w1 w1' name args args' body body' w2 w2' _ H1 H2] lv st.
      - destruct m; try (apply node_near; exact H). reflexivity.
      - cbn [handle_node]. rewrite H1, H2. reflexivity.
    Qed.
    Lemma nodes_near ns ns' lv st : Forall2 rewritten ns ns' -> handle_nodes inp contexts find expand her ctx ns lv st = handle_nodes inp contexts' find expand' her' ctx' ns' lv st.
    Proof.
      intros F. unfold handle_nodes. apply gbind_both; [|reflexivity]. revert st. induction F as [|n n' ns ns' H F IH]; intros st; [reflexivity|]. cbn [gen_list].
      apply gbind_both; [apply top_near, H|]. intros [[c z] s]. apply gbind_both; [apply IH|]. reflexivity.
    Qed.
  End Step.
  Lemma handle_near : forall fuel her her' ctx ctx' ns ns' lv st, orel near_heritage her her' -> near ctx ctx' -> Forall2 rewritten ns ns' ->
    handle inp contexts find fuel her ctx ns lv st = handle inp contexts' find fuel her' ctx' ns' lv st.
  Proof. induction fuel as [|f IH]; intros her her' ctx ctx' ns ns' lv st H1 H2 H3; [reflexivity|]. cbn [handle]. apply nodes_near; assumption. Qed.
  Lemma impl_near fuel her her' ctx ctx' : orel near_heritage her her' -> near ctx ctx' -> impl_template inp contexts find fuel her ctx = impl_template inp contexts' find fuel her' ctx'.
  Proof.
    intros H1 H2. unfold impl_template. cbv zeta.
    assert (Q : near match her with Some h => h_root h | None => ctx end match her' with Some h => h_root h | None => ctx' end).
    { destruct her, her'; cbn [orel] in H1; try contradiction; [apply H1|exact H2]. }
    apply gbind_both; [apply handle_near; [assumption|assumption|apply Q]|]. reflexivity.
  Qed.
  Lemma from_near fuel : build_from inp find fuel contexts = build_from inp find fuel contexts'.
  Proof.
    unfold build_from. pose proof (HC (f_path inp)) as P. destruct (get (f_path inp) contexts) as [c|], (get (f_path inp) contexts') as [c'|]; cbn [orel] in P; try contradiction; [|reflexivity].
    set (R := fun c cs => let* h := heritage_new fuel cs c in match f_block inp with
                            | Some b => match get b (h_blocks h) with None => GErr (lit "cannot find block") | Some _ => GOk (Some h) end
                            | None => GOk (Some h) end).
    assert (S : grel (orel near_heritage) (R c contexts) (R c' contexts')).
    { unfold R. eapply grel_bind; [apply heritage_new_near; [exact HC|exact P]|]. intros h h' Q. destruct (f_block inp) as [b|]; [|exact Q]. pose proof (near_get b _ _ (n_all _ _ Q)) as K.
      destruct (get b (h_blocks h)), (get b (h_blocks h')); cbn [orel] in K; try contradiction; [exact Q|reflexivity]. }
    assert (T : grel (orel near_heritage) (match c_blocks c, c_extends c with [], None => GOk None | _, _ => R c contexts end) (match c_blocks c', c_extends c' with [], None => GOk None | _, _ => R c' contexts' end)).
    { rewrite <- (n_blocks _ _ P), <- (n_extends _ _ P). destruct (c_blocks c); [|exact S]. destruct (c_extends c); [exact S|exact I]. }
    change (gbind (match c_blocks c, c_extends c with [], None => GOk None | _, _ => R c contexts end) (fun her => impl_template inp contexts find fuel her c) =
            gbind (match c_blocks c', c_extends c' with [], None => GOk None | _, _ => R c' contexts' end) (fun her => impl_template inp contexts' find fuel her c')).
    destruct (match c_blocks c with [] => _ | _ :: _ => _ end) as [h|e| |], (match c_blocks c' with [] => _ | _ :: _ => _ end) as [h'|e'| |];
      cbn [grel] in T; try contradiction; [|subst e'; reflexivity|reflexivity|reflexivity]. cbn [gbind]. apply impl_near; assumption.
  Qed.
End Gen.

(** ** Building the contexts *)
Section New.
  Variables (find : str -> str -> res str) (path : str).
  Definition going (r r' : res (context * list (list node))) : Prop :=
    match r, r' with Ok (c, s), Ok (c', s') => near c c' /\ s = s' /\ Forall (Forall calls_known) s | Err m, Err m' => m = m' | Panic, Panic => True | _, _ => False end.
  Lemma node_going top n n' c c' : rewritten n n' -> near c c' -> going (context_node find path top n c) (context_node find path top n' c').
  Proof.
    intros [m H|w1 w1' name args args' body body' w2 w2' HU H1 H2] K.
    - assert (C : forall more, (match m with NMacro _ _ _ _ _ => False | _ => True end) -> (forall ns k, In ns more -> In k ns -> exists b b', child b m b' k) -> Forall (Forall calls_known) more).
      { intros more NM D. apply Forall_forall. intros ns Hn. apply Forall_forall. intros k Hk. destruct (D ns k Hn Hk) as (b & b' & Q). eapply known_child; [|exact Q]. destruct m; try exact H. contradiction. }
      destruct m; cbn [context_node]; try (split; [exact K|split; [reflexivity|apply Forall_nil]]).
      + split; [exact K|split; [reflexivity|]]. apply C; [exact I|]. intros ns k Hn Hk. apply in_map_iff in Hn as ([w' t body] & <- & Hc). exists false, false. eapply ch_if; eassumption.
      + split; [exact K|split; [reflexivity|]]. apply C; [exact I|]. intros ns k Hn Hk. apply in_map_iff in Hn as ([w' t body] & <- & Hc). exists false, false. eapply ch_match; eassumption.
      + split; [exact K|split; [reflexivity|]]. apply C; [exact I|]. intros ns k Hn Hk. destruct Hn as [<-|[<-|[]]]; exists false; eexists; [eapply ch_body; eassumption|eapply ch_else; eassumption].
      + destruct top; [|cbn; reflexivity]. rewrite <- (n_extends _ _ K). destruct (c_extends c); [cbn; reflexivity|]. destruct (find path0 path); cbn [rbind going]; auto. split; [|split; [reflexivity|constructor]].
        destruct K. constructor; cbn [c_nodes c_extends c_blocks c_macros c_imports]; auto.
      + assert (B : Forall (Forall calls_known) [nodes]) by (apply C; [exact I|]; intros ns k [<-|[]] Hk; exists false, false; apply ch_block; exact Hk).
        split; [|split; [reflexivity|exact B]]. pose proof (Forall_inv B) as B'. destruct K as [K1 K2 K3 K4 K5 K6]. constructor; cbn [c_nodes c_extends c_blocks c_macros c_imports]; auto; [rewrite K3; reflexivity|].
        intros k d Hk. apply FlatFacts.in_put in Hk as [Hk|[-> ->]]; [eapply K4; exact Hk|exact B'].
      + destruct top; [|cbn; reflexivity]. destruct (find path0 path); cbn [rbind going]; auto. split; [|split; [reflexivity|constructor]].
        destruct K as [K1 K2 K3 K4 K5 K6]. constructor; cbn [c_nodes c_extends c_blocks c_macros c_imports]; auto. rewrite K6. reflexivity.
      + destruct top; [|cbn; reflexivity]. split; [|split; [reflexivity|constructor]]. destruct K as [K1 K2 K3 K4 K5 K6]. constructor; cbn [c_nodes c_extends c_blocks c_macros c_imports]; auto.
        intros k Hk. rewrite !get_put. destruct (str_eqb k name) eqn:E; [|apply K5, Hk]. apply str_eqb_eq in E as ->. split; [reflexivity|]. intros d [= <-]. apply H, Hk.
    - cbn [context_node]. destruct top; [|cbn; reflexivity]. split; [|split; [reflexivity|constructor]]. destruct K as [K1 K2 K3 K4 K5 K6]. constructor; cbn [c_nodes c_extends c_blocks c_macros c_imports]; auto.
      intros k Hk. rewrite !get_put. destruct (str_eqb k name) eqn:E; [|apply K5, Hk]. apply str_eqb_eq in E as ->. contradiction.
  Qed.
  Lemma nodes_going top : forall ns ns', Forall2 rewritten ns ns' -> forall c c' s, near c c' -> Forall (Forall calls_known) s -> going (context_nodes find path top ns c s) (context_nodes find path top ns' c' s).
  Proof.
    induction 1 as [|n n' ns ns' H F IH]; intros c c' s K HS; cbn [context_nodes]; [split; [exact K|split; [reflexivity|exact HS]]|].
    pose proof (node_going top n n' c c' H K) as G. destruct (context_node find path top n c) as [[c1 more]|m|], (context_node find path top n' c') as [[c2 more']|m'|]; cbn [going] in G; try contradiction; cbn [rbind going]; auto.
    destruct G as (G1 & <- & G2). apply IH; [exact G1|]. apply Forall_app. split; [apply Forall_rev, G2|exact HS].
  Qed.
  Definition made (r r' : gres context) : Prop := match r, r' with GOk c, GOk c' => near c c' | GErr m, GErr m' => m = m' | GPanic, GPanic => True | _, _ => False end.
  Lemma loop_going : forall f s, Forall (Forall calls_known) s -> forall f' c c', near c c' -> context_loop find f path false s c <> GFuel -> context_loop find f' path false s c' <> GFuel ->
    made (context_loop find f path false s c) (context_loop find f' path false s c').
  Proof.
    induction f as [|f IH]; intros s HS f' c c' K H1 H2; destruct HS as [|ns s Hn HS]; try (destruct f'; exact K); try (destruct H1; reflexivity).
    destruct f' as [|f']; [destruct H2; reflexivity|]. cbn [context_loop] in *. pose proof (nodes_going false ns ns (known_rewritten ns Hn) c c' s K HS) as G.
    destruct (context_nodes find path false ns c s) as [[c1 s1]|m|], (context_nodes find path false ns c' s) as [[c2 s2]|m'|]; cbn [going] in G; try contradiction; cbn [of_res gbind made] in *; auto.
    destruct G as (G1 & <- & G2). apply IH; assumption.
  Qed.
  Lemma new_going ns ns' : Forall2 rewritten ns ns' -> made (context_new find path ns) (context_new find path ns').
  Proof.
    intros F. pose proof (context_new_ends find path ns) as E1. pose proof (context_new_ends find path ns') as E2. unfold context_new in *. cbn [context_loop] in *.
    assert (K : near {| c_nodes := ns; c_extends := None; c_blocks := []; c_macros := []; c_imports := [] |} {| c_nodes := ns'; c_extends := None; c_blocks := []; c_macros := []; c_imports := [] |}).
    { constructor; cbn [c_nodes c_extends c_blocks c_macros c_imports get]; auto; [intros k d []|]. intros k _. split; [reflexivity|discriminate]. }
    pose proof (nodes_going true ns ns' F _ _ [] K (Forall_nil _)) as G.
    destruct (context_nodes find path true ns _ []) as [[c1 s1]|m|], (context_nodes find path true ns' _ []) as [[c2 s2]|m'|]; cbn [going] in G; try contradiction; cbn [of_res gbind made] in *; auto.
    destruct G as (G1 & <- & G2). apply loop_going; assumption.
  Qed.
End New.
Definition all_made (r r' : gres (list (str * context))) : Prop :=
  match r, r' with GOk l, GOk l' => Forall2 (fun x y => fst x = fst y /\ near (snd x) (snd y)) l l' | GErr m, GErr m' => m = m' | GPanic, GPanic => True | _, _ => False end.
Lemma contexts_going find : forall ts ts', Forall2 rewritten_template ts ts' -> all_made (build_contexts find ts) (build_contexts find ts').
Proof.
  induction 1 as [|[p ns] [p' ns'] ts ts' [H1 H2] F IH]; [constructor|]. cbn [fst snd] in H1, H2. subst p'. cbn [build_contexts]. pose proof (new_going find p ns ns' H2) as K.
  destruct (context_new find p ns) as [c| | |], (context_new find p ns') as [c'| | |]; cbn [made] in K; try contradiction; cbn [gbind all_made]; auto.
  destruct (build_contexts find ts) as [l| | |], (build_contexts find ts') as [l'| | |]; cbn [all_made] in IH; try contradiction; cbn [gbind all_made]; auto.
Qed.
End Called.

(** C73.  For any set of names such that every call, but for those in macros of other names, is of a name in the set: macros of other
    names may have any other parameters and bodies, also wrong ones, and the result is the same. *)
Theorem C73_never_called U inp find fuel ts ts' : Forall2 (rewritten_template U) ts ts' -> build_template inp find fuel ts = build_template inp find fuel ts'.
Proof.
  intros F. pose proof (contexts_going U find ts ts' F) as K.
  change (gbind (build_contexts find ts) (build_from inp find fuel) = gbind (build_contexts find ts') (build_from inp find fuel)).
  destruct (build_contexts find ts) as [l|m| |], (build_contexts find ts') as [l'|m'| |]; cbn [all_made] in K; try contradiction; cbn [gbind]; [|congruence|reflexivity]. apply (from_near U).
  - intros p. clear F. induction K as [|[q c] [q' c'] l l' [H1 H2] K IH]; [exact I|]. cbn [fst snd] in H1, H2. subst q'. cbn [get]. destruct (str_eqb p q); [exact H2|exact IH].
  - clear F. induction K; cbn [length]; congruence.
Qed.
Print Assumptions C73_never_called.

(** ** Examples *)
Lemma known_leaf (U : str -> Prop) n : (match n with NLit _ | NExpr _ _ | NImport _ _ _ | NInclude _ _ => True | NCall _ _ name _ => U name | _ => False end) -> calls_known U n.
Proof. intros H b b' m K. inversion K as [|? ? ? ? ? ? C]; subst; [destruct m; try contradiction; exact H|]. destruct n; try contradiction; inversion C. Qed.
Lemma known_if (U : str -> Prop) w cs : (forall w' t ns n, In (Cond w' t ns) cs -> In n ns -> calls_known U n) -> calls_known U (NIf w cs).
Proof. intros H b b' m K. inversion K as [|? ? ? ? ? ? C]; subst; [exact I|]. inversion C; subst. eapply H; eassumption. Qed.
Definition C73_inp : ginput := {| f_escaper := lit "::askama::Html"; f_escapers := []; f_json := false; f_ws := Preserve; f_block := None; f_path := lit "m" |}.
Definition C73_text (s : str) : node := NLit {| lws := []; lval := s; rws := [] |}.
Definition C73_page : list node :=
  [NImport no_ws (lit "l") (lit "lib"); NIf no_ws [Cond no_ws (Some {| ct_target := None; ct_expr := Var (lit "on") |}) [NCall no_ws (Some (lit "lib")) (lit "used") [Var (lit "x")]]]].
Definition C73_lib (args : list str) (body : list node) : list node :=
  [NMacro no_ws (lit "helper") [] [C73_text (lit "help")] no_ws; NMacro no_ws (lit "used") [lit "a"] [NExpr no_ws (Var (lit "a")); NCall no_ws None (lit "helper") []] no_ws;
   NMacro no_ws (lit "dead") args body no_ws].
Definition C73_called (s : str) : Prop := In s [lit "used"; lit "helper"].
(** One body calls a macro that does not exist, the other calls itself. *)
Example C73_example :
  Forall2 (rewritten_template C73_called) [(lit "m", C73_page); (lit "l", C73_lib [] [NCall no_ws None (lit "nothing") []])]
    [(lit "m", C73_page); (lit "l", C73_lib [lit "b"] [NExpr no_ws (Var (lit "b")); NCall no_ws None (lit "dead") [Var (lit "b")]])] /\
  match build_template C73_inp (fun n _ => Ok n) 9 [(lit "m", C73_page); (lit "l", C73_lib [] [NCall no_ws None (lit "nothing") []])] with GOk (c, _) => negb (Nat.eqb (length c) 0) | _ => false end = true.
Proof.
  split; [|vm_compute; reflexivity]. constructor; [|constructor; [|constructor]]; (split; [reflexivity|]); cbn [snd].
  - constructor; [apply rw_same, known_leaf; exact I|]. constructor; [|constructor]. apply rw_same. apply known_if. intros w' t ns n [[= <- <- <-]|[]] [<-|[]]. apply known_leaf. left. reflexivity.
  - constructor; [|constructor; [|constructor; [|constructor]]].
    + apply rw_same. intros _. constructor; [apply known_leaf; exact I|constructor].
    + apply rw_same. intros _. constructor; [apply known_leaf; exact I|]. constructor; [apply known_leaf; right; left; reflexivity|constructor].
    + apply rw_macro; [|reflexivity|reflexivity]. intros [H|[H|[]]]; discriminate H.
Qed.
(** If the other macro is called, its body matters. *)
Example C73_called_example : build_template C73_inp (fun n _ => Ok n) 9 [(lit "m", NCall no_ws None (lit "dead") [] :: C73_lib [] [C73_text (lit "a")])] <>
  build_template C73_inp (fun n _ => Ok n) 9 [(lit "m", NCall no_ws None (lit "dead") [] :: C73_lib [] [C73_text (lit "b")])].
Proof. vm_compute. discriminate. Qed.
