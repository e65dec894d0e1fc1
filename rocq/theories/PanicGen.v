(** * The generator does not panic on templates that satisfy the conditions of PanicSpec.v: nodes, contexts, whole templates. *)
From Verif Require Import Base Ws Ast Ident IdentFacts GenExpr Heritage Gen HeritageSpec HeritageFacts SimExpr GenElab TreeSpec ParseSpec ApartFacts PanicSpec PanicFacts.
From Verif Require FlatFacts.
From Coq Require Import Lia ZArith ZifyBool ZifyNat ZifyN.
Local Open Scope N_scope.

(** ** Macro arguments *)
Section Args.
  Variable inp : ginput.
  Definition named_fed (l : list (str * expr)) : Prop := forall k e, get k l = Some e -> fed e = true.
  Lemma named_ok defs l : forall acc, forallb fed l = true -> named_fed acc -> rsafe (named_arguments defs l acc) named_fed.
  Proof.
    induction l as [|e l IH]; intros acc F A; [exact A|]. cbn [named_arguments]. destruct e; try exact A. destruct (mem_str name defs); [|exact I].
    cbn [forallb] in F. apply andb_true_iff in F as [F1 F2]. apply IH; [exact F2|]. intros k v G. rewrite get_put in G. destruct (str_eqb k name); [injection G as <-; exact F1|exact (A _ _ G)].
  Qed.
  Lemma bind_ok named args : named_fed named -> forallb fed args = true -> forall params index positional m,
    (index + length params = length args)%nat -> (1 <= depth m)%nat ->
    rsafe (bind_args inp named args params index positional m) (fun x => depth (fst (fst x)) = depth m).
  Proof.
    intros HN HA. induction params as [|p params IH]; intros index positional m L D; [reflexivity|]. cbn [bind_args length] in *.
    eapply rsafe_bind with (Q := fun x => fed (fst x) = true).
    { destruct (get p named) as [e|] eqn:G; [exact (HN _ _ G)|]. destruct positional; [|exact I].
      destruct (nth_error args index) as [e|] eqn:N; [|apply nth_error_None in N; lia]. apply nth_error_In in N. exact (forallb_all _ _ HA _ N). }
    cbn beta. intros [e positional'] F. cbn [fst] in F.
    assert (K : forall pos v, rsafe (let! m' := ch_insert m p v in bind_args inp named args params (S index) pos m') (fun x => depth (fst (fst x)) = depth m)).
    { intros pos v. eapply rsafe_bind; [apply insert_ok, D|]. cbn beta. intros m' E. rewrite <- E. apply IH; lia. }
    assert (BV : rsafe (let! r := visit_expr_root inp m e in let! m' := ch_insert m p m_default in
       let! (m'', names, values) := bind_args inp named args params (S index) positional' m' in Ok (m'', p :: names, r :: values)) (fun x => depth (fst (fst x)) = depth m)).
    { eapply rsafe_bind; [apply root_ok, F|]. intros r _. eapply rsafe_bind; [apply insert_ok, D|]. cbn beta. intros m' E.
      eapply rsafe_bind; [apply IH; lia|]. cbn beta. intros [[m'' names] values] E'. cbn [fst] in *. cbn. lia. }
    destruct e; try exact BV.
    - destruct (str_eqb s (lit "self")); [exact BV|]. apply K.
    - eapply rsafe_bind; [apply fed_ok, F|]. intros [r w] _. apply K.
  Qed.
End Args.

Lemma apart_cons n l : apart (n :: l) = true -> apart l = true /\ (is_lit n = true -> match l with m :: _ => is_lit m = false | [] => True end).
Proof.
  cbn [apart]. intros H. apply andb_true_iff in H as [H1 H2]. split; [exact H2|]. intros E. rewrite E in H1. cbn [andb] in H1.
  destruct l as [|m l]; [exact I|]. destruct (is_lit m); [discriminate H1|reflexivity].
Qed.

Section Nodes.
  Variable inp : ginput.
  Variable contexts : list (str * context).
  Variable find : str -> str -> res str.
  Variable D : N.
  Hypothesis Hfind : forall a b, find a b <> Panic.
  Definition inc (p : str) : Prop := forall q, find p (f_path inp) = Ok q -> get q contexts <> None.
  Definition good (ns : list node) : Prop := calm_list inc ns /\ nestl ns <= D.
  Record ctx_calm (c : context) : Prop := {
    cc_nodes : good (c_nodes c);
    cc_top : c_extends c = None -> forall q, ~ In (NExtends q) (c_nodes c);
    cc_blocks : forall x d, In (x, d) (c_blocks c) -> good (b_nodes d);
    cc_macros : forall x d, In (x, d) (c_macros c) -> good (k_nodes d) /\ names_of (k_nodes d) = [] }.
  (** The blocks that a context renders are among its blocks. *)
  Record ctx_closed (c : context) : Prop := {
    cl_nodes : forall y, In y (names_of (c_nodes c)) -> get y (c_blocks c) <> None;
    cl_blocks : forall x d y, In (x, d) (c_blocks c) -> In y (names_of (b_nodes d)) -> get y (c_blocks c) <> None;
    cl_parent : forall p, c_extends c = Some p -> get p contexts <> None }.
  Hypothesis HC : forall p c, get p contexts = Some c -> ctx_calm c /\ ctx_closed c.
  Definition known (bs : list (str * list (context * block_def))) (ns : list node) : Prop := forall y, In y (names_of ns) -> get y bs <> None.
  Definition bs_ok (all bs : list (str * list (context * block_def))) : Prop :=
    forall x l c d, In (x, l) bs -> In (c, d) l -> ctx_calm c /\ good (b_nodes d) /\ known all (b_nodes d).
  Record her_calm (h : heritage) : Prop := {
    hc_root : ctx_calm (h_root h);
    hc_top : c_extends (h_root h) = None;
    hc_known : known (h_blocks h) (c_nodes (h_root h));
    hc_blocks : bs_ok (h_blocks h) (h_blocks h) }.

  Lemma merge_calm o c : ctx_calm o -> ctx_calm c -> ctx_calm (merge_context o c).
  Proof.
    intros O C. constructor; try apply C. intros x d H. apply FlatFacts.merge_macros_in in H as [H|H]; [apply (cc_macros _ C _ _ H)|apply (cc_macros _ O _ _ H)].
  Qed.
  Lemma merge_closed o c : ctx_closed c -> ctx_closed (merge_context o c).
  Proof. intros []. constructor; assumption. Qed.

  (** *** Heritage *)
  Lemma push_mono c x bs y : get y bs <> None -> get y (push_block c x bs) <> None.
  Proof. intros H. rewrite push_block_get. destruct (str_eqb y (fst x)); [discriminate|exact H]. Qed.
  Lemma push_key c x bs : get (fst x) (push_block c x bs) <> None.
  Proof. rewrite push_block_get, str_eqb_refl. discriminate. Qed.
  Lemma fold_mono c l : forall bs y, get y bs <> None -> get y (fold_left (fun bs x => push_block c x bs) l bs) <> None.
  Proof. induction l as [|x l IH]; intros bs y H; [exact H|]. cbn [fold_left]. apply IH, push_mono, H. Qed.
  Lemma fold_key c l : forall bs y, get y l <> None -> get y (fold_left (fun bs x => push_block c x bs) l bs) <> None.
  Proof.
    induction l as [|[k d] l IH]; intros bs y H; [contradiction H; reflexivity|]. cbn [fold_left get] in *. destruct (str_eqb y k) eqn:E; [|apply IH, H].
    apply str_eqb_eq in E. subst k. apply fold_mono. apply (push_key c (y, d)).
  Qed.
  Lemma fold_in c l : forall bs x defs c' d, In (x, defs) (fold_left (fun bs x => push_block c x bs) l bs) -> In (c', d) defs ->
    (exists defs', In (x, defs') bs /\ In (c', d) defs') \/ (c' = c /\ exists y, In (y, d) l).
  Proof.
    induction l as [|[k e] l IH]; intros bs x defs c' d H1 H2; [left; exists defs; auto|]. cbn [fold_left] in H1.
    destruct (IH _ _ _ _ _ H1 H2) as [(defs' & H3 & H4)|[-> (y & Hy)]]; [|right; split; [reflexivity|exists y; right; exact Hy]].
    unfold push_block in H3. cbn [fst snd] in H3. apply FlatFacts.in_put in H3 as [H3|[-> ->]]; [left; exists defs'; auto|].
    destruct (get k bs) as [l0|] eqn:G.
    - apply in_app_iff in H4 as [H4|[[= <- <-]|[]]]; [left; exists l0; split; [apply get_In, G|exact H4]|right; split; [reflexivity|exists k; left; reflexivity]].
    - destruct H4 as [[= <- <-]|[]]. right; split; [reflexivity|exists k; left; reflexivity].
  Qed.
  Lemma heritage_loop_safe : forall fuel c bs, ctx_calm c -> ctx_closed c -> (forall y, get y (c_blocks c) <> None -> get y bs <> None) -> bs_ok bs bs ->
    gsafe (heritage_loop fuel contexts c bs) her_calm.
  Proof.
    induction fuel as [|f IH]; intros c bs C1 C2 K B; cbn [heritage_loop]; destruct (c_extends c) as [p|] eqn:E; try exact I;
      try (constructor; cbn; [exact C1|exact E|intros y Hy; apply K, (cl_nodes _ C2), Hy|exact B]).
    destruct (get p contexts) as [c'|] eqn:G; [|exact (cl_parent _ C2 _ E G)]. destruct (HC _ _ G) as [C1' C2'].
    apply IH; [exact C1'|exact C2'|intros y Hy; apply fold_key, Hy|]. intros x l c0 d H1 H2. destruct (fold_in _ _ _ _ _ _ _ H1 H2) as [(defs & H3 & H4)|[-> (y & Hy)]].
    - destruct (B _ _ _ _ H3 H4) as (A1 & A2 & A3). split; [exact A1|]. split; [exact A2|]. intros y Hy. apply fold_mono, A3, Hy.
    - split; [exact C1'|]. split; [exact (cc_blocks _ C1' _ _ Hy)|]. intros z Hz. apply fold_key. exact (cl_blocks _ C2' _ _ _ Hy Hz).
  Qed.
  Lemma heritage_new_safe fuel c : ctx_calm c -> ctx_closed c -> gsafe (heritage_new fuel contexts c) her_calm.
  Proof.
    intros C1 C2. assert (K : forall y, get y (c_blocks c) <> None -> get y (map (fun x => (fst x, [(c, snd x)])) (c_blocks c)) <> None).
    { intros y Hy. rewrite (get_map (fun d => [(c, d)])). destruct (get y (c_blocks c)); [discriminate|congruence]. }
    apply heritage_loop_safe; [exact C1|exact C2|exact K|].
    intros x l c' d H1 H2. apply in_map_iff in H1 as ([y e] & [= <- <-] & H1). destruct H2 as [[= <- <-]|[]].
    split; [exact C1|]. split; [exact (cc_blocks _ C1 _ _ H1)|]. intros z Hz. apply K. exact (cl_blocks _ C2 _ _ _ H1 Hz).
  Qed.

  (** *** Handlers *)
  Variable f : nat.
  Notation room := (N.of_nat f * (D + 1)).
  Definition names_ok (her : option heritage) (ns : list node) : Prop := forall h, her = Some h -> known (h_blocks h) ns.
  Definition sup_ok (her : option heritage) (sup : option (str * nat)) : Prop := forall h x g, her = Some h -> sup = Some (x, g) -> get x (h_blocks h) <> None.
  Definition her_ok (her : option heritage) : Prop := forall h, her = Some h -> her_calm h.
  Definition no_extends (lv : level) (ns : list node) : Prop := lv = LTop -> forall q, ~ In (NExtends q) ns.
  Definition expands_safely (expand : option heritage -> context -> list node -> level -> gst -> gres gen) (budget : N) : Prop :=
    forall her ctx ns lv st i d o sup, her_ok her -> ctx_calm ctx -> good ns -> no_extends lv ns -> names_ok her ns -> sup_ok her sup ->
      (1 <= d)%nat -> i + budget <= 61 -> okst i d o sup st -> clear st -> gsafe (expand her ctx ns lv st) (fun x => okst i d o sup (snd x)).
  Section Handlers.
    Variable expand : option heritage -> context -> list node -> level -> gst -> gres gen.
    Hypothesis HX : expands_safely expand room.
    Variables (her : option heritage) (ctx : context).
    Hypothesis HH : her_ok her.
    Hypothesis HK : ctx_calm ctx.

    Definition post (i : N) (d : nat) (o : bool) (sup : option (str * nat)) (x : gen) : Prop := okst i d o sup (snd x) /\ clear (snd x).
    Lemma clear_ws st st' : s_ws st' = s_ws st -> clear st -> clear st'.
    Proof. unfold clear. intros ->. exact (fun H => H). Qed.

    Section At.
    Variables (i : N) (d : nat) (o : bool) (sup : option (str * nat)).
    Hypothesis Hd : (1 <= d)%nat.
    Hypothesis Hs : sup_ok her sup.
    Notation ok := (okst i d o sup).

    Lemma let_safe w var val st : (forall e, val = Some e -> fed e = true) -> i <= 61 -> ok st -> gsafe (write_let inp w var val st) (post i d o sup).
    Proof.
      intros F L H. unfold write_let. set (st1 := do_handle_ws inp w st).
      assert (H1 : ok st1) by apply handle_ok, H. assert (C1 : clear st1) by apply handle_clear. clearbody st1. destruct val as [e|].
      - eapply gsafe_bind; [apply gsafe_res, root_ok, F; reflexivity|]. intros r _. eapply gsafe_bind; [apply gsafe_res, shadow_ok|]. intros sh _.
        eapply gsafe_bind with (Q := post i d o sup).
        { destruct sh; [|split; assumption]. eapply gsafe_weak; [apply write_ok; eassumption|]. intros x [A B]. split; [exact A|eapply clear_ws; eassumption]. }
        intros [[code z] st2] [H2 C2]. cbn [snd] in *. eapply gsafe_bind; [eapply line_ok; eassumption|]. intros _ _.
        eapply gsafe_bind; [eapply target_st; eassumption|]. cbn beta. intros [p m] E. cbn [snd] in E. split; [apply (set_locals_ok _ d); assumption|exact C2].
      - eapply gsafe_bind; [eapply write_ok; eassumption|]. cbn beta. intros [[code z] st2] [H2 W]. cbn [snd] in *.
        eapply gsafe_bind; [eapply line_ok; eassumption|]. intros _ _. eapply gsafe_bind; [eapply target_st; eassumption|]. cbn beta. intros [p m] E. cbn [snd] in E.
        split; [apply (set_locals_ok _ d); assumption|]. exact (clear_ws _ _ W C1).
    Qed.
    Lemma write_post st : i <= 61 -> ok st -> gsafe (write_buf_writable inp st) (fun x => ok (snd x) /\ (clear st -> clear (snd x))).
    Proof. intros L H. eapply gsafe_weak; [eapply write_ok; eassumption|]. cbn beta. intros x [A B]. split; [exact A|]. exact (clear_ws _ _ B). Qed.
    Lemma if_test_safe (first : bool) test st : (forall x, test = Some x -> fed (ct_expr x) = true) -> i <= 61 ->
      okst (if first then i else up i o) d o sup st -> clear st -> gsafe (if_test inp first test st) (fun x => ok (snd x) /\ clear (snd x)).
    Proof.
      intros F L H C. assert (DD : okst (up i o) d o sup st) by (destruct first; [eapply weaken_ok; [exact H|apply up_le]|exact H]).
      destruct test as [t|]; cbn [if_test].
      - specialize (F _ eq_refl). eapply gsafe_bind with (Q := fun st => ok st /\ clear st).
        { destruct first; [split; assumption|]. eapply gsafe_weak; [apply dedent_ok, H|]. cbn beta. intros st' [A B]. split; [exact A|exact (clear_ws _ _ B C)]. }
        cbn beta. intros st1 [H1 C1]. eapply gsafe_bind; [eapply line_ok; eassumption|]. intros _ _. destruct (ct_target t) as [p|].
        + assert (G : forall e, fed e = true -> gsafe (let* e' := of_res (visit_expr_root inp (s_locals st1) e) in let* (p', m) := of_res (visit_target (s_locals st1) true p) in
            GOk (RIfLet p' e', set_locals m st1)) (fun x => ok (snd x) /\ clear (snd x))).
          { intros e Fe. eapply gsafe_bind; [apply gsafe_res, root_ok, Fe|]. intros e' _. eapply gsafe_bind; [eapply target_st; eassumption|]. cbn beta. intros [p' m] E. cbn [snd] in E.
            split; [apply (set_locals_ok _ d); assumption|exact C1]. }
          destruct (ct_expr t) as [| | | | | | | | | | | |op l r| | | | | | |]; try (apply G; exact F).
          destruct (str_eqb op (lit "||") || str_eqb op (lit "&&")); [|apply G; exact F]. cbn [fed] in F. apply andb_true_iff in F as [F1 F2].
          eapply gsafe_bind; [apply gsafe_res, root_ok, F1|]. intros l' _. eapply gsafe_bind; [eapply target_st; eassumption|]. cbn beta. intros [p' m] E. cbn [snd] in E.
          eapply gsafe_bind; [apply gsafe_res, root_ok, F2|]. intros r' _. split; [apply (set_locals_ok _ d); assumption|exact C1].
        + eapply gsafe_bind; [apply gsafe_res, root_ok, F|]. intros e' _. split; assumption.
      - eapply gsafe_bind; [apply dedent_ok, DD|]. cbn beta. intros st1 [A B]. eapply gsafe_bind; [eapply line_ok; eassumption|]. intros _ _. split; [exact A|exact (clear_ws _ _ B C)].
    Qed.
    End At.

    Section Bodies.
    Variable gn : node -> gst -> gres gen.
    Definition body_safe (i : N) (d : nat) (o : bool) (sup : option (str * nat)) (ns : list node) : Prop :=
      forall st, okst i d o sup st -> clear st -> gsafe (gen_list gn ns st) (fun x => okst i d o sup (snd x)).
    Variables (i : N) (d : nat) (o : bool) (sup : option (str * nat)).
    Hypothesis Hd : (1 <= d)%nat.
    Notation ok := (okst i d o sup).
    Definition branch_safe (c : cond) : Prop := match c with Cond _ t ns => (forall x, t = Some x -> fed (ct_expr x) = true) /\ body_safe (up i o) (S d) o sup ns end.
    Lemma branches_safe w : up i o <= 61 -> forall cs first st, (first = true -> cs <> []) -> Forall branch_safe cs ->
      okst (if first then i else up i o) (if first then d else S d) o sup st ->
      gsafe (gen_branches inp gn w first cs st) (fun x => ok (snd x) /\ clear (snd x) /\ (cs <> [] -> snd (fst (fst x)) <> [])).
    Proof.
      intros L. assert (L' : i <= 61) by (pose proof (up_le i o); lia). induction cs as [|[w0 t ns] cs IH]; intros first st HF HB H.
      - destruct first; [contradiction (HF eq_refl); reflexivity|]. cbn [gen_branches]. set (st1 := do_handle_ws inp w st).
        assert (H1 : okst (up i o) (S d) o sup st1) by apply handle_ok, H. assert (C1 : clear st1) by apply handle_clear. clearbody st1.
        eapply gsafe_bind; [apply (write_post (up i o) (S d) o sup); [exact L|exact H1]|]. cbn beta. intros [[code z] st2] [H2 C2]. cbn [snd] in *.
        eapply gsafe_bind; [apply close_ok; [exact H2|exact L']|]. cbn beta. intros st3 [H3 W3].
        eapply gsafe_bind; [apply pop_locals_ok; [exact H3|exact Hd]|]. cbn beta. intros st4 [H4 W4]. cbn [fst snd gsafe]. split; [exact H4|]. split; [|congruence].
        apply (clear_ws _ _ W4), (clear_ws _ _ W3), C2, C1.
      - inversion HB as [|? ? B B3]; subst. destruct B as [B1 B2]. cbn [gen_branches]. set (st1 := do_handle_ws inp w0 st).
        assert (H1 : okst (if first then i else up i o) (if first then d else S d) o sup st1) by apply handle_ok, H. assert (C1 : clear st1) by apply handle_clear. clearbody st1.
        eapply gsafe_bind; [apply (write_post (if first then i else up i o) (if first then d else S d) o sup); [destruct first; assumption|exact H1]|]. cbn beta. intros [[before z] st2] [H2 C2]. cbn [snd] in *. specialize (C2 C1).
        eapply gsafe_bind with (Q := fun st => okst (if first then i else up i o) d o sup st /\ clear st).
        { destruct first; [split; assumption|]. eapply gsafe_weak; [apply pop_locals_ok; [exact H2|exact Hd]|]. cbn beta. intros st' [A B]. split; [exact A|exact (clear_ws _ _ B C2)]. }
        cbn beta. intros st3 [H3 C3].
        eapply gsafe_bind; [apply (if_test_safe i (S d) o sup); [lia|exact B1|exact L'|apply push_locals_ok, H3|exact C3]|]. cbn beta. intros [rt st4] [H4 C4]. cbn [snd] in *.
        assert (H5 : okst (up i o) (S d) o sup (open_brace st4)) by apply open_ok, H4.
        eapply gsafe_bind; [apply B2; [exact H5|unfold open_brace; destruct (o_discard st4); exact C4]|]. cbn beta. intros [[body size] st6] H6. cbn [snd] in *.
        eapply gsafe_bind; [apply (IH false); [discriminate|exact B3|exact H6]|]. cbn beta. intros [[[[[after rest] z'] sizes] has_else] st7] (H7 & C7 & _). cbn [fst snd] in *.
        split; [exact H7|]. split; [exact C7|]. intros _. discriminate.
    Qed.
    Definition arm_safe (c : when_) : Prop := match c with When _ _ ns => body_safe (up i o) (S d) o sup ns end.
    Lemma arms_safe w : up i o <= 61 -> forall arms first st, (first = true -> arms <> []) -> Forall arm_safe arms ->
      okst (if first then i else up i o) (if first then d else S d) o sup st ->
      gsafe (gen_arms inp gn w first arms st) (fun x => ok (snd x) /\ clear (snd x) /\ (arms <> [] -> snd (fst x) <> [])).
    Proof.
      intros L. assert (L' : i <= 61) by (pose proof (up_le i o); lia). induction arms as [|[w0 t ns] arms IH]; intros first st HF HB H.
      - destruct first; [contradiction (HF eq_refl); reflexivity|]. cbn [gen_arms]. set (st1 := do_handle_ws inp w st).
        assert (H1 : okst (up i o) (S d) o sup st1) by apply handle_ok, H. assert (C1 : clear st1) by apply handle_clear. clearbody st1.
        eapply gsafe_bind; [apply (write_post (up i o) (S d) o sup); [exact L|exact H1]|]. cbn beta. intros [[code z] st2] [H2 C2]. cbn [snd] in *.
        eapply gsafe_bind; [apply close_ok; [exact H2|exact L']|]. cbn beta. intros st3 [H3 W3].
        eapply gsafe_bind; [apply pop_locals_ok; [exact H3|exact Hd]|]. cbn beta. intros st4 [H4 W4]. cbn [fst snd gsafe]. split; [exact H4|]. split; [|congruence].
        apply (clear_ws _ _ W4), (clear_ws _ _ W3), C2, C1.
      - inversion HB as [|? ? B2 B3]; subst. cbn [gen_arms]. set (st1 := do_handle_ws inp w0 st).
        assert (H1 : okst (if first then i else up i o) (if first then d else S d) o sup st1) by apply handle_ok, H. assert (C1 : clear st1) by apply handle_clear. clearbody st1.
        eapply gsafe_bind with (Q := fun x => ok (snd x) /\ clear (snd x)).
        { destruct first; [split; assumption|]. eapply gsafe_bind; [apply (write_post (up i o) (S d) o sup); [exact L|exact H1]|]. cbn beta. intros [[code z] st2] [H2 C2]. cbn [snd] in *. specialize (C2 C1).
          eapply gsafe_bind; [apply close_ok; [exact H2|exact L']|]. cbn beta. intros st3 [H3 W3].
          eapply gsafe_bind; [apply pop_locals_ok; [exact H3|exact Hd]|]. cbn beta. intros st4 [H4 W4]. split; [exact H4|]. apply (clear_ws _ _ W4), (clear_ws _ _ W3), C2. }
        cbn beta. intros [[before z] st2] [H2 C2]. cbn [snd] in *.
        assert (H3 : okst i (S d) o sup (push_locals st2)) by apply push_locals_ok, H2. assert (C3 : clear (push_locals st2)) by exact C2. set (st3 := push_locals st2) in *. clearbody st3.
        eapply gsafe_bind; [eapply line_ok; eassumption|]. intros _ _. eapply gsafe_bind; [apply (target_st i (S d) o sup); [exact H3|lia]|]. cbn beta. intros [p m] E. cbn [snd] in E.
        assert (H4 : okst (up i o) (S d) o sup (open_brace (set_locals m st3))) by (apply open_ok, (set_locals_ok _ (S d)); [exact H3|exact E]).
        eapply gsafe_bind; [apply B2; [exact H4|unfold open_brace; destruct (o_discard (set_locals m st3)); exact C3]|]. cbn beta. intros [[body size] st6] H6. cbn [snd] in *.
        eapply gsafe_bind; [apply (IH false); [discriminate|exact B3|exact H6]|]. cbn beta. intros [[[[after z'] rest] sizes] st7] (H7 & C7 & _). cbn [fst snd] in *.
        split; [exact H7|]. split; [exact C7|]. intros _. discriminate.
    Qed.
    End Bodies.

    Section Handlers2.
    Variables (i : N) (d : nat) (o : bool) (sup : option (str * nat)).
    Hypothesis Hd : (1 <= d)%nat.
    Hypothesis Hs : sup_ok her sup.
    Notation ok := (okst i d o sup).
    Notation runs b i d := (forall st, okst i d o sup st -> clear st -> gsafe (b st) (fun x => okst i d o sup (snd x))).

    Lemma open_clear st : clear st -> clear (open_brace st).
    Proof. unfold open_brace. destruct (o_discard st); exact (fun H => H). Qed.
    Lemma close_post st i' d' : okst (up i' o) d' o sup st -> i' <= 61 -> gsafe (close_brace st) (fun st' => okst i' d' o sup st' /\ (clear st -> clear st')).
    Proof. intros H L. eapply gsafe_weak; [apply close_ok; eassumption|]. cbn beta. intros st' [A B]. split; [exact A|exact (clear_ws _ _ B)]. Qed.
    Lemma pop_post st i' d' : okst i' (S d') o sup st -> (1 <= d')%nat -> gsafe (pop_locals st) (fun st' => okst i' d' o sup st' /\ (clear st -> clear st')).
    Proof. intros H L. eapply gsafe_weak; [apply pop_locals_ok; eassumption|]. cbn beta. intros st' [A B]. split; [exact A|exact (clear_ws _ _ B)]. Qed.

    Lemma loop_safe body els (has_else : bool) w1 var it cnd w2 w3 st : fed it = true -> (forall e, cnd = Some e -> fed e = true) ->
      runs body (up (up i o) o) (S (S d)) -> runs els (up (up i o) o) (S (S d)) -> up (up i o) o <= 61 -> ok st ->
      gsafe (write_loop inp body els has_else w1 var it cnd w2 w3 st) (post i d o sup).
    Proof.
      intros F1 F2 HB HE L H. pose proof (up_le i o) as U1. pose proof (up_le (up i o) o) as U2. unfold write_loop.
      set (st1 := push_locals (do_handle_ws inp w1 st)). assert (H1 : okst i (S d) o sup st1) by apply push_locals_ok, handle_ok, H.
      assert (C1 : clear st1) by apply handle_clear. clearbody st1.
      eapply gsafe_bind; [apply gsafe_res, root_ok, F1|]. intros r _.
      eapply gsafe_bind; [apply (write_post i (S d) o sup); [lia|exact H1]|]. cbn beta. intros [[before flushed] st2] [H2 C2]. cbn [snd] in *. specialize (C2 C1).
      eapply gsafe_bind; [eapply line_ok; [exact H2|lia]|]. intros _ _.
      assert (H3 : okst (up i o) (S d) o sup (open_brace st2)) by apply open_ok, H2. assert (C3 : clear (open_brace st2)) by apply open_clear, C2.
      set (st3 := open_brace st2) in *. clearbody st3.
      eapply gsafe_bind; [eapply line_ok; [exact H3|lia]|]. intros _ _.
      eapply gsafe_bind with (Q := fun x => okst (up i o) (S d) o sup (snd x) /\ clear (snd x)).
      { destruct cnd as [c|]; [|split; assumption]. assert (H4 : okst (up i o) (S (S d)) o sup (push_locals st3)) by apply push_locals_ok, H3.
        eapply gsafe_bind; [apply (target_st (up i o) (S (S d)) o sup); [exact H4|lia]|]. cbn beta. intros [p m] E. cbn [snd] in E.
        eapply gsafe_bind; [apply gsafe_res, root_ok, F2; reflexivity|]. intros c' _.
        eapply gsafe_bind; [apply (pop_post _ (up i o) (S d)); [eapply (set_locals_ok _ (S (S d))); [exact H4|exact E]|lia]|]. cbn beta. intros st5 [H5 C5].
        split; [exact H5|]. apply C5. exact C3. }
      cbn beta. intros [flt st4] [H4 C4]. cbn [snd] in *.
      assert (H5 : okst (up i o) (S (S d)) o sup (push_locals st4)) by apply push_locals_ok, H4. assert (C5 : clear (push_locals st4)) by exact C4.
      set (st5 := push_locals st4) in *. clearbody st5.
      eapply gsafe_bind; [eapply line_ok; [exact H5|lia]|]. intros _ _.
      eapply gsafe_bind; [apply (target_st (up i o) (S (S d)) o sup); [exact H5|lia]|]. cbn beta. intros [p m] E. cbn [snd] in E.
      assert (H6 : okst (up (up i o) o) (S (S d)) o sup (open_brace (set_locals m st5))) by (apply open_ok, (set_locals_ok _ (S (S d))); [exact H5|exact E]).
      assert (C6 : clear (open_brace (set_locals m st5))) by (apply open_clear; exact C5). set (st6 := open_brace (set_locals m st5)) in *. clearbody st6.
      eapply gsafe_bind with (Q := any). { destruct has_else; [|exact I]. eapply line_ok; [exact H6|lia]. } intros _ _.
      eapply gsafe_bind; [apply HB; assumption|]. cbn beta. intros [[c1 z1] st7] H7. cbn [snd] in *.
      assert (H8 : okst (up (up i o) o) (S (S d)) o sup (do_handle_ws inp w2 st7)) by apply handle_ok, H7.
      assert (C8 : clear (do_handle_ws inp w2 st7)) by apply handle_clear. set (st8 := do_handle_ws inp w2 st7) in *. clearbody st8.
      eapply gsafe_bind; [apply (write_post (up (up i o) o) (S (S d)) o sup); [exact L|exact H8]|]. cbn beta. intros [[c1' z1'] st9] [H9 C9]. cbn [snd] in *. specialize (C9 C8).
      eapply gsafe_bind; [apply (pop_post _ (up (up i o) o) (S d)); [exact H9|lia]|]. cbn beta. intros st10 [H10 C10]. specialize (C10 C9).
      eapply gsafe_bind; [apply (close_post _ (up i o) (S d)); [exact H10|lia]|]. cbn beta. intros st11 [H11 C11]. specialize (C11 C10).
      eapply gsafe_bind with (Q := fun x => okst (up i o) (S d) o sup (snd x) /\ clear (snd x)).
      { destruct has_else.
        - eapply gsafe_bind; [eapply line_ok; [exact H11|lia]|]. intros _ _.
          assert (H12 : okst (up (up i o) o) (S (S d)) o sup (push_locals (open_brace st11))) by apply push_locals_ok, open_ok, H11.
          assert (C12 : clear (push_locals (open_brace st11))) by apply open_clear, C11. set (st12 := push_locals (open_brace st11)) in *. clearbody st12.
          eapply gsafe_bind; [apply HE; assumption|]. cbn beta. intros [[c2 z2] st13] H13. cbn [snd] in *.
          assert (H14 : okst (up (up i o) o) (S (S d)) o sup (do_handle_ws inp w3 st13)) by apply handle_ok, H13.
          assert (C14 : clear (do_handle_ws inp w3 st13)) by apply handle_clear. set (st14 := do_handle_ws inp w3 st13) in *. clearbody st14.
          eapply gsafe_bind; [apply (write_post (up (up i o) o) (S (S d)) o sup); [exact L|exact H14]|]. cbn beta. intros [[c2' z2'] st15] [H15 C15]. cbn [snd] in *. specialize (C15 C14).
          eapply gsafe_bind; [apply (pop_post _ (up (up i o) o) (S d)); [exact H15|lia]|]. cbn beta. intros st16 [H16 C16]. specialize (C16 C15).
          eapply gsafe_bind; [apply (close_post _ (up i o) (S d)); [exact H16|lia]|]. cbn beta. intros st17 [H17 C17]. split; [exact H17|exact (C17 C16)].
        - assert (H12 : okst (up i o) (S d) o sup (do_handle_ws inp w3 st11)) by apply handle_ok, H11.
          assert (C12 : clear (do_handle_ws inp w3 st11)) by apply handle_clear. set (st12 := do_handle_ws inp w3 st11) in *. clearbody st12.
          eapply gsafe_bind; [apply (write_post (up i o) (S d) o sup); [lia|exact H12]|]. cbn beta. intros [[c z2] st13] [H13 C13]. cbn [snd] in *. split; [exact H13|exact (C13 C12)]. }
      cbn beta. intros [[[celse ctail] z2] st18] [H18 C18]. cbn [snd] in *.
      eapply gsafe_bind; [apply (close_post _ i (S d)); [exact H18|lia]|]. cbn beta. intros st19 [H19 C19]. specialize (C19 C18).
      eapply gsafe_bind; [apply (pop_post _ i d); [exact H19|exact Hd]|]. cbn beta. intros st20 [H20 C20]. split; [exact H20|exact (C20 C19)].
    Qed.

    Lemma block_safe name w st : (forall x h, name = Some x -> her = Some h -> get x (h_blocks h) <> None) -> i + room <= 60 -> ok st ->
      gsafe (write_block inp expand her ctx name w st) (post i d o sup).
    Proof.
      intros HN L H. unfold write_block. set (st1 := do_flush_ws inp (ws_l w) st).
      assert (H1 : ok st1) by apply flush_ok, H. assert (C1 : clear st1) by apply flush_clear. clearbody st1.
      eapply gsafe_bind with (Q := fun cur => forall h, her = Some h -> get (fst cur) (h_blocks h) <> None).
      { rewrite (ok_sup _ _ _ _ _ H1). destruct name as [x|]; destruct sup as [[prev g]|] eqn:ES; try exact I.
        - destruct (str_eqb x prev); [exact I|]. cbn. intros h Eh. exact (HN _ _ eq_refl Eh).
        - cbn. intros h Eh. exact (HN _ _ eq_refl Eh).
        - cbn. intros h Eh. exact (Hs _ _ _ Eh eq_refl). }
      cbn beta. intros cur HCur.
      eapply gsafe_bind; [apply (write_post i d o sup); [lia|exact H1]|]. cbn beta. intros [[before z] st2] [H2 C2]. cbn [snd] in *. specialize (C2 C1).
      destruct her as [h|] eqn:Eh; [|exact I]. specialize (HCur _ eq_refl). destruct (get (fst cur) (h_blocks h)) as [defs|] eqn:G; [|exact (HCur eq_refl)].
      destruct (nth_error defs (snd cur)) as [[child_ctx def]|] eqn:N; [|exact I]. cbv zeta.
      set (frag := match f_block inp, name with Some a, Some b => str_eqb a b | None, None => true | _, _ => false end && s_discard st2).
      set (disc := if frag then false else s_discard st2).
      destruct (hc_blocks _ (HH _ eq_refl) _ _ _ _ (get_In _ _ _ G) (nth_error_In _ _ N)) as (B1 & B2 & B3).
      eapply gsafe_bind.
      { eapply (HX (Some h) (merge_context ctx child_ctx) (b_nodes def) LBlock _ i 1%nat disc (Some cur)).
        - intros h' [= <-]. apply HH. reflexivity.
        - apply merge_calm; assumption.
        - exact B2.
        - discriminate.
        - intros h' [= <-]. exact B3.
        - intros h' x g [= <-] [= ->]. cbn [fst] in G. rewrite G. discriminate.
        - lia.
        - lia.
        - constructor; cbn; [apply H2|reflexivity|reflexivity|reflexivity|apply H2].
        - reflexivity. }
      cbn beta. intros [[code size] child] HCh. cbn [snd] in HCh.
      eapply gsafe_bind with (Q := fun x => okst i 1 disc (Some cur) (snd x)).
      { destruct (ch_is_current_empty (s_locals child)); [exact HCh|]. eapply gsafe_weak; [apply (write_post i 1%nat disc (Some cur)); [lia|exact HCh]|]. cbn beta. intros x [A _]. exact A. }
      cbn beta. intros [[code' z'] child'] HCh'. cbn [snd] in HCh'. pose proof (flush_ok inp _ _ _ _ (ws_l (b_ws2 def)) _ HCh') as [A1 A2 A3 A4 A5].
      split; [|exact C2]. destruct H2 as [? ? ? ? ?]. constructor; cbn; auto.
    Qed.

    Lemma call_safe w scope name args st : forallb fed args = true -> i + 1 + room <= 61 -> ok st ->
      gsafe (write_call inp contexts expand her ctx w scope name args st) (post i d o sup).
    Proof.
      intros F L H. pose proof (up_le i o) as U. unfold write_call. destruct (str_eqb name (lit "super")); [apply block_safe; [discriminate|lia|exact H]|].
      eapply gsafe_bind with (Q := fun x => ctx_calm (snd x) /\ good (k_nodes (fst x)) /\ names_of (k_nodes (fst x)) = []).
      { destruct scope as [s|].
        - destruct (get s (c_imports ctx)) as [path|]; [|exact I]. destruct (get path contexts) as [mctx|] eqn:G; [|exact I]. destruct (get name (c_macros mctx)) as [df|] eqn:Gm; [|exact I].
          destruct (HC _ _ G) as [K1 _]. split; [exact K1|]. exact (cc_macros _ K1 _ _ (get_In _ _ _ Gm)).
        - destruct (get name (c_macros ctx)) as [df|] eqn:Gm; [|exact I]. split; [exact HK|]. exact (cc_macros _ HK _ _ (get_In _ _ _ Gm)). }
      cbn beta. intros [def own] (K1 & K2 & K3). cbn [fst snd] in *. cbv zeta.
      set (st1 := push_locals (do_flush_ws inp (ws_l w) st)). assert (H1 : okst i (S d) o sup st1) by apply push_locals_ok, flush_ok, H.
      assert (C1 : clear st1) by apply flush_clear. clearbody st1.
      eapply gsafe_bind; [apply (write_post i (S d) o sup); [lia|exact H1]|]. cbn beta. intros [[before z0] st2] [H2 C2]. cbn [snd] in *. specialize (C2 C1).
      eapply gsafe_bind; [eapply line_ok; [exact H2|lia]|]. intros _ _.
      set (st3 := do_prepare_ws inp (ws_r (k_ws1 def)) (open_brace st2)). assert (H3 : okst (up i o) (S d) o sup st3) by apply prepare_ok, open_ok, H2.
      assert (C3 : clear st3) by (apply prepare_clear, open_clear, C2). clearbody st3.
      destruct (negb (Nat.eqb (length args) (length (k_args def)))) eqn:EL; [exact I|]. apply negb_false_iff, Nat.eqb_eq in EL.
      eapply gsafe_bind; [apply gsafe_res, named_ok; [rewrite forallb_forall in *; intros x Hx; apply F, in_rev, Hx|discriminate]|]. intros named HNm.
      eapply gsafe_bind; [apply gsafe_res, bind_ok; [exact HNm|exact F|cbn; lia|rewrite (ok_depth _ _ _ _ _ H3); lia]|]. cbn beta. intros [[m names] values] E. cbn [fst] in E.
      assert (H4 : okst (up i o) (S d) o sup (set_locals m st3)) by (apply (set_locals_ok _ (S d)); [exact H3|rewrite E; apply H3]).
      assert (C4 : clear (set_locals m st3)) by exact C3. set (st4 := set_locals m st3) in *. clearbody st4.
      eapply gsafe_bind with (Q := any). { destruct names; [exact I|]. eapply line_ok; [exact H4|lia]. } intros _ _.
      eapply gsafe_bind.
      { apply (HX her own (k_nodes def) LNested st4 (up i o) (S d) o sup); try assumption; try lia.
        - discriminate.
        - intros h _ y Hy. rewrite K3 in Hy. destruct Hy. }
      cbn beta. intros [[body z] st5] H5. cbn [snd] in *.
      assert (H6 : okst (up i o) (S d) o sup (do_flush_ws inp (ws_l (k_ws2 def)) st5)) by apply flush_ok, H5.
      assert (C6 : clear (do_flush_ws inp (ws_l (k_ws2 def)) st5)) by apply flush_clear. set (st6 := do_flush_ws inp (ws_l (k_ws2 def)) st5) in *. clearbody st6.
      eapply gsafe_bind; [apply (write_post (up i o) (S d) o sup); [lia|exact H6]|]. cbn beta. intros [[after z'] st7] [H7 C7]. cbn [snd] in *. specialize (C7 C6).
      eapply gsafe_bind; [apply (close_post _ i (S d)); [exact H7|lia]|]. cbn beta. intros st8 [H8 C8]. specialize (C8 C7).
      eapply gsafe_bind; [apply (pop_post _ i d); [exact H8|exact Hd]|]. cbn beta. intros st9 [H9 C9]. split; [apply prepare_ok, H9|apply prepare_clear, C9, C8].
    Qed.

    Lemma include_safe w path st : inc path -> i + room <= 60 -> ok st ->
      gsafe (write_include inp contexts find expand ctx w path st) (post i d o sup).
    Proof.
      intros HI L H. unfold write_include. set (st1 := do_flush_ws inp (ws_l w) st).
      assert (H1 : ok st1) by apply flush_ok, H. assert (C1 : clear st1) by apply flush_clear. clearbody st1.
      eapply gsafe_bind; [apply (write_post i d o sup); [lia|exact H1]|]. cbn beta. intros [[before z] st2] [H2 C2]. cbn [snd] in *. specialize (C2 C1).
      eapply gsafe_bind with (Q := fun q => get q contexts <> None).
      { specialize (HI). unfold inc in HI. specialize (Hfind path (f_path inp)). destruct (find path (f_path inp)) as [q|e|]; [exact (HI _ eq_refl)|exact I|exact (Hfind eq_refl)]. }
      cbn beta. intros p HP. eapply gsafe_bind; [eapply line_ok; [exact H2|lia]|]. intros _ _.
      destruct (get p contexts) as [c|] eqn:G; [|exact (HP eq_refl)]. cbv zeta. destruct (HC _ _ G) as [K1 K2].
      pose proof (merge_calm _ _ HK K1) as M1. pose proof (merge_closed ctx _ K2) as M2. set (cc := merge_context ctx c) in *. clearbody cc.
      eapply gsafe_bind with (Q := fun h => her_ok h /\ match h with Some h => True | None => c_extends cc = None end).
      { assert (G' : gsafe (let* h := heritage_new (S (length contexts)) contexts cc in GOk (Some h)) (fun h => her_ok h /\ match h with Some h => True | None => c_extends cc = None end)).
        { eapply gsafe_bind; [apply heritage_new_safe; assumption|]. intros h Hh. split; [|exact I]. intros h' [= <-]. exact Hh. }
        destruct (c_blocks cc); [|exact G']. destruct (c_extends cc) eqn:E; [exact G'|]. split; [discriminate|reflexivity]. }
      cbn beta. intros h [Hh1 Hh2]. set (hc := match h with Some h => h_root h | None => cc end).
      assert (K : ctx_calm hc /\ c_extends hc = None /\ names_ok h (c_nodes hc)).
      { subst hc. destruct h as [h|].
        - destruct (Hh1 _ eq_refl) as [R1 R2 R3 R4]. split; [exact R1|]. split; [exact R2|]. intros h' [= <-]. exact R3.
        - split; [exact M1|]. split; [exact Hh2|]. discriminate. }
      destruct K as (N1 & N2 & N3). clearbody hc.
      eapply gsafe_bind.
      { apply (HX h hc (c_nodes hc) LTop _ i 1%nat o None); try assumption; try lia.
        - apply N1.
        - intros _. apply (cc_top _ N1 N2).
        - discriminate.
        - destruct H2. constructor; cbn; auto.
        - reflexivity. }
      cbn beta. intros [[code z1] child] HCh. cbn [snd] in *.
      eapply gsafe_bind; [apply (write_post i 1%nat o None); [lia|exact HCh]|]. cbn beta. intros [[code' z'] child'] [HCh' _]. cbn [snd] in *.
      split; [|exact C2]. destruct HCh'. destruct H2. constructor; cbn; auto.
    Qed.

    Lemma filter_block_safe body w1 x args w2 st : (forall v, fed (insert_in_filter v (Filter x args)) = true) -> runs body i d -> i <= 61 -> ok st ->
      gsafe (write_filter_block inp body w1 x args w2 st) (post i d o sup).
    Proof.
      intros F HB L H. unfold write_filter_block. set (st1 := do_flush_ws inp (ws_l w1) st).
      assert (H1 : ok st1) by apply flush_ok, H. assert (C1 : clear st1) by apply flush_clear. clearbody st1.
      eapply gsafe_bind with (Q := any).
      { generalize (chain_size (s_locals st1)) as fuel. generalize O as id. intros id fuel. revert id. induction fuel as [|fuel IH]; intros id; cbn [fresh_filter_name];
          destruct (ch_get (s_locals st1) (filter_block_name id)); try exact I. apply IH. }
      intros var _. cbv zeta.
      set (st2 := do_prepare_ws inp (ws_r w1) (set_buf [] st1)). assert (H2 : ok st2) by (destruct H1; constructor; auto; constructor). assert (C2 : clear st2) by exact C1. 
      clearbody st2. eapply gsafe_bind; [apply HB; assumption|]. cbn beta. intros [[code size] st3] H3. cbn [snd] in *.
      assert (H4 : ok (do_flush_ws inp (ws_l w2) st3)) by apply flush_ok, H3. assert (C4 : clear (do_flush_ws inp (ws_l w2) st3)) by apply flush_clear.
      set (st4 := do_flush_ws inp (ws_l w2) st3) in *. clearbody st4.
      eapply gsafe_bind; [apply gsafe_res, prepare_format_ok, H4|]. intros [[wsize parts] named] _.
      assert (H5 : ok (set_named named (set_buf [] st4))) by apply set_named_ok, H4. assert (C5 : clear (set_named named (set_buf [] st4))) by exact C4.
      set (st5 := set_named named (set_buf [] st4)) in *. clearbody st5.
      assert (G : forall s (b : gres unit), gsafe b any -> gsafe (let* _ := b in let* _ := line st5 in
         let* (r, wrapped) := of_res (visit_expr inp (s_locals (set_buf (s_buf st1) st5)) (insert_in_filter var (Filter x args))) in
         let* m := of_res (ch_insert (s_locals (do_prepare_ws inp (ws_r w2) (push [WGen r wrapped] (set_buf (s_buf st1) st5)))) var m_initialized) in
         GOk (code ++ emit (do_prepare_ws inp (ws_r w2) (push [WGen r wrapped] (set_buf (s_buf st1) st5))) [s], size + wsize,
              set_locals m (do_prepare_ws inp (ws_r w2) (push [WGen r wrapped] (set_buf (s_buf st1) st5))))) (post i d o sup)).
      { intros s b Hb. eapply gsafe_bind; [exact Hb|]. intros _ _. eapply gsafe_bind; [eapply line_ok; eassumption|]. intros _ _.
        eapply gsafe_bind; [apply gsafe_res, fed_ok, F|]. intros [r wrapped] _.
        assert (H6 : ok (set_buf (s_buf st1) st5)) by (destruct H5; destruct H1; constructor; auto).
        assert (H7 : ok (do_prepare_ws inp (ws_r w2) (push [WGen r wrapped] (set_buf (s_buf st1) st5)))) by (apply prepare_ok, push_ok; [repeat constructor|exact H6]).
        assert (C7 : clear (do_prepare_ws inp (ws_r w2) (push [WGen r wrapped] (set_buf (s_buf st1) st5)))) by (apply prepare_clear; unfold clear; rewrite push_ws; exact C5).
        eapply gsafe_bind; [apply gsafe_res, insert_ok; rewrite (ok_depth _ _ _ _ _ H7); exact Hd|]. cbn beta. intros m E. split; [|exact C7].
        cbn [snd]. apply (set_locals_ok _ d _ _ _ _ _ H7). rewrite E. apply H7. }
      destruct parts; [split; assumption| |].
      - apply (G (SLetStr var s) (GOk tt)). exact I.
      - apply (G (SLetFmt var fmt args0)). destruct (62 <=? o_indent st5) eqn:E; [destruct H5; lia|exact I].
    Qed.
    End Handlers2.

    (** *** All nodes *)
    Definition node_post (n : node) (i : N) (d : nat) (o : bool) (sup : option (str * nat)) (x : gen) : Prop :=
      okst i d o sup (snd x) /\ (is_lit n = false -> clear (snd x)).
    Definition node_safe (n : node) : Prop := forall lv i d o sup st, calm inc n -> (lv = LTop -> forall q, n <> NExtends q) -> names_ok her [n] -> sup_ok her sup ->
      (1 <= d)%nat -> i + nest n + 1 + room <= 61 -> okst i d o sup st -> (is_lit n = true -> clear st) ->
      gsafe (handle_node inp contexts find expand her ctx lv n st) (node_post n i d o sup).
    Lemma list_safe lv ns i d o sup : Forall node_safe ns -> Forall (calm inc) ns -> apart ns = true -> no_extends lv ns -> names_ok her ns -> sup_ok her sup -> (1 <= d)%nat ->
      i + nestl ns + 1 + room <= 61 -> forall st, okst i d o sup st -> (match ns with n :: _ => is_lit n = true | [] => False end -> clear st) ->
      gsafe (gen_list (handle_node inp contexts find expand her ctx lv) ns st) (fun x => okst i d o sup (snd x)).
    Proof.
      induction ns as [|n ns IH]; intros HS HCalm HA HE HN Hs Hd L st H C; [exact H|]. cbn [gen_list]. inversion HS; subst. inversion HCalm; subst. cbn [nestl] in L.
      destruct (apart_cons _ _ HA) as [HA1 HA2].
      eapply gsafe_bind.
      { apply (H2 lv i d o sup st); try assumption; try lia.
        - intros -> q ->. apply (HE eq_refl q). left. reflexivity.
        - intros h Eh y Hy. apply (HN h Eh). unfold names_of in *. cbn [map concat] in *. rewrite app_nil_r in Hy. apply in_app_iff. left. exact Hy. }
      intros [[c1 z1] st1] [H6 C6]. cbn [snd] in *.
      eapply gsafe_bind; [apply IH; try assumption; try lia|].
      - intros EL q Hq. apply (HE EL q). right. exact Hq.
      - intros h Eh y Hy. apply (HN h Eh). unfold names_of in *. cbn [map concat]. apply in_app_iff. right. exact Hy.
      - intros HL. apply C6. destruct ns as [|m ns]; [destruct HL|]. destruct (is_lit n) eqn:EN; [|reflexivity]. rewrite (HA2 eq_refl) in HL. discriminate HL.
      - cbn beta. intros [[c2 z2] st2] H7. exact H7.
    Qed.
    Lemma names_sub n ns : names_ok her [n] -> (forall y, In y (names_of ns) -> In y (block_names n)) -> names_ok her ns.
    Proof. intros H K h Eh y Hy. apply (H h Eh). unfold names_of. cbn [map concat]. rewrite app_nil_r. apply K, Hy. Qed.
    Lemma nested_extends ns : no_extends LNested ns.
    Proof. discriminate. Qed.
    Lemma nested_safe ns i d o sup : Forall node_safe ns -> Forall (calm inc) ns -> apart ns = true -> names_ok her ns -> sup_ok her sup -> (1 <= d)%nat ->
      i + nestl ns + 1 + room <= 61 -> body_safe (handle_node inp contexts find expand her ctx LNested) i d o sup ns.
    Proof. intros H1 H2 H3 H4 H5 H6 H7 st H C. apply list_safe; try assumption; [apply nested_extends|]. intros _. exact C. Qed.

    Lemma all_safe n : node_safe n.
    Proof.
      induction n using node_ind'; intros lv i d o sup st HCalm HE HN Hs Hd L Hst C; cbn [handle_node]; inversion HCalm; subst.
      - eapply gsafe_bind; [apply lit_ok_st; [eassumption|exact Hst|apply C; reflexivity]|]. intros st' H'. split; [exact H'|discriminate].
      - split; [apply handle_ok, Hst|intros _; apply handle_clear].
      - split; [apply push_ok; [repeat constructor; assumption|apply handle_ok, Hst]|]. intros _. unfold clear. cbn [snd]. rewrite push_ws. apply handle_clear.
      - eapply gsafe_weak; [apply (call_safe i d o sup); try assumption; cbn [nest] in L; lia|]. intros x' [A B]. split; [exact A|intros _; exact B].
      - eapply gsafe_weak; [apply (let_safe i d o sup); try assumption; cbn [nest] in L; lia|]. intros x' [A B]. split; [exact A|intros _; exact B].
      - assert (NB : forall w' t ns, In (Cond w' t ns) cs -> 1 + nestl ns <= nest (NIf w cs)) by (intros; eapply nest_if; eassumption).
        assert (L1 : 1 <= nest (NIf w cs)) by (cbn [nest]; lia). pose proof (up_le i o) as U.
        eapply gsafe_bind.
        { apply (branches_safe _ i d o sup Hd w ltac:(lia) cs true st); [intros _; assumption| |exact Hst].
          apply Forall_forall. intros [w' t ns] Hc. rewrite Forall_forall in *. match goal with K : forall x, In x cs -> calm_cond _ x |- _ => specialize (K _ Hc); inversion K; subst end.
          specialize (NB _ _ _ Hc). split; [assumption|]. apply nested_safe; try assumption; try lia.
          - specialize (H _ Hc). exact H.
          - apply (names_sub (NIf w cs)); [exact HN|]. intros y Hy. cbn [block_names]. apply in_concat. exists (names_of ns). split; [|exact Hy].
            apply in_map_iff. exists (Cond w' t ns). split; [reflexivity|exact Hc]. }
        cbn beta. intros [[[[[before branches] flushed] sizes] has_else] st1] (A & B & S). cbn [fst snd] in *.
        eapply gsafe_bind; [apply gsafe_res, median_ok; destruct has_else; [apply S; assumption|destruct sizes; discriminate]|]. intros z _. split; [exact A|intros _; exact B].
      - assert (NB : forall w' t ns, In (When w' t ns) arms -> 2 + nestl ns <= nest (NMatch w1 e arms w2)) by (intros; eapply nest_match; eassumption).
        assert (L1 : 2 <= nest (NMatch w1 e arms w2)) by (cbn [nest]; lia). pose proof (up_le i o) as U. pose proof (up_le (up i o) o) as U2. cbv zeta.
        assert (H1 : okst i d o sup (do_flush_ws inp (ws_l w1) st)) by apply flush_ok, Hst. set (st1 := do_flush_ws inp (ws_l w1) st) in *. clearbody st1.
        eapply gsafe_bind; [apply (write_post i d o sup); [lia|exact H1]|]. cbn beta. intros [[before flushed] st2] [H2 C2]. cbn [snd] in *.
        eapply gsafe_bind; [apply gsafe_res, root_ok; assumption|]. intros r _. eapply gsafe_bind; [eapply line_ok; [exact H2|lia]|]. intros _ _.
        eapply gsafe_bind.
        { apply (arms_safe _ (up i o) d o sup Hd w2 ltac:(lia) arms true (open_brace st2)); [intros _; assumption| |apply open_ok, H2].
          apply Forall_forall. intros [w' t ns] Hc. rewrite Forall_forall in *. match goal with K : forall x, In x arms -> calm_when _ x |- _ => specialize (K _ Hc); inversion K; subst end.
          specialize (NB _ _ _ Hc). apply nested_safe; try assumption; try lia.
          - specialize (H _ Hc). exact H.
          - apply (names_sub (NMatch w1 e arms w2)); [exact HN|]. intros y Hy. cbn [block_names]. apply in_concat. exists (names_of ns). split; [|exact Hy].
            apply in_map_iff. exists (When w' t ns). split; [reflexivity|exact Hc]. }
        cbn beta. intros [[[[x1 x2] arms'] sizes] st3] (A & B & S). cbn [fst snd] in *.
        eapply gsafe_bind; [apply (close_post o sup _ i d); [exact A|lia]|]. cbn beta. intros st4 [A4 B4].
        eapply gsafe_bind; [apply gsafe_res, median_ok, S; assumption|]. intros z _. split; [exact A4|intros _; apply B4, B].
      - rewrite nest_loop in L. pose proof (up_le i o) as U. pose proof (up_le (up i o) o) as U2.
        eapply gsafe_weak; [apply (loop_safe i d o sup); try assumption|].
        + apply nested_safe; try assumption; try lia. apply (names_sub _ body HN). intros y Hy. cbn [block_names]. apply in_app_iff. left. exact Hy.
        + apply nested_safe; try assumption; try lia. apply (names_sub _ els HN). intros y Hy. cbn [block_names]. apply in_app_iff. right. exact Hy.
        + lia.
        + intros x' [A B]. split; [exact A|intros _; exact B].
      - destruct lv; cbn [top_level]; try exact I. contradiction (HE eq_refl s). reflexivity.
      - eapply gsafe_weak; [apply (block_safe i d o sup); try assumption; [|lia]|].
        + intros y h [= <-] Eh. apply (HN h Eh). left. reflexivity.
        + intros x' [A B]. split; [exact A|intros _; exact B].
      - cbn [nest] in L. eapply gsafe_weak; [apply (include_safe i d o sup); try assumption; lia|]. intros x' [A B]. split; [exact A|intros _; exact B].
      - destruct (top_level lv); [|exact I]. split; [apply handle_ok, Hst|intros _; apply handle_clear].
      - destruct (top_level lv); [|exact I]. split; [apply prepare_ok, flush_ok, Hst|intros _; apply prepare_clear, flush_clear].
      - eapply gsafe_bind; [apply (lit_ok_st i d o sup); [assumption|apply handle_ok, Hst|apply handle_clear]|]. intros st' H'. split; [apply handle_ok, H'|intros _; apply handle_clear].
      - cbn [nest] in L. eapply gsafe_bind; [apply (write_post i d o sup); [lia|apply handle_ok, Hst]|]. cbn beta. intros [[code z] st2] [H2 C2]. cbn [snd] in *.
        eapply gsafe_bind; [eapply line_ok; [exact H2|lia]|]. intros _ _. split; [exact H2|intros _; apply C2, handle_clear].
      - cbn [nest] in L. eapply gsafe_bind; [apply (write_post i d o sup); [lia|apply handle_ok, Hst]|]. cbn beta. intros [[code z] st2] [H2 C2]. cbn [snd] in *.
        eapply gsafe_bind; [eapply line_ok; [exact H2|lia]|]. intros _ _. split; [exact H2|intros _; apply C2, handle_clear].
      - rewrite nest_filter in L. eapply gsafe_weak; [apply (filter_block_safe i d o sup); try assumption; [|lia]|].
        + apply nested_safe; try assumption. apply (names_sub _ l HN). intros y Hy. exact Hy.
        + intros x' [A B]. split; [exact A|intros _; exact B].
    Qed.
  End Handlers.

  Lemma handle_nodes_safe expand : expands_safely expand room -> expands_safely (handle_nodes inp contexts find expand) (N.of_nat (S f) * (D + 1)).
  Proof.
    intros HX her ctx ns lv st i d o sup HH HK [[HA HCalm] HD] HE HN Hs Hd L H C. unfold handle_nodes.
    assert (L1 : i + D + 1 + room <= 61) by lia.
    eapply gsafe_bind; [apply (list_safe expand her ctx lv ns i d o sup); try assumption; try lia; [apply Forall_forall; intros n _; apply all_safe; assumption|intros _; exact C]|].
    cbn beta. intros [[code z] st1] H1. cbn [snd] in *. destruct (top_level lv); [|exact H1].
    cbv zeta. set (st2 := match next_ws (s_ws st1) with Some _ => do_flush_ws inp (Some (skip (s_ws st1))) st1 | None => st1 end).
    assert (H2 : okst i d o sup st2) by (subst st2; destruct (next_ws (s_ws st1)); [apply flush_ok, H1|exact H1]). clearbody st2.
    eapply gsafe_bind; [apply (write_post i d o sup); [lia|exact H2]|]. cbn beta. intros [[code' z'] st3] [H3 _]. exact H3.
  Qed.
End Nodes.
