(** * Facts behind Prop_Bind.v: the generator and the names in scope. *)
From Verif Require Import Base Ws Ast Ident IdentFacts GenExpr Heritage Gen HeritageSpec HeritageFacts TreeSpec ParseSpec RexprFacts SimExpr
  PanicTop FlatFacts EndFacts TplFacts LendSpec BindSpec BindFacts.
From Verif Require GroupGen SimFacts SimScope StmtGen.
Local Open Scope N_scope.

Definition written (e : expr) : Prop := forall x, ~ sub (Generated x) e.
Definition ready (b : bool) (e : expr) : Prop := (names_loop e -> b = true) /\ written e.
Section Params.
Variable PR : str -> str -> Prop.
Hypothesis PR_normal : forall m x, PR m x -> normalize_identifier x = x.

(** ** Nodes *)
Definition arg_apart (m : str) (a : expr) : Prop := bound_by_let a -> forall y, sub (Var y) a -> ~ PR m (normalize_identifier y).
Definition node_ok (m : node) : Prop := (forall e, expr_of m e -> written e) /\
  match m with
  | NBlockDef _ _ ns _ => ~ stray ns
  | NIf _ cs => cs <> []
  | NMatch _ _ arms _ => arms <> []
  | NCall _ _ m args => Forall (arg_apart m) args
  | NMacro _ m ps _ _ => Forall (PR m) ps
  | _ => True
  end.
Definition good (n : node) : Prop := forall b b' m, inside b n b' m -> node_ok m.
Definition kept (b : bool) (n : node) : Prop := forall b' m e, inside b n b' m -> expr_of m e -> names_loop e -> b' = true.
Lemma good_own n : good n -> node_ok n.
Proof. intros H. apply (H false false). constructor. Qed.
Lemma good_child b n b' m : good n -> child b n b' m -> good m.
Proof. intros H C b1 b2 k I. destruct (GroupGen.inside_any _ _ _ _ I b') as [b3 I']. apply (H b b3). eapply in_child; eassumption. Qed.
Lemma kept_child b n b' m : kept b n -> child b n b' m -> kept b' m.
Proof. intros H C b2 k w I. apply (H b2 k w). eapply in_child; eassumption. Qed.
Lemma good_children n ns : good n -> (forall m, In m ns -> exists b b', child b n b' m) -> Forall good ns.
Proof. intros H C. apply Forall_forall. intros m Hm. destruct (C m Hm) as (b & b' & K). eapply good_child; eassumption. Qed.
Lemma good_bodies n ns : good n -> In ns (bodies n) -> Forall good ns.
Proof.
  intros H Hn. apply (good_children n ns H). intros m Hm. destruct n; cbn in Hn; try contradiction.
  - apply in_map_iff in Hn as ([w' t b] & <- & Hc). exists false, false. eapply ch_if; eassumption.
  - apply in_map_iff in Hn as ([w' t b] & <- & Hc). exists false, false. eapply ch_match; eassumption.
  - destruct Hn as [<-|[<-|[]]]; exists false; eexists; [eapply ch_body; eassumption|eapply ch_else; eassumption].
  - destruct Hn as [<-|[]]. exists false, false. eapply ch_block; eassumption.
Qed.
Lemma kept_not_stray ns : ~ stray ns -> Forall (kept false) ns.
Proof.
  intros H. apply Forall_forall. intros n Hn b' m e I E L. destruct b'; [reflexivity|]. exfalso. apply H. exists m, e. split; [exists n; split; assumption|]. split; assumption.
Qed.
Definition own (ns : list node) : Prop := Forall good ns /\ Forall (kept false) ns.
Lemma ready_of b n e : good n -> kept b n -> expr_of n e -> ready b e.
Proof. intros G K O. split; [intros L; apply (K b n e); [constructor|exact O|exact L]|]. exact (proj1 (good_own _ G) e O). Qed.

(** ** Contexts and heritage *)
Record cgood (c : context) : Prop := {
  gc_nodes : own (c_nodes c);
  gc_blocks : forall x d, In (x, d) (c_blocks c) -> own (b_nodes d);
  gc_macros : forall x d, In (x, d) (c_macros c) -> own (k_nodes d) /\ Forall (PR x) (k_args d)
}.
Definition dgood (bs : list (str * list (context * block_def))) : Prop :=
  forall x l c d, In (x, l) bs -> In (c, d) l -> cgood c /\ own (b_nodes d).
Definition hgood (h : heritage) : Prop := cgood (h_root h) /\ dgood (h_blocks h).
Lemma merge_cgood o c : cgood o -> cgood c -> cgood (merge_context o c).
Proof.
  intros [_ _ O3] [C1 C2 C3]. constructor; cbn [merge_context c_nodes c_blocks c_macros]; [exact C1|exact C2|].
  intros x d H. apply merge_macros_in in H as [H|H]; eauto.
Qed.
Lemma context_node_cgood find path top n c c' more : good n -> (top = true -> kept false n) -> cgood c -> context_node find path top n c = Ok (c', more) -> cgood c' /\ Forall (Forall good) more.
Proof.
  intros HN HK [C1 C2 C3] E. destruct n; cbn [context_node] in E; try solve [injection E as <- <-; split; [constructor; assumption|constructor]].
  - injection E as <- <-. split; [constructor; assumption|]. apply Forall_forall. intros ns Hns. apply (good_bodies _ _ HN). exact Hns.
  - injection E as <- <-. split; [constructor; assumption|]. apply Forall_forall. intros ns Hns. apply (good_bodies _ _ HN). exact Hns.
  - injection E as <- <-. split; [constructor; assumption|]. apply Forall_forall. intros ns Hns. apply (good_bodies _ _ HN). exact Hns.
  - destruct top; [|discriminate E]. destruct (c_extends c); [discriminate E|]. destruct (find path0 path); try discriminate E. cbn in E. injection E as <- <-. split; [constructor; assumption|constructor].
  - injection E as <- <-. assert (G : Forall good nodes) by (apply (good_bodies _ _ HN); left; reflexivity).
    split; [|constructor; [exact G|constructor]]. constructor; cbn [c_nodes c_blocks c_macros]; [exact C1| |exact C3].
    intros x d H. apply in_put in H as [H|[-> ->]]; [eapply C2; exact H|]. split; [exact G|]. apply kept_not_stray. exact (proj2 (good_own _ HN)).
  - destruct top; [|discriminate E]. destruct (find path0 path); try discriminate E. cbn in E. injection E as <- <-. split; [constructor; assumption|constructor].
  - destruct top; [|discriminate E]. injection E as <- <-. split; [|constructor]. constructor; cbn [c_nodes c_blocks c_macros]; [exact C1|exact C2|].
    intros x d H. apply in_put in H as [H|[-> ->]]; [eapply C3; exact H|]. cbn [k_nodes k_args]. split; [split|exact (proj2 (good_own _ HN))].
    + apply (good_children _ _ HN). intros m Hm. exists false, false. eapply ch_macro; exact Hm.
    + apply Forall_forall. intros m Hm. eapply kept_child; [apply HK; reflexivity|]. eapply ch_macro; exact Hm.
Qed.
Lemma context_nodes_cgood find path top : forall ns c stack c' stack', Forall good ns -> (top = true -> Forall (kept false) ns) -> cgood c -> Forall (Forall good) stack ->
  context_nodes find path top ns c stack = Ok (c', stack') -> cgood c' /\ Forall (Forall good) stack'.
Proof.
  induction ns as [|n ns IH]; intros c stack c' stack' HN HK HC HS E; cbn [context_nodes] in E; [injection E as <- <-; auto|].
  apply rbind_inv in E as ([c1 more] & E1 & E). inversion HN as [|? ? H1 H2]; subst.
  assert (K1 : top = true -> kept false n) by (intros T; specialize (HK T); inversion HK; assumption).
  assert (K2 : top = true -> Forall (kept false) ns) by (intros T; specialize (HK T); inversion HK; assumption).
  destruct (context_node_cgood _ _ _ _ _ _ _ H1 K1 HC E1) as [G1 G2].
  eapply IH; [exact H2|exact K2|exact G1| |exact E]. apply Forall_app. split; [apply Forall_rev, G2|exact HS].
Qed.
Lemma context_loop_cgood find path : forall fuel top stack c c', Forall (Forall good) stack -> (top = true -> Forall (Forall (kept false)) stack) -> cgood c ->
  context_loop find fuel path top stack c = GOk c' -> cgood c'.
Proof.
  induction fuel as [|f IH]; intros top stack c c' HS HK HC E; (destruct stack as [|ns stack]; [injection E as <-; exact HC|]); cbn [context_loop] in E; [discriminate E|].
  inversion HS as [|? ? H1 H2]; subst. apply gbind_inv in E as ([c1 st1] & E1 & E). apply of_res_inv in E1.
  assert (K1 : top = true -> Forall (kept false) ns) by (intros T; specialize (HK T); inversion HK; assumption).
  destruct (context_nodes_cgood _ _ _ _ _ _ _ _ H1 K1 HC H2 E1) as [G1 G2]. eapply (IH false); [exact G2|discriminate|exact G1|exact E].
Qed.
Lemma contexts_cgood find templates contexts : (forall p ns, In (p, ns) templates -> own ns) -> build_contexts find templates = GOk contexts ->
  forall p c, get p contexts = Some c -> cgood c.
Proof.
  revert contexts. induction templates as [|[p ns] l IH]; intros contexts HT E q c G; cbn [build_contexts] in E.
  - injection E as <-. discriminate G.
  - apply gbind_inv in E as (c1 & E1 & E). apply gbind_inv in E as (cs & E2 & E). injection E as <-. cbn [get] in G.
    destruct (str_eqb q p); [|eapply IH; [intros; eapply HT; right; eassumption|exact E2|exact G]]. injection G as <-.
    assert (HN : own ns) by (eapply HT; left; reflexivity). destruct HN as [HN HK].
    eapply context_loop_cgood; [| | |exact E1]; [repeat constructor; exact HN|intros _; repeat constructor; exact HK|].
    constructor; cbn [c_nodes c_blocks c_macros]; [split; assumption| |]; contradiction.
Qed.
Section Her.
  Variable contexts : list (str * context).
  Hypothesis HG : forall p c, get p contexts = Some c -> cgood c.
  Lemma push_cgood c bs x : cgood c -> dgood bs -> In x (c_blocks c) -> dgood (push_block c x bs).
  Proof.
    intros HC HB Hx. destruct x as [x d]. unfold push_block. cbn [fst snd]. intros y l c' d' H1 H2. apply in_put in H1 as [H1|[-> ->]]; [eapply HB; eassumption|].
    pose proof (gc_blocks _ HC _ _ Hx) as GD. destruct (get x bs) as [l0|] eqn:E.
    - apply in_app_iff in H2 as [H2|[[= <- <-]|[]]]; [eapply HB; [apply get_in; exact E|exact H2]|split; assumption].
    - destruct H2 as [[= <- <-]|[]]. split; assumption.
  Qed.
  Lemma heritage_loop_cgood : forall fuel c bs h, cgood c -> dgood bs -> heritage_loop fuel contexts c bs = GOk h -> hgood h.
  Proof.
    induction fuel as [|f IH]; intros c bs h HC HB E; cbn [heritage_loop] in E; destruct (c_extends c) as [p|]; try discriminate E; try (injection E as <-; split; assumption).
    destruct (get p contexts) as [c'|] eqn:G; [|discriminate E]. pose proof (HG _ _ G) as HC'. eapply IH; [exact HC'| |exact E].
    assert (K : forall l, incl l (c_blocks c') -> forall bs, dgood bs -> dgood (fold_left (fun bs x => push_block c' x bs) l bs)).
    { clear - HC'. induction l as [|x l IH]; intros HI bs HB; [exact HB|]. cbn [fold_left]. apply IH; [intros y Hy; apply HI; right; exact Hy|].
      apply push_cgood; [exact HC'|exact HB|apply HI; left; reflexivity]. }
    apply K; [intros y Hy; exact Hy|exact HB].
  Qed.
  Lemma heritage_new_cgood fuel c h : cgood c -> heritage_new fuel contexts c = GOk h -> hgood h.
  Proof.
    intros HC E. eapply heritage_loop_cgood; [exact HC| |exact E]. intros x l c' d H1 H2. apply in_map_iff in H1 as ([y e] & [= <- <-] & H1).
    destruct H2 as [[= <- <-]|[]]. split; [exact HC|]. eapply (gc_blocks _ HC). exact H1.
  Qed.
End Her.


(** ** Macro arguments *)
Lemma named_in ps : forall l acc nm p e, named_arguments ps l acc = Ok nm -> get p nm = Some e -> In e l \/ get p acc = Some e.
Proof.
  induction l as [|a l IH]; intros acc nm p e E G; cbn [named_arguments] in E; [injection E as <-; right; exact G|].
  assert (D : Ok acc = Ok nm -> In e (a :: l) \/ get p acc = Some e) by (intros [= <-]; right; exact G).
  destruct a; try exact (D E). destruct (mem_str name ps); [|discriminate E]. destruct (IH _ _ _ _ E G) as [K|K]; [left; right; exact K|].
  rewrite get_put in K. destruct (str_eqb p name); [|right; exact K]. injection K as <-. left. left. reflexivity.
Qed.
Lemma lets_of env m lp e : covers env m -> (lp = true -> In LOOP env) -> ready lp e -> lets env m e.
Proof.
  intros C L [R1 R2]. split; [intros H; apply L, R1, H|]. split; [|intros x S; destruct (R2 x S)].
  intros x _ v G. exact (proj2 (C _ _ G)).
Qed.
Lemma loop_not_name x n : loop_attr x <> Ok (RName n).
Proof. unfold loop_attr. repeat match goal with |- (if ?b then _ else _) <> _ => destruct b; [discriminate|] end. discriminate. Qed.
Lemma attr_normal inp m obj x r w : visit_expr inp m (Attr obj x) = Ok (r, w) -> normal r.
Proof.
  intros E n ->. cbn [visit_expr] in E. destruct (var_loop obj).
  - apply rbind_inv in E as (r & E & E'). injection E' as -> _. destruct (loop_not_name _ _ E).
  - apply rbind_inv in E as (r & E & E'). injection E' as -> _. apply rbind_inv in E as (r' & E & E'). discriminate E'.
Qed.
Section Args.
  Variables (mn : str) (inp : ginput) (m0 : chain) (env : list str) (lp : bool) (nm : list (str * expr)) (args : list expr).
  Hypothesis A_self : In SELF env.
  Hypothesis A_cov : covers env m0.
  Hypothesis A_loop : lp = true -> In LOOP env.
  Hypothesis A_named : forall p e, get p nm = Some e -> In e args.
  Hypothesis A_ready : Forall (ready lp) args.
  Hypothesis A_apart : Forall (arg_apart mn) args.
  Lemma bind_closed : forall ps i pos m ns m' names values, Forall (PR mn) ps -> covers (ns ++ env) m -> (forall x, ~ PR mn x -> ch_get m x = ch_get m0 x) ->
    bind_args inp nm args ps i pos m = Ok (m', names, values) ->
    Forall (closed env) values /\ covers (names ++ ns ++ env) m' /\ under m' = under m.
  Proof.
    induction ps as [|p ps IH]; intros i pos m ns m' names values HP HC HE E; cbn [bind_args] in E; [injection E as <- <- <-; auto|].
    apply rbind_inv in E as ([e pos'] & E1 & E). inversion HP as [|? ? P1 P2]; subst.
    assert (HA : In e args).
    { destruct (get p nm) as [e'|] eqn:G; [injection E1 as <- <-; eapply A_named, G|]. destruct pos; [|discriminate E1]. destruct (nth_error args i) as [e'|] eqn:NE; [|discriminate E1].
      injection E1 as <- <-. eapply nth_error_In, NE. }
    pose proof (proj1 (Forall_forall _ _) A_ready _ HA) as RE. pose proof (proj1 (Forall_forall _ _) A_apart _ HA) as AE.
    assert (HI : incl env (ns ++ env)) by (apply incl_appr, incl_refl).
    assert (INS : forall v m1, ch_insert m p v = Ok m1 -> (forall x, ~ PR mn x -> ch_get m1 x = ch_get m0 x)).
    { intros v m1 I1 x Hx. rewrite (SimFacts.ch_get_insert _ _ _ _ _ I1). destruct (str_eqb x p) eqn:Q; [|apply HE, Hx]. apply str_eqb_eq in Q. subst x. destruct (Hx P1). }
    assert (V : bound_by_let e -> (let! r := visit_expr_root inp m e in let! m' := ch_insert m p m_default in let! (m'', names, values) := bind_args inp nm args ps (S i) pos' m' in Ok (m'', p :: names, r :: values)) = Ok (m', names, values) ->
      Forall (closed env) values /\ covers (names ++ ns ++ env) m' /\ under m' = under m).
    { intros B Q. apply rbind_inv in Q as (r & Q1 & Q). apply rbind_inv in Q as (m1 & Q2 & Q). apply rbind_inv in Q as ([[m2 nn] vv] & Q3 & Q). injection Q as <- <- <-.
      destruct (IH (S i) pos' m1 (p :: ns) m2 nn vv P2) as (K1 & K2 & K3); [|eapply INS, Q2|exact Q3|].
      - eapply covers_insert; [exact Q2|eapply PR_normal, P1|left; reflexivity|]. eapply covers_mono; [|exact HC]. intros x Hx. right. exact Hx.
      - split; [|split].
        + constructor; [|exact K1]. eapply root_closed; [exact A_self| |exact Q1]. split; [intros L; apply A_loop, RE, L|]. split; [|intros x S; destruct (proj2 RE x S)].
          intros x S v G. rewrite (HE _ (AE B x S)) in G. exact (proj2 (A_cov _ _ G)).
        + eapply covers_mono; [|exact K2]. intros x Hx. apply in_app_iff in Hx as [Hx|[<-|Hx]]; [right; apply in_app_iff; left; exact Hx|left; reflexivity|right; apply in_app_iff; right; exact Hx].
        + rewrite K3. eapply under_insert, Q2. }
    assert (R : forall r m1, closed (ns ++ env) r -> normal r -> ch_insert m p (m_with_ref r) = Ok m1 -> bind_args inp nm args ps (S i) pos' m1 = Ok (m', names, values) ->
      Forall (closed env) values /\ covers (names ++ ns ++ env) m' /\ under m' = under m).
    { intros r m1 C1 C2 Q2 Q3. destruct (IH (S i) pos' m1 ns m' names values P2) as (K1 & K2 & K3); [|eapply INS, Q2|exact Q3|].
      - eapply covers_insert; [exact Q2|eapply PR_normal, P1| |exact HC]. split; [reflexivity|]. split; assumption.
      - split; [exact K1|]. split; [exact K2|]. rewrite K3. eapply under_insert, Q2. }
    destruct e; try (apply V; [exact I|exact E]).
    - destruct (str_eqb s (lit "self")) eqn:Q; [apply V; [apply str_eqb_eq in Q; exact Q|exact E]|].
      apply rbind_inv in E as (m1 & Q2 & E). destruct (self_closed (ns ++ env) m s) as [C1 C2]; [apply HI, A_self|intros v G; exact (proj2 (HC _ _ G))|]. eapply R; eassumption.
    - apply rbind_inv in E as ([r w] & Q1 & E). apply rbind_inv in E as (m1 & Q2 & E).
      assert (C : closed (ns ++ env) r).
      { eapply visit_closed; [apply HI, A_self| |exact Q1]. eapply lets_of; [exact HC| |exact RE]. intros L. apply HI, A_loop, L. }
      pose proof (attr_normal _ _ _ _ _ _ Q1) as NR.
      destruct (ch_resolve m (show r)) as [r'|] eqn:CR; [|eapply R; eassumption]. destruct (resolve_closed (ns ++ env) m (show r) r') as [C1 C2]; [intros v G; exact (proj2 (HC _ _ G))|exact CR|].
      eapply R; eassumption.
  Qed.
End Args.

(** ** The generator *)
Definition wok (env : list str) (w : writable) : Prop :=
  match w with
  | WLit _ => True
  | WExpr e => (names_loop e -> In LOOP env) /\ written e
  | WGen r _ => closed env r
  end.
Lemma wok_mono env env' w : incl env env' -> wok env w -> wok env' w.
Proof. intros H. destruct w; cbn [wok]; [auto|intros [H1 H2]; auto|apply closed_mono, H]. Qed.
Lemma bufok_mono env env' ws : incl env env' -> Forall (wok env) ws -> Forall (wok env') ws.
Proof. intros H. apply Forall_impl. intros w. apply wok_mono, H. Qed.
Record inv (lp : bool) (base : chain) (d sd : bool) (env : list str) (st : gst) : Prop := {
  i_self : In SELF env;
  i_buf : Forall (wok env) (s_buf st);
  i_d : o_discard st = d;
  i_sd : s_discard st = sd;
  i_ds : d = true -> sd = true;
  i_loop : lp = true -> d = false -> In LOOP env;
  i_chain : d = false -> covers env (s_locals st) /\ under (s_locals st) = base
}.
Definition gok (lp : bool) (base : chain) (d sd : bool) (env : list str) (r : gres gen) : Prop :=
  gd true (fun x : gen => ok env (fst (fst x)) /\ inv lp base d sd (after env (fst (fst x))) (snd x)) r.
Definition inner (d : bool) (l env : list str) : list str := if d then env else l ++ env.
Lemma inner_incl d l env : incl env (inner d l env).
Proof. unfold inner. destruct d; [apply incl_refl|apply incl_appr, incl_refl]. Qed.
Notation gd_any := GroupGen.gd_any.
Notation gd_of := GroupGen.gd_of.
Section Gen.
  Variables (inp : ginput) (contexts : list (str * context)) (find : str -> str -> res str).
  Lemma od_push ws st : o_discard (push ws st) = o_discard st.
  Proof. unfold push. destruct (s_discard st); reflexivity. Qed.
  Lemma loc_push ws st : s_locals (push ws st) = s_locals st.
  Proof. unfold push. destruct (s_discard st); reflexivity. Qed.
  Lemma loc_flush l st : s_locals (do_flush_ws inp l st) = s_locals st.
  Proof. unfold do_flush_ws. destruct (flush_ws _ _ _). unfold push_lits. rewrite loc_push. reflexivity. Qed.
  Lemma loc_ws w st : s_locals (do_handle_ws inp w st) = s_locals st.
  Proof. unfold do_handle_ws, do_prepare_ws. apply (loc_flush (ws_l w) st). Qed.
  Lemma loc_open st : s_locals (open_brace st) = s_locals st.
  Proof. unfold open_brace. destruct (o_discard st); reflexivity. Qed.
  Lemma inv_env lp base d sd env env' st : incl env env' -> inv lp base d sd env st -> inv lp base d sd env' st.
  Proof.
    intros H [I1 I2 I3 I4 I5 I6 I7]. constructor; auto; [eapply bufok_mono; eassumption|]. intros D. destruct (I7 D) as [C U]. split; [eapply covers_mono; eassumption|exact U].
  Qed.
  Lemma inv_lp lp base d sd env env' st : (lp = true -> d = false -> In LOOP env) -> incl env env' -> inv false base d sd env' st -> inv lp base d sd env' st.
  Proof. intros L H [I1 I2 I3 I4 I5 I6 I7]. constructor; auto. Qed.
  Lemma inv_no lp base d sd env st : inv lp base d sd env st -> inv false base d sd env st.
  Proof. intros [I1 I2 I3 I4 I5 I6 I7]. constructor; auto. discriminate. Qed.
  Section D.
  Variables (d sd : bool).
  Lemma inv_same lp base env st st' : s_locals st' = s_locals st -> o_discard st' = o_discard st -> s_discard st' = s_discard st -> Forall (wok env) (s_buf st') ->
    inv lp base d sd env st -> inv lp base d sd env st'.
  Proof. intros E1 E2 E3 E4 [I1 I2 I3 I4 I5 I6 I7]. constructor; auto; try congruence. rewrite E1. exact I7. Qed.
  Lemma inv_push lp base env ws st : inv lp base d sd env st -> (d = false -> Forall (wok env) ws) -> inv lp base d sd env (push ws st).
  Proof.
    intros H W. unfold push. destruct (s_discard st) eqn:E; [exact H|]. apply (inv_same _ _ _ st); try reflexivity; [|exact H]. cbn [set_buf s_buf]. apply Forall_app. split; [apply H|].
    apply W. destruct d eqn:D; [|reflexivity]. pose proof (i_ds _ _ _ _ _ _ H eq_refl) as K. pose proof (i_sd _ _ _ _ _ _ H). congruence.
  Qed.
  Lemma lits_ok env l : Forall (wok env) (map WLit l).
  Proof. apply Forall_forall. intros w Hw. apply in_map_iff in Hw as (x & <- & _). exact I. Qed.
  Lemma inv_flush lp base env l st : inv lp base d sd env st -> inv lp base d sd env (do_flush_ws inp l st).
  Proof.
    intros H. unfold do_flush_ws. destruct (flush_ws _ _ _) as [o w]. apply inv_push; [|intros _; apply lits_ok]. apply (inv_same _ _ _ st); try reflexivity; [apply H|exact H].
  Qed.
  Lemma inv_prepare lp base env l st : inv lp base d sd env st -> inv lp base d sd env (do_prepare_ws inp l st).
  Proof. intros H. apply (inv_same _ _ _ st); try reflexivity; [apply H|exact H]. Qed.
  Lemma inv_ws lp base env w st : inv lp base d sd env st -> inv lp base d sd env (do_handle_ws inp w st).
  Proof. intros H. apply inv_prepare, inv_flush, H. Qed.
  Lemma inv_open lp base env st : inv lp base d sd env st -> inv lp base d sd env (open_brace st).
  Proof. intros H. unfold open_brace. destruct (o_discard st); [exact H|]. apply (inv_same _ _ _ st); try reflexivity; [apply H|exact H]. Qed.
  Lemma gd_dedent_ok lp base env st : inv lp base d sd env st -> gd true (fun s => inv lp base d sd env s /\ s_buf s = s_buf st /\ s_locals s = s_locals st) (dedent st).
  Proof. intros H. unfold dedent. destruct (o_indent st =? 0); [exact I|]. split; [|split; reflexivity]. apply (inv_same _ _ _ st); try reflexivity; [apply H|exact H]. Qed.
  Lemma gd_close_ok lp base env st : inv lp base d sd env st -> gd true (fun s => inv lp base d sd env s /\ s_buf s = s_buf st /\ s_locals s = s_locals st) (close_brace st).
  Proof.
    intros H. unfold close_brace. destruct (o_discard st); [split; [exact H|split; reflexivity]|]. eapply gd_bind; [apply gd_dedent_ok; exact H|]. intros s Hs. eapply gd_bind; [apply gd_any|].
    intros _ _. exact Hs.
  Qed.
  Lemma inv_pushl lp base env st : inv lp base d sd env st -> inv lp (s_locals st) d sd env (push_locals st).
  Proof.
    intros [I1 I2 I3 I4 I5 I6 I7]. constructor; auto. intros D. cbn [push_locals set_locals s_locals]. rewrite under_push. split; [|reflexivity].
    eapply covers_get; [intros k; apply SimFacts.ch_get_push|]. apply (I7 D).
  Qed.
  Definition outer (lp : bool) (m base : chain) (env : list str) : Prop :=
    In SELF env /\ (lp = true -> d = false -> In LOOP env) /\ (d = false -> covers env m /\ under m = base).
  Lemma outer_of lp base env st : inv lp base d sd env st -> outer lp (s_locals st) base env.
  Proof. intros [I1 I2 I3 I4 I5 I6 I7]. split; [exact I1|]. split; [exact I6|exact I7]. Qed.
  Lemma gd_pop_ok lp lp' m base env env' st : outer lp m base env -> inv lp' m d sd env' st -> s_buf st = [] ->
    gd true (fun s => inv lp base d sd env s /\ s_buf s = [] /\ (d = false -> s_locals s = m)) (pop_locals st).
  Proof.
    intros (O1 & O2 & O3) [I1 I2 I3 I4 I5 I6 I7] B. unfold pop_locals. eapply (gd_bind true (fun m' => m' = under (s_locals st))); [apply gd_of; intros m' E; apply pop_under, E|].
    intros m' ->. cbn [gd]. assert (L : d = false -> under (s_locals st) = m) by (intros D; apply (I7 D)). split; [|split; [exact B|exact L]].
    constructor; auto; cbn [set_locals s_buf s_locals]; [rewrite B; constructor|]. intros D. rewrite (L D). exact (O3 D).
  Qed.
  Definition format_closed (env : list str) (p : wparts) : Prop := match p with FmtParts _ args => Forall (fun a => closed env (snd a)) args | _ => True end.
  Lemma format_loop_closed env m : In SELF env -> covers env m -> forall ws p p', Forall (wok env) ws -> Forall (fun a => closed env (snd a)) (p_args p) ->
    format_loop inp m ws p = Ok p' -> Forall (fun a => closed env (snd a)) (p_args p').
  Proof.
    intros HS HC. assert (NE : forall r w c p, closed env r -> Forall (fun a : nat * rexpr => closed env (snd a)) (p_args p) -> Forall (fun a : nat * rexpr => closed env (snd a)) (p_args (named_expression inp r w c p))).
    { intros r w c p Hr Hp. assert (K : closed env (if w then r else RMarkup (f_escaper inp) r)) by (destruct w; exact Hr).
      unfold named_expression. destruct (cache_get _ _); [destruct c|]; cbn [p_args]; try exact Hp; apply Forall_app; auto. }
    induction ws as [|w ws IH]; intros p p' HW HP E; cbn [format_loop] in E; [injection E as <-; exact HP|]. inversion HW as [|? ? W1 W2]; subst. destruct w.
    - eapply IH; [exact W2| |exact E]. exact HP.
    - apply rbind_inv in E as ([r wr] & E1 & E). eapply IH; [exact W2| |exact E]. apply NE; [|exact HP]. eapply visit_closed; [exact HS| |exact E1].
      destruct W1 as [W1 W3]. split; [exact W1|]. split; [|intros x S; destruct (W3 x S)]. intros x _ v G. exact (proj2 (HC _ _ G)).
    - eapply IH; [exact W2| |exact E]. apply NE; [exact W1|exact HP].
  Qed.
  Lemma prepare_closed env m ws n z ps n' : In SELF env -> covers env m -> Forall (wok env) ws -> prepare_format inp m ws n = Ok (z, ps, n') -> format_closed env ps.
  Proof.
    intros HS HC HW E. unfold prepare_format in E. destruct ws as [|w ws]; [injection E as <- <- <-; exact I|]. destruct (all_lits (w :: ws)); [injection E as <- <- <-; exact I|].
    apply rbind_inv in E as (p & E1 & E). injection E as <- <- <-. cbn [format_closed]. eapply format_loop_closed; try eassumption. constructor.
  Qed.
  Lemma unbound_fmt env f args : Forall (fun a => closed env (snd a)) args -> unbound env (SWriteFmt f args) = [].
  Proof. intros H. cbn [unbound]. apply missing_nil. induction H; cbn [map concat]; [apply nil_incl|]. apply incl_app; assumption. Qed.
  Lemma gok_write lp base env st : inv lp base d sd env st ->
    gd true (fun x : gen => ok env (fst (fst x)) /\ after env (fst (fst x)) = env /\ inv lp base d sd env (snd x) /\ s_buf (snd x) = [] /\ s_locals (snd x) = s_locals st) (write_buf_writable inp st).
  Proof.
    intros H. unfold write_buf_writable. eapply (gd_bind true (fun x => d = false -> format_closed env (snd (fst x)))).
    { apply gd_of. intros [[z ps] n'] E D. destruct (i_chain _ _ _ _ _ _ H D) as [C _]. eapply prepare_closed; [apply H|exact C|apply H|exact E]. }
    intros [[z ps] nm] HF. cbn [fst snd] in HF. cbv zeta.
    assert (S : inv lp base d sd env (set_named nm (set_buf [] st))) by (apply (inv_same _ _ _ st); try reflexivity; [constructor|exact H]).
    pose proof (i_d _ _ _ _ _ _ H) as HD. destruct ps.
    - split; [reflexivity|]. split; [reflexivity|]. split; [exact S|]. split; reflexivity.
    - eapply gd_bind; [apply gd_any|]. intros _ _. cbn [fst snd gd]. unfold emit. destruct (o_discard st); (split; [reflexivity|]; split; [reflexivity|]; split; [exact S|]; split; reflexivity).
    - destruct (63 <=? o_indent st); [exact I|]. eapply gd_bind; [apply gd_any|]. intros _ _. cbn [fst snd gd]. unfold emit. destruct (o_discard st); (split; [|split; [reflexivity|]; split; [exact S|]; split; reflexivity]); [reflexivity|].
      apply ok_one, unbound_fmt. apply HF. congruence.
  Qed.
  Lemma gd_lit_ok lp base env l st : inv lp base d sd env st -> gd true (inv lp base d sd env) (do_visit_lit l st).
  Proof.
    intros H. unfold do_visit_lit. destruct (visit_lit l (s_ws st)) as [[o w]|]; [|exact I]. cbn [gd]. apply inv_push; [|intros _; apply lits_ok].
    apply (inv_same _ _ _ st); try reflexivity; [apply H|exact H].
  Qed.
  Lemma inv_lets lp base env st e : inv lp base d sd env st -> ready lp e -> d = false -> lets env (s_locals st) e.
  Proof. intros H R D. eapply lets_of; [apply (i_chain _ _ _ _ _ _ H D)| |exact R]. intros L. apply (i_loop _ _ _ _ _ _ H L D). Qed.
  Lemma gd_root lp base env st e : inv lp base d sd env st -> ready lp e -> gd true (fun r => d = false -> closed env r) (of_res (visit_expr_root inp (s_locals st) e)).
  Proof. intros H R. apply gd_of. intros r E D. eapply root_closed; [apply H| |exact E]. eapply inv_lets; eassumption. Qed.
  (** A pattern. *)
  Lemma gd_target lp base env st b t : inv lp base d sd env st ->
    gd true (fun x => fst x = norm_target t /\ inv lp base d sd (inner d (pattern_names (fst x)) env) (set_locals (snd x) st)) (of_res (visit_target (s_locals st) b t)).
  Proof.
    intros H. apply gd_of. intros [p m] E. cbn [fst snd]. pose proof (StmtGen.target_shape _ _ _ _ _ E) as ->. split; [reflexivity|].
    apply (inv_env _ _ _ _ env (inner d (pattern_names (norm_target t)) env) st (inner_incl _ _ _)) in H as H'. destruct H' as [I1 I2 I3 I4 I5 I6 _]. constructor; auto. cbn [set_locals s_locals].
    intros D. destruct (i_chain _ _ _ _ _ _ H D) as [C U]. rewrite D in *. unfold inner. destruct (target_covers _ _ _ _ _ _ E C) as (_ & K1 & K2). split; [exact K1|]. rewrite K2. exact U.
  Qed.
  Lemma ok_emit env st s : o_discard st = d -> (d = false -> unbound env s = []) -> ok env (emit st [s]) /\ after env (emit st [s]) = inner d (binds s) env.
  Proof. intros E H. unfold emit, inner. rewrite E. destruct d; [split; reflexivity|]. split; [apply ok_one, H; reflexivity|reflexivity]. Qed.
  Lemma gok_let lp base env w var val st : (forall e, val = Some e -> ready lp e) -> inv lp base d sd env st -> gok lp base d sd env (write_let inp w var val st).
  Proof.
    intros HR H. unfold write_let, gok. pose proof (inv_ws _ _ _ w _ H) as H0. destruct val as [e|].
    - eapply gd_bind; [eapply gd_root; [exact H0|apply HR; reflexivity]|]. intros r Hr.
      eapply (gd_bind true (fun sh => sh = true \/ forall x v, var = TName x -> ch_get (s_locals (do_handle_ws inp w st)) (normalize_identifier x) = Some v -> l_init v = false)).
      { apply gd_of. intros sh E. destruct sh; [left; reflexivity|right]. intros x v -> G. cbn [is_shadowing_variable] in E. rewrite G in E. congruence. }
      intros sh HSH.
      eapply (gd_bind true (fun x : gen => ok env (fst (fst x)) /\ after env (fst (fst x)) = env /\ inv lp base d sd env (snd x) /\ s_locals (snd x) = s_locals (do_handle_ws inp w st))).
      { destruct sh; [|split; [reflexivity|]; split; [reflexivity|]; split; [exact H0|reflexivity]]. eapply gd_imp; [apply gok_write, H0|]. intros x (K1 & K2 & K3 & _ & K4). split; [exact K1|]. split; [exact K2|]. split; [exact K3|exact K4]. }
      intros [[c z] s] (C1 & C2 & S1 & L1). cbn [fst snd] in C1, C2, S1, L1. cbv zeta. eapply gd_bind; [apply gd_any|]. intros _ _.
      eapply gd_bind; [apply gd_target, S1|]. intros [p m] [HP S2]. cbn [fst snd] in HP, S2. cbn [gd fst snd].
      match goal with |- context [if ?x then SLet p r else SAssign p r] => destruct x eqn:Q end.
      + destruct (ok_emit env s (SLet p r) (i_d _ _ _ _ _ _ S1)) as [K1 K2]. { intros D. cbn [unbound]. apply missing_nil, Hr, D. }
        cbn [binds] in K2. split; [apply ok_app; rewrite C2; split; assumption|]. rewrite after_app, C2, K2. exact S2.
      + apply orb_false_elim in Q as [Q1 Q2]. destruct HSH as [HSH|HSH]; [congruence|]. destruct var as [x| | | | | | | |]; try discriminate Q2. cbn [is_name] in Q2.
        destruct (ch_get (s_locals s) x) as [v|] eqn:G; [|discriminate Q2].
        assert (IN : d = false -> incl (pattern_names p) env).
        { intros D. destruct (i_chain _ _ _ _ _ _ S1 D) as [C _]. destruct (C _ _ G) as [N1 N2]. rewrite HP. cbn [norm_target]. rewrite N1.
          assert (IV : l_init v = false) by (apply (HSH x v eq_refl); rewrite <- L1, N1; exact G). unfold entry_ok in N2. destruct (l_refs v); [destruct N2; congruence|].
          destruct (str_eqb x (lit "_")) eqn:U; cbn [pattern_names]; rewrite U; [apply nil_incl|]. intros y [<-|[]]. exact N2. }
        destruct (ok_emit env s (SAssign p r) (i_d _ _ _ _ _ _ S1)) as [K1 K2]. { intros D. cbn [unbound]. apply nil_app. split; apply missing_nil; [apply IN, D|apply Hr, D]. }
        cbn [binds] in K2. split; [apply ok_app; rewrite C2; split; assumption|]. rewrite after_app, C2, K2. eapply inv_env; [|exact S2].
        unfold inner in *. destruct d; [apply incl_refl|]. apply incl_app; [apply IN; reflexivity|apply incl_refl].
    - eapply gd_bind; [apply gok_write, H0|]. intros [[c z] s] (C1 & C2 & S1 & _). cbn [fst snd] in C1, C2, S1. eapply gd_bind; [apply gd_any|]. intros _ _.
      eapply gd_bind; [apply gd_target, S1|]. intros [p m] [HP S2]. cbn [fst snd] in HP, S2. cbn [gd fst snd].
      destruct (ok_emit env s (SDeclare p) (i_d _ _ _ _ _ _ S1)) as [K1 K2]; [reflexivity|].
      cbn [binds] in K2. split; [apply ok_app; rewrite C2; split; assumption|]. rewrite after_app, C2, K2. exact S2.
  Qed.
  Lemma ready_kid b e k : ready b e -> In k (kids e) -> ready b k.
  Proof. intros [R1 R2] Hk. split; [intros [x S]; apply R1; exists x; eapply sub_kid; eassumption|]. intros x S. apply (R2 x). eapply sub_kid; eassumption. Qed.
  Lemma gd_test_ok lp base env first t st : (forall t', t = Some t' -> ready lp (ct_expr t')) -> inv lp base d sd env st ->
    gd true (fun x => (d = false -> test_unbound env (fst x) = []) /\ inv lp base d sd (inner d (test_names (fst x)) env) (snd x)) (if_test inp first t st).
  Proof.
    intros HR H. unfold if_test.
    assert (NIL : inner d [] env = env) by (unfold inner; destruct d; reflexivity).
    destruct t as [t|].
    - pose proof (HR t eq_refl) as RT. eapply (gd_bind true (fun s => inv lp base d sd env s)); [destruct first; [exact H|eapply gd_imp; [apply gd_dedent_ok, H|intros s Hs; apply Hs]]|]. intros s Hs.
      eapply gd_bind; [apply gd_any|]. intros _ _.
      assert (D : forall p e, ready lp e -> gd true (fun x => (d = false -> test_unbound env (fst x) = []) /\ inv lp base d sd (inner d (test_names (fst x)) env) (snd x))
        (let* e' := of_res (visit_expr_root inp (s_locals s) e) in let* (p', m) := of_res (visit_target (s_locals s) true p) in GOk (RIfLet p' e', set_locals m s))).
      { intros p e RE. eapply gd_bind; [eapply gd_root; [exact Hs|exact RE]|]. intros e' He. eapply gd_bind; [apply gd_target, Hs|]. intros [p' m] [_ S2]. cbn [fst snd] in S2.
        split; [|exact S2]. intros DF. cbn [fst test_unbound]. apply missing_nil, He, DF. }
      destruct (ct_target t) as [p|].
      + destruct (ct_expr t) eqn:CE; try (apply D; exact RT). destruct (str_eqb op (lit "||") || str_eqb op (lit "&&")); [|apply D; exact RT].
        eapply gd_bind; [eapply gd_root; [exact Hs|]; eapply ready_kid; [exact RT|left; reflexivity]|]. intros e' He. eapply gd_bind; [apply gd_target, Hs|]. intros [p' m] [_ S2]. cbn [fst snd] in S2.
        eapply gd_bind; [apply (gd_root _ _ _ _ _ S2); eapply ready_kid; [exact RT|right; left; reflexivity]|]. intros r' Hr'. split; [|exact S2]. intros DF. cbn [fst test_unbound]. apply nil_app. split; apply missing_nil; [apply He, DF|].
        pose proof (Hr' DF) as K. rewrite DF in K. exact K.
      + eapply gd_bind; [eapply gd_root; [exact Hs|exact RT]|]. intros e' He. split; [|cbn [fst snd test_names]; rewrite NIL; exact Hs]. intros DF. cbn [fst test_unbound]. apply missing_nil, He, DF.
    - eapply gd_bind; [apply gd_dedent_ok, H|]. intros s (Hs & _). eapply gd_bind; [apply gd_any|]. intros _ _. split; [reflexivity|]. cbn [fst snd test_names]. rewrite NIL. exact Hs.
  Qed.
  Lemma ok_around env st s c : o_discard st = d -> (d = false -> unbound env s = []) -> (d = true -> ok env c) -> ok env (emit_around st s c).
  Proof. intros E H1 H2. unfold emit_around. rewrite E. destruct d; [apply H2; reflexivity|apply ok_one, H1; reflexivity]. Qed.
  Lemma inv_after lp base env c st : inv lp base d sd env st -> inv lp base d sd (after env c) st.
  Proof. apply inv_env, after_incl. Qed.
  Lemma gok_loop lp base env f l h w1 v it c w2 w3 st :
    (forall base env st, inv true base d sd env st -> gok true base d sd env (f st)) -> (forall base env st, inv lp base d sd env st -> gok lp base d sd env (l st)) ->
    ready lp it -> (forall e, c = Some e -> ready lp e) -> inv lp base d sd env st -> gok lp base d sd env (write_loop inp f l h w1 v it c w2 w3 st).
  Proof.
    intros H1 H2 RI RC H. unfold write_loop, gok. pose proof (inv_ws _ _ _ w1 _ H) as HW. pose proof (outer_of _ _ _ _ HW) as OB. pose proof (inv_pushl _ _ _ _ HW) as H0.
    set (m0 := s_locals (do_handle_ws inp w1 st)) in *.
    eapply gd_bind; [eapply gd_root; [exact H0|exact RI]|]. intros r Hr.
    eapply gd_bind; [apply gok_write, H0|]. intros [[c0 z0] s0] (C0 & A0 & S0 & B0 & _). cbn [fst snd] in C0, A0, S0, B0.
    eapply gd_bind; [apply gd_any|]. intros _ _. eapply gd_bind; [apply gd_any|]. intros _ _.
    pose proof (inv_open _ _ _ _ S0) as S0'. assert (B0' : s_buf (open_brace s0) = []) by (unfold open_brace; destruct (o_discard s0); exact B0).
    pose proof (outer_of _ _ _ _ S0') as OM. set (mA := s_locals (open_brace s0)) in *.
    eapply (gd_bind true (fun x : option (target * rexpr) * gst => (forall p e, fst x = Some (p, e) -> d = false -> closed (pattern_names p ++ env) e) /\ inv lp m0 d sd env (snd x) /\ s_buf (snd x) = [] /\ (d = false -> s_locals (snd x) = mA))).
    { destruct c as [c|]; [|split; [discriminate|]; split; [exact S0'|]; split; [exact B0'|reflexivity]].
      pose proof (inv_pushl _ _ _ _ S0') as SP. eapply gd_bind; [apply gd_target, SP|]. intros [p m] [_ S2]. cbn [fst snd] in S2.
      eapply gd_bind; [apply (gd_root _ _ _ _ _ S2); apply RC; reflexivity|]. intros c' Hc'.
      eapply gd_bind; [eapply gd_pop_ok; [exact OM|exact S2|exact B0']|]. intros s (Q1 & Q2 & Q3). split; [|split; [exact Q1|split; [exact Q2|exact Q3]]].
      intros p' e' [= <- <-] DF. pose proof (Hc' DF) as K. rewrite DF in K. exact K. }
    intros [flt s1] (HF & S1 & B1 & L1). cbn [fst snd] in HF, S1, B1, L1. eapply gd_bind; [apply gd_any|]. intros _ _.
    pose proof (inv_pushl _ _ _ _ S1) as SP. eapply gd_bind; [apply gd_target, SP|]. intros [p m] [_ S2]. cbn [fst snd] in S2.
    eapply gd_bind; [apply gd_any|]. intros _ _.
    set (envb := if d then env else pattern_names p ++ LOOP :: env).
    assert (EB : incl env envb) by (unfold envb; destruct d; [apply incl_refl|]; intros x Hx; apply in_app_iff; right; right; exact Hx).
    assert (S3 : inv true (s_locals s1) d sd envb (open_brace (set_locals m (push_locals s1)))).
    { apply inv_open. apply (inv_env _ _ _ _ _ envb) in S2.
      - destruct S2 as [I1 I2 I3 I4 I5 I6 I7]. constructor; auto. intros _ DF. unfold envb. rewrite DF. apply in_app_iff. right. left. reflexivity.
      - unfold inner, envb. destruct d; [apply incl_refl|]. apply incl_both. intros x Hx. right. exact Hx. }
    eapply gd_bind; [apply H1, S3|]. intros [[c1 z1] s2] [C1 S4]. cbn [fst snd] in C1, S4.
    eapply gd_bind; [apply gok_write, inv_ws, S4|]. intros [[c1' z1'] s3] (C1' & A1' & S5 & B5 & _). cbn [fst snd] in C1', A1', S5, B5.
    eapply gd_bind; [eapply (gd_pop_ok lp); [exact (outer_of _ _ _ _ S1)|exact S5|exact B5]|]. intros s4 (S6 & B6 & L6).
    eapply gd_bind; [apply gd_close_ok, S6|]. intros s5 (S7 & B7 & L7). rewrite B6 in B7.
    eapply (gd_bind true (fun x : list stmt * list stmt * N * gst => ok env (fst (fst (fst x))) /\ ok env (snd (fst (fst x))) /\ inv lp m0 d sd env (snd x) /\ s_buf (snd x) = [])).
    { destruct h.
      - eapply gd_bind; [apply gd_any|]. intros _ _. pose proof (inv_open _ _ _ _ S7) as S8. pose proof (inv_pushl _ _ _ _ S8) as S9.
        eapply gd_bind; [apply H2, S9|]. intros [[c2 z2] s6] [C2 T6]. cbn [fst snd] in C2, T6.
        eapply gd_bind; [apply gok_write, inv_ws, T6|]. intros [[c2' z2'] s7] (C2' & A2' & T7 & B7' & _). cbn [fst snd] in C2', A2', T7, B7'.
        eapply gd_bind; [eapply (gd_pop_ok lp); [exact (outer_of _ _ _ _ S8)|exact T7|exact B7']|]. intros s8 (T8 & B8 & L8).
        eapply gd_bind; [apply gd_close_ok, T8|]. intros s9 (T9 & B9 & L9). rewrite B8 in B9. split; [apply ok_app; auto|split; [reflexivity|split; assumption]].
      - eapply gd_bind; [apply gok_write, inv_ws, S7|]. intros [[c2' z2'] s7] (C2' & A2' & T7 & B7' & _). cbn [fst snd] in C2', A2', T7, B7'. split; [reflexivity|split; [exact C2'|split; assumption]]. }
    intros [[[ce ct] z2] s6] (CE & CT & T6 & B6'). cbn [fst snd] in CE, CT, T6, B6'. eapply gd_bind; [apply gd_close_ok, T6|]. intros s7 (T7 & B7' & L7'). rewrite B6' in B7'.
    eapply gd_bind; [eapply (gd_pop_ok lp); [exact OB|exact T7|exact B7']|]. intros s8 (T8 & B8 & L8). cbn [gd fst snd].
    split; [|apply inv_after, T8]. apply ok_app. split; [exact C0|]. rewrite A0.
    assert (CB : ok envb (c1 ++ c1')) by (apply ok_app; auto).
    apply ok_around; [apply T8| |]; intros DF; unfold envb in CB; rewrite DF in CB.
    - rewrite unbound_loop, !nil_app. split; [apply missing_nil, Hr, DF|]. split; [|split; [exact CB|split; [exact CE|exact CT]]].
      destruct flt as [[p' e']|]; [|reflexivity]. apply missing_nil, (HF p' e' eq_refl DF).
    - rewrite app_assoc. apply ok_seq; [exact CB|apply ok_seq; assumption].
  Qed.
  Lemma filter_name_normal id : normalize_identifier (filter_block_name id) = filter_block_name id.
  Proof.
    apply normalize_other. intros H. assert (K : forallb (fun k => match k with c :: _ => negb (c =? 95) | [] => true end) rust_keywords = true) by (vm_compute; reflexivity).
    rewrite forallb_forall in K. specialize (K _ H). discriminate K.
  Qed.
  Lemma gok_filter lp base env f w1 fn a w2 st : (forall base env st, inv lp base d sd env st -> gok lp base d sd env (f st)) -> Forall (ready lp) a ->
    inv lp base d sd env st -> gok lp base d sd env (write_filter_block inp f w1 fn a w2 st).
  Proof.
    intros H1 RA H. unfold write_filter_block, gok. pose proof (inv_flush _ _ _ (ws_l w1) _ H) as HW.
    eapply (gd_bind true (fun var => normalize_identifier var = var)).
    { destruct (fresh_filter_name _ _ _) eqn:E; cbn; auto. destruct (SimScope.fresh_ok _ _ _ _ E) as [_ [id ->]]. apply filter_name_normal. }
    intros var NV.
    assert (HP : inv lp base d sd env (do_prepare_ws inp (ws_r w1) (set_buf [] (do_flush_ws inp (ws_l w1) st)))).
    { apply inv_prepare. apply (inv_same _ _ _ (do_flush_ws inp (ws_l w1) st)); try reflexivity; [constructor|exact HW]. }
    eapply gd_bind; [apply H1, HP|]. intros [[c z] s] [C S1]. cbn [fst snd] in C, S1. pose proof (inv_flush _ _ _ (ws_l w2) _ S1) as S2.
    assert (CB : Forall (wok (after env c)) (s_buf (do_flush_ws inp (ws_l w1) st))) by (eapply bufok_mono; [apply after_incl|apply HW]).
    eapply (gd_bind true (fun x => d = false -> format_closed (after env c) (snd (fst x)))).
    { apply gd_of. intros [[z' ps] n'] E D. destruct (i_chain _ _ _ _ _ _ S2 D) as [K _]. eapply prepare_closed; [apply S2|exact K|apply S2|exact E]. }
    intros [[wz ps] nm] HF. cbn [fst snd] in HF.
    assert (T : forall (x : gres unit) stm, (d = false -> unbound (after env c) stm = []) -> binds stm = [var] -> gok lp base d sd env
        (let* _ := x in let* _ := line (set_named nm (set_buf [] (do_flush_ws inp (ws_l w2) s))) in
         let s' := set_buf (s_buf (do_flush_ws inp (ws_l w1) st)) (set_named nm (set_buf [] (do_flush_ws inp (ws_l w2) s))) in
         let* (r, wrapped) := of_res (visit_expr inp (s_locals s') (insert_in_filter var (Filter fn a))) in
         let s'' := do_prepare_ws inp (ws_r w2) (push [WGen r wrapped] s') in
         let* m := of_res (ch_insert (s_locals s'') var m_initialized) in
         GOk (c ++ emit s'' [stm], z + wz, set_locals m s''))).
    { intros x stm HS HB. unfold gok. eapply gd_bind; [apply gd_any|]. intros _ _. eapply gd_bind; [apply gd_any|]. intros _ _. cbv zeta.
      match goal with |- context [visit_expr inp (s_locals ?q)] => set (s' := q) end.
      assert (S3 : inv lp base d sd (after env c) s') by (apply (inv_same _ _ _ (do_flush_ws inp (ws_l w2) s)); try reflexivity; [exact CB|exact S2]).
      assert (S3' : inv lp base d sd (inner d [var] (after env c)) s') by (eapply inv_env; [apply inner_incl|exact S3]).
      eapply (gd_bind true (fun y => d = false -> closed (var :: after env c) (fst y))).
      { apply gd_of. intros [r wr] E DF. pose proof (i_chain _ _ _ _ _ _ S3' DF) as [CV _]. unfold inner in CV. rewrite DF in CV. eapply visit_closed; [|eapply lets_insert|exact E].
        - right. apply S3.
        - left. reflexivity.
        - eapply Forall_impl; [|exact RA]. intros e RE. eapply lets_of; [exact CV| |exact RE]. intros L. right. apply (i_loop _ _ _ _ _ _ S3 L DF). }
      intros [r wr] HR. cbn [fst] in HR.
      assert (S4 : inv lp base d sd (inner d [var] (after env c)) (do_prepare_ws inp (ws_r w2) (push [WGen r wr] s'))).
      { apply inv_prepare, inv_push; [exact S3'|]. intros DF. constructor; [|constructor]. cbn [wok]. unfold inner. rewrite DF. apply HR, DF. }
      set (s4 := do_prepare_ws inp (ws_r w2) (push [WGen r wr] s')) in *.
      eapply (gd_bind true (fun m => ch_insert (s_locals s4) var m_initialized = Ok m)); [apply gd_of; auto|]. intros m Em. cbn [gd fst snd].
      destruct (ok_emit (after env c) s4 stm (i_d _ _ _ _ _ _ S4) HS) as [K1 K2]. rewrite HB in K2. split; [apply ok_app; split; assumption|]. rewrite after_app, K2.
      destruct S4 as [I1 I2 I3 I4 I5 I6 I7]. constructor; auto. cbn [set_locals s_locals]. intros DF. destruct (I7 DF) as [CV U]. split; [|rewrite (under_insert _ _ _ _ Em); exact U].
      eapply covers_insert; [exact Em|exact NV| |exact CV]. unfold inner. rewrite DF. left. reflexivity. }
    destruct ps as [|x|x y].
    - cbn [gd fst snd]. split; [exact C|]. apply (inv_same _ _ _ (do_flush_ws inp (ws_l w2) s)); try reflexivity; [constructor|exact S2].
    - apply (T (GOk tt) (SLetStr var x)); reflexivity.
    - apply (T (if 62 <=? o_indent (set_named nm (set_buf [] (do_flush_ws inp (ws_l w2) s))) then GPanic else GOk tt) (SLetFmt var x y)); [|reflexivity].
      intros DF. exact (unbound_fmt _ x y (HF DF)).
  Qed.
  Section Lists.
    Variable f : node -> gst -> gres gen.
    Variable lp : bool.
    Lemma gok_list : forall ns, (forall n, In n ns -> forall base env st, inv lp base d sd env st -> gok lp base d sd env (f n st)) ->
      forall base env st, inv lp base d sd env st -> gok lp base d sd env (gen_list f ns st).
    Proof.
      induction ns as [|n ns IH]; intros H base env st E; cbn [gen_list]; [split; [reflexivity|exact E]|].
      eapply gd_bind; [apply H; [left; reflexivity|exact E]|]. intros [[c z] s] [C1 S1]. cbn [fst snd] in C1, S1. eapply gd_bind; [apply IH; [intros; apply H; [right|]; assumption|exact S1]|].
      intros [[c' z'] s'] [C2 S2]. cbn [fst snd] in C2, S2. cbn [gd fst snd]. split; [apply ok_app; auto|]. rewrite after_app. exact S2.
    Qed.
    (** The branches of an if and the arms of a match, in the scope [env0] with the locals [m0]. *)
    Variables (m0 base0 : chain) (env0 : list str).
    Hypothesis XO : outer lp m0 base0 env0.
    Definition branch_ok (b : rtest * list stmt) : Prop :=
      (d = false -> test_unbound env0 (fst b) = []) /\ ok (inner d (test_names (fst b)) env0) (snd b).
    Definition entered (first : bool) (env : list str) (st : gst) : Prop :=
      if first then inv lp base0 d sd env0 st /\ env = env0 /\ (d = false -> s_locals st = m0) else inv lp m0 d sd env st.
    Lemma entered_ws first env w st : entered first env st -> entered first env (do_handle_ws inp w st).
    Proof. unfold entered. destruct first; [|apply inv_ws]. intros (H1 & H2 & H3). split; [apply inv_ws, H1|]. split; [exact H2|]. intros D. rewrite loc_ws. apply H3, D. Qed.
    (** The branch before is left. *)
    Lemma leave first env st : entered first env st -> s_buf st = [] ->
      gd true (fun s => inv lp base0 d sd env0 s /\ s_buf s = [] /\ (d = false -> s_locals s = m0)) (if first then GOk st else pop_locals st).
    Proof. intros H B. destruct first; [destruct H as (H1 & _ & H3); split; [exact H1|split; [exact B|exact H3]]|]. eapply gd_pop_ok; [exact XO|exact H|exact B]. Qed.
    Lemma gok_entered first env st : entered first env st ->
      gd true (fun x : gen => ok env (fst (fst x)) /\ after env (fst (fst x)) = env /\ entered first env (snd x) /\ s_buf (snd x) = []) (write_buf_writable inp st).
    Proof.
      intros H. destruct first.
      - destruct H as (H1 & -> & H3). eapply gd_imp; [apply gok_write, H1|]. intros x (K1 & K2 & K3 & K4 & K5). split; [exact K1|]. split; [exact K2|]. split; [|exact K4]. split; [exact K3|]. split; [reflexivity|].
        intros D. rewrite K5. apply H3, D.
      - eapply gd_imp; [apply gok_write, H|]. intros x (K1 & K2 & K3 & K4 & K5). split; [exact K1|]. split; [exact K2|]. split; [exact K3|exact K4].
    Qed.
    Lemma inv_enter s : inv lp base0 d sd env0 s -> (d = false -> s_locals s = m0) -> inv lp m0 d sd env0 (push_locals s).
    Proof. intros H L. pose proof (inv_pushl _ _ _ _ H) as [I1 I2 I3 I4 I5 I6 I7]. constructor; auto. intros D. destruct (I7 D) as [C U]. split; [exact C|]. rewrite U. apply L, D. Qed.
    Lemma gok_branches w : forall cs,
      (forall w' t ns, In (Cond w' t ns) cs -> (forall t', t = Some t' -> ready lp (ct_expr t')) /\ forall base env st, inv lp base d sd env st -> gok lp base d sd env (gen_list f ns st)) ->
      forall first env st, (first = true -> cs <> []) -> entered first env st ->
      gd true (fun x => ok env (fst (fst (fst (fst (fst x))))) /\ after env (fst (fst (fst (fst (fst x))))) = env /\
        Forall branch_ok (snd (fst (fst (fst (fst x))))) /\ inv lp base0 d sd env0 (snd x)) (gen_branches inp f w first cs st).
    Proof.
      induction cs as [|[w' t ns] cs IH]; intros H first env st HN E; cbn [gen_branches].
      - destruct first; [destruct (HN eq_refl eq_refl)|]. eapply gd_bind; [apply (gok_entered false), (entered_ws false), E|]. intros [[c z] s] (C1 & A1 & S1 & B1). cbn [fst snd] in C1, A1, S1, B1.
        eapply gd_bind; [apply gd_close_ok, S1|]. intros s2 (S2 & B2 & _). rewrite B1 in B2.
        eapply gd_bind; [apply (leave false env); [exact S2|exact B2]|]. intros s3 (S3 & _). cbn [gd fst snd]. split; [exact C1|]. split; [exact A1|]. split; [constructor|exact S3].
      - destruct (H w' t ns (or_introl eq_refl)) as [RT HB]. eapply gd_bind; [apply gok_entered, entered_ws, E|]. intros [[c z] s] (C1 & A1 & S1 & B1). cbn [fst snd] in C1, A1, S1, B1.
        eapply gd_bind; [eapply leave; [exact S1|exact B1]|]. intros s2 (S2 & B2 & L2). pose proof (inv_enter _ S2 L2) as SP.
        eapply gd_bind; [apply gd_test_ok; [exact RT|exact SP]|]. intros [t' s3] [C3 S3]. cbn [fst snd] in C3, S3.
        eapply gd_bind; [apply HB, inv_open, S3|]. intros [[bd z'] s4] [C4 S4]. cbn [fst snd] in C4, S4.
        eapply gd_bind; [apply (IH (fun w0 t0 n0 K => H w0 t0 n0 (or_intror K)) false); [discriminate|exact S4]|].
        intros [[[[[a r] z2] sz] he] s5] (C5 & A5 & B5 & S5). cbn [fst snd] in C5, A5, B5, S5. cbn [gd fst snd]. split; [exact C1|]. split; [exact A1|]. split; [|exact S5]. constructor; [|exact B5].
        split; [exact C3|]. cbn [fst snd]. apply ok_app. auto.
    Qed.
    Definition arm_ok (b : target * list stmt) : Prop := ok (inner d (pattern_names (fst b)) env0) (snd b).
    Lemma gok_arms w : forall cs,
      (forall w' t ns, In (When w' t ns) cs -> forall base env st, inv lp base d sd env st -> gok lp base d sd env (gen_list f ns st)) ->
      forall first env st, (first = true -> cs <> []) -> entered first env st ->
      gd true (fun x => ok env (fst (fst (fst (fst x)))) /\ after env (fst (fst (fst (fst x)))) = env /\
        Forall arm_ok (snd (fst (fst x))) /\ inv lp base0 d sd env0 (snd x)) (gen_arms inp f w first cs st).
    Proof.
      induction cs as [|[w' t ns] cs IH]; intros H first env st HN E; cbn [gen_arms].
      - destruct first; [destruct (HN eq_refl eq_refl)|]. eapply gd_bind; [apply (gok_entered false), (entered_ws false), E|]. intros [[c z] s] (C1 & A1 & S1 & B1). cbn [fst snd] in C1, A1, S1, B1.
        eapply gd_bind; [apply gd_close_ok, S1|]. intros s2 (S2 & B2 & _). rewrite B1 in B2.
        eapply gd_bind; [apply (leave false env); [exact S2|exact B2]|]. intros s3 (S3 & _). cbn [gd fst snd]. split; [exact C1|]. split; [exact A1|]. split; [constructor|exact S3].
      - eapply (gd_bind true (fun x : gen => ok env (fst (fst x)) /\ after env (fst (fst x)) = env /\ inv lp base0 d sd env0 (snd x) /\ (d = false -> s_locals (snd x) = m0))).
        { destruct first.
          - destruct (entered_ws true env w' st E) as (H1 & -> & H3). split; [reflexivity|]. split; [reflexivity|]. split; [exact H1|exact H3].
          - eapply gd_bind; [apply (gok_entered false), (entered_ws false), E|]. intros [[c z] s] (C1 & A1 & S1 & B1). cbn [fst snd] in C1, A1, S1, B1.
            eapply gd_bind; [apply gd_close_ok, S1|]. intros s2 (S2 & B2 & _). rewrite B1 in B2. eapply gd_bind; [apply (leave false env); [exact S2|exact B2]|]. intros s3 (S3 & _ & L3).
            cbn [gd fst snd]. split; [exact C1|]. split; [exact A1|]. split; [exact S3|exact L3]. }
        intros [[c z] s] (C1 & A1 & S1 & L1). cbn [fst snd] in C1, A1, S1, L1. pose proof (inv_enter _ S1 L1) as SP. eapply gd_bind; [apply gd_any|]. intros _ _.
        eapply gd_bind; [apply gd_target, SP|]. intros [p m] [_ S2]. cbn [fst snd] in S2.
        eapply gd_bind; [eapply H; [left; reflexivity|apply inv_open, S2]|]. intros [[bd z'] s4] [C4 S4]. cbn [fst snd] in C4, S4.
        eapply gd_bind; [apply (IH (fun w0 t0 n0 K => H w0 t0 n0 (or_intror K)) false); [discriminate|exact S4]|].
        intros [[[[a z2] r] sz] s5] (C5 & A5 & B5 & S5). cbn [fst snd] in C5, A5, B5, S5. cbn [gd fst snd]. split; [exact C1|]. split; [exact A1|]. split; [|exact S5]. constructor; [|exact B5].
        unfold arm_ok. cbn [fst snd]. apply ok_app. auto.
    Qed.
  End Lists.
  End D.

  (** Nodes *)
  Hypothesis HG : forall p c, get p contexts = Some c -> cgood c.
  Section Step.
    Variable expand : option heritage -> context -> list node -> level -> gst -> gres gen.
    Hypothesis HX : forall her ctx ns lv base d sd env st, (forall h, her = Some h -> hgood h) -> cgood ctx -> own ns -> inv false base d sd env st ->
      gok false base d sd env (expand her ctx ns lv st).
    Variables (her : option heritage) (ctx : context).
    Hypothesis HH : forall h, her = Some h -> hgood h.
    Hypothesis HC : cgood ctx.
    Variables (d sd : bool).
    Lemma gok_block lp base env name outer st : inv lp base d sd env st -> gok lp base d sd env (write_block inp expand her ctx name outer st).
    Proof.
      intros H. unfold write_block, gok. eapply gd_bind; [apply gd_any|]. intros cur _. eapply gd_bind; [apply gok_write, inv_flush, H|]. intros [[c z] s] (C1 & A1 & S1 & B1 & _). cbn [fst snd] in C1, A1, S1, B1.
      cbv zeta. destruct her as [h|]; [|exact I]. destruct (get (fst cur) (h_blocks h)) as [defs|] eqn:G; [|exact I]. destruct (nth_error defs (snd cur)) as [[cc df]|] eqn:NE; [|exact I].
      destruct (HH h eq_refl) as [_ HD]. destruct (HD _ _ _ _ (get_in _ _ _ G) (nth_error_In _ _ NE)) as [K1 K2].
      match goal with |- context [if ?x && s_discard s then false else s_discard s] => set (same := x) end.
      set (dc := if same && s_discard s then false else s_discard s).
      match goal with |- context [expand (Some h) _ _ LBlock ?q] => set (ch := q) end.
      assert (SC : inv false (under ch_empty) dc dc env ch).
      { constructor; auto; [apply S1|cbn [ch s_buf]; rewrite B1; constructor|discriminate|]. intros _. split; [|reflexivity]. intros x v Q. discriminate Q. }
      eapply gd_bind; [apply HX; [exact HH|apply merge_cgood; [exact HC|exact K1]|exact K2|exact SC]|]. intros [[c1 z1] s1] [C2 S2]. cbn [fst snd] in C2, S2.
      eapply (gd_bind true (fun x : gen => ok (after env c1) (fst (fst x)) /\ after (after env c1) (fst (fst x)) = after env c1 /\ inv false (under ch_empty) dc dc (after env c1) (snd x))).
      { destruct (ch_is_current_empty (s_locals s1)); [split; [reflexivity|split; [reflexivity|exact S2]]|]. eapply gd_imp; [apply gok_write, S2|]. intros x (Q1 & Q2 & Q3 & _). auto. }
      intros [[c2 z2] s2] (C3 & A3 & S3). cbn [fst snd] in C3, A3, S3. cbn [gd fst snd].
      split; [apply ok_app; split; [exact C1|]; rewrite A1; apply ok_app; auto|]. rewrite !after_app, A1, A3. apply inv_prepare.
      pose proof (inv_flush _ _ _ _ _ (ws_l (b_ws2 df)) _ S3) as S4. pose proof (inv_after _ _ _ _ _ c1 _ S1) as T. pose proof (i_d _ _ _ _ _ _ S1) as E1. pose proof (i_sd _ _ _ _ _ _ S1) as E2.
      destruct T as [I1 I2 I3 I4 I5 I6 I7]. constructor; auto; cbn [s_buf s_discard o_discard s_locals]; [apply S4|].
      destruct (same && s_discard s) eqn:Q; [apply andb_prop in Q as [_ Q]; congruence|]. rewrite (i_sd _ _ _ _ _ _ S4). exact E2.
    Qed.
    Lemma gok_call lp base env w scope name args st : Forall (ready lp) args -> Forall (arg_apart name) args -> inv lp base d sd env st -> gok lp base d sd env (write_call inp contexts expand her ctx w scope name args st).
    Proof.
      intros RA AA H. unfold write_call. destruct (str_eqb name (lit "super")); [apply gok_block, H|]. unfold gok.
      eapply (gd_bind true (fun x : macro_def * context => (own (k_nodes (fst x)) /\ Forall (PR name) (k_args (fst x))) /\ cgood (snd x))).
      { destruct scope as [s|].
        - destruct (get s (c_imports ctx)) as [path|]; [|exact I]. destruct (get path contexts) as [mc|] eqn:G; [|exact I]. destruct (get name (c_macros mc)) eqn:GM; [|exact I].
          pose proof (HG _ _ G) as K. split; [eapply (gc_macros _ K), get_in, GM|exact K].
        - destruct (get name (c_macros ctx)) eqn:GM; [|exact I]. split; [eapply (gc_macros _ HC), get_in, GM|exact HC]. }
      intros [def own_ctx] [[K1 KP] K2]. cbn [fst snd] in K1, KP, K2.
      pose proof (inv_flush _ _ _ _ _ (ws_l w) _ H) as HW. pose proof (outer_of _ _ _ _ _ _ HW) as OB. set (m0 := s_locals (do_flush_ws inp (ws_l w) st)) in *.
      eapply gd_bind; [apply gok_write; eapply inv_pushl; exact HW|]. intros [[c z] s] (C1 & A1 & S1 & B1 & _). cbn [fst snd] in C1, A1, S1, B1. eapply gd_bind; [apply gd_any|]. intros _ _.
      destruct (negb (Nat.eqb (length args) (length (k_args def)))); [exact I|].
      eapply (gd_bind true (fun nm => named_arguments (k_args def) (rev args) [] = Ok nm)); [apply gd_of; auto|]. intros nm ENM.
      assert (HNM : forall p e, get p nm = Some e -> In e args).
      { intros p e G. destruct (named_in _ _ _ _ _ _ ENM G) as [K|K]; [apply in_rev, K|discriminate K]. }
      pose proof (inv_prepare _ _ _ _ _ (ws_r (k_ws1 def)) _ (inv_open _ _ _ _ _ _ S1)) as S1'. set (s1' := do_prepare_ws inp (ws_r (k_ws1 def)) (open_brace s)) in *.
      eapply (gd_bind true (fun x : chain * list str * list rexpr => d = false -> Forall (closed env) (snd x) /\ covers (snd (fst x) ++ env) (fst (fst x)) /\ under (fst (fst x)) = m0)).
      { apply gd_of. intros [[m ns] vs] E D. cbn [fst snd]. destruct (i_chain _ _ _ _ _ _ S1' D) as [CV U].
        destruct (bind_closed name inp (s_locals s1') env lp nm args) with (ps := k_args def) (i := O) (pos := true) (m := s_locals s1') (ns := @nil str) (m' := m) (names := ns) (values := vs) as (Q1 & Q2 & Q3); auto.
        - apply S1'.
        - intros L. apply (i_loop _ _ _ _ _ _ S1' L D).
        - split; [exact Q1|]. split; [exact Q2|]. rewrite Q3. exact U. }
      intros [[m ns] vs] HB. cbn [fst snd] in HB. eapply gd_bind; [apply gd_any|]. intros _ _. cbv zeta.
      assert (S2 : inv false m0 d sd (inner d ns env) (set_locals m s1')).
      { apply inv_no in S1'. apply (inv_env _ _ _ _ _ _ _ (inner_incl d ns env)) in S1'. destruct S1' as [I1 I2 I3 I4 I5 I6 I7]. constructor; auto. cbn [set_locals s_locals]. intros D. destruct (HB D) as (_ & Q2 & Q3).
        unfold inner. rewrite D. split; [exact Q2|exact Q3]. }
      eapply gd_bind; [apply HX; [exact HH|exact K2|exact K1|exact S2]|]. intros [[c1 z1] s1] [C2 S3]. cbn [fst snd] in C2, S3.
      eapply gd_bind; [apply gok_write, inv_flush, S3|]. intros [[c2 z2] s2] (C3 & A3 & S4 & B4 & _). cbn [fst snd] in C3, A3, S4, B4.
      eapply gd_bind; [apply gd_close_ok, S4|]. intros s3 (S5 & B5 & _). rewrite B4 in B5. eapply gd_bind; [eapply (gd_pop_ok d sd lp); [exact OB|exact S5|exact B5]|]. intros s4 (S6 & B6 & _).
      cbn [gd fst snd]. pose proof (inv_prepare _ _ _ _ _ (ws_r w) _ S6) as S7. set (s7 := do_prepare_ws inp (ws_r w) s4) in *. split; [|apply inv_after, S7].
      apply ok_app. split; [exact C1|]. rewrite A1.
      assert (CB : ok (inner d ns env) (c1 ++ c2)) by (apply ok_app; auto).
      eapply ok_around; [apply S7| |].
      - intros D. rewrite unbound_block. unfold inner in CB. rewrite D in CB. destruct (HB D) as (Q1 & _ & _).
        pose proof (ok_emit d env s7 (SLetTuple ns vs) (i_d _ _ _ _ _ _ S7)) as KE.
        assert (UV : unbound env (SLetTuple ns vs) = []) by (cbn [unbound]; apply missing_nil; clear - Q1; induction Q1; cbn [map concat]; [apply nil_incl|apply incl_app; assumption]).
        destruct KE as [E1 E2]; [intros _; exact UV|]. destruct ns as [|n ns]; [exact CB|]. apply ok_app. split; [exact E1|]. rewrite E2. unfold inner. rewrite D. exact CB.
      - intros D. unfold inner in CB. rewrite D in CB. exact CB.
    Qed.
    Lemma gok_include lp base env w path st : inv lp base d sd env st -> gok lp base d sd env (write_include inp contexts find expand ctx w path st).
    Proof.
      intros H. unfold write_include, gok. eapply gd_bind; [apply gok_write, inv_flush, H|]. intros [[c z] s] (C1 & A1 & S1 & B1 & _). cbn [fst snd] in C1, A1, S1, B1.
      eapply gd_bind; [apply gd_any|]. intros q _. eapply gd_bind; [apply gd_any|]. intros _ _. destruct (get q contexts) as [cc|] eqn:G; [|exact I]. cbv zeta.
      pose proof (merge_cgood _ _ HC (HG _ _ G)) as GM.
      eapply (gd_bind true (fun h => forall h', h = Some h' -> hgood h')).
      { assert (T : gd true (fun h => forall h', h = Some h' -> hgood h') (let* h := heritage_new (S (length contexts)) contexts (merge_context ctx cc) in GOk (Some h))).
        { eapply (gd_bind true hgood); [|intros h Hh h' [= <-]; exact Hh]. destruct (heritage_new (S (length contexts)) contexts (merge_context ctx cc)) eqn:E; cbn; auto. eapply heritage_new_cgood; eassumption. }
        destruct (c_blocks (merge_context ctx cc)), (c_extends (merge_context ctx cc)); try exact T. discriminate. }
      intros h Hh.
      assert (K : cgood match h with Some h0 => h_root h0 | None => merge_context ctx cc end) by (destruct h as [h|]; [apply (Hh h eq_refl)|exact GM]).
      match goal with |- context [expand h _ _ LTop ?q] => set (ch := q) end.
      assert (SC : inv false (under (ch_with_parent (s_locals s))) d sd env ch).
      { destruct S1 as [I1 I2 I3 I4 I5 I6 I7]. constructor; auto; [constructor|discriminate|]. cbn [ch s_locals]. intros D. split; [|reflexivity]. eapply covers_get; [intros k; apply SimFacts.ch_get_parent|]. apply (I7 D). }
      eapply gd_bind; [apply HX; [exact Hh|exact K|apply K|exact SC]|]. intros [[c1 z1] s1] [C2 S2]. cbn [fst snd] in C2, S2.
      eapply gd_bind; [apply gok_write, S2|]. intros [[c2 z2] s2] (C3 & A3 & S3 & _). cbn [fst snd] in C3, A3, S3. cbn [gd fst snd].
      assert (ST : inv lp base d sd env (set_indent (o_indent s2) s)) by (apply (inv_same _ _ _ _ _ s); try reflexivity; [apply S1|exact S1]).
      destruct (ok_emit d env (set_indent (o_indent s2) s) (SIncludeBytes q) (i_d _ _ _ _ _ _ ST)) as [K1 K2]; [reflexivity|].
      assert (K3 : inner d (binds (SIncludeBytes q)) env = env) by (unfold inner; destruct d; reflexivity). rewrite K3 in K2.
      split; [|apply inv_prepare, inv_after, ST]. apply ok_app. split; [exact C1|]. rewrite A1. apply ok_app. split; [exact K1|]. rewrite K2. apply ok_app. auto.
    Qed.
    Lemma call_ready b w sc x args : good (NCall w sc x args) -> kept b (NCall w sc x args) -> Forall (ready b) args.
    Proof.
      intros GN KN. apply Forall_forall. intros e He. assert (D : (exists k v, e = NamedArgument k v) \/ forall k v, e <> NamedArgument k v) by (destruct e; try (right; discriminate); left; eauto).
      destruct D as [(k & v & ->)|NE]; [|eapply ready_of; [exact GN|exact KN|]; apply eo_pos; assumption].
      assert (R : ready b v) by (eapply ready_of; [exact GN|exact KN|]; eapply eo_named; exact He). destruct R as [R1 R2]. split.
      - intros [y S]. apply R1. exists y. inversion S as [|? ? k0 Hk S']; subst. destruct Hk as [<-|[]]. exact S'.
      - intros y S. inversion S as [|? ? k0 Hk S']; subst. destruct Hk as [<-|[]]. exact (R2 y S').
    Qed.
    Lemma gok_node : forall n b base env lv st, good n -> kept b n -> inv b base d sd env st -> gok b base d sd env (handle_node inp contexts find expand her ctx lv n st).
    Proof.
      induction n using node_ind_all; intros b base env lv st GN KN HI; pose proof (good_own _ GN) as ON; cbn [handle_node].
      - destruct n; try contradiction; cbn [handle_node].
        + eapply gd_bind; [apply gd_lit_ok, HI|]. intros s Hs. split; [reflexivity|exact Hs].
        + split; [reflexivity|apply inv_ws, HI].
        + split; [reflexivity|]. cbn [fst snd]. apply inv_push; [apply inv_ws, HI|]. intros D. constructor; [|constructor]. cbn [wok].
          assert (R : ready b e) by (eapply ready_of; [exact GN|exact KN|constructor]). destruct R as [R1 R2]. split; [|exact R2]. intros L. apply (i_loop _ _ _ _ _ _ HI (R1 L) D).
        + apply gok_call; [eapply call_ready; eassumption|exact (proj2 ON)|exact HI].
        + apply gok_let; [|exact HI]. intros e ->. eapply ready_of; [exact GN|exact KN|constructor].
        + destruct (top_level lv); [split; [reflexivity|exact HI]|exact I].
        + apply gok_include, HI.
        + destruct (top_level lv); [split; [reflexivity|apply inv_ws, HI]|exact I].
        + eapply gd_bind; [apply gd_lit_ok, inv_ws, HI|]. intros s Hs. split; [reflexivity|apply inv_ws, Hs].
        + eapply gd_bind; [apply gok_write, inv_ws, HI|]. intros [[c z] s] (C1 & A1 & S1 & _). cbn [fst snd] in C1, A1, S1. eapply gd_bind; [apply gd_any|]. intros _ _. cbn [gd fst snd]. split; [|apply inv_after, S1].
          apply ok_app. split; [exact C1|]. rewrite A1. apply (ok_emit d env s SBreak (i_d _ _ _ _ _ _ S1)). reflexivity.
        + eapply gd_bind; [apply gok_write, inv_ws, HI|]. intros [[c z] s] (C1 & A1 & S1 & _). cbn [fst snd] in C1, A1, S1. eapply gd_bind; [apply gd_any|]. intros _ _. cbn [gd fst snd]. split; [|apply inv_after, S1].
          apply ok_app. split; [exact C1|]. rewrite A1. apply (ok_emit d env s SContinue (i_d _ _ _ _ _ _ S1)). reflexivity.
      - eapply gd_bind.
        + apply (gok_branches d sd _ b (s_locals st) base env); [eapply outer_of; exact HI| |intros _; exact (proj2 ON)|split; [exact HI|split; reflexivity]].
          intros w' t ns Hc. split; [intros t' ->; eapply ready_of; [exact GN|exact KN|eapply eo_if; exact Hc]|]. intros base' env' s Hs. rewrite Forall_forall in H. specialize (H _ Hc). cbn in H. rewrite Forall_forall in H.
          apply gok_list; [|exact Hs]. intros n Hn base2 env2 s' Hs'. apply H; [exact Hn|eapply good_child; [exact GN|]; exact (ch_if false _ _ _ _ _ _ Hc Hn)| |exact Hs'].
          eapply kept_child; [exact KN|]. exact (ch_if b _ _ _ _ _ _ Hc Hn).
        + intros [[[[[c br] z] sz] he] s] (C1 & A1 & B1 & S1). cbn [fst snd] in C1, A1, B1, S1. eapply gd_bind; [apply gd_any|]. intros z' _. cbn [gd fst snd]. split; [|apply inv_after, S1]. apply ok_app. split; [exact C1|]. rewrite A1.
          eapply ok_around; [apply S1| |]; intros D.
          * rewrite unbound_if. apply nil_concat. apply Forall_forall. intros [t body] Hb. rewrite Forall_forall in B1. destruct (B1 _ Hb) as [Q1 Q2]. cbn [fst snd] in Q1, Q2. apply nil_app.
            split; [apply Q1, D|]. unfold inner in Q2. rewrite D in Q2. exact Q2.
          * apply ok_concat. apply Forall_forall. intros [t body] Hb. rewrite Forall_forall in B1. destruct (B1 _ Hb) as [_ Q2]. unfold inner in Q2. rewrite D in Q2. exact Q2.
      - eapply gd_bind; [apply gok_write, inv_flush, HI|]. intros [[c z] s] (C1 & A1 & S1 & B1 & _). cbn [fst snd] in C1, A1, S1, B1.
        eapply gd_bind; [eapply gd_root; [exact S1|eapply ready_of; [exact GN|exact KN|constructor]]|]. intros r Hr. eapply gd_bind; [apply gd_any|]. intros _ _.
        pose proof (inv_open _ _ _ _ _ _ S1) as S1'. eapply gd_bind.
        + apply (gok_arms d sd _ b (s_locals (open_brace s)) base env); [eapply outer_of; exact S1'| |intros _; exact (proj2 ON)|split; [exact S1'|split; reflexivity]].
          intros w' t ns Hc base' env' s0 Hs0. rewrite Forall_forall in H. specialize (H _ Hc). cbn in H. rewrite Forall_forall in H.
          apply gok_list; [|exact Hs0]. intros n Hn base2 env2 s' Hs'. apply H; [exact Hn|eapply good_child; [exact GN|]; exact (ch_match false _ _ _ _ _ _ _ _ Hc Hn)| |exact Hs'].
          eapply kept_child; [exact KN|]. exact (ch_match b _ _ _ _ _ _ _ _ Hc Hn).
        + intros [[[[c1 z1] ar] sz] s2] (C2 & A2 & B2 & S2). cbn [fst snd] in C2, A2, B2, S2. eapply gd_bind; [apply gd_close_ok, S2|]. intros s3 (S3 & _). eapply gd_bind; [apply gd_any|]. intros z' _.
          cbn [gd fst snd]. split; [|apply inv_after, S3]. apply ok_app. split; [exact C1|]. rewrite A1.
          eapply ok_around; [apply S3| |]; intros D.
          * rewrite unbound_match. apply nil_app. split; [apply missing_nil, Hr, D|]. apply nil_concat. apply Forall_forall. intros [t body] Hb. rewrite Forall_forall in B2. pose proof (B2 _ Hb) as Q2.
            unfold arm_ok, inner in Q2. rewrite D in Q2. exact Q2.
          * apply ok_concat. apply Forall_forall. intros [t body] Hb. rewrite Forall_forall in B2. pose proof (B2 _ Hb) as Q2. unfold arm_ok, inner in Q2. rewrite D in Q2. exact Q2.
      - rewrite Forall_forall in *. apply gok_loop; [| | | |exact HI].
        + intros base' env' s Hs. apply gok_list; [|exact Hs]. intros n Hn base2 env2 s' Hs'. apply H; [exact Hn|eapply good_child; [exact GN|]; exact (ch_body false _ _ _ _ _ _ _ _ _ Hn)| |exact Hs'].
          eapply kept_child; [exact KN|]. exact (ch_body b _ _ _ _ _ _ _ _ _ Hn).
        + intros base' env' s Hs. apply gok_list; [|exact Hs]. intros n Hn base2 env2 s' Hs'. apply H0; [exact Hn|eapply good_child; [exact GN|]; exact (ch_else false _ _ _ _ _ _ _ _ _ Hn)| |exact Hs'].
          eapply kept_child; [exact KN|]. exact (ch_else b _ _ _ _ _ _ _ _ _ Hn).
        + eapply ready_of; [exact GN|exact KN|constructor].
        + intros e ->. eapply ready_of; [exact GN|exact KN|constructor].
      - apply gok_block, HI.
      - destruct (top_level lv); [split; [reflexivity|apply inv_prepare, inv_flush, HI]|exact I].
      - rewrite Forall_forall in *. apply gok_filter; [| |exact HI].
        + intros base' env' s Hs. apply gok_list; [|exact Hs]. intros n Hn base2 env2 s' Hs'.
          apply H; [exact Hn|eapply good_child; [exact GN|]; exact (ch_filter false _ _ _ _ _ _ Hn)| |exact Hs']. eapply kept_child; [exact KN|]. exact (ch_filter b _ _ _ _ _ _ Hn).
        + apply Forall_forall. intros e He. eapply ready_of; [exact GN|exact KN|constructor; exact He].
    Qed.
    Lemma gok_nodes ns base env lv st : own ns -> inv false base d sd env st -> gok false base d sd env (handle_nodes inp contexts find expand her ctx ns lv st).
    Proof.
      intros [HN HK] HI. unfold handle_nodes, gok. rewrite Forall_forall in *. eapply gd_bind; [apply (gok_list d sd _ false); [|exact HI]|].
      { intros n Hn base' env' s Hs. apply gok_node; [apply HN, Hn|apply HK, Hn|exact Hs]. }
      intros [[c z] s] [C1 S1]. cbn [fst snd] in C1, S1. destruct (top_level lv); [|split; assumption].
      eapply gd_bind; [apply gok_write; destruct (next_ws (s_ws s)); [apply inv_flush|]; exact S1|]. intros [[c' z'] s'] (C2 & A2 & S2 & _). cbn [fst snd] in C2, A2, S2. cbn [gd fst snd].
      split; [apply ok_app; auto|]. rewrite after_app, A2. exact S2.
    Qed.
  End Step.
  Lemma gok_handle : forall fuel her ctx ns lv base d sd env st, (forall h, her = Some h -> hgood h) -> cgood ctx -> own ns -> inv false base d sd env st ->
    gok false base d sd env (handle inp contexts find fuel her ctx ns lv st).
  Proof.
    induction fuel as [|f IH]; intros her ctx ns lv base d sd env st HH HC HN HI; [reflexivity|]. cbn [handle]. apply gok_nodes; try assumption.
  Qed.
End Gen.
Lemma build_bound inp find fuel templates code z : (forall p ns, In (p, ns) templates -> own ns) ->
  build_template inp find fuel templates = GOk (code, z) -> all_unbound [SELF] code = [].
Proof.
  intros HT E. unfold build_template in E. apply gbind_inv in E as (contexts & E1 & E). pose proof (contexts_cgood _ _ _ HT E1) as HG.
  destruct (get (f_path inp) contexts) as [ctx|] eqn:G; [|discriminate E]. pose proof (HG _ _ G) as HC. apply gbind_inv in E as (her & E2 & E).
  assert (HH : forall h, her = Some h -> hgood h).
  { assert (T : (let* h := heritage_new fuel contexts ctx in match f_block inp with Some b => match get b (h_blocks h) with None => GErr (lit "cannot find block") | Some _ => GOk (Some h) end | None => GOk (Some h) end) = GOk her -> forall h, her = Some h -> hgood h).
    { intros Q h ->. apply gbind_inv in Q as (h' & Q1 & Q). assert (h' = h) by (destruct (f_block inp) as [b|]; [destruct (get b (h_blocks h'))|]; congruence). subst h'. eapply heritage_new_cgood; eassumption. }
    destruct (c_blocks ctx), (c_extends ctx); try exact (T E2). injection E2 as <-. discriminate. }
  unfold impl_template in E. cbv zeta in E. apply gbind_inv in E as ([[c z'] s] & E3 & E). cbv beta iota in E.
  assert (K : cgood match her with Some h => h_root h | None => ctx end) by (destruct her as [h|]; [apply (HH h eq_refl)|exact HC]).
  assert (HI : inv false (under ch_empty) false (s_discard (initial inp 2)) [SELF] (initial inp 2)).
  { constructor; auto; [left; reflexivity|constructor|discriminate|discriminate|]. intros _. split; [|reflexivity]. intros x v Q. discriminate Q. }
  pose proof (gok_handle inp contexts find HG fuel her _ _ LTop _ _ _ _ (initial inp 2) HH K (gc_nodes _ K) HI) as R. rewrite E3 in R. destruct R as [R _]. cbn [fst] in R.
  apply gbind_inv in E as (u & _ & E). apply gbind_inv in E as (s1 & _ & E). apply gbind_inv in E as (u2 & _ & E). apply gbind_inv in E as (s2 & _ & E). injection E as <- <-. exact R.
Qed.
End Params.

(** ** Parsed templates *)
Lemma wf_written e : wf_expr e -> written e.
Proof. intros W x S. pose proof (sub_wf _ _ S W) as K. inversion K. Qed.
Lemma block_filter_written n l : wf_block_filter n l -> forall e, In e l -> written e.
Proof.
  induction 1 as [n l _ W|n m l l' _ _ IH W]; intros e He; rewrite Forall_forall in W; [apply wf_written, W, He|].
  destruct He as [<-|He]; [|apply wf_written, W, He]. intros x S. inversion S as [|? k ? Hk S']; subst. exact (IH k Hk x S').
Qed.
Lemma wf_node_written b n e : wf_node b n -> expr_of n e -> written e.
Proof.
  intros W He. destruct He; inversion W; subst; try solve [apply wf_written; eauto].
  - match goal with H : call_args _ |- _ => destruct H as (pos & nm & -> & Hp & Hn & _) end. apply in_app_or in H. rewrite Forall_forall in Hp.
    destruct H as [H|H]; [apply wf_written, Hp, H|]. apply in_map_iff in H. destruct H as ([k' v'] & <- & _). destruct (H0 k' v' eq_refl).
  - match goal with H : call_args _ |- _ => destruct H as (pos & nm & -> & Hp & Hn & _) end. apply in_app_or in H. rewrite Forall_forall in Hp, Hn.
    destruct H as [H|H]; [apply Hp in H; inversion H|]. apply in_map_iff in H. destruct H as ([k' v'] & [= <- <-] & H). apply wf_written, (Hn _ H).
  - match goal with K : Forall _ _ |- _ => rewrite Forall_forall in K; specialize (K _ H); inversion K; subst end.
    apply wf_written. match goal with K : forall x, Some t = Some x -> _ |- _ => apply (K t eq_refl) end.
  - eapply block_filter_written; eassumption.
Qed.
Lemma parsed_own templates : parameters_apart templates -> forall p ns, In (p, ns) templates -> Forall (wf_node false) ns -> loops_kept ns -> own (parameter templates) ns.
Proof.
  intros [A1 A2] p ns Hp W [L1 L2]. split; [|apply kept_not_stray, L1]. apply Forall_forall. intros n Hn b b' m Hi.
  destruct (GroupGen.inside_any _ _ _ _ Hi false) as [b1 Hi']. assert (OC : occurs ns b1 m) by (exists n; split; assumption). pose proof (occurs_wf _ _ _ W OC) as WM.
  split; [intros e; apply (wf_node_written _ _ _ WM)|]. destruct m; try exact I.
  - apply Forall_forall. intros a Ha BL y S. rewrite normalize_rust_name. eapply A2; eassumption.
  - inversion WM; discriminate.
  - inversion WM; discriminate.
  - eapply L2, OC.
  - apply Forall_forall. intros x Hx. exists p, ns, b1. do 4 eexists. split; [exact Hp|]. split; [exact OC|exact Hx].
Qed.
Lemma parameter_normal templates : parameters_apart templates -> forall m x, parameter templates m x -> normalize_identifier x = x.
Proof. intros [A _] m x Hx. eapply normalize_other, A, Hx. Qed.
