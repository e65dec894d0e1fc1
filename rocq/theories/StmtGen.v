(** * Facts behind Prop_Stmt.v: the statements of the generated code. *)
From Verif Require Import Base Ws Ast Ident GenExpr Heritage Gen HeritageSpec HeritageFacts TreeSpec ParseSpec RexprFacts
  PanicTop FlatFacts EndFacts TplFacts StmtSpec.
From Verif Require GroupGen.
From Coq Require Import Lia.
Local Open Scope N_scope.

(** ** Statements *)
Definition cok (b : bool) (code : list stmt) : Prop := fold_right and True (map (allowed b) code).
Lemma cok_forall b code : cok b code <-> Forall (allowed b) code.
Proof. unfold cok. induction code as [|s l IH]; cbn [map fold_right]; [split; auto|]. rewrite IH. split; [intros [H1 H2]; constructor; assumption|intros H; inversion H; auto]. Qed.
Lemma cok_nil b : cok b [].
Proof. exact I. Qed.
Lemma cok_app b x y : cok b x -> cok b y -> cok b (x ++ y).
Proof. rewrite !cok_forall. intros H1 H2. apply Forall_app. auto. Qed.
Lemma cok_one b s : allowed b s -> cok b [s].
Proof. intros H. split; [exact H|exact I]. Qed.
Section StmtInd.
  Variable P : stmt -> Prop.
  Hypothesis P0 : forall s, match s with SIf _ | SMatch _ _ | SLoop _ _ _ _ _ _ _ _ | SBlock _ => True | _ => P s end.
  Hypothesis P1 : forall l, Forall (fun x => Forall P (snd x)) l -> P (SIf l).
  Hypothesis P2 : forall e l, Forall (fun x => Forall P (snd x)) l -> P (SMatch e l).
  Hypothesis P3 : forall h it k f v b e t, Forall P b -> Forall P e -> Forall P t -> P (SLoop h it k f v b e t).
  Hypothesis P4 : forall l, Forall P l -> P (SBlock l).
  Fixpoint stmt_all (s : stmt) : P s :=
    let many := fix many (l : list stmt) : Forall P l := match l with [] => Forall_nil _ | s :: l' => Forall_cons _ (stmt_all s) (many l') end in
    match s with
    | SIf l => P1 l ((fix f (l : list (rtest * list stmt)) : Forall (fun x => Forall P (snd x)) l :=
                        match l with [] => Forall_nil _ | x :: l' => Forall_cons x (match x as y return Forall P (snd y) with (_, b) => many b end) (f l') end) l)
    | SMatch e l => P2 e l ((fix f (l : list (target * list stmt)) : Forall (fun x => Forall P (snd x)) l :=
                        match l with [] => Forall_nil _ | x :: l' => Forall_cons x (match x as y return Forall P (snd y) with (_, b) => many b end) (f l') end) l)
    | SLoop h it k f v b e t => P3 h it k f v b e t (many b) (many e) (many t)
    | SBlock l => P4 l (many l)
    | s => P0 s
    end.
End StmtInd.
Lemma cok_mono' l : Forall (fun s => allowed false s -> forall b, allowed b s) l -> cok false l -> forall b, cok b l.
Proof. rewrite cok_forall. intros H1 H2 b. apply cok_forall. rewrite Forall_forall in *. auto. Qed.
Lemma inner_mono {A} (l : list (A * list stmt)) : Forall (fun x => Forall (fun s => allowed false s -> forall b, allowed b s) (snd x)) l ->
  fold_right and True (map (fun x => cok false (snd x)) l) -> forall b, fold_right and True (map (fun x => cok b (snd x)) l).
Proof. induction 1 as [|x l H _ IH]; cbn [map fold_right]; [auto|]. intros [H1 H2] b. split; [apply cok_mono'; assumption|apply IH, H2]. Qed.
Lemma allowed_mono : forall s, allowed false s -> forall b, allowed b s.
Proof.
  apply (stmt_all (fun s => allowed false s -> forall b, allowed b s)).
  - intros []; try exact I; intros H b; cbn [allowed] in *; try exact H; discriminate H.
  - intros l H [H1 H2] b. split; [exact H1|apply inner_mono; assumption].
  - intros e l H [H1 H2] b. split; [exact H1|apply inner_mono; assumption].
  - intros h it k f v bd e t _ HE HT (H1 & H2 & H3 & H4) b. split; [exact H1|]. split; [exact H2|]. split; apply cok_mono'; assumption.
  - intros l H H1 b. apply cok_mono'; assumption.
Qed.
Lemma cok_mono l b : cok false l -> cok b l.
Proof. rewrite !cok_forall. apply Forall_impl. intros s H. apply allowed_mono, H. Qed.
Lemma cok_concat {A} b (l : list (A * list stmt)) : Forall (fun x => cok b (snd x)) l -> cok b (concat (map snd l)).
Proof. induction 1 as [|a l H _ IH]; cbn [map concat]; [exact I|]. apply cok_app; assumption. Qed.
Lemma inner_forall {A} b (l : list (A * list stmt)) : Forall (fun x => cok b (snd x)) l -> fold_right and True (map (fun x => cok b (snd x)) l).
Proof. induction 1; cbn; auto. Qed.
(** What is written while [d] says whether output is discarded. *)
Lemma cok_emit b st s : (o_discard st = false -> allowed b s) -> cok (b && negb (o_discard st)) (emit st [s]).
Proof. intros H. unfold emit. destruct (o_discard st); [exact I|]. cbn [negb]. rewrite andb_true_r. apply cok_one. auto. Qed.
Lemma cok_around b st s c : (o_discard st = false -> allowed b s) -> (o_discard st = true -> cok false c) -> cok (b && negb (o_discard st)) (emit_around st s c).
Proof. intros H1 H2. unfold emit_around. destruct (o_discard st); cbn [negb]; [rewrite andb_false_r; auto|rewrite andb_true_r; apply cok_one; auto]. Qed.

(** ** Nodes *)
Definition good (n : node) : Prop := forall b b' m, inside b n b' m -> orderly m /\ (forall w cs, m = NIf w cs -> exists w0 t0 ns0 cs', cs = Cond w0 (Some t0) ns0 :: cs') /\ (forall w1 e arms w2, m = NMatch w1 e arms w2 -> arms <> []).
Definition kept (b : bool) (n : node) : Prop := forall b' m w, inside b n b' m -> m = NBreak w \/ m = NContinue w -> b' = true.
Lemma good_own n : good n -> orderly n.
Proof. intros H. apply (H false false). constructor. Qed.
Lemma good_child b n b' m : good n -> child b n b' m -> good m.
Proof. intros H C b1 b2 k I. destruct (GroupGen.inside_any _ _ _ _ I b') as [b3 I']. apply (H b b3). eapply in_child; eassumption. Qed.
Lemma kept_child b n b' m : kept b n -> child b n b' m -> kept b' m.
Proof. intros H C b2 k w I. apply (H b2 k w). eapply in_child; eassumption. Qed.
Lemma good_children n ns : good n -> (forall m, In m ns -> exists b b', child b n b' m) -> Forall good ns.
Proof. intros H C. apply Forall_forall. intros m Hm. destruct (C m Hm) as (b & b' & K). eapply good_child; eassumption. Qed.
Lemma good_bodies n ns : good n -> In ns (bodies n) -> Forall good ns.
Proof.
  intros H Hn. apply (good_children n ns H). intros m Hm. destruct n; cbn in Hn; try contradiction.
  - apply in_map_iff in Hn as ([w' t b] & <- & Hc). exists false, false. eapply ch_if; eassumption.
  - apply in_map_iff in Hn as ([w' t b] & <- & Hc). exists false, false. eapply ch_match; eassumption.
  - destruct Hn as [<-|[<-|[]]]; exists false; eexists; [eapply ch_body; eassumption|eapply ch_else; eassumption].
  - destruct Hn as [<-|[]]. exists false, false. eapply ch_block; eassumption.
Qed.
Lemma kept_not_escapes ns : ~ escapes ns -> Forall (kept false) ns.
Proof.
  intros H. apply Forall_forall. intros n Hn b' m w I E. destruct b'; [reflexivity|]. exfalso. apply H. exists w.
  destruct E as [-> | ->]; [left|right]; exists n; split; assumption.
Qed.
Definition own (ns : list node) : Prop := Forall good ns /\ Forall (kept false) ns.

(** ** Contexts and heritage *)
Record cgood (c : context) : Prop := {
  gc_nodes : own (c_nodes c);
  gc_blocks : forall x d, In (x, d) (c_blocks c) -> own (b_nodes d);
  gc_macros : forall x d, In (x, d) (c_macros c) -> own (k_nodes d)
}.
Definition dgood (bs : list (str * list (context * block_def))) : Prop :=
  forall x l c d, In (x, l) bs -> In (c, d) l -> cgood c /\ own (b_nodes d).
Definition hgood (h : heritage) : Prop := cgood (h_root h) /\ dgood (h_blocks h).
Lemma merge_cgood o c : cgood o -> cgood c -> cgood (merge_context o c).
Proof.
  intros [_ _ O3] [C1 C2 C3]. constructor; cbn [merge_context c_nodes c_blocks c_macros]; [exact C1|exact C2|].
  intros x d H. apply merge_macros_in in H as [H|H]; eauto.
Qed.
Lemma context_node_cgood find path top n c c' more : good n -> (top = true -> kept false n) -> cgood c -> context_node find path top n c = Ok (c', more) -> cgood c' /\ Forall (Forall good) more.
Proof.
  intros HN HK [C1 C2 C3] E. destruct n; cbn [context_node] in E; try solve [injection E as <- <-; split; [constructor; assumption|constructor]].
  - injection E as <- <-. split; [constructor; assumption|]. apply Forall_forall. intros ns Hns. apply (good_bodies _ _ HN). exact Hns.
  - injection E as <- <-. split; [constructor; assumption|]. apply Forall_forall. intros ns Hns. apply (good_bodies _ _ HN). exact Hns.
  - injection E as <- <-. split; [constructor; assumption|]. apply Forall_forall. intros ns Hns. apply (good_bodies _ _ HN). exact Hns.
  - destruct top; [|discriminate E]. destruct (c_extends c); [discriminate E|]. destruct (find path0 path); try discriminate E. cbn in E. injection E as <- <-. split; [constructor; assumption|constructor].
  - injection E as <- <-. assert (G : Forall good nodes) by (apply (good_bodies _ _ HN); left; reflexivity).
    split; [|constructor; [exact G|constructor]]. constructor; cbn [c_nodes c_blocks c_macros]; [exact C1| |exact C3].
    intros x d H. apply in_put in H as [H|[-> ->]]; [eapply C2; exact H|]. split; [exact G|]. apply kept_not_escapes. exact (good_own _ HN).
  - destruct top; [|discriminate E]. destruct (find path0 path); try discriminate E. cbn in E. injection E as <- <-. split; [constructor; assumption|constructor].
  - destruct top; [|discriminate E]. injection E as <- <-. split; [|constructor]. constructor; cbn [c_nodes c_blocks c_macros]; [exact C1|exact C2|].
    intros x d H. apply in_put in H as [H|[-> ->]]; [eapply C3; exact H|]. split; cbn [k_nodes].
    + apply (good_children _ _ HN). intros m Hm. exists false, false. eapply ch_macro; exact Hm.
    + apply Forall_forall. intros m Hm. eapply kept_child; [apply HK; reflexivity|]. eapply ch_macro; exact Hm.
Qed.
Lemma context_nodes_cgood find path top : forall ns c stack c' stack', Forall good ns -> (top = true -> Forall (kept false) ns) -> cgood c -> Forall (Forall good) stack ->
  context_nodes find path top ns c stack = Ok (c', stack') -> cgood c' /\ Forall (Forall good) stack'.
Proof.
  induction ns as [|n ns IH]; intros c stack c' stack' HN HK HC HS E; cbn [context_nodes] in E; [injection E as <- <-; auto|].
  apply rbind_inv in E as ([c1 more] & E1 & E). inversion HN as [|? ? H1 H2]; subst.
  assert (K1 : top = true -> kept false n) by (intros T; specialize (HK T); inversion HK; assumption).
  assert (K2 : top = true -> Forall (kept false) ns) by (intros T; specialize (HK T); inversion HK; assumption).
  destruct (context_node_cgood _ _ _ _ _ _ _ H1 K1 HC E1) as [G1 G2].
  eapply IH; [exact H2|exact K2|exact G1| |exact E]. apply Forall_app. split; [apply Forall_rev, G2|exact HS].
Qed.
Lemma context_loop_cgood find path : forall fuel top stack c c', Forall (Forall good) stack -> (top = true -> Forall (Forall (kept false)) stack) -> cgood c ->
  context_loop find fuel path top stack c = GOk c' -> cgood c'.
Proof.
  induction fuel as [|f IH]; intros top stack c c' HS HK HC E; (destruct stack as [|ns stack]; [injection E as <-; exact HC|]); cbn [context_loop] in E; [discriminate E|].
  inversion HS as [|? ? H1 H2]; subst. apply gbind_inv in E as ([c1 st1] & E1 & E). apply of_res_inv in E1.
  assert (K1 : top = true -> Forall (kept false) ns) by (intros T; specialize (HK T); inversion HK; assumption).
  destruct (context_nodes_cgood _ _ _ _ _ _ _ _ H1 K1 HC H2 E1) as [G1 G2]. eapply (IH false); [exact G2|discriminate|exact G1|exact E].
Qed.
Lemma contexts_cgood find templates contexts : (forall p ns, In (p, ns) templates -> own ns) -> build_contexts find templates = GOk contexts ->
  forall p c, get p contexts = Some c -> cgood c.
Proof.
  revert contexts. induction templates as [|[p ns] l IH]; intros contexts HT E q c G; cbn [build_contexts] in E.
  - injection E as <-. discriminate G.
  - apply gbind_inv in E as (c1 & E1 & E). apply gbind_inv in E as (cs & E2 & E). injection E as <-. cbn [get] in G.
    destruct (str_eqb q p); [|eapply IH; [intros; eapply HT; right; eassumption|exact E2|exact G]]. injection G as <-.
    assert (HN : own ns) by (eapply HT; left; reflexivity). destruct HN as [HN HK].
    eapply context_loop_cgood; [| | |exact E1]; [repeat constructor; exact HN|intros _; repeat constructor; exact HK|].
    constructor; cbn [c_nodes c_blocks c_macros]; [split; assumption| |]; contradiction.
Qed.
Section Her.
  Variable contexts : list (str * context).
  Hypothesis HG : forall p c, get p contexts = Some c -> cgood c.
  Lemma push_cgood c bs x : cgood c -> dgood bs -> In x (c_blocks c) -> dgood (push_block c x bs).
  Proof.
    intros HC HB Hx. destruct x as [x d]. unfold push_block. cbn [fst snd]. intros y l c' d' H1 H2. apply in_put in H1 as [H1|[-> ->]]; [eapply HB; eassumption|].
    pose proof (gc_blocks _ HC _ _ Hx) as GD. destruct (get x bs) as [l0|] eqn:E.
    - apply in_app_iff in H2 as [H2|[[= <- <-]|[]]]; [eapply HB; [apply get_in; exact E|exact H2]|split; assumption].
    - destruct H2 as [[= <- <-]|[]]. split; assumption.
  Qed.
  Lemma heritage_loop_cgood : forall fuel c bs h, cgood c -> dgood bs -> heritage_loop fuel contexts c bs = GOk h -> hgood h.
  Proof.
    induction fuel as [|f IH]; intros c bs h HC HB E; cbn [heritage_loop] in E; destruct (c_extends c) as [p|]; try discriminate E; try (injection E as <-; split; assumption).
    destruct (get p contexts) as [c'|] eqn:G; [|discriminate E]. pose proof (HG _ _ G) as HC'. eapply IH; [exact HC'| |exact E].
    assert (K : forall l, incl l (c_blocks c') -> forall bs, dgood bs -> dgood (fold_left (fun bs x => push_block c' x bs) l bs)).
    { clear - HC'. induction l as [|x l IH]; intros HI bs HB; [exact HB|]. cbn [fold_left]. apply IH; [intros y Hy; apply HI; right; exact Hy|].
      apply push_cgood; [exact HC'|exact HB|apply HI; left; reflexivity]. }
    apply K; [intros y Hy; exact Hy|exact HB].
  Qed.
  Lemma heritage_new_cgood fuel c h : cgood c -> heritage_new fuel contexts c = GOk h -> hgood h.
  Proof.
    intros HC E. eapply heritage_loop_cgood; [exact HC| |exact E]. intros x l c' d H1 H2. apply in_map_iff in H1 as ([y e] & [= <- <-] & H1).
    destruct H2 as [[= <- <-]|[]]. split; [exact HC|]. eapply (gc_blocks _ HC). exact H1.
  Qed.
End Her.

(** ** Patterns *)
Lemma target_shape m b t p m' : visit_target m b t = Ok (p, m') -> p = norm_target t.
Proof. unfold visit_target. intros E. apply rbind_inv in E as (m1 & _ & E). injection E as <- _. reflexivity. Qed.
Lemma norm_alternatives t : no_alternatives t -> no_alternatives (norm_target t).
Proof. intros H l. destruct t; cbn [norm_target]; try discriminate. destruct (H l0 eq_refl). Qed.
Lemma shadow_alternatives m t b : is_shadowing_variable m t = Ok b -> no_alternatives t.
Proof. intros H l ->. discriminate H. Qed.

(** ** The generator *)
Definition gok (d b : bool) (r : gres gen) : Prop := gd true (fun x : gen => cok (b && negb d) (fst (fst x)) /\ o_discard (snd x) = d) r.
Lemma gok_mono d b r : gok d false r -> gok d b r.
Proof. intros H. eapply gd_imp; [exact H|]. intros x [H1 H2]. split; [apply cok_mono, H1|exact H2]. Qed.
Notation gd_any := GroupGen.gd_any.
Notation gd_of := GroupGen.gd_of.
Section Gen.
  Variables (inp : ginput) (contexts : list (str * context)) (find : str -> str -> res str).
  Lemma od_push ws st : o_discard (push ws st) = o_discard st.
  Proof. unfold push. destruct (s_discard st); reflexivity. Qed.
  Lemma od_flush l st : o_discard (do_flush_ws inp l st) = o_discard st.
  Proof. unfold do_flush_ws. destruct (flush_ws _ _ _). unfold push_lits. rewrite od_push. reflexivity. Qed.
  Lemma od_prepare l st : o_discard (do_prepare_ws inp l st) = o_discard st.
  Proof. reflexivity. Qed.
  Lemma od_ws w st : o_discard (do_handle_ws inp w st) = o_discard st.
  Proof. unfold do_handle_ws, do_prepare_ws. apply (od_flush (ws_l w) st). Qed.
  Lemma od_open st : o_discard (open_brace st) = o_discard st.
  Proof. unfold open_brace. destruct (o_discard st) eqn:E; [exact E|exact E]. Qed.
  Section D.
  Variable d : bool.
  Notation sok := (fun st : gst => o_discard st = d).
  Lemma gd_dedent_ok st : sok st -> gd true sok (dedent st).
  Proof. intros H. unfold dedent. destruct (o_indent st =? 0); [exact I|]. exact H. Qed.
  Lemma gd_close_ok st : sok st -> gd true sok (close_brace st).
  Proof.
    intros H. unfold close_brace. destruct (o_discard st) eqn:E; [cbn [gd]; congruence|]. eapply gd_bind; [apply gd_dedent_ok; exact H|]. intros s Hs. eapply gd_bind; [apply gd_any|].
    intros _ _. exact Hs.
  Qed.
  Lemma gd_pop_ok st : sok st -> gd true sok (pop_locals st).
  Proof. intros H. unfold pop_locals. eapply gd_bind; [apply gd_any|]. intros; exact H. Qed.
  Lemma gok_write b st : sok st -> gok d b (write_buf_writable inp st).
  Proof.
    intros H. unfold write_buf_writable, gok. eapply gd_bind; [apply gd_any|]. intros [[z ps] nm] _. destruct ps.
    - split; [exact I|exact H].
    - eapply gd_bind; [apply gd_any|]. intros _ _. split; [|exact H]. cbn [fst]. rewrite <- H. apply cok_emit. intros _. exact I.
    - destruct (63 <=? o_indent st); [exact I|]. eapply gd_bind; [apply gd_any|]. intros _ _. split; [|exact H]. cbn [fst]. rewrite <- H. apply cok_emit. intros _. exact I.
  Qed.
  Lemma gd_lit_ok l st : sok st -> gd true sok (do_visit_lit l st).
  Proof. intros H. unfold do_visit_lit. destruct (visit_lit l (s_ws st)) as [[o w]|]; [|exact I]. cbn [gd]. unfold push_lits. rewrite od_push. exact H. Qed.
  Lemma gok_let b w var val st : (val = None -> no_alternatives var) -> sok st -> gok d b (write_let inp w var val st).
  Proof.
    intros HV H. unfold write_let, gok. destruct val as [e|].
    - eapply gd_bind; [apply gd_any|]. intros r _. eapply (gd_bind true (fun _ => no_alternatives var)); [apply gd_of; intros sh E; eapply shadow_alternatives, E|]. intros sh NA.
      eapply (gd_bind true (fun x : gen => cok (b && negb d) (fst (fst x)) /\ sok (snd x))).
      + destruct sh; [apply gok_write|split; [exact I|cbn [snd]]]; rewrite od_ws; exact H.
      + intros [[c z] s] [C Hs]. cbn [fst snd] in C, Hs. cbv zeta. eapply gd_bind; [apply gd_any|]. intros _ _.
        eapply (gd_bind true (fun x => fst x = norm_target var)); [apply gd_of; intros [p m] E; eapply target_shape, E|]. intros [p m] Hp. cbn [fst] in Hp. subst p.
        split; [|exact Hs]. cbn [fst]. apply cok_app; [exact C|]. rewrite <- Hs. apply cok_emit. intros _.
        match goal with |- allowed _ (if ?x then _ else _) => destruct x eqn:E end; [cbn [allowed]; apply norm_alternatives, NA|].
        cbn [allowed]. apply orb_false_elim in E as [_ E]. destruct var; try discriminate E. eexists. reflexivity.
    - eapply gd_bind; [apply gok_write; rewrite od_ws; exact H|]. intros [[c z] s] [C Hs]. cbn [fst snd] in C, Hs. eapply gd_bind; [apply gd_any|]. intros _ _.
      eapply (gd_bind true (fun x => fst x = norm_target var)); [apply gd_of; intros [p m] E; eapply target_shape, E|]. intros [p m] Hp. cbn [fst] in Hp. subst p.
      split; [|exact Hs]. cbn [fst]. apply cok_app; [exact C|]. rewrite <- Hs. apply cok_emit. intros _. cbn [allowed]. apply norm_alternatives, HV. reflexivity.
  Qed.
  Definition test_of (t : option cond_test) (r : rtest) : Prop := t <> None -> r <> RElse.
  Definition is_else (t : option cond_test) (r : rtest) : Prop := match t with None => r = RElse | Some _ => r <> RElse end.
  Lemma gd_test_ok first t st : sok st -> gd true (fun x => is_else t (fst x) /\ sok (snd x)) (if_test inp first t st).
  Proof.
    intros H. unfold if_test. destruct t as [t|].
    - eapply (gd_bind true sok); [destruct first; [exact H|apply gd_dedent_ok, H]|]. intros s Hs.
      eapply gd_bind; [apply gd_any|]. intros _ _.
      assert (D : forall p e, gd true (fun x => is_else (Some t) (fst x) /\ sok (snd x))
        (let* e' := of_res (visit_expr_root inp (s_locals s) e) in let* (p', m) := of_res (visit_target (s_locals s) true p) in GOk (RIfLet p' e', set_locals m s))).
      { intros p e. eapply gd_bind; [apply gd_any|]. intros e' _. eapply gd_bind; [apply gd_any|]. intros [p' m] _. split; [discriminate|exact Hs]. }
      destruct (ct_target t) as [p|].
      + destruct (ct_expr t); try apply D. destruct (str_eqb op (lit "||") || str_eqb op (lit "&&")); [|apply D].
        eapply gd_bind; [apply gd_any|]. intros e' _. eapply gd_bind; [apply gd_any|]. intros [p' m] _. eapply gd_bind; [apply gd_any|]. intros r' _. split; [discriminate|exact Hs].
      + eapply gd_bind; [apply gd_any|]. intros e' _. split; [discriminate|exact Hs].
    - eapply gd_bind; [apply gd_dedent_ok, H|]. intros s Hs. eapply gd_bind; [apply gd_any|]. intros _ _. split; [reflexivity|exact Hs].
  Qed.
  Lemma gok_loop b f l h w1 v it c w2 w3 st : (forall st, sok st -> gok d true (f st)) -> (forall st, sok st -> gok d b (l st)) -> (c <> None -> no_alternatives v) ->
    sok st -> gok d b (write_loop inp f l h w1 v it c w2 w3 st).
  Proof.
    intros H1 H2 NV H. unfold write_loop, gok. assert (H0 : sok (push_locals (do_handle_ws inp w1 st))) by (cbn [push_locals set_locals o_discard]; rewrite od_ws; exact H).
    eapply gd_bind; [apply gd_any|]. intros r _.
    eapply gd_bind; [apply gok_write, H0|]. intros [[c0 z0] s0] [C0 S0]. cbn [fst snd] in C0, S0.
    eapply gd_bind; [apply gd_any|]. intros _ _. eapply gd_bind; [apply gd_any|]. intros _ _.
    assert (S0' : o_discard (open_brace s0) = d) by (rewrite od_open; exact S0).
    eapply (gd_bind true (fun x : option (target * rexpr) * gst => (forall p e, fst x = Some (p, e) -> no_alternatives p) /\ sok (snd x))).
    { destruct c as [c|]; [|split; [discriminate|exact S0']].
      eapply (gd_bind true (fun x => fst x = norm_target v)); [apply gd_of; intros [p m] E; eapply target_shape, E|]. intros [p m] Hp. cbn [fst] in Hp. subst p.
      eapply gd_bind; [apply gd_any|]. intros c' _.
      eapply gd_bind; [apply gd_pop_ok; exact S0'|]. intros s Hs. split; [|exact Hs]. intros p' e' [= <- <-]. apply norm_alternatives, NV. discriminate. }
    intros [flt s1] [HF S1]. cbn [fst snd] in HF, S1. eapply gd_bind; [apply gd_any|]. intros _ _. eapply gd_bind; [apply gd_any|]. intros [p m] _.
    eapply gd_bind; [apply gd_any|]. intros _ _.
    eapply gd_bind; [apply H1; rewrite od_open; exact S1|]. intros [[c1 z1] s2] [C1 S2]. cbn [fst snd] in C1, S2.
    eapply gd_bind; [apply (gok_write true); rewrite od_ws; exact S2|]. intros [[c1' z1'] s3] [C1' S3]. cbn [fst snd] in C1', S3.
    eapply gd_bind; [apply gd_pop_ok, S3|]. intros s4 S4. eapply gd_bind; [apply gd_close_ok, S4|]. intros s5 S5.
    eapply (gd_bind true (fun x : list stmt * list stmt * N * gst => cok (b && negb d) (fst (fst (fst x))) /\ cok (b && negb d) (snd (fst (fst x))) /\ sok (snd x))).
    { destruct h.
      - eapply gd_bind; [apply gd_any|]. intros _ _. eapply gd_bind; [apply H2; cbn [push_locals set_locals o_discard]; rewrite od_open; exact S5|]. intros [[c2 z2] s6] [C2 S6]. cbn [fst snd] in C2, S6.
        eapply gd_bind; [apply (gok_write b); rewrite od_ws; exact S6|]. intros [[c2' z2'] s7] [C2' S7]. cbn [fst snd] in C2', S7.
        eapply gd_bind; [apply gd_pop_ok, S7|]. intros s8 S8. eapply gd_bind; [apply gd_close_ok, S8|]. intros s9 S9. split; [apply cok_app; assumption|split; [exact I|exact S9]].
      - eapply gd_bind; [apply (gok_write b); rewrite od_ws; exact S5|]. intros [[c2' z2'] s7] [C2' S7]. cbn [fst snd] in C2', S7. split; [exact I|split; [exact C2'|exact S7]]. }
    intros [[[ce ct] z2] s6] (CE & CT & S6). cbn [fst snd] in CE, CT, S6. eapply gd_bind; [apply gd_close_ok, S6|]. intros s7 S7. eapply gd_bind; [apply gd_pop_ok, S7|]. intros s8 S8.
    split; [|exact S8]. cbn [fst]. apply cok_app; [exact C0|].
    assert (CB : cok (true && negb d) (c1 ++ c1')) by (apply cok_app; assumption).
    rewrite <- S8. apply cok_around; intros D; rewrite S8 in D; subst d; rewrite ?D in *; cbn [negb] in *; rewrite ?andb_false_r, ?andb_true_r in *.
    - cbn [allowed]. split; [exact HF|]. split; [exact CB|]. split; assumption.
    - rewrite app_assoc. repeat apply cok_app; assumption.
  Qed.
  Lemma gok_filter b f w1 fn a w2 st : (forall st, sok st -> gok d b (f st)) -> sok st -> gok d b (write_filter_block inp f w1 fn a w2 st).
  Proof.
    intros H1 H. unfold write_filter_block, gok. eapply gd_bind; [apply gd_any|]. intros var _.
    eapply gd_bind; [apply H1; rewrite od_prepare; cbn [set_buf o_discard]; rewrite od_flush; exact H|]. intros [[c z] s] [C S1]. cbn [fst snd] in C, S1.
    eapply gd_bind; [apply gd_any|]. intros [[wz ps] nm] _.
    assert (T : forall (x : gres unit) stm, (forall b, allowed b stm) -> gok d b
        (let* _ := x in let* _ := line (set_named nm (set_buf [] (do_flush_ws inp (ws_l w2) s))) in
         let s' := set_buf (s_buf (do_flush_ws inp (ws_l w1) st)) (set_named nm (set_buf [] (do_flush_ws inp (ws_l w2) s))) in
         let* (r, wrapped) := of_res (visit_expr inp (s_locals s') (insert_in_filter var (Filter fn a))) in
         let s'' := do_prepare_ws inp (ws_r w2) (push [WGen r wrapped] s') in
         let* m := of_res (ch_insert (s_locals s'') var m_initialized) in
         GOk (c ++ emit s'' [stm], z + wz, set_locals m s''))).
    { intros x stm HS. unfold gok. eapply gd_bind; [apply gd_any|]. intros _ _. eapply gd_bind; [apply gd_any|]. intros _ _. cbv zeta.
      eapply gd_bind; [apply gd_any|]. intros [r wr] _.
      match goal with |- context [push ?l ?x] => assert (S4 : o_discard (do_prepare_ws inp (ws_r w2) (push l x)) = d) end.
      { rewrite od_prepare, od_push. cbn [set_buf set_named o_discard]. rewrite od_flush. exact S1. }
      eapply gd_bind; [apply gd_any|]. intros m _.
      split; [|exact S4]. cbn [fst]. apply cok_app; [exact C|]. rewrite <- S4. apply cok_emit. intros _. apply HS. }
    destruct ps as [|x|x y].
    - split; [exact C|]. cbn [snd set_named set_buf o_discard]. rewrite od_flush. exact S1.
    - apply (T (GOk tt) (SLetStr var x)). intros; exact I.
    - apply (T (if 62 <=? o_indent (set_named nm (set_buf [] (do_flush_ws inp (ws_l w2) s))) then GPanic else GOk tt) (SLetFmt var x y)). intros; exact I.
  Qed.
  Section Lists.
    Variable f : node -> gst -> gres gen.
    Variable b : bool.
    Lemma gok_list : forall ns, (forall n, In n ns -> forall st, sok st -> gok d b (f n st)) -> forall st, sok st -> gok d b (gen_list f ns st).
    Proof.
      induction ns as [|n ns IH]; intros H st E; cbn [gen_list]; [split; [exact I|exact E]|].
      eapply gd_bind; [apply H; [left; reflexivity|exact E]|]. intros [[c z] s] [C1 S1]. cbn [fst snd] in C1, S1. eapply gd_bind; [apply IH; [intros; apply H; [right|]; assumption|exact S1]|].
      intros [[c' z'] s'] [C2 S2]. split; [apply cok_app; assumption|exact S2].
    Qed.
    Definition cond_of (c : cond) : option cond_test := match c with Cond _ t _ => t end.
    Lemma gok_branches w : forall cs, (forall w' t ns, In (Cond w' t ns) cs -> forall st, sok st -> gok d b (gen_list f ns st)) ->
      forall first st, sok st -> gd true (fun x => cok (b && negb d) (fst (fst (fst (fst (fst x))))) /\
        (Forall2 (fun c y => is_else (cond_of c) (fst y)) cs (snd (fst (fst (fst (fst x))))) /\ Forall (fun y => cok (b && negb d) (snd y)) (snd (fst (fst (fst (fst x)))))) /\ sok (snd x)) (gen_branches inp f w first cs st).
    Proof.
      induction cs as [|[w' t ns] cs IH]; intros H first st E; cbn [gen_branches].
      - eapply gd_bind; [apply (gok_write b); rewrite od_ws; exact E|]. intros [[c z] s] [C1 S1]. cbn [fst snd] in C1, S1. eapply gd_bind; [apply gd_close_ok, S1|]. intros s2 S2.
        eapply gd_bind; [apply gd_pop_ok, S2|]. intros s3 S3. split; [exact C1|]. split; [split; constructor|exact S3].
      - pose proof (H w' t ns (or_introl eq_refl)) as HB. eapply gd_bind; [apply (gok_write b); rewrite od_ws; exact E|]. intros [[c z] s] [C1 S1]. cbn [fst snd] in C1, S1.
        eapply (gd_bind true sok); [destruct first; [exact S1|apply gd_pop_ok, S1]|]. intros s2 S2.
        eapply gd_bind; [apply gd_test_ok; exact S2|]. intros [t' s3] [C3 S3]. cbn [fst snd] in C3, S3.
        eapply gd_bind; [apply HB; rewrite od_open; exact S3|]. intros [[bd z'] s4] [C4 S4]. cbn [fst snd] in C4, S4. eapply gd_bind; [apply IH; [intros w0 t0 n0 K; eapply H; right; exact K|exact S4]|].
        intros [[[[[a r] z2] sz] he] s5] (C5 & (B5 & B6) & S5). cbn [fst snd] in *. split; [exact C1|]. split; [|exact S5]. split; constructor; try assumption. apply cok_app; assumption.
    Qed.
    Lemma gok_arms w : forall cs, (forall w' t ns, In (When w' t ns) cs -> forall st, sok st -> gok d b (gen_list f ns st)) ->
      forall first st, sok st -> gd true (fun x => cok (b && negb d) (fst (fst (fst (fst x)))) /\ (length (snd (fst (fst x))) = length cs /\ Forall (fun a => cok (b && negb d) (snd a)) (snd (fst (fst x)))) /\ sok (snd x)) (gen_arms inp f w first cs st).
    Proof.
      induction cs as [|[w' t ns] cs IH]; intros H first st E; cbn [gen_arms].
      - eapply gd_bind; [apply (gok_write b); rewrite od_ws; exact E|]. intros [[c z] s] [C1 S1]. cbn [fst snd] in C1, S1. eapply gd_bind; [apply gd_close_ok, S1|]. intros s2 S2.
        eapply gd_bind; [apply gd_pop_ok, S2|]. intros s3 S3. split; [exact C1|]. split; [split; [reflexivity|constructor]|exact S3].
      - eapply (gd_bind true (fun x : gen => cok (b && negb d) (fst (fst x)) /\ sok (snd x))).
        { destruct first; [split; [exact I|cbn [snd]; rewrite od_ws; exact E]|]. eapply gd_bind; [apply (gok_write b); rewrite od_ws; exact E|]. intros [[c z] s] [C1 S1]. cbn [fst snd] in C1, S1.
          eapply gd_bind; [apply gd_close_ok, S1|]. intros s2 S2. eapply gd_bind; [apply gd_pop_ok, S2|]. intros s3 S3. split; assumption. }
        intros [[c z] s] [C1 S1]. cbn [fst snd] in C1, S1. eapply gd_bind; [apply gd_any|]. intros _ _. eapply gd_bind; [apply gd_any|]. intros [p m] _.
        eapply gd_bind; [eapply H; [left; reflexivity|rewrite od_open; exact S1]|]. intros [[bd z'] s4] [C4 S4]. cbn [fst snd] in C4, S4.
        eapply gd_bind; [apply IH; [intros w0 t0 n0 K; eapply H; right; exact K|exact S4]|].
        intros [[[[a z2] r] sz] s5] (C5 & (B5 & B6) & S5). cbn [fst snd] in *. split; [exact C1|]. split; [|exact S5]. split; [cbn [fst snd length]; f_equal; exact B5|]. constructor; [apply cok_app; assumption|exact B6].
    Qed.
  End Lists.
  End D.
  Lemma chain_ok w0 t0 ns0 cs (branches : list (rtest * list stmt)) :
    (forall w ns before after, Cond w0 (Some t0) ns0 :: cs = before ++ Cond w None ns :: after -> after = []) ->
    Forall2 (fun c y => is_else (cond_of c) (fst y)) (Cond w0 (Some t0) ns0 :: cs) branches -> if_chain (map fst branches).
  Proof.
    intros HE HF. inversion HF as [|? y ? l H1 H2]; subst. cbn [cond_of is_else] in H1. cbn [map].
    assert (HE' : forall w ns before after, cs = before ++ Cond w None ns :: after -> after = []).
    { intros w ns before after ->. apply (HE w ns (Cond w0 (Some t0) ns0 :: before) after). reflexivity. }
    clear HE HF. assert (K : exists mid fin, map fst l = mid ++ fin /\ Forall (fun t => t <> RElse) mid /\ (fin = [] \/ fin = [RElse])).
    { induction H2 as [|[w t ns] z cs l H3 H4 IH]; [exists [], []; repeat split; auto|]. cbn [cond_of] in H3. destruct t as [t|]; cbn [is_else] in H3.
      - destruct IH as (mid & fin & I1 & I2 & I3); [intros w1 ns1 before after ->; apply (HE' w1 ns1 (Cond w (Some t) ns :: before) after); reflexivity|].
        exists (fst z :: mid), fin. cbn [map app]. rewrite I1. repeat split; auto.
      - assert (cs = []) by (apply (HE' w ns [] cs); reflexivity). subst cs. inversion H4; subst. exists [], [RElse]. cbn [map app]. rewrite H3. repeat split; auto. }
    destruct K as (mid & fin & I1 & I2 & I3). exists (fst y), mid, fin. rewrite I1. repeat split; auto.
  Qed.
  Lemma bind_lengths named args : forall ps i pos m m' names values, bind_args inp named args ps i pos m = Ok (m', names, values) -> length names = length values.
  Proof.
    induction ps as [|p ps IH]; intros i pos m m' names values E; cbn [bind_args] in E; [injection E as <- <- <-; reflexivity|].
    apply rbind_inv in E as ([e pos'] & _ & E).
    assert (V : forall r : res rexpr, (let! r := r in let! m' := ch_insert m p m_default in let! (m'', names, values) := bind_args inp named args ps (S i) pos' m' in Ok (m'', p :: names, r :: values)) = Ok (m', names, values) -> length names = length values).
    { intros r0 Q. apply rbind_inv in Q as (r & _ & Q). apply rbind_inv in Q as (m1 & _ & Q). apply rbind_inv in Q as ([[m2 ns] vs] & Q1 & Q). injection Q as <- <- <-. cbn [length]. f_equal. eapply IH, Q1. }
    destruct e; try (eapply V; exact E).
    - destruct (str_eqb s (lit "self")); [eapply V; exact E|]. apply rbind_inv in E as (m1 & _ & E). eapply IH, E.
    - apply rbind_inv in E as ([r w] & _ & E). apply rbind_inv in E as (m1 & _ & E). eapply IH, E.
  Qed.

  (** Nodes *)
  Hypothesis HG : forall p c, get p contexts = Some c -> cgood c.
  Section Step.
    Variable expand : option heritage -> context -> list node -> level -> gst -> gres gen.
    Hypothesis HX : forall her ctx ns lv st, (forall h, her = Some h -> hgood h) -> cgood ctx -> own ns -> gok (o_discard st) false (expand her ctx ns lv st).
    Variables (her : option heritage) (ctx : context).
    Hypothesis HH : forall h, her = Some h -> hgood h.
    Hypothesis HC : cgood ctx.
    Lemma gok_block name outer st : gok (o_discard st) false (write_block inp expand her ctx name outer st).
    Proof.
      unfold write_block, gok. eapply gd_bind; [apply gd_any|]. intros cur _. eapply gd_bind; [apply (gok_write (o_discard st) false); apply od_flush|]. intros [[c z] s] [C1 S1]. cbn [fst snd] in C1, S1.
      cbv zeta. destruct her as [h|]; [|exact I]. destruct (get (fst cur) (h_blocks h)) as [defs|] eqn:G; [|exact I]. destruct (nth_error defs (snd cur)) as [[cc d]|] eqn:NE; [|exact I].
      destruct (HH h eq_refl) as [_ HD]. destruct (HD _ _ _ _ (get_in _ _ _ G) (nth_error_In _ _ NE)) as [K1 K2].
      eapply gd_bind; [apply HX; [exact HH|apply merge_cgood; [exact HC|exact K1]|exact K2]|]. intros [[c1 z1] s1] [C2 S2]. cbn [fst snd] in C2, S2.
      eapply (gd_bind true (fun x : gen => cok false (fst (fst x)))).
      { destruct (ch_is_current_empty (s_locals s1)); [exact I|]. eapply gd_imp; [apply (gok_write (o_discard s1) false); reflexivity|]. intros x [K _]. exact K. }
      intros [[c2 z2] s2] C3. cbn [fst snd] in C3. split; [cbn [fst]; repeat apply cok_app; assumption|]. exact S1.
    Qed.
    Lemma gok_call w scope name args st : gok (o_discard st) false (write_call inp contexts expand her ctx w scope name args st).
    Proof.
      unfold write_call. destruct (str_eqb name (lit "super")); [apply gok_block|]. unfold gok.
      eapply (gd_bind true (fun x : macro_def * context => own (k_nodes (fst x)) /\ cgood (snd x))).
      { destruct scope as [s|].
        - destruct (get s (c_imports ctx)) as [path|]; [|exact I]. destruct (get path contexts) as [mc|] eqn:G; [|exact I]. destruct (get name (c_macros mc)) eqn:GM; [|exact I].
          pose proof (HG _ _ G) as K. split; [eapply (gc_macros _ K), get_in, GM|exact K].
        - destruct (get name (c_macros ctx)) eqn:GM; [|exact I]. split; [eapply (gc_macros _ HC), get_in, GM|exact HC]. }
      intros [def own_ctx] [K1 K2]. cbn [fst snd] in K1, K2.
      eapply gd_bind; [apply (gok_write (o_discard st) false); cbn [push_locals set_locals o_discard]; apply od_flush|]. intros [[c z] s] [C1 S1]. cbn [fst snd] in C1, S1. eapply gd_bind; [apply gd_any|]. intros _ _.
      destruct (negb (Nat.eqb (length args) (length (k_args def)))); [exact I|].
      eapply gd_bind; [apply gd_any|]. intros nm _.
      eapply (gd_bind true (fun x : chain * list str * list rexpr => length (snd (fst x)) = length (snd x))).
      { apply gd_of. intros [[m ns] vs] E. eapply bind_lengths, E. }
      intros [[m ns] vs] HL. cbn [fst snd] in HL. eapply gd_bind; [apply gd_any|]. intros _ _. cbv zeta.
      eapply gd_bind; [apply HX; [exact HH|exact K2|exact K1]|]. intros [[c1 z1] s1] [C2 S2]. cbn [fst snd] in C2, S2.
      assert (S2' : o_discard s1 = o_discard st) by (rewrite S2; cbn [set_locals o_discard]; rewrite od_prepare, od_open; exact S1).
      eapply gd_bind; [apply (gok_write (o_discard st) false); rewrite od_flush; exact S2'|]. intros [[c2 z2] s2] [C3 S3]. cbn [fst snd] in C3, S3.
      eapply gd_bind; [apply gd_close_ok, S3|]. intros s3 S4. eapply gd_bind; [apply gd_pop_ok, S4|]. intros s4 S5.
      split; [|exact S5]. cbn [fst]. apply cok_app; [exact C1|]. cbv beta in S5. rewrite <- S5.
      change (cok (false && negb (o_discard (do_prepare_ws inp (ws_r w) s4))) (emit_around (do_prepare_ws inp (ws_r w) s4) (SBlock (match ns with [] => [] | _ => emit (do_prepare_ws inp (ws_r w) s4) [SLetTuple ns vs] end ++ c1 ++ c2)) (c1 ++ c2))).
      apply cok_around; intros _; [|apply cok_app; assumption]. cbn [allowed]. apply cok_app; [|apply cok_app; assumption].
      destruct ns as [|n ns]; [exact I|]. unfold emit. destruct (o_discard (do_prepare_ws inp (ws_r w) s4)); [exact I|]. apply cok_one. split; [discriminate|exact HL].
    Qed.
    Lemma gok_include w path st : gok (o_discard st) false (write_include inp contexts find expand ctx w path st).
    Proof.
      unfold write_include, gok. eapply gd_bind; [apply (gok_write (o_discard st) false); apply od_flush|]. intros [[c z] s] [C1 S1]. cbn [fst snd] in C1, S1.
      eapply gd_bind; [apply gd_any|]. intros q _. eapply gd_bind; [apply gd_any|]. intros _ _. destruct (get q contexts) as [cc|] eqn:G; [|exact I]. cbv zeta.
      pose proof (merge_cgood _ _ HC (HG _ _ G)) as GM.
      eapply (gd_bind true (fun h => forall h', h = Some h' -> hgood h')).
      { assert (T : gd true (fun h => forall h', h = Some h' -> hgood h') (let* h := heritage_new (S (length contexts)) contexts (merge_context ctx cc) in GOk (Some h))).
        { eapply (gd_bind true hgood); [|intros h Hh h' [= <-]; exact Hh]. destruct (heritage_new (S (length contexts)) contexts (merge_context ctx cc)) eqn:E; cbn; auto. eapply heritage_new_cgood; eassumption. }
        destruct (c_blocks (merge_context ctx cc)), (c_extends (merge_context ctx cc)); try exact T. discriminate. }
      intros h Hh.
      assert (K : cgood match h with Some h0 => h_root h0 | None => merge_context ctx cc end) by (destruct h as [h|]; [apply (Hh h eq_refl)|exact GM]).
      eapply gd_bind; [apply HX; [exact Hh|exact K|apply K]|]. intros [[c1 z1] s1] [C2 S2]. cbn [fst snd] in C2, S2.
      eapply gd_bind; [apply (gok_write (o_discard s1) false); reflexivity|]. intros [[c2 z2] s2] [C3 S3]. cbn [fst snd] in C3, S3. split; [|exact S1]. cbn [fst]. apply cok_app; [exact C1|]. apply cok_app; [|apply cok_app; assumption].
      unfold emit. match goal with |- cok _ (if ?x then _ else _) => destruct x end; [exact I|]. apply cok_one. exact I.
    Qed.
    Lemma gok_node : forall n b lv st, good n -> kept b n -> gok (o_discard st) b (handle_node inp contexts find expand her ctx lv n st).
    Proof.
      induction n using node_ind_all; intros b lv st GN KN; pose proof (good_own _ GN) as ON; cbn [handle_node].
      - destruct n; try contradiction; cbn [handle_node].
        + eapply gd_bind; [apply (gd_lit_ok (o_discard st)); reflexivity|]. intros s Hs. split; [exact I|exact Hs].
        + split; [exact I|apply od_ws].
        + split; [exact I|]. cbn [snd]. rewrite od_push. apply od_ws.
        + apply gok_mono, gok_call.
        + apply gok_let; [|reflexivity]. intros ->. exact ON.
        + destruct (top_level lv); [split; [exact I|reflexivity]|exact I].
        + apply gok_mono, gok_include.
        + destruct (top_level lv); [split; [exact I|apply od_ws]|exact I].
        + eapply gd_bind; [apply (gd_lit_ok (o_discard st)), od_ws|]. intros s Hs. split; [exact I|]. cbn [snd]. rewrite od_ws. exact Hs.
        + assert (b = true) by (apply (KN b (NBreak w) w); [constructor|left; reflexivity]). subst b.
          eapply gd_bind; [apply (gok_write (o_discard st) true), od_ws|]. intros [[c z] s] [C1 S1]. cbn [fst snd] in C1, S1. eapply gd_bind; [apply gd_any|]. intros _ _. split; [|exact S1].
          cbn [fst]. apply cok_app; [exact C1|]. rewrite <- S1. apply cok_emit. reflexivity.
        + assert (b = true) by (apply (KN b (NContinue w) w); [constructor|right; reflexivity]). subst b.
          eapply gd_bind; [apply (gok_write (o_discard st) true), od_ws|]. intros [[c z] s] [C1 S1]. cbn [fst snd] in C1, S1. eapply gd_bind; [apply gd_any|]. intros _ _. split; [|exact S1].
          cbn [fst]. apply cok_app; [exact C1|]. rewrite <- S1. apply cok_emit. reflexivity.
      - destruct (proj1 (proj2 (GN b b (NIf w cs) (in_here _ _))) _ _ eq_refl) as (w0 & t0 & ns0 & cs' & ->).
        eapply gd_bind.
        + apply (gok_branches (o_discard st) _ b); [|reflexivity]. intros w' t ns Hc s Hs. rewrite Forall_forall in H. specialize (H _ Hc). cbn in H. rewrite Forall_forall in H.
          apply gok_list; [|exact Hs]. intros n Hn s' Hs'. cbv beta in Hs'. rewrite <- Hs'. apply H; [exact Hn|eapply good_child; [exact GN|]; exact (ch_if false _ _ _ _ _ _ Hc Hn)|].
          eapply kept_child; [exact KN|]. exact (ch_if b _ _ _ _ _ _ Hc Hn).
        + intros [[[[[c br] z] sz] he] s] (C1 & (B0 & B1) & S1). cbn [fst snd] in C1, B0, B1, S1. eapply gd_bind; [apply gd_any|]. intros z' _. split; [|exact S1]. cbn [fst]. apply cok_app; [exact C1|].
          rewrite <- S1. apply cok_around; intros D; rewrite S1 in D; rewrite D in *; cbn [negb] in *; rewrite ?andb_true_r, ?andb_false_r in *.
          * cbn [allowed]. split; [eapply chain_ok; [exact ON|exact B0]|]. apply inner_forall, B1.
          * apply cok_concat, B1.
      - eapply gd_bind; [apply (gok_write (o_discard st) b), od_flush|]. intros [[c z] s] [C1 S1]. cbn [fst snd] in C1, S1.
        eapply gd_bind; [apply gd_any|]. intros r _. eapply gd_bind; [apply gd_any|]. intros _ _.
        eapply gd_bind.
        + apply (gok_arms (o_discard st) _ b); [|rewrite od_open; exact S1]. intros w' t ns Hc s0 Hs0. rewrite Forall_forall in H. specialize (H _ Hc). cbn in H. rewrite Forall_forall in H.
          apply gok_list; [|exact Hs0]. intros n Hn s' Hs'. cbv beta in Hs'. rewrite <- Hs'. apply H; [exact Hn|eapply good_child; [exact GN|]; exact (ch_match false _ _ _ _ _ _ _ _ Hc Hn)|].
          eapply kept_child; [exact KN|]. exact (ch_match b _ _ _ _ _ _ _ _ Hc Hn).
        + intros [[[[c1 z1] ar] sz] s2] (C2 & (B0 & B2) & S2). cbn [fst snd] in C2, B0, B2, S2. eapply gd_bind; [apply gd_close_ok, S2|]. intros s3 S3. eapply gd_bind; [apply gd_any|]. intros z' _.
          split; [|exact S3]. cbn [fst]. apply cok_app; [exact C1|]. cbv beta in S3. rewrite <- S3.
          apply cok_around; intros D; rewrite S3 in D; rewrite D in *; cbn [negb] in *; rewrite ?andb_true_r, ?andb_false_r in *.
          * cbn [allowed]. split; [|apply inner_forall, B2]. intros ->. eapply (proj2 (proj2 (GN b b _ (in_here _ _)))); [reflexivity|]. destruct arms; [reflexivity|discriminate B0].
          * apply cok_concat, B2.
      - rewrite Forall_forall in *. apply gok_loop; [| | |reflexivity].
        + intros s Hs. apply gok_list; [|exact Hs]. intros n Hn s' Hs'. cbv beta in Hs'. rewrite <- Hs'. apply H; [exact Hn|eapply good_child; [exact GN|]; exact (ch_body false _ _ _ _ _ _ _ _ _ Hn)|].
          eapply kept_child; [exact KN|]. exact (ch_body b _ _ _ _ _ _ _ _ _ Hn).
        + intros s Hs. apply gok_list; [|exact Hs]. intros n Hn s' Hs'. cbv beta in Hs'. rewrite <- Hs'. apply H0; [exact Hn|eapply good_child; [exact GN|]; exact (ch_else false _ _ _ _ _ _ _ _ _ Hn)|].
          eapply kept_child; [exact KN|]. exact (ch_else b _ _ _ _ _ _ _ _ _ Hn).
        + intros HN. match goal with |- no_alternatives _ => idtac end. cbn [orderly] in ON. match type of HN with ?x <> None => destruct x; [exact ON|destruct (HN eq_refl)] end.
      - apply gok_mono, gok_block.
      - destruct (top_level lv); [split; [exact I|cbn [snd]; rewrite od_prepare; apply od_flush]|exact I].
      - rewrite Forall_forall in *. apply gok_filter; [|reflexivity]. intros s Hs. apply gok_list; [|exact Hs]. intros n Hn s' Hs'. cbv beta in Hs'. rewrite <- Hs'.
        apply H; [exact Hn|eapply good_child; [exact GN|]; exact (ch_filter false _ _ _ _ _ _ Hn)|]. eapply kept_child; [exact KN|]. exact (ch_filter b _ _ _ _ _ _ Hn).
    Qed.
    Lemma gok_nodes ns lv st : own ns -> gok (o_discard st) false (handle_nodes inp contexts find expand her ctx ns lv st).
    Proof.
      intros [HN HK]. unfold handle_nodes, gok. rewrite Forall_forall in *. eapply gd_bind; [apply (gok_list (o_discard st) _ false); [|reflexivity]|].
      { intros n Hn s Hs. cbv beta in Hs. rewrite <- Hs. apply gok_node; [apply HN, Hn|apply HK, Hn]. }
      intros [[c z] s] [C1 S1]. cbn [fst snd] in C1, S1. destruct (top_level lv); [|split; assumption].
      eapply gd_bind; [apply (gok_write (o_discard st) false); destruct (next_ws (s_ws s)); [rewrite od_flush|]; exact S1|]. intros [[c' z'] s'] [C2 S2]. split; [apply cok_app; assumption|exact S2].
    Qed.
  End Step.
  Lemma gok_handle : forall fuel her ctx ns lv st, (forall h, her = Some h -> hgood h) -> cgood ctx -> own ns -> gok (o_discard st) false (handle inp contexts find fuel her ctx ns lv st).
  Proof.
    induction fuel as [|f IH]; intros her ctx ns lv st HH HC HN; [reflexivity|]. cbn [handle]. apply gok_nodes; assumption.
  Qed.
End Gen.

Lemma build_allowed inp find fuel templates code z : (forall p ns, In (p, ns) templates -> own ns) ->
  build_template inp find fuel templates = GOk (code, z) -> Forall (allowed false) code.
Proof.
  intros HT E. unfold build_template in E. apply gbind_inv in E as (contexts & E1 & E). pose proof (contexts_cgood _ _ _ HT E1) as HG.
  destruct (get (f_path inp) contexts) as [ctx|] eqn:G; [|discriminate E]. pose proof (HG _ _ G) as HC. apply gbind_inv in E as (her & E2 & E).
  assert (HH : forall h, her = Some h -> hgood h).
  { assert (T : (let* h := heritage_new fuel contexts ctx in match f_block inp with Some b => match get b (h_blocks h) with None => GErr (lit "cannot find block") | Some _ => GOk (Some h) end | None => GOk (Some h) end) = GOk her -> forall h, her = Some h -> hgood h).
    { intros Q h ->. apply gbind_inv in Q as (h' & Q1 & Q). assert (h' = h) by (destruct (f_block inp) as [b|]; [destruct (get b (h_blocks h'))|]; congruence). subst h'. eapply heritage_new_cgood; eassumption. }
    destruct (c_blocks ctx), (c_extends ctx); try exact (T E2). injection E2 as <-. discriminate. }
  unfold impl_template in E. cbv zeta in E. apply gbind_inv in E as ([[c z'] s] & E3 & E). cbv beta iota in E.
  assert (K : cgood match her with Some h => h_root h | None => ctx end) by (destruct her as [h|]; [apply (HH h eq_refl)|exact HC]).
  pose proof (gok_handle inp contexts find HG fuel her _ _ LTop (initial inp 2) HH K (gc_nodes _ K)) as R. rewrite E3 in R. destruct R as [R _]. cbn [fst] in R.
  apply gbind_inv in E as (u & _ & E). apply gbind_inv in E as (s1 & _ & E). apply gbind_inv in E as (u2 & _ & E). apply gbind_inv in E as (s2 & _ & E). injection E as <- <-. apply cok_forall, R.
Qed.

(** ** Parsed templates *)
Lemma orderly_own ns : Forall (wf_node false) ns -> orderly_template ns -> own ns.
Proof.
  intros W O. split; apply Forall_forall; intros n Hn.
  - intros b b' m Hi. destruct (GroupGen.inside_any _ _ _ _ Hi false) as [b1 Hi']. assert (OC : occurs ns b1 m) by (exists n; split; assumption).
    split; [exact (O _ _ OC)|]. pose proof (occurs_wf _ _ _ W OC) as WM. split.
    + intros w cs ->. inversion WM as [| | | | |? ? c0 cs0 (w0 & t0 & ns0 & ->)| | | | | | | | | | |]; subst. eauto.
    + intros w1 e arms w2 -> ->. inversion WM.
  - intros b' m w Hi E. assert (OC : occurs ns b' m) by (exists n; split; assumption). pose proof (occurs_wf _ _ _ W OC) as WM.
    destruct E as [-> | ->]; inversion WM; reflexivity.
Qed.
