(** * The template put together has the text FlatSpec.v says. *)
From Verif Require Import Base Ws WsFacts Ast GenExpr Heritage Gen RefSem HeritageFacts GenElab FlatSpec.
Local Open Scope N_scope.

Section Run.
  Variable dflt : handling.
  (** ** The state of whitespace control along a sequence *)
  Definition clean (h : handling) : wstate := {| next_ws := None; skip := h |}.
  Fixpoint xrun (its : list xitem) (st : wstate) : option (str * wstate) :=
    match its with
    | [] => Some ([], st)
    | XLit l :: r => let? (o, st) := visit_lit l st in let? (o', st) := xrun r st in Some (concat o ++ o', st)
    | XTag w :: r => let? (o', st') := xrun r (clean (hd_or dflt (ws_r w))) in Some (concat (fst (flush_ws dflt (ws_l w) st)) ++ o', st')
    | XOpen w :: r => let? (o', st') := xrun r ws_init in Some (concat (fst (flush_ws dflt (ws_l w) st)) ++ o', st')
    | XClose w :: r => let? (o', st') := xrun r (clean (hd_or dflt (ws_r w))) in Some (concat (flush_end dflt st) ++ o', st')
    end.
  Definition xlits_ok (its : list xitem) : Prop := forall l, In (XLit l) its -> lit_ok l.
  Lemma xrun_app a b st o st1 o' st2 : xrun a st = Some (o, st1) -> xrun b st1 = Some (o', st2) -> xrun (a ++ b) st = Some (o ++ o', st2).
  Proof.
    revert st o. induction a as [|x a IH]; intros st o H1 H2; cbn [xrun app] in *.
    - injection H1 as <- <-. exact H2.
    - destruct x as [l|w|w|w].
      + destruct (visit_lit l st) as [[o0 s0]|]; [|discriminate]. cbn [obind] in *. destruct (xrun a s0) as [[o1 s1]|] eqn:E; [|discriminate].
        cbn [obind] in *. injection H1 as <- ->. rewrite (IH _ _ E H2). cbn [obind]. rewrite app_assoc. reflexivity.
      + destruct (xrun a _) as [[o1 s1]|] eqn:E; [|discriminate]. cbn [obind] in *. injection H1 as <- ->. rewrite (IH _ _ E H2). cbn [obind]. rewrite app_assoc. reflexivity.
      + destruct (xrun a _) as [[o1 s1]|] eqn:E; [|discriminate]. cbn [obind] in *. injection H1 as <- ->. rewrite (IH _ _ E H2). cbn [obind]. rewrite app_assoc. reflexivity.
      + destruct (xrun a _) as [[o1 s1]|] eqn:E; [|discriminate]. cbn [obind] in *. injection H1 as <- ->. rewrite (IH _ _ E H2). cbn [obind]. rewrite app_assoc. reflexivity.
  Qed.

  Definition pend (st : wstate) (after : option handling) : str :=
    match next_ws st with None => [] | Some v => treat (match after with Some h => h | None => skip st end) v end.
  Lemma xrun_page its : xlits_ok its -> forall before out st1, xrun its (clean (hd_or Preserve before)) = Some (out, st1) ->
    out ++ concat (flush_end dflt st1) = page dflt before its.
  Proof.
    induction its as [|x its IH]; intros OK before out st1 E.
    - injection E as <- <-. reflexivity.
    - assert (OK' : xlits_ok its) by (intros l Hl; apply OK; right; exact Hl). specialize (IH OK').
      destruct x as [l|w|w|w]; cbn [xrun page] in *.
      + destruct (visit_lit_spec l before (OK l (or_introl eq_refl))) as (o & st & Hv & Hs). unfold clean in E. rewrite Hv in E. cbn [obind] in E.
        destruct (xrun its st) as [[o1 s1]|] eqn:E1; [|discriminate E]. cbn [obind] in E. injection E as <- ->.
        rewrite <- (Hs (marker_after dflt its)). rewrite <- !app_assoc. f_equal. change (o1 ++ concat (flush_end dflt st1) = pend st (marker_after dflt its) ++ page dflt (match lval l with [] => before | _ => None end) its).
        destruct its as [|[l2|w|w|w] its].
        * injection E1 as <- <-. cbn [marker_after page]. rewrite app_nil_r. cbn [app]. apply flush_end_out.
        * (* a second piece of text: nothing is pending *)
          assert (N : next_ws st = None).
          { cbn [xrun] in E1. unfold visit_lit in E1. destruct (next_ws st); [discriminate E1|reflexivity]. }
          unfold pend. rewrite N. cbn [app]. apply IH. rewrite <- E1. f_equal. destruct st as [nx sk]. cbn [next_ws] in N. subst nx. unfold clean. f_equal.
          clear - Hv. unfold visit_lit in Hv. cbn [next_ws skip] in Hv. destruct l as [lw v rw]; cbn [lws lval rws] in *.
          destruct v as [|c v]; destruct lw as [|y lw], rw as [|z rw], before as [[| |]|]; cbn in Hv; try discriminate Hv; injection Hv as <- <-; try discriminate; reflexivity.
        * rename w into w0. specialize (IH None). cbn [xrun hd_or page marker_after] in *. destruct (xrun its _) as [[o2 s2]|]; [|discriminate E1]. cbn [obind] in *.
          injection E1 as <- ->. specialize (IH _ _ eq_refl). cbn [flush_ws clean next_ws fst concat app] in IH. rewrite <- IH, flush_out, <- app_assoc. reflexivity.
        * rename w into w0. specialize (IH None). cbn [xrun hd_or page marker_after] in *. destruct (xrun its _) as [[o2 s2]|]; [|discriminate E1]. cbn [obind] in *.
          injection E1 as <- ->. specialize (IH _ _ eq_refl). cbn [flush_ws clean next_ws fst concat app] in IH. rewrite <- IH, flush_out, <- app_assoc. reflexivity.
        * rename w into w0. specialize (IH None). cbn [xrun hd_or page marker_after] in *. destruct (xrun its _) as [[o2 s2]|]; [|discriminate E1]. cbn [obind] in *.
          injection E1 as <- ->. specialize (IH _ _ eq_refl). cbn [flush_end clean next_ws fst concat app] in IH. rewrite <- IH, flush_end_out, <- app_assoc. reflexivity.
      + destruct (xrun its _) as [[o2 s2]|] eqn:E1; [|discriminate E]. cbn [obind] in E. injection E as <- ->. cbn [flush_ws clean next_ws fst concat app].
        apply (IH (Some (hd_or dflt (ws_r w)))). exact E1.
      + destruct (xrun its _) as [[o2 s2]|] eqn:E1; [|discriminate E]. cbn [obind] in E. injection E as <- ->. cbn [flush_ws clean next_ws fst concat app].
        apply (IH None). exact E1.
      + destruct (xrun its _) as [[o2 s2]|] eqn:E1; [|discriminate E]. cbn [obind] in E. injection E as <- ->. cbn [flush_end clean next_ws fst concat app].
        apply (IH (Some (hd_or dflt (ws_r w)))). exact E1.
  Qed.
End Run.

(** ** Pieces of text of contexts *)
Definition lits_good (ns : list node) : Prop := forall l, In l (lits_in ns) -> lit_ok l.
Record ctx_good (c : context) : Prop := {
  cg_nodes : lits_good (c_nodes c);
  cg_blocks : forall x d, In (x, d) (c_blocks c) -> lits_good (b_nodes d);
  cg_macros : forall x d, In (x, d) (c_macros c) -> lits_good (k_nodes d)
}.
Definition defs_good (bs : list (str * list (context * block_def))) : Prop :=
  forall x l c d, In (x, l) bs -> In (c, d) l -> ctx_good c /\ lits_good (b_nodes d).
Definition her_good (h : heritage) : Prop := ctx_good (h_root h) /\ defs_good (h_blocks h).

Lemma lits_good_cons n l : lits_good (n :: l) <-> (forall x, In x (lits n) -> lit_ok x) /\ lits_good l.
Proof.
  unfold lits_good, lits_in. cbn [map concat]. split.
  - intros H. split; intros x Hx; apply H, in_app_iff; auto.
  - intros [H1 H2] x Hx. apply in_app_iff in Hx as [Hx|Hx]; auto.
Qed.
Lemma in_put {A} k (v : A) l x y : In (x, y) (put k v l) -> In (x, y) l \/ (x = k /\ y = v).
Proof.
  induction l as [|[a b] l IH]; cbn [put]; intros H; [destruct H as [[= <- <-]|[]]; auto|].
  destruct (str_eqb k a) eqn:E.
  - destruct H as [[= <- <-]|H]; [auto|left; right; exact H].
  - destruct H as [[= <- <-]|H]; [left; left; reflexivity|]. apply IH in H as [H|H]; [left; right; exact H|auto].
Qed.
Lemma get_in {A} k (v : A) l : get k l = Some v -> In (k, v) l.
Proof.
  induction l as [|[a b] l IH]; cbn [get]; [discriminate|]. destruct (str_eqb k a) eqn:E.
  - intros [= ->]. apply str_eqb_eq in E. subst a. left. reflexivity.
  - intros H. right. apply IH, H.
Qed.
Lemma bodies_good n ns : (forall x, In x (lits n) -> lit_ok x) -> In ns (HeritageSpec.bodies n) -> lits_good ns.
Proof.
  intros H Hn. destruct n; cbn in Hn; try destruct Hn as [<-|Hn]; try contradiction; cbn [lits] in H.
  - apply in_map_iff in Hn as ([w' t b] & <- & Hc). intros l Hl. apply H. apply in_concat. exists (lits_in b). split; [|exact Hl].
    apply in_map_iff. exists (Cond w' t b). split; [reflexivity|exact Hc].
  - apply in_map_iff in Hn as ([w' t b] & <- & Hc). intros l Hl. apply H. apply in_concat. exists (lits_in b). split; [|exact Hl].
    apply in_map_iff. exists (When w' t b). split; [reflexivity|exact Hc].
  - intros l Hl. apply H, in_app_iff. left. exact Hl.
  - destruct Hn as [<-|[]]. intros l Hl. apply H, in_app_iff. right. exact Hl.
  - exact H.
Qed.

Lemma put_new_in {A} k (v : A) l x y : In (x, y) (put_new k v l) -> In (x, y) l \/ (x = k /\ y = v).
Proof. unfold put_new. destruct (get k l); [auto|apply in_put]. Qed.
Lemma merge_macros_in {A} (o l : list (str * A)) x y : In (x, y) (fold_left (fun l x => put_new (fst x) (snd x) l) o l) -> In (x, y) l \/ In (x, y) o.
Proof.
  revert l. induction o as [|[k v] o IH]; intros l H; [left; exact H|]. cbn [fold_left fst snd] in H. apply IH in H as [H|H]; [|right; right; exact H].
  apply put_new_in in H as [H|[-> ->]]; [left; exact H|right; left; reflexivity].
Qed.
Lemma merge_good o c : ctx_good o -> ctx_good c -> ctx_good (merge_context o c).
Proof.
  intros [_ _ O3] [C1 C2 C3]. constructor; cbn [merge_context c_nodes c_blocks c_macros]; [exact C1|exact C2|].
  intros x d H. apply merge_macros_in in H as [H|H]; eauto.
Qed.
Lemma context_node_good find path top n c c' more : (forall x, In x (lits n) -> lit_ok x) -> ctx_good c ->
  context_node find path top n c = Ok (c', more) -> ctx_good c' /\ Forall lits_good more.
Proof.
  intros HN [C1 C2 C3] E. destruct n; cbn [context_node] in E; try solve [injection E as <- <-; split; [constructor; assumption|constructor]].
  - injection E as <- <-. split; [constructor; assumption|]. apply Forall_forall. intros ns Hns. apply (bodies_good _ _ HN). exact Hns.
  - injection E as <- <-. split; [constructor; assumption|]. apply Forall_forall. intros ns Hns. apply (bodies_good _ _ HN). exact Hns.
  - injection E as <- <-. split; [constructor; assumption|]. apply Forall_forall. intros ns Hns. apply (bodies_good _ _ HN). exact Hns.
  - destruct top; [|discriminate E]. destruct (c_extends c); [discriminate E|]. destruct (find path0 path); try discriminate E. cbn in E. injection E as <- <-. split; [constructor; assumption|constructor].
  - injection E as <- <-. assert (G : lits_good nodes) by exact HN. split; [|constructor; [exact G|constructor]]. constructor; cbn [c_nodes c_blocks c_macros]; [exact C1| |exact C3].
    intros x d H. apply in_put in H as [H|[-> ->]]; [eapply C2; exact H|exact G].
  - destruct top; [|discriminate E]. destruct (find path0 path); try discriminate E. cbn in E. injection E as <- <-. split; [constructor; assumption|constructor].
  - destruct top; [|discriminate E]. injection E as <- <-. split; [|constructor]. constructor; cbn [c_nodes c_blocks c_macros]; [exact C1|exact C2|].
    intros x d H. apply in_put in H as [H|[-> ->]]; [eapply C3; exact H|exact HN].
Qed.
Lemma context_nodes_good find path top : forall ns c stack c' stack', lits_good ns -> ctx_good c -> Forall lits_good stack ->
  context_nodes find path top ns c stack = Ok (c', stack') -> ctx_good c' /\ Forall lits_good stack'.
Proof.
  induction ns as [|n ns IH]; intros c stack c' stack' HN HC HS E; cbn [context_nodes] in E; [injection E as <- <-; auto|].
  apply rbind_inv in E as ([c1 more] & E1 & E). apply lits_good_cons in HN as [H1 H2]. destruct (context_node_good _ _ _ _ _ _ _ H1 HC E1) as [G1 G2].
  eapply IH; [exact H2|exact G1| |exact E]. apply Forall_app. split; [apply Forall_rev, G2|exact HS].
Qed.
Lemma context_loop_good find path : forall fuel top stack c c', Forall lits_good stack -> ctx_good c -> context_loop find fuel path top stack c = GOk c' -> ctx_good c'.
Proof.
  induction fuel as [|f IH]; intros top stack c c' HS HC E; (destruct stack as [|ns stack]; [injection E as <-; exact HC|]); cbn [context_loop] in E; [discriminate E|].
  inversion HS as [|? ? H1 H2]; subst. apply gbind_inv in E as ([c1 st1] & E1 & E). apply of_res_inv in E1.
  destruct (context_nodes_good _ _ _ _ _ _ _ _ H1 HC H2 E1) as [G1 G2]. eapply IH; [exact G2|exact G1|exact E].
Qed.
Lemma contexts_good find templates contexts : (forall p ns, In (p, ns) templates -> lits_good ns) -> build_contexts find templates = GOk contexts ->
  forall p c, get p contexts = Some c -> ctx_good c.
Proof.
  revert contexts. induction templates as [|[p ns] l IH]; intros contexts HT E q c G; cbn [build_contexts] in E.
  - injection E as <-. discriminate G.
  - apply gbind_inv in E as (c1 & E1 & E). apply gbind_inv in E as (cs & E2 & E). injection E as <-. cbn [get] in G.
    destruct (str_eqb q p); [|eapply IH; [intros; eapply HT; right; eassumption|exact E2|exact G]]. injection G as <-.
    assert (HN : lits_good ns) by (eapply HT; left; reflexivity). eapply context_loop_good; [|constructor|exact E1]; cbn; [repeat constructor; exact HN|exact HN| |]; contradiction.
Qed.
Section Her.
  Variable contexts : list (str * context).
  Hypothesis HG : forall p c, get p contexts = Some c -> ctx_good c.
  Lemma push_good c bs x : ctx_good c -> defs_good bs -> In x (c_blocks c) -> defs_good (push_block c x bs).
  Proof.
    intros HC HB Hx. destruct x as [x d]. unfold push_block. cbn [fst snd]. intros y l c' d' H1 H2. apply in_put in H1 as [H1|[-> ->]]; [eapply HB; eassumption|].
    pose proof (cg_blocks _ HC _ _ Hx) as GD. destruct (get x bs) as [l0|] eqn:E.
    - apply in_app_iff in H2 as [H2|[[= <- <-]|[]]]; [eapply HB; [apply get_in; exact E|exact H2]|split; assumption].
    - destruct H2 as [[= <- <-]|[]]. split; assumption.
  Qed.
  Lemma heritage_loop_good : forall fuel c bs h, ctx_good c -> defs_good bs -> heritage_loop fuel contexts c bs = GOk h -> her_good h.
  Proof.
    induction fuel as [|f IH]; intros c bs h HC HB E; cbn [heritage_loop] in E; destruct (c_extends c) as [p|]; try discriminate E; try (injection E as <-; split; assumption).
    destruct (get p contexts) as [c'|] eqn:G; [|discriminate E]. pose proof (HG _ _ G) as HC'. eapply IH; [exact HC'| |exact E].
    assert (K : forall l, incl l (c_blocks c') -> forall bs, defs_good bs -> defs_good (fold_left (fun bs x => push_block c' x bs) l bs)).
    { clear - HC'. induction l as [|x l IH]; intros HI bs HB; [exact HB|]. cbn [fold_left]. apply IH; [intros y Hy; apply HI; right; exact Hy|].
      apply push_good; [exact HC'|exact HB|apply HI; left; reflexivity]. }
    apply K; [intros y Hy; exact Hy|exact HB].
  Qed.
  Lemma heritage_new_good fuel c h : ctx_good c -> heritage_new fuel contexts c = GOk h -> her_good h.
  Proof.
    intros HC E. eapply heritage_loop_good; [exact HC| |exact E]. intros x l c' d H1 H2. apply in_map_iff in H1 as ([y e] & [= <- <-] & H1).
    destruct H2 as [[= <- <-]|[]]. split; [exact HC|]. eapply (cg_blocks _ HC). exact H1.
  Qed.
End Her.

(** ** [elab] *)
Lemma texts_in_app a b : texts_in (a ++ b) = texts_in a ++ texts_in b.
Proof. unfold texts_in. rewrite map_app, concat_app. reflexivity. Qed.
Lemma texts_in_texts l : texts_in (texts l) = concat l.
Proof. unfold texts_in, texts. rewrite map_map. cbn [all_text]. rewrite map_id. reflexivity. Qed.
Lemma xok_nil : xlits_ok [].
Proof. intros l []. Qed.
Lemma xok_app a b : xlits_ok a -> xlits_ok b -> xlits_ok (a ++ b).
Proof. intros H1 H2 l Hl. apply in_app_iff in Hl as [Hl|Hl]; auto. Qed.
Lemma xok_tag x a : (forall l, x <> XLit l) -> xlits_ok a -> xlits_ok (x :: a).
Proof. intros H1 H2 l [Hl|Hl]; [subst; exfalso; eapply H1; reflexivity|auto]. Qed.
Lemma xok_lit l : lit_ok l -> xlits_ok [XLit l].
Proof. intros H l' [[= <-]|[]]. exact H. Qed.

Section Elab.
  Variable inp : ginput.
  Variable contexts : list (str * context).
  Variable find : str -> str -> res str.
  Hypothesis HG : forall p c, get p contexts = Some c -> ctx_good c.
  Notation dflt := (f_ws inp).
  Notation run := (xrun (f_ws inp)).
  Definition lead (l : option handling) (st : wstate) : str := concat (fst (flush_ws dflt l st)).
  Lemma w_flush_eq l st : w_flush inp l st = (texts (fst (flush_ws dflt l st)), clean (skip st)).
  Proof. unfold w_flush. pose proof (flush_st dflt l st) as H. destruct (flush_ws dflt l st) as [o s]. cbn [fst snd] in *. subst s. reflexivity. Qed.
  Lemma w_handle_eq x st : w_handle inp x st = (texts (fst (flush_ws dflt (ws_l x) st)), clean (hd_or dflt (ws_r x))).
  Proof. unfold w_handle. rewrite w_flush_eq. reflexivity. Qed.
  Lemma run_tag w st : run [XTag w] st = Some (lead (ws_l w) st, clean (hd_or dflt (ws_r w))).
  Proof. cbn [xrun obind]. rewrite app_nil_r. reflexivity. Qed.
  Lemma run_tag_then w a st o s : run a (clean (hd_or dflt (ws_r w))) = Some (o, s) -> run (XTag w :: a) st = Some (lead (ws_l w) st ++ o, s).
  Proof. intros E. cbn [xrun]. rewrite E. reflexivity. Qed.
  Lemma run_lit l st ts st' : w_lit l st = GOk (ts, st') -> run [XLit l] st = Some (texts_in ts, st').
  Proof.
    unfold w_lit. cbn [xrun]. destruct (visit_lit l st) as [[o s]|]; [|discriminate]. intros [= <- <-]. cbn [obind]. rewrite texts_in_texts, app_nil_r. reflexivity.
  Qed.
  Lemma run_then a b st o s o' s' : run a st = Some (o, s) -> run b s = Some (o', s') -> run (a ++ b) st = Some (o ++ o', s').
  Proof. apply xrun_app. Qed.

  Section Nodes.
    Variable expand : option heritage -> context -> option (str * nat) -> list node -> bool -> wstate -> gres el.
    Hypothesis HX : forall her ctx sup nodes top st ts st', ctx_good ctx -> (forall h, her = Some h -> her_good h) -> lits_good nodes ->
      expand her ctx sup nodes top st = GOk (ts, st') ->
      exists its out st1, flat inp contexts find her ctx sup nodes its /\ xlits_ok its /\ run its st = Some (out, st1) /\
        texts_in ts = out ++ (if top then concat (flush_end dflt st1) else []) /\ (top = false -> st' = st1).
    Variable her : option heritage.
    Variable ctx : context.
    Variable sup : option (str * nat).
    Hypothesis HC : ctx_good ctx.
    Hypothesis HH : forall h, her = Some h -> her_good h.
    Notation fnode := (flat_node inp contexts find her ctx sup).
    Notation flist := (flat inp contexts find her ctx sup).
    Notation fparts := (flat_parts inp contexts find her ctx sup).
    Notation enode := (elab_node inp contexts find expand her ctx sup).

    Definition PN (n : node) : Prop := forall st ts st', (forall l, In l (lits n) -> lit_ok l) -> enode n st = GOk (ts, st') ->
      exists its, fnode n its /\ xlits_ok its /\ run its st = Some (texts_in ts, st').

    Lemma list_flat l : Forall PN l -> forall st ts st', lits_good l -> elab_list enode l st = GOk (ts, st') ->
      exists its, flist l its /\ xlits_ok its /\ run its st = Some (texts_in ts, st').
    Proof.
      induction 1 as [|n l Hn _ IH]; intros st ts st' HL E; cbn [elab_list] in E.
      - injection E as <- <-. exists []. split; [constructor|]. split; [apply xok_nil|reflexivity].
      - apply gbind_inv in E as ([a s1] & E1 & E). cbv beta iota in E. apply gbind_inv in E as ([b s2] & E2 & E). cbv beta iota in E. injection E as <- <-.
        apply lits_good_cons in HL as [H1 H2]. destruct (Hn _ _ _ H1 E1) as (i1 & F1 & O1 & R1). destruct (IH _ _ _ H2 E2) as (i2 & F2 & O2 & R2).
        exists (i1 ++ i2). split; [constructor; assumption|]. split; [apply xok_app; assumption|]. rewrite texts_in_app. eapply run_then; eassumption.
    Qed.
    Lemma branches_flat w_end cs : Forall (cond_all PN) cs -> forall st t bs st', (forall x, In x cs -> lits_good (snd (cond_body x))) ->
      elab_branches inp enode w_end cs st = GOk (t, bs, st') ->
      exists its, fparts (map cond_body cs) its /\ xlits_ok its /\
        run (its ++ [XTag w_end]) st = Some (texts_in t ++ concat (map (fun x => texts_in (snd x)) bs), st').
    Proof.
      induction 1 as [|[w test ns] cs Hn _ IH]; intros st t bs st' HL E; cbn [elab_branches] in E.
      - rewrite w_handle_eq in E. injection E as <- <- <-. exists []. split; [constructor|]. split; [apply xok_nil|]. cbn [app map concat].
        rewrite run_tag, texts_in_texts, app_nil_r. reflexivity.
      - rewrite w_handle_eq in E. apply gbind_inv in E as ([body s1] & E1 & E). cbv beta iota in E. apply gbind_inv in E as ([[after rest] s2] & E2 & E). cbv beta iota in E.
        injection E as <- <- <-. destruct (list_flat _ Hn _ _ _ (HL _ (or_introl eq_refl)) E1) as (i1 & F1 & O1 & R1).
        destruct (IH _ _ _ _ (fun x Hx => HL x (or_intror Hx)) E2) as (i2 & F2 & O2 & R2).
        exists (XTag w :: i1 ++ i2). split; [cbn [map cond_body]; constructor; assumption|]. split; [apply xok_tag; [discriminate|apply xok_app; assumption]|].
        cbn [app]. rewrite <- app_assoc. rewrite texts_in_texts. cbn [map concat snd]. rewrite texts_in_app, <- !app_assoc. apply run_tag_then. eapply run_then; eassumption.
    Qed.
    Lemma arms_flat w_end cs : Forall (when_all PN) cs -> forall st t bs st', (forall x, In x cs -> lits_good (snd (when_body x))) ->
      elab_arms inp enode w_end cs st = GOk (t, bs, st') ->
      exists its, fparts (map when_body cs) its /\ xlits_ok its /\
        run (its ++ [XTag w_end]) st = Some (texts_in t ++ concat (map (fun x => texts_in (snd x)) bs), st') /\ (cs = [] -> next_ws st = None -> t = []) /\ length bs = length cs.
    Proof.
      induction 1 as [|[w test ns] cs Hn _ IH]; intros st t bs st' HL E; cbn [elab_arms] in E.
      - rewrite w_handle_eq in E. injection E as <- <- <-. exists []. split; [constructor|]. split; [apply xok_nil|]. cbn [app map concat].
        rewrite run_tag, texts_in_texts, app_nil_r. split; [reflexivity|]. split; [|reflexivity]. intros _ Hx. unfold flush_ws. rewrite Hx. reflexivity.
      - rewrite w_handle_eq in E. apply gbind_inv in E as ([body s1] & E1 & E). cbv beta iota in E. apply gbind_inv in E as ([[after rest] s2] & E2 & E). cbv beta iota in E.
        injection E as <- <- <-. destruct (list_flat _ Hn _ _ _ (HL _ (or_introl eq_refl)) E1) as (i1 & F1 & O1 & R1).
        destruct (IH _ _ _ _ (fun x Hx => HL x (or_intror Hx)) E2) as (i2 & F2 & O2 & R2 & _ & L2).
        exists (XTag w :: i1 ++ i2). split; [cbn [map when_body]; constructor; assumption|]. split; [apply xok_tag; [discriminate|apply xok_app; assumption]|].
        split; [|split; [discriminate|cbn [length]; rewrite L2; reflexivity]].
        cbn [app]. rewrite <- app_assoc. rewrite texts_in_texts. cbn [map concat snd]. rewrite texts_in_app, <- !app_assoc. apply run_tag_then. eapply run_then; eassumption.
    Qed.
    Lemma block_flat name outer st ts st' : elab_block inp expand her ctx sup name outer st = GOk (ts, st') ->
      exists x g h defs c d its,
        match name with Some y => x = y /\ g = O | None => exists g', sup = Some (x, g') /\ g = S g' end /\
        her = Some h /\ get x (h_blocks h) = Some defs /\ nth_error defs g = Some (c, d) /\
        flat inp contexts find her (merge_context ctx c) (Some (x, g)) (b_nodes d) its /\
        let all := XTag {| ws_l := ws_l outer; ws_r := ws_r (b_ws1 d) |} :: its ++ [XTag {| ws_l := ws_l (b_ws2 d); ws_r := ws_r outer |}] in
        xlits_ok all /\ run all st = Some (texts_in ts, st').
    Proof.
      unfold elab_block. rewrite w_flush_eq. intros E. apply gbind_inv in E as ([x g] & EC & E). cbn [fst snd] in E.
      destruct her as [h|] eqn:Eh; [|discriminate E]. destruct (get x (h_blocks h)) as [defs|] eqn:ED; [|discriminate E].
      destruct (nth_error defs g) as [[c d]|] eqn:EN; [|discriminate E]. apply gbind_inv in E as ([body s1] & EX & E). cbv beta iota in E. rewrite w_flush_eq in E. injection E as <- <-.
      destruct (HH h eq_refl) as [_ HB]. destruct (HB _ _ _ _ (get_in _ _ _ ED) (nth_error_In _ _ EN)) as [GC GD].
      apply HX in EX as (its & out & s2 & F & O & R & T & Es); [|apply merge_good; assumption|exact HH|exact GD]. rewrite app_nil_r in T. specialize (Es eq_refl). subst s2.
      exists x, g, h, defs, c, d, its. split.
      { destruct name as [y|]; [injection EC as <- <-; auto|]. destruct sup as [[z g']|]; [|discriminate EC]. injection EC as <- <-. eauto. }
      split; [reflexivity|]. split; [exact ED|]. split; [exact EN|]. split; [exact F|]. cbv zeta. split.
      { apply xok_tag; [discriminate|]. apply xok_app; [exact O|]. apply xok_tag; [discriminate|apply xok_nil]. }
      rewrite texts_in_app, texts_in_texts. unfold texts_in at 1. cbn [map concat all_text]. rewrite app_nil_r. apply run_tag_then.
      change (concat (map all_text (body ++ texts (fst (flush_ws dflt (ws_l (b_ws2 d)) s1))))) with (texts_in (body ++ texts (fst (flush_ws dflt (ws_l (b_ws2 d)) s1)))).
      rewrite texts_in_app, texts_in_texts, T. eapply run_then; [exact R|]. apply run_tag.
    Qed.
    Lemma call_flat w scope name args : PN (NCall w scope name args).
    Proof.
      intros st ts st' _ E. cbn [elab_node] in E. unfold elab_call in E. destruct (str_eqb name (lit "super")) eqn:EN.
      - apply str_eqb_eq in EN. subst name. apply block_flat in E as (x & g & h & defs & c & d & its & (g' & Hs & ->) & Hh & ED & En & F & O & R).
        eexists. split; [|split; [exact O|exact R]]. rewrite Hh in *. rewrite Hs. eapply fl_super; [eassumption|eassumption|apply merge_sees|eassumption].
      - apply str_eqb_neq in EN. apply gbind_inv in E as ([def own] & EM & E). cbv beta iota in E. rewrite w_flush_eq in E.
        assert (FM : macro_found contexts ctx name scope def own /\ ctx_good own /\ lits_good (k_nodes def)).
        { destruct scope as [s|].
          - destruct (get s (c_imports ctx)) as [path|] eqn:E1; [|discriminate EM]. destruct (get path contexts) as [c|] eqn:E2; [|discriminate EM].
            destruct (get name (c_macros c)) as [d|] eqn:E3; [|discriminate EM]. injection EM as -> ->. split; [eapply mf_imported; eassumption|].
            pose proof (HG _ _ E2) as G. split; [exact G|]. eapply (cg_macros _ G), get_in, E3.
          - destruct (get name (c_macros ctx)) as [d|] eqn:E3; [|discriminate EM]. injection EM as -> <-. split; [apply mf_own; exact E3|]. split; [exact HC|]. eapply (cg_macros _ HC), get_in, E3. }
        destruct FM as (FM & GO & GD). apply gbind_inv in E as ([body s1] & EX & E). cbv beta iota in E. rewrite w_flush_eq in E.
        destruct (pair_args 0 (k_args def) args) as [l|]; [|discriminate E]. injection E as <- <-.
        apply HX in EX as (its & out & s2 & F & O & R & T & Es); [|exact GO|exact HH|exact GD]. rewrite app_nil_r in T. specialize (Es eq_refl). subst s2.
        eexists. split; [eapply fl_call; eassumption|]. split.
        { apply xok_tag; [discriminate|]. apply xok_app; [exact O|]. apply xok_tag; [discriminate|apply xok_nil]. }
        rewrite texts_in_app, texts_in_texts. unfold texts_in at 1. cbn [map concat all_text]. rewrite app_nil_r. apply run_tag_then.
        change (concat (map all_text (body ++ texts (fst (flush_ws dflt (ws_l (k_ws2 def)) s1))))) with (texts_in (body ++ texts (fst (flush_ws dflt (ws_l (k_ws2 def)) s1)))).
        rewrite texts_in_app, texts_in_texts, T. eapply run_then; [exact R|]. apply run_tag.
    Qed.
    Lemma include_flat w path : PN (NInclude w path).
    Proof.
      intros st ts st' _ E. cbn [elab_node] in E. unfold elab_include in E. rewrite w_flush_eq in E. apply gbind_inv in E as (p & EF & E). apply of_res_inv in EF.
      destruct (get p contexts) as [c|] eqn:EG; [|discriminate E]. cbv beta iota zeta in E. apply gbind_inv in E as (h & EH & E). apply gbind_inv in E as ([body s1] & EX & E). cbv beta iota in E.
      injection E as <- <-. pose proof (merge_good _ _ HC (HG _ _ EG)) as GM. set (m := merge_context ctx c) in *.
      assert (CH : chain_of (S (length contexts)) contexts m h /\ (forall h0, h = Some h0 -> her_good h0) /\ ctx_good (base_of h m)).
      { assert (S : forall h0, heritage_new (S (length contexts)) contexts m = GOk h0 -> her_good h0) by (intros h0 Hh; eapply heritage_new_good; eassumption).
        destruct (c_blocks m) as [|b bs] eqn:EB; [destruct (c_extends m) as [q|] eqn:EE|].
        - apply gbind_inv in EH as (h0 & EH & E0). injection E0 as <-. split; [constructor; [right; congruence|exact EH]|]. split; [intros h1 [= <-]; exact (S _ EH)|apply (S _ EH)].
        - injection EH as <-. split; [constructor; assumption|]. split; [discriminate|exact GM].
        - apply gbind_inv in EH as (h0 & EH & E0). injection E0 as <-. split; [constructor; [left; congruence|exact EH]|]. split; [intros h1 [= <-]; exact (S _ EH)|apply (S _ EH)]. }
      destruct CH as (CH & GH & GB). change (match h with Some h0 => h_root h0 | None => m end) with (base_of h m) in EX.
      apply HX in EX as (its & out & s2 & F & O & R & T & _); [|exact GB|exact GH|apply GB].
      eexists. split; [eapply fl_include; [eassumption|eassumption|apply merge_sees|eassumption|eassumption]|]. split.
      { apply xok_tag; [discriminate|]. apply xok_app; [exact O|]. apply xok_tag; [discriminate|apply xok_nil]. }
      rewrite texts_in_app, texts_in_texts. unfold texts_in at 1. cbn [map concat all_text]. rewrite app_nil_r. change (concat (map all_text body)) with (texts_in body). rewrite T.
      cbn [xrun]. rewrite (run_then its [XClose w] ws_init out s2 (concat (flush_end dflt s2)) (clean (hd_or dflt (ws_r w)))); [reflexivity|exact R|].
      cbn [xrun obind]. rewrite app_nil_r. reflexivity.
    Qed.
    Lemma node_flat n : PN n.
    Proof.
      assert (TG : forall n w, plain_tag n = Some w -> (forall st, exists ts, enode n st = GOk (ts, clean (hd_or dflt (ws_r w))) /\ texts_in ts = lead (ws_l w) st) -> PN n).
      { intros n0 w Hp Hn st ts st' _ E. destruct (Hn st) as (ts0 & E0 & T). rewrite E in E0. injection E0 as -> ->. exists [XTag w]. split; [apply fl_tag; exact Hp|].
        split; [apply xok_tag; [discriminate|apply xok_nil]|]. rewrite T. apply run_tag. }
      induction n using node_ind'; try (apply call_flat); try (apply include_flat).
      - intros st ts st' HL E. exists [XLit l]. split; [constructor|]. split; [apply xok_lit, HL; left; reflexivity|]. apply run_lit. exact E.
      - eapply TG; [reflexivity|]. intros st. cbn [elab_node]. rewrite w_handle_eq. eexists. split; [reflexivity|]. apply texts_in_texts.
      - eapply TG; [reflexivity|]. intros st. cbn [elab_node]. rewrite w_handle_eq. eexists. split; [reflexivity|]. rewrite texts_in_app, texts_in_texts. apply app_nil_r.
      - eapply TG; [reflexivity|]. intros st. cbn [elab_node]. rewrite w_handle_eq. eexists. split; [reflexivity|]. rewrite texts_in_app, texts_in_texts. apply app_nil_r.
      - intros st ts st' HL E. cbn [elab_node] in E. apply gbind_inv in E as ([[t bs] s1] & E1 & E). cbv beta iota in E. injection E as <- <-.
        assert (HB : forall x, In x cs -> lits_good (snd (cond_body x))) by (intros x Hx; pose proof (bodies_good _ _ HL (in_map (fun x => match x with Cond _ _ ns => ns end) _ _ Hx)) as K; destruct x; exact K).
        destruct (branches_flat w cs H _ _ _ _ HB E1) as (its & F & O & R).
        exists (its ++ [XTag w]). split; [constructor; exact F|]. split; [apply xok_app; [exact O|apply xok_tag; [discriminate|apply xok_nil]]|].
        rewrite R, texts_in_app. do 3 f_equal. unfold texts_in. cbn [map concat all_text]. rewrite app_nil_r. f_equal. apply map_ext. intros [a b]. reflexivity.
      - intros st ts st' HL E. cbn [elab_node] in E. rewrite w_flush_eq in E. apply gbind_inv in E as ([[t bs] s1] & E1 & E). cbv beta iota in E. injection E as <- <-.
        assert (EQ : elab_arms inp enode w2 arms (clean (skip st)) = elab_arms inp enode w2 arms (clean (hd_or dflt (ws_r w1)))).
        { destruct arms as [|[w t0 ns] arms]; cbn [elab_arms]; rewrite !w_handle_eq; reflexivity. }
        rewrite EQ in E1.
        assert (HB : forall x, In x arms -> lits_good (snd (when_body x))) by (intros x Hx; pose proof (bodies_good _ _ HL (in_map (fun x => match x with When _ _ ns => ns end) _ _ Hx)) as K; destruct x; exact K).
        destruct (arms_flat w2 arms H _ _ _ _ HB E1) as (its & F & O & R & N & L).
        exists (XTag w1 :: its ++ [XTag w2]). split; [constructor; exact F|]. split; [apply xok_tag; [discriminate|apply xok_app; [exact O|apply xok_tag; [discriminate|apply xok_nil]]]|].
        rewrite (run_tag_then w1 (its ++ [XTag w2]) st _ _ R). rewrite texts_in_app, texts_in_texts. do 3 f_equal.
        unfold texts_in at 3. cbn [map concat all_text]. rewrite app_nil_r. destruct bs as [|[p b] bs].
        + destruct arms; [|discriminate L]. rewrite (N eq_refl eq_refl). reflexivity.
        + cbn [map concat snd]. change (concat (map all_text (t ++ b))) with (texts_in (t ++ b)). rewrite texts_in_app, <- app_assoc. do 3 f_equal. apply map_ext. intros [x y]. reflexivity.
      - intros st ts st' HL E. cbn [elab_node] in E. rewrite w_handle_eq in E. apply gbind_inv in E as ([b s1] & E1 & E). cbv beta iota in E. rewrite w_handle_eq in E.
        apply gbind_inv in E as ([e s2] & E2 & E). cbv beta iota in E. rewrite w_handle_eq in E. injection E as <- <-.
        destruct (list_flat _ H _ _ _ (bodies_good _ _ HL (or_introl eq_refl)) E1) as (i1 & F1 & O1 & R1).
        destruct (list_flat _ H0 _ _ _ (bodies_good _ _ HL (or_intror (or_introl eq_refl))) E2) as (i2 & F2 & O2 & R2).
        exists (XTag w1 :: i1 ++ XTag w2 :: i2 ++ [XTag w3]). split; [constructor; assumption|]. split.
        { apply xok_tag; [discriminate|]. apply xok_app; [exact O1|]. apply xok_tag; [discriminate|]. apply xok_app; [exact O2|]. apply xok_tag; [discriminate|apply xok_nil]. }
        rewrite texts_in_app, texts_in_texts. apply run_tag_then.
        assert (T : texts_in [match els with [] => TFor t it c (b ++ texts (fst (flush_ws dflt (ws_l w2) s1))) [] (texts (fst (flush_ws dflt (ws_l w3) s2))) | _ => TFor t it c (b ++ texts (fst (flush_ws dflt (ws_l w2) s1))) (e ++ texts (fst (flush_ws dflt (ws_l w3) s2))) [] end]
          = texts_in b ++ lead (ws_l w2) s1 ++ texts_in e ++ lead (ws_l w3) s2).
        { assert (EE : els = [] -> e = []) by (intros ->; cbn [elab_list] in E2; injection E2 as <- _; reflexivity).
          unfold texts_in at 1. cbn [map concat]. rewrite app_nil_r. destruct els; cbn [all_text]; [rewrite (EE eq_refl)|];
            change (@concat N (map all_text ?l)) with (texts_in l); rewrite ?texts_in_app, ?texts_in_texts, <- ?app_assoc; cbn [texts_in map concat app]; rewrite ?app_nil_r; reflexivity. }
        rewrite T. eapply run_then; [exact R1|]. apply run_tag_then. eapply run_then; [exact R2|]. apply run_tag.
      - intros st ts st' HL E. injection E as <- <-. exists []. split; [constructor|]. split; [apply xok_nil|reflexivity].
      - intros st ts st' HL E. cbn [elab_node] in E. apply block_flat in E as (y & g & h & defs & c & d & its & (-> & ->) & Hh & ED & En & F & O & R).
        eexists. split; [|split; [exact O|exact R]]. rewrite Hh in *. cbn [ws_l ws_r]. eapply fl_block; [eassumption|eassumption|apply merge_sees|eassumption].
      - eapply TG; [reflexivity|]. intros st. cbn [elab_node]. rewrite w_handle_eq. eexists. split; [reflexivity|]. apply texts_in_texts.
      - eapply TG; [reflexivity|]. intros st. cbn [elab_node]. rewrite w_flush_eq. eexists. split; [reflexivity|]. apply texts_in_texts.
      - intros st ts st' HL E. cbn [elab_node] in E. rewrite w_handle_eq in E. apply gbind_inv in E as ([b s1] & E1 & E). cbv beta iota in E. rewrite w_handle_eq in E. injection E as <- <-.
        exists [XTag w1; XLit l; XTag w2]. split; [constructor|]. split.
        { apply xok_tag; [discriminate|]. apply (xok_app [XLit l] [XTag w2]); [apply xok_lit, HL; left; reflexivity|]. apply xok_tag; [discriminate|apply xok_nil]. }
        rewrite !texts_in_app, !texts_in_texts. apply run_tag_then. apply (run_then [XLit l] [XTag w2] _ _ s1); [apply run_lit; exact E1|apply run_tag].
      - eapply TG; [reflexivity|]. intros st. cbn [elab_node]. rewrite w_handle_eq. eexists. split; [reflexivity|]. rewrite texts_in_app, texts_in_texts. apply app_nil_r.
      - eapply TG; [reflexivity|]. intros st. cbn [elab_node]. rewrite w_handle_eq. eexists. split; [reflexivity|]. rewrite texts_in_app, texts_in_texts. apply app_nil_r.
      - intros st ts st' HL E. cbn [elab_node] in E. rewrite w_handle_eq in E. apply gbind_inv in E as ([b s1] & E1 & E). cbv beta iota in E. rewrite w_handle_eq in E. injection E as <- <-.
        destruct (list_flat _ H _ _ _ HL E1) as (i1 & F1 & O1 & R1). exists (XTag w1 :: i1 ++ [XTag w2]). split; [constructor; assumption|]. split.
        { apply xok_tag; [discriminate|]. apply xok_app; [exact O1|]. apply xok_tag; [discriminate|apply xok_nil]. }
        rewrite texts_in_app, texts_in_texts. unfold texts_in at 1. cbn [map concat all_text]. rewrite app_nil_r. change (@concat N (map all_text ?l)) with (texts_in l). rewrite texts_in_app, texts_in_texts.
        apply run_tag_then. eapply run_then; [exact R1|apply run_tag].
    Qed.
    Lemma nodes_flat nodes top st ts st' : lits_good nodes -> elab_nodes inp contexts find expand her ctx sup nodes top st = GOk (ts, st') ->
      exists its out st1, flist nodes its /\ xlits_ok its /\ run its st = Some (out, st1) /\
        texts_in ts = out ++ (if top then concat (flush_end dflt st1) else []) /\ (top = false -> st' = st1).
    Proof.
      intros HL E. unfold elab_nodes in E. apply gbind_inv in E as ([t s1] & E1 & E). cbv beta iota in E.
      assert (A : Forall PN nodes) by (apply Forall_forall; intros n _; apply node_flat). destruct (list_flat _ A _ _ _ HL E1) as (its & F & O & R).
      exists its, (texts_in t), s1. split; [exact F|]. split; [exact O|]. split; [exact R|]. destruct top.
      - split; [|discriminate]. unfold flush_end. destruct (next_ws s1) eqn:EN.
        + rewrite w_flush_eq in E. injection E as <- _. rewrite texts_in_app, texts_in_texts. reflexivity.
        + injection E as <- _. rewrite app_nil_r. cbn [concat]. rewrite app_nil_r. reflexivity.
      - injection E as <- <-. rewrite app_nil_r. auto.
    Qed.
  End Nodes.
  Lemma elab_flat fuel : forall her ctx sup nodes top st ts st', ctx_good ctx -> (forall h, her = Some h -> her_good h) -> lits_good nodes ->
    elab inp contexts find fuel her ctx sup nodes top st = GOk (ts, st') ->
    exists its out st1, flat inp contexts find her ctx sup nodes its /\ xlits_ok its /\ run its st = Some (out, st1) /\
      texts_in ts = out ++ (if top then concat (flush_end dflt st1) else []) /\ (top = false -> st' = st1).
  Proof.
    induction fuel as [|f IH]; intros her ctx sup nodes top st ts st' HC HH HL E; [discriminate E|]. cbn [elab] in E.
    eapply nodes_flat; [exact IH|exact HC|exact HH|exact HL|exact E].
  Qed.
End Elab.

(** ** The whole template *)
Lemma chain_good fuel contexts c h : (forall p c, get p contexts = Some c -> ctx_good c) -> ctx_good c -> chain_of fuel contexts c h ->
  ctx_good (base_of h c) /\ forall h0, h = Some h0 -> her_good h0.
Proof.
  intros HG HC [H1 H2|h0 _ H]; [split; [exact HC|discriminate]|]. pose proof (heritage_new_good _ HG _ _ _ HC H) as G. split; [apply G|intros h1 [= <-]; exact G].
Qed.
Lemma assemble_flat inp find fuel templates contexts ctx tns : (forall p ns, In (p, ns) templates -> lits_good ns) ->
  build_contexts find templates = GOk contexts -> get (f_path inp) contexts = Some ctx -> assemble inp find fuel templates = GOk tns ->
  exists her its, chain_of fuel contexts ctx her /\ flat inp contexts find her (base_of her ctx) None (c_nodes (base_of her ctx)) its /\
    texts_in tns = page (f_ws inp) None its.
Proof.
  intros HT HB HP HA. pose proof (contexts_good _ _ _ HT HB) as HG. unfold assemble in HA. rewrite HB in HA. cbn [gbind] in HA. rewrite HP in HA.
  apply gbind_inv in HA as (her & EH & HA). cbv zeta in HA. apply gbind_inv in HA as ([t s] & E & HA). injection HA as <-.
  assert (CH : chain_of fuel contexts ctx her).
  { destruct (c_blocks ctx) as [|b bs] eqn:EB; [destruct (c_extends ctx) as [q|] eqn:EE|].
    - apply gbind_inv in EH as (h0 & EH & E0). injection E0 as <-. constructor; [right; congruence|exact EH].
    - injection EH as <-. constructor; assumption.
    - apply gbind_inv in EH as (h0 & EH & E0). injection E0 as <-. constructor; [left; congruence|exact EH]. }
  destruct (chain_good _ _ _ _ HG (HG _ _ HP) CH) as [GB GH]. change (match her with Some h => h_root h | None => ctx end) with (base_of her ctx) in E.
  apply (elab_flat inp contexts find HG) in E as (its & out & st1 & F & O & R & T & _); [|exact GB|exact GH|apply GB].
  exists her, its. split; [exact CH|]. split; [exact F|]. rewrite T. apply (xrun_page _ _ O None). exact R.
Qed.
Lemma page_split dflt w b : forall a before, page dflt before (a ++ XTag w :: b) = page dflt before (a ++ [XTag w]) ++ page dflt (Some (hd_or dflt (ws_r w))) b.
Proof.
  induction a as [|x a IH]; intros before; [reflexivity|]. destruct x as [l|v|v|v]; cbn [app page]; try apply IH.
  rewrite IH, <- app_assoc. do 2 f_equal. destruct a as [|[| | |] a]; reflexivity.
Qed.
Lemma page_left dflt w w' : ws_l w = ws_l w' -> forall a before, page dflt before (a ++ [XTag w]) = page dflt before (a ++ [XTag w']).
Proof.
  intros E. induction a as [|x a IH]; intros before; [reflexivity|]. destruct x as [l|v|v|v]; cbn [app page]; try apply IH.
  rewrite IH. f_equal. destruct a as [|[| | |] a]; cbn [app marker_after]; rewrite ?E; reflexivity.
Qed.
Lemma flat_app inp contexts find her ctx sup l l' its : flat inp contexts find her ctx sup (l ++ l') its ->
  exists a b, its = a ++ b /\ flat inp contexts find her ctx sup l a /\ flat inp contexts find her ctx sup l' b.
Proof.
  revert its. induction l as [|n l IH]; intros its H; [exists [], its; split; [reflexivity|split; [constructor|exact H]]|].
  inversion H; subst. match goal with H : flat _ _ _ _ _ _ (l ++ l') _ |- _ => apply IH in H as (a1 & b1 & -> & F1 & F2) end.
  eexists (_ ++ a1), b1. rewrite app_assoc. split; [reflexivity|]. split; [constructor; eassumption|exact F2].
Qed.
