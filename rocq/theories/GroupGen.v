(** * Facts behind Prop_Group.v: every expression in the generated code. *)
From Verif Require Import Base Ws Ast Ident IdentFacts GenExpr Heritage Gen HeritageSpec HeritageFacts LitSpec TreeSpec ParseSpec Sem RefSem RexprFacts SimExpr
  PanicTop FlatFacts EndFacts TplFacts ReadSpec ReadFacts GroupSpec GroupFacts.
From Coq Require Import Lia.
Local Open Scope N_scope.

(** ** What is required of the expressions of a node *)
Definition fitting_arg (a : expr) : Prop := fitting a \/ exists k v, a = NamedArgument k v /\ fitting v.
Definition own (n : node) : Prop :=
  match n with
  | NExpr _ e | NLet _ _ (Some e) | NMatch _ e _ _ => fitting e
  | NCall _ _ _ args => Forall fitting_arg args
  | NIf _ cs => forall w t ns, In (Cond w (Some t) ns) cs -> fitting (ct_expr t) /\ forall p, ct_target t = Some p -> (2 <= binds (ct_expr t))%nat
  | NLoop _ _ it c _ _ _ _ => fitting it /\ forall e, c = Some e -> fitting e
  | NFilterBlock _ f a _ _ => forall x, fitting (insert_in_filter x (Filter f a))
  | _ => True
  end.
Definition good (n : node) : Prop := forall b b' m, inside b n b' m -> own m.
Lemma child_any b n b' m : child b n b' m -> forall c, exists c', child c n c' m.
Proof. intros H c. destruct H; [exists c; eapply ch_if|exists c; eapply ch_match|exists true; eapply ch_body|exists c; eapply ch_else|exists c; eapply ch_block|exists c; eapply ch_macro|exists c; eapply ch_filter]; eassumption. Qed.
Lemma inside_any b n b' m : inside b n b' m -> forall c, exists c', inside c n c' m.
Proof.
  induction 1 as [b n|b n b1 m b2 k H _ IH]; intros c; [exists c; constructor|]. destruct (child_any _ _ _ _ H c) as [c1 H1]. destruct (IH c1) as [c2 H2]. exists c2. eapply in_child; eassumption.
Qed.
Lemma good_own n : good n -> own n.
Proof. intros H. apply (H false false). constructor. Qed.
Lemma good_child b n b' m : good n -> child b n b' m -> good m.
Proof. intros H C b1 b2 k I. destruct (inside_any _ _ _ _ I b') as [b3 I']. apply (H b b3). eapply in_child; eassumption. Qed.
Lemma good_children n ns : good n -> (forall m, In m ns -> exists b b', child b n b' m) -> Forall good ns.
Proof. intros H C. apply Forall_forall. intros m Hm. destruct (C m Hm) as (b & b' & K). eapply good_child; eassumption. Qed.
Lemma good_bodies n ns : good n -> In ns (bodies n) -> Forall good ns.
Proof.
  intros H Hn. apply (good_children n ns H). intros m Hm. destruct n; cbn in Hn; try contradiction.
  - apply in_map_iff in Hn as ([w' t b] & <- & Hc). exists false, false. eapply ch_if; eassumption.
  - apply in_map_iff in Hn as ([w' t b] & <- & Hc). exists false, false. eapply ch_match; eassumption.
  - destruct Hn as [<-|[<-|[]]]; exists false; eexists; [eapply ch_body; eassumption|eapply ch_else; eassumption].
  - destruct Hn as [<-|[]]. exists false, false. eapply ch_block; eassumption.
Qed.

(** ** Contexts and heritage *)
Record cgood (c : context) : Prop := {
  gc_nodes : Forall good (c_nodes c);
  gc_blocks : forall x d, In (x, d) (c_blocks c) -> Forall good (b_nodes d);
  gc_macros : forall x d, In (x, d) (c_macros c) -> Forall good (k_nodes d)
}.
Definition dgood (bs : list (str * list (context * block_def))) : Prop :=
  forall x l c d, In (x, l) bs -> In (c, d) l -> cgood c /\ Forall good (b_nodes d).
Definition hgood (h : heritage) : Prop := cgood (h_root h) /\ dgood (h_blocks h).
Lemma merge_cgood o c : cgood o -> cgood c -> cgood (merge_context o c).
Proof.
  intros [_ _ O3] [C1 C2 C3]. constructor; cbn [merge_context c_nodes c_blocks c_macros]; [exact C1|exact C2|].
  intros x d H. apply merge_macros_in in H as [H|H]; eauto.
Qed.
Lemma context_node_cgood find path top n c c' more : good n -> cgood c -> context_node find path top n c = Ok (c', more) -> cgood c' /\ Forall (Forall good) more.
Proof.
  intros HN [C1 C2 C3] E. destruct n; cbn [context_node] in E; try solve [injection E as <- <-; split; [constructor; assumption|constructor]].
  - injection E as <- <-. split; [constructor; assumption|]. apply Forall_forall. intros ns Hns. apply (good_bodies _ _ HN). exact Hns.
  - injection E as <- <-. split; [constructor; assumption|]. apply Forall_forall. intros ns Hns. apply (good_bodies _ _ HN). exact Hns.
  - injection E as <- <-. split; [constructor; assumption|]. apply Forall_forall. intros ns Hns. apply (good_bodies _ _ HN). exact Hns.
  - destruct top; [|discriminate E]. destruct (c_extends c); [discriminate E|]. destruct (find path0 path); try discriminate E. cbn in E. injection E as <- <-. split; [constructor; assumption|constructor].
  - injection E as <- <-. assert (G : Forall good nodes) by (apply (good_bodies _ _ HN); left; reflexivity).
    split; [|constructor; [exact G|constructor]]. constructor; cbn [c_nodes c_blocks c_macros]; [exact C1| |exact C3].
    intros x d H. apply in_put in H as [H|[-> ->]]; [eapply C2; exact H|exact G].
  - destruct top; [|discriminate E]. destruct (find path0 path); try discriminate E. cbn in E. injection E as <- <-. split; [constructor; assumption|constructor].
  - destruct top; [|discriminate E]. injection E as <- <-. split; [|constructor]. constructor; cbn [c_nodes c_blocks c_macros]; [exact C1|exact C2|].
    intros x d H. apply in_put in H as [H|[-> ->]]; [eapply C3; exact H|]. apply (good_children _ _ HN). intros m Hm. exists false, false. eapply ch_macro; exact Hm.
Qed.
Lemma context_nodes_cgood find path top : forall ns c stack c' stack', Forall good ns -> cgood c -> Forall (Forall good) stack ->
  context_nodes find path top ns c stack = Ok (c', stack') -> cgood c' /\ Forall (Forall good) stack'.
Proof.
  induction ns as [|n ns IH]; intros c stack c' stack' HN HC HS E; cbn [context_nodes] in E; [injection E as <- <-; auto|].
  apply rbind_inv in E as ([c1 more] & E1 & E). inversion HN as [|? ? H1 H2]; subst. destruct (context_node_cgood _ _ _ _ _ _ _ H1 HC E1) as [G1 G2].
  eapply IH; [exact H2|exact G1| |exact E]. apply Forall_app. split; [apply Forall_rev, G2|exact HS].
Qed.
Lemma context_loop_cgood find path : forall fuel top stack c c', Forall (Forall good) stack -> cgood c -> context_loop find fuel path top stack c = GOk c' -> cgood c'.
Proof.
  induction fuel as [|f IH]; intros top stack c c' HS HC E; (destruct stack as [|ns stack]; [injection E as <-; exact HC|]); cbn [context_loop] in E; [discriminate E|].
  inversion HS as [|? ? H1 H2]; subst. apply gbind_inv in E as ([c1 st1] & E1 & E). apply of_res_inv in E1.
  destruct (context_nodes_cgood _ _ _ _ _ _ _ _ H1 HC H2 E1) as [G1 G2]. eapply IH; [exact G2|exact G1|exact E].
Qed.
Lemma contexts_cgood find templates contexts : (forall p ns, In (p, ns) templates -> Forall good ns) -> build_contexts find templates = GOk contexts ->
  forall p c, get p contexts = Some c -> cgood c.
Proof.
  revert contexts. induction templates as [|[p ns] l IH]; intros contexts HT E q c G; cbn [build_contexts] in E.
  - injection E as <-. discriminate G.
  - apply gbind_inv in E as (c1 & E1 & E). apply gbind_inv in E as (cs & E2 & E). injection E as <-. cbn [get] in G.
    destruct (str_eqb q p); [|eapply IH; [intros; eapply HT; right; eassumption|exact E2|exact G]]. injection G as <-.
    assert (HN : Forall good ns) by (eapply HT; left; reflexivity). eapply context_loop_cgood; [|constructor|exact E1]; cbn; [repeat constructor; exact HN|exact HN| |]; contradiction.
Qed.
Section Her.
  Variable contexts : list (str * context).
  Hypothesis HG : forall p c, get p contexts = Some c -> cgood c.
  Lemma push_cgood c bs x : cgood c -> dgood bs -> In x (c_blocks c) -> dgood (push_block c x bs).
  Proof.
    intros HC HB Hx. destruct x as [x d]. unfold push_block. cbn [fst snd]. intros y l c' d' H1 H2. apply in_put in H1 as [H1|[-> ->]]; [eapply HB; eassumption|].
    pose proof (gc_blocks _ HC _ _ Hx) as GD. destruct (get x bs) as [l0|] eqn:E.
    - apply in_app_iff in H2 as [H2|[[= <- <-]|[]]]; [eapply HB; [apply get_in; exact E|exact H2]|split; assumption].
    - destruct H2 as [[= <- <-]|[]]. split; assumption.
  Qed.
  Lemma heritage_loop_cgood : forall fuel c bs h, cgood c -> dgood bs -> heritage_loop fuel contexts c bs = GOk h -> hgood h.
  Proof.
    induction fuel as [|f IH]; intros c bs h HC HB E; cbn [heritage_loop] in E; destruct (c_extends c) as [p|]; try discriminate E; try (injection E as <-; split; assumption).
    destruct (get p contexts) as [c'|] eqn:G; [|discriminate E]. pose proof (HG _ _ G) as HC'. eapply IH; [exact HC'| |exact E].
    assert (K : forall l, incl l (c_blocks c') -> forall bs, dgood bs -> dgood (fold_left (fun bs x => push_block c' x bs) l bs)).
    { clear - HC'. induction l as [|x l IH]; intros HI bs HB; [exact HB|]. cbn [fold_left]. apply IH; [intros y Hy; apply HI; right; exact Hy|].
      apply push_cgood; [exact HC'|exact HB|apply HI; left; reflexivity]. }
    apply K; [intros y Hy; exact Hy|exact HB].
  Qed.
  Lemma heritage_new_cgood fuel c h : cgood c -> heritage_new fuel contexts c = GOk h -> hgood h.
  Proof.
    intros HC E. eapply heritage_loop_cgood; [exact HC| |exact E]. intros x l c' d H1 H2. apply in_map_iff in H1 as ([y e] & [= <- <-] & H1).
    destruct H2 as [[= <- <-]|[]]. split; [exact HC|]. eapply (gc_blocks _ HC). exact H1.
  Qed.
End Her.

(** ** Code *)
Definition cok (code : list stmt) : Prop := Forall reads_well (all_exprs code).
Lemma cok_nil : cok [].
Proof. constructor. Qed.
Lemma cok_app a b : cok a -> cok b -> cok (a ++ b).
Proof. unfold cok, all_exprs. intros H1 H2. rewrite map_app, concat_app. apply Forall_app. auto. Qed.
Lemma cok_one s : Forall reads_well (exprs_in s) -> cok [s].
Proof. intros H. unfold cok, all_exprs. cbn [map concat]. rewrite app_nil_r. exact H. Qed.
Lemma cok_emit st s : Forall reads_well (exprs_in s) -> cok (emit st [s]).
Proof. intros H. unfold emit. destruct (o_discard st); [constructor|apply cok_one, H]. Qed.
Lemma cok_around st s c : Forall reads_well (exprs_in s) -> cok c -> cok (emit_around st s c).
Proof. intros H1 H2. unfold emit_around. destruct (o_discard st); [exact H2|apply cok_one, H1]. Qed.
Lemma cok_concat {A} (f : A -> list stmt) l : Forall (fun a => cok (f a)) l -> cok (concat (map f l)).
Proof. induction 1 as [|a l H _ IH]; cbn [map concat]; [constructor|]. apply cok_app; assumption. Qed.
Definition branch_ok (b : rtest * list stmt) : Prop := Forall reads_well (test_exprs (fst b)) /\ cok (snd b).
Lemma cok_if branches : Forall branch_ok branches -> Forall reads_well (exprs_in (SIf branches)).
Proof. intros H. cbn [exprs_in]. induction H as [|[t b] l [H1 H2] _ IH]; cbn [map concat]; [constructor|]. apply Forall_app. split; [apply Forall_app; split; assumption|exact IH]. Qed.
Lemma cok_match e arms : reads_well (0%nat, RRef e) -> Forall (fun a => cok (snd a)) arms -> Forall reads_well (exprs_in (SMatch e arms)).
Proof. intros H0 H. cbn [exprs_in]. constructor; [exact H0|]. induction H as [|[t b] l H1 _ IH]; cbn [map concat]; [constructor|]. apply Forall_app. split; [exact H1|exact IH]. Qed.

(** ** The state *)
Definition wok (w : writable) : Prop := match w with WLit _ => True | WExpr e => fitting e | WGen r _ => rok r end.
Definition sok (st : gst) : Prop := chain_all aliased (s_locals st) /\ Forall wok (s_buf st).
Definition gok (r : gres gen) : Prop := gd true (fun x : gen => cok (fst (fst x)) /\ sok (snd x)) r.
Lemma gd_of {A} (P : A -> Prop) r : (forall a, r = Ok a -> P a) -> gd true P (of_res r).
Proof. destruct r; cbn; auto. Qed.
Lemma gd_any {A} (r : gres A) : gd true (fun _ => True) r.
Proof. destruct r; cbn; auto. Qed.
Lemma rok_reads r : rok r -> reads_ok 0 r.
Proof. intros [G T]. repeat split; auto; lia. Qed.

Lemma bin_weak op l r : grammatical (RBin op l r) -> (firmness (RBin op l r) <= 9)%nat.
Proof. intros G. inversion G; subst. cbn [firmness]. match goal with H : In (op, _) precedence |- _ => rewrite (prec_eq _ _ H); pose proof (prec_range _ _ H) end. lia. Qed.
Lemma not_bin r : reads_ok 10 r -> let_chain r = Some (r, []).
Proof. intros (G & _ & F & _). destruct r; try reflexivity. cbn [reading] in G, F. pose proof (bin_weak _ _ _ G) as W. rewrite PeanoNat.Nat.min_id in F. exfalso. exact (PeanoNat.Nat.lt_irrefl _ (PeanoNat.Nat.le_trans _ _ _ F W)). Qed.
Lemma and_prec p : In (lit "&&", p) precedence -> p = 2%nat.
Proof. intros H. rewrite <- (prec_eq _ _ H). reflexivity. Qed.

Section Gen.
  Variables (inp : ginput) (contexts : list (str * context)) (find : str -> str -> res str).
  Lemma root_reads m e r : chain_all aliased m -> fitting e -> visit_expr_root inp m e = Ok r -> reads_ok (binds e) r.
  Proof. intros H F E. eapply (vok_sub inp m); [apply visit_reads, H|exact F|exact E]. Qed.
  Lemma arg_reads m e r : chain_all aliased m -> fitting_arg e -> visit_expr_root inp m e = Ok r -> rok r.
  Proof.
    intros H [F|(k & v & -> & F)] E; [eapply reads_rok, root_reads; eassumption|].
    change (v_sub inp m (NamedArgument k v) = Ok r) in E. apply v_sub_Ok in E as [wr E]. change (v_plain (v_sub inp m v) = Ok (r, wr)) in E. inv_ok E.
    eapply reads_rok, (vok_sub inp m); [apply visit_reads, H|exact F|eassumption].
  Qed.

  (** States *)
  Lemma sok_locals m st : chain_all aliased m -> sok st -> sok (set_locals m st).
  Proof. intros H [_ B]. split; assumption. Qed.
  Lemma sok_push ws st : Forall wok ws -> sok st -> sok (push ws st).
  Proof. intros H [L B]. unfold push. destruct (s_discard st); split; auto. cbn. apply Forall_app. auto. Qed.
  Lemma sok_lits ls st : sok st -> sok (push_lits ls st).
  Proof. apply sok_push. apply Forall_forall. intros w Hw. apply in_map_iff in Hw as (s & <- & _). exact I. Qed.
  Lemma sok_flush l st : sok st -> sok (do_flush_ws inp l st).
  Proof. intros H. unfold do_flush_ws. destruct (flush_ws _ _ _). apply sok_lits. exact H. Qed.
  Lemma sok_prepare l st : sok st -> sok (do_prepare_ws inp l st).
  Proof. intros [L B]. split; assumption. Qed.
  Lemma sok_ws w st : sok st -> sok (do_handle_ws inp w st).
  Proof. intros H. apply sok_prepare, sok_flush, H. Qed.
  Lemma sok_open st : sok st -> sok (open_brace st).
  Proof. intros H. unfold open_brace. destruct (o_discard st); exact H. Qed.
  Lemma sok_push_locals st : sok st -> sok (push_locals st).
  Proof. intros H. apply sok_locals; [apply ch_push_all, H|exact H]. Qed.
  Lemma gd_dedent_ok st : sok st -> gd true sok (dedent st).
  Proof. intros H. unfold dedent. destruct (o_indent st =? 0); [exact I|exact H]. Qed.
  Lemma gd_close_ok st : sok st -> gd true sok (close_brace st).
  Proof. intros H. unfold close_brace. destruct (o_discard st); [exact H|]. eapply gd_bind; [apply gd_dedent_ok, H|]. intros s Hs. eapply gd_bind; [apply gd_any|]. intros _ _. exact Hs. Qed.
  Lemma gd_pop_ok st : sok st -> gd true sok (pop_locals st).
  Proof.
    intros H. unfold pop_locals. eapply (gd_bind true (chain_all aliased)); [apply gd_of; intros m E; eapply ch_pop_all; [apply H|exact E]|].
    intros m Hm. apply sok_locals; assumption.
  Qed.
  Lemma gd_target st b t : sok st -> gd true (fun x => chain_all aliased (snd x)) (of_res (visit_target (s_locals st) b t)).
  Proof. intros H. apply gd_of. intros [p m] E. eapply visit_target_all; [apply H|exact E]. Qed.

  (** Writes *)
  Definition args_ok (l : list (nat * rexpr)) : Prop := Forall (fun a => reads_ok 0 (snd a)) l.
  Lemma args_reads l : args_ok l -> Forall reads_well (map (fun a => (0%nat, RRef (snd a))) l).
  Proof. induction 1 as [|a l H _ IH]; cbn [map]; constructor; [|exact IH]. eapply reads_well_ref; [exact H|lia]. Qed.
  Lemma named_ok r wr ca p : rok r -> args_ok (p_args p) -> args_ok (p_args (named_expression inp r wr ca p)).
  Proof.
    intros H A. unfold named_expression. assert (K : reads_ok 0 (if wr : bool then r else RMarkup (f_escaper inp) r)).
    { destruct wr; [apply rok_reads, H|]. destruct H as [G T]. apply reads_atom; try reflexivity; [constructor; exact G|exact T]. }
    assert (S : forall i, args_ok (p_args p ++ [(i, if wr : bool then r else RMarkup (f_escaper inp) r)])) by (intros i; apply Forall_app; split; [exact A|constructor; [exact K|constructor]]).
    destruct (cache_get _ _) as [id|]; [destruct ca|]; cbn [p_args]; auto.
  Qed.
  Lemma format_ok m : chain_all aliased m -> forall ws p p', Forall wok ws -> args_ok (p_args p) -> format_loop inp m ws p = Ok p' -> args_ok (p_args p').
  Proof.
    intros Hm. induction ws as [|w ws IH]; intros p p' HW HA E; cbn [format_loop] in E; [injection E as <-; exact HA|]. inversion HW as [|? ? W1 W2]; subst. destruct w.
    - eapply IH; [exact W2| |exact E]. exact HA.
    - destruct (visit_expr inp m e) as [[r wr]| |] eqn:EV; try discriminate E. cbn in E. eapply IH; [exact W2| |exact E]. apply named_ok; [|exact HA].
      eapply reads_rok, visit_reads; eassumption.
    - eapply IH; [exact W2| |exact E]. apply named_ok; [exact W1|exact HA].
  Qed.
  Definition parts_ok (p : wparts) : Prop := match p with FmtParts _ args => args_ok args | _ => True end.
  Lemma prepare_ok m ws n z p n' : chain_all aliased m -> Forall wok ws -> prepare_format inp m ws n = Ok (z, p, n') -> parts_ok p.
  Proof.
    intros Hm HW E. unfold prepare_format in E. destruct ws as [|w ws]; [injection E as <- <- <-; exact I|]. destruct (all_lits (w :: ws)); [injection E as <- <- <-; exact I|].
    apply rbind_inv in E as (p' & E1 & E). injection E as <- <- <-. eapply format_ok; [exact Hm|exact HW| |exact E1]. constructor.
  Qed.
  Lemma gok_write st : sok st -> gok (write_buf_writable inp st).
  Proof.
    intros H. unfold write_buf_writable, gok. eapply (gd_bind true (fun x => parts_ok (snd (fst x)))).
    { apply gd_of. intros [[z p] n] E. eapply prepare_ok; [apply H|apply H|exact E]. }
    intros [[z ps] nm] HP. cbn [fst snd] in HP. assert (S : sok (set_named nm (set_buf [] st))) by (split; [apply H|constructor]). destruct ps.
    - split; [constructor|exact S].
    - eapply gd_bind; [apply gd_any|]. intros _ _. split; [apply cok_emit; constructor|exact S].
    - destruct (63 <=? o_indent st); [exact I|]. eapply gd_bind; [apply gd_any|]. intros _ _. split; [apply cok_emit; apply args_reads, HP|exact S].
  Qed.
  Lemma gd_lit_ok l st : sok st -> gd true sok (do_visit_lit l st).
  Proof. intros H. unfold do_visit_lit. destruct (visit_lit l (s_ws st)) as [[o w]|]; [|exact I]. apply sok_lits. exact H. Qed.
  Lemma gok_let w var val st : (forall e, val = Some e -> fitting e) -> sok st -> gok (write_let inp w var val st).
  Proof.
    intros HV H. pose proof (sok_ws w st H) as H1. unfold write_let, gok. destruct val as [e|].
    - eapply (gd_bind true (reads_ok 0)); [apply gd_of; intros r E; eapply reads_le; [|eapply root_reads; [apply H1|apply HV; reflexivity|exact E]]; lia|].
      intros r Hr. eapply gd_bind; [apply gd_any|]. intros sh _.
      eapply (gd_bind true (fun x : gen => cok (fst (fst x)) /\ sok (snd x))); [destruct sh; [apply gok_write, H1|split; [constructor|exact H1]]|].
      intros [[c z] s] [C S]. cbn [fst snd] in C, S. eapply gd_bind; [apply gd_any|]. intros _ _. eapply gd_bind; [apply gd_target, S|]. intros [p m] Hm.
      split; [|apply sok_locals; [exact Hm|exact S]]. cbn [fst]. apply cok_app; [exact C|]. apply cok_emit.
      match goal with |- Forall _ (exprs_in (if ?b then _ else _)) => destruct b end; (constructor; [eapply reads_well_of; [exact Hr|lia]|constructor]).
    - eapply gd_bind; [apply gok_write, H1|]. intros [[c z] s] [C S]. cbn [fst snd] in C, S. eapply gd_bind; [apply gd_any|]. intros _ _. eapply gd_bind; [apply gd_target, S|]. intros [p m] Hm.
      split; [|apply sok_locals; [exact Hm|exact S]]. cbn [fst]. apply cok_app; [exact C|]. apply cok_emit. constructor.
  Qed.

  (** Tests *)
  Lemma pieces m e : chain_all aliased m -> fitting e -> (2 <= binds e)%nat -> forall r, v_sub inp m e = Ok r ->
    exists h rest, let_chain r = Some (h, rest) /\ reads_ok 3 h /\ Forall (reads_ok 3) rest.
  Proof.
    intros Hm. induction e using expr_ind'; intros F B r0 E;
      try (assert (R : reads_ok 10 r0) by (eapply reads_le; [|eapply (vok_sub inp m); [apply visit_reads, Hm|exact F|exact E]]; cbn; lia);
           exists r0, []; split; [apply not_bin, R|]; split; [eapply reads_le; [|exact R]; lia|constructor]).
    - pose proof (fitting_here _ F) as [(p & PI & PL & PR) _]. pose proof (fitting_kids _ F) as FK. inversion FK as [|? ? K1 K]; subst. inversion K as [|? ? K2 _]; subst.
      assert (E' := E). apply v_sub_Ok in E' as [wr E']. change (v_plain (let! a := v_sub inp m e1 in let! b := v_sub inp m e2 in Ok (RBin o a b)) = Ok (r0, wr)) in E'. inv_ok E'.
      match goal with W1 : v_sub inp m e1 = Ok ?a, W2 : v_sub inp m e2 = Ok ?b |- _ => rename W1 into V1; rename W2 into V2; rename a into a1; rename b into b1 end.
      cbn [let_chain]. destruct (str_eqb o (lit "&&")) eqn:EO.
      + apply str_eqb_eq in EO. subst o. pose proof (and_prec _ PI). subst p. destruct (IHe1 K1 PL _ V1) as (h & rest & L & H1 & H2). rewrite L. exists h, (rest ++ [b1]). split; [reflexivity|].
        split; [exact H1|]. apply Forall_app. split; [exact H2|]. constructor; [|constructor]. eapply reads_le; [|eapply (vok_sub inp m); [apply visit_reads, Hm|exact K2|exact V2]]. lia.
      + cbn [binds] in B. destruct (str_eqb o (lit "||")) eqn:EP; [apply str_eqb_eq in EP; subst o; cbn in B; lia|].
        exists (RBin o a1 b1), []. split; [reflexivity|]. split; [|constructor]. eapply reads_le; [|eapply (vok_sub inp m); [apply visit_reads, Hm|exact F|exact E]].
        cbn [binds]. rewrite (prec_eq _ _ PI) in *. cbn in PI. repeat (destruct PI as [PI|PI]; [injection PI as <- <-; try lia; discriminate|]). contradiction.
    - cbn in B. lia.
  Qed.
  Definition test_ok (t : option cond_test) : Prop := forall t', t = Some t' -> fitting (ct_expr t') /\ forall p, ct_target t' = Some p -> (2 <= binds (ct_expr t'))%nat.
  Lemma gd_test_ok first t st : test_ok t -> sok st -> gd true (fun x => Forall reads_well (test_exprs (fst x)) /\ sok (snd x)) (if_test inp first t st).
  Proof.
    intros HT H. unfold if_test. destruct t as [t|].
    - destruct (HT t eq_refl) as [HE HB]. eapply (gd_bind true sok); [destruct first; [exact H|apply gd_dedent_ok, H]|]. intros s Hs.
      eapply gd_bind; [apply gd_any|]. intros _ _.
      assert (D : forall p e, fitting e -> (3 <= binds e)%nat -> gd true (fun x : rtest * gst => Forall reads_well (test_exprs (fst x)) /\ sok (snd x))
        (let* e' := of_res (visit_expr_root inp (s_locals s) e) in let* (p', m) := of_res (visit_target (s_locals s) true p) in GOk (RIfLet p' e', set_locals m s))).
      { intros p e Fe Be. eapply (gd_bind true (reads_ok 3)); [apply gd_of; intros r E; eapply reads_le; [exact Be|]; eapply root_reads; [apply Hs|exact Fe|exact E]|].
        intros e' He. eapply gd_bind; [apply gd_target, Hs|]. intros [p' m] Hm. split; [|apply sok_locals; assumption]. cbn. constructor; [eapply reads_well_ref; [exact He|lia]|constructor]. }
      destruct (ct_target t) as [p|].
      + specialize (HB p eq_refl). destruct (ct_expr t) eqn:EE; try (apply D; [exact HE|cbn in *; lia]).
        pose proof (fitting_here _ HE) as [(q & PI & PL & PR) _]. cbn [binds] in HB. rewrite (prec_eq _ _ PI) in HB.
        destruct (str_eqb op (lit "||") || str_eqb op (lit "&&")) eqn:EO.
        * assert (op = lit "&&").
          { apply orb_true_iff in EO as [EO|EO]; apply str_eqb_eq in EO; [|exact EO]. subst op. pose proof (prec_eq _ _ PI) as Q. vm_compute in Q. lia. }
          subst op. pose proof (and_prec _ PI). subst q. pose proof (fitting_kids _ HE) as FK. inversion FK as [|? ? K1 K]; subst. inversion K as [|? ? K2 _]; subst.
          eapply (gd_bind true (fun r => exists h rest, let_chain r = Some (h, rest) /\ reads_ok 3 h /\ Forall (reads_ok 3) rest)); [apply gd_of; intros r E; eapply pieces; [apply Hs|exact K1|exact PL|exact E]|].
          intros l' (h & rest & L & L1 & L2). eapply gd_bind; [apply gd_target, Hs|]. intros [p' m] Hm. cbn [snd] in Hm.
          eapply (gd_bind true (reads_ok 3)); [apply gd_of; intros r E; eapply reads_le; [exact PR|]; eapply root_reads; [exact Hm|exact K2|exact E]|].
          intros r' Hr. split; [|apply sok_locals; assumption]. cbn [fst test_exprs]. change (str_eqb (lit "&&") (lit "&&")) with true. cbv iota. rewrite L.
          constructor; [eapply reads_well_ref; [exact L1|lia]|]. apply Forall_app. split; [|constructor; [eapply reads_well_of; [exact Hr|lia]|constructor]].
          clear - L2. induction L2 as [|x l H _ IH]; cbn [map]; constructor; [eapply reads_well_of; [exact H|lia]|exact IH].
        * apply orb_false_iff in EO as [EO1 EO2]. apply D; [exact HE|]. cbn [binds]. rewrite (prec_eq _ _ PI). clear - PI EO1 EO2 HB.
          cbn in PI. repeat (destruct PI as [PI|PI]; [injection PI as <- <-; try lia; discriminate|]). contradiction.
      + eapply (gd_bind true (reads_ok 0)); [apply gd_of; intros r E; eapply reads_le; [|eapply root_reads; [apply Hs|exact HE|exact E]]; lia|].
        intros e' He. split; [|exact Hs]. cbn. constructor; [eapply reads_well_of; [exact He|lia]|constructor].
    - eapply gd_bind; [apply gd_dedent_ok, H|]. intros s Hs. eapply gd_bind; [apply gd_any|]. intros _ _. split; [constructor|exact Hs].
  Qed.

  (** Macro arguments *)
  Lemma named_args_ok ps : forall l acc r, Forall fitting_arg l -> (forall k e, In (k, e) acc -> fitting_arg e) -> named_arguments ps l acc = Ok r -> forall k e, In (k, e) r -> fitting_arg e.
  Proof.
    induction l as [|a l IH]; intros acc r HL HA E; cbn [named_arguments] in E; [injection E as <-; exact HA|].
    destruct a; try (injection E as <-; exact HA). destruct (mem_str name ps); [|discriminate E]. inversion HL; subst. eapply IH; [assumption| |exact E].
    intros k e' Hk. apply in_put in Hk as [Hk|[-> ->]]; [eapply HA; exact Hk|assumption].
  Qed.
  Lemma bind_args_ok named args : (forall k e, In (k, e) named -> fitting_arg e) -> Forall fitting_arg args -> forall ps i pos m m' names values, chain_all aliased m ->
    bind_args inp named args ps i pos m = Ok (m', names, values) -> chain_all aliased m' /\ Forall rok values.
  Proof.
    intros HN HA. induction ps as [|p ps IH]; intros i pos m m' names values Hm E; cbn [bind_args] in E; [injection E as <- <- <-; auto|].
    apply rbind_inv in E as ([e pos'] & E1 & E). cbv beta iota zeta in E.
    assert (He : fitting_arg e).
    { destruct (get p named) as [e0|] eqn:G; [injection E1 as <- <-; eapply HN, get_in, G|]. destruct pos; [|discriminate E1]. destruct (nth_error args i) as [e0|] eqn:NE; [|discriminate E1].
      injection E1 as <- <-. rewrite Forall_forall in HA. eapply HA, nth_error_In, NE. }
    assert (BV : (let! r := visit_expr_root inp m e in let! m' := ch_insert m p m_default in
          let! (m'', names, values) := bind_args inp named args ps (S i) pos' m' in Ok (m'', p :: names, r :: values)) = Ok (m', names, values) -> chain_all aliased m' /\ Forall rok values).
    { clear E. intros E. apply rbind_inv in E as (r & E2 & E). apply rbind_inv in E as (m1 & E3 & E). apply rbind_inv in E as ([[m2 ns] vs] & E4 & E). injection E as <- <- <-.
      assert (H1 : chain_all aliased m1) by (eapply ch_insert_all; [exact Hm| |exact E3]; discriminate). destruct (IH _ _ _ _ _ _ H1 E4) as [K1 K2]. split; [exact K1|].
      constructor; [exact (arg_reads _ _ _ Hm He E2)|exact K2]. }
    destruct e; try (apply BV; exact E).
    - destruct (str_eqb s (lit "self")); [apply BV; exact E|]. apply rbind_inv in E as (m1 & E3 & E). eapply IH; [|exact E]. eapply ch_insert_all; [exact Hm| |exact E3].
      intros r [= <-]. split; [|apply self_name, Hm]. eapply (reads_le 13); [lia|]. apply self_reads; [exact Hm|]. destruct He as [He|(k & v & Q & _)]; [exact (proj1 (proj2 (fitting_here _ He)))|discriminate Q].
    - apply rbind_inv in E as ([r wr] & E2 & E). apply rbind_inv in E as (m1 & E3 & E). eapply IH; [|exact E]. eapply ch_insert_all; [exact Hm| |exact E3]. intros r' [= <-].
      destruct (ch_resolve m (show r)) as [r'|] eqn:C; [split; [eapply (reads_le 13); [lia|]; eapply resolve_reads; [exact Hm|exact C]|eapply resolve_name; [exact Hm|exact C]]|].
      destruct He as [He|(k & v & Q & _)]; [|discriminate Q]. split; [eapply visit_reads in E2; [exact E2|exact Hm|exact He]|].
      eapply (visit_name inp m Hm); [apply fitting_here, He|cbn; lia|discriminate|exact E2].
  Qed.

  (** Parts of nodes *)
  Lemma gok_loop b l h w1 v it c w2 w3 st : (forall st, sok st -> gok (b st)) -> (forall st, sok st -> gok (l st)) -> fitting it -> (forall e, c = Some e -> fitting e) ->
    sok st -> gok (write_loop inp b l h w1 v it c w2 w3 st).
  Proof.
    intros H1 H2 FI FC H. unfold write_loop, gok. assert (H0 : sok (push_locals (do_handle_ws inp w1 st))) by (apply sok_push_locals, sok_ws, H).
    eapply (gd_bind true (reads_ok (binds it))); [apply gd_of; intros r E; eapply root_reads; [apply H0|exact FI|exact E]|]. intros r Hr.
    eapply gd_bind; [apply gok_write, H0|]. intros [[c0 z0] s0] [C0 S0]. cbn [fst snd] in C0, S0.
    eapply gd_bind; [apply gd_any|]. intros _ _. eapply gd_bind; [apply gd_any|]. intros _ _.
    eapply (gd_bind true (fun x : option (target * rexpr) * gst => (forall p e, fst x = Some (p, e) -> reads_ok 0 e) /\ sok (snd x))).
    { destruct c as [c|]; [|split; [discriminate|apply sok_open, S0]]. eapply gd_bind; [apply gd_target; apply sok_push_locals, sok_open, S0|]. intros [p m] Hm. cbn [snd] in Hm.
      eapply (gd_bind true (reads_ok 0)); [apply gd_of; intros r' E; eapply reads_le; [|eapply root_reads; [exact Hm|apply FC; reflexivity|exact E]]; lia|]. intros c' Hc.
      eapply gd_bind; [apply gd_pop_ok; apply sok_locals; [exact Hm|apply sok_push_locals, sok_open, S0]|]. intros s Hs. split; [|exact Hs]. intros p' e' [= <- <-]. exact Hc. }
    intros [flt s1] [HF S1]. cbn [fst snd] in HF, S1. eapply gd_bind; [apply gd_any|]. intros _ _. eapply gd_bind; [apply gd_target; apply sok_push_locals, S1|]. intros [p m] Hm. cbn [snd] in Hm.
    eapply gd_bind; [apply gd_any|]. intros _ _.
    eapply gd_bind; [apply H1; apply sok_open, sok_locals; [exact Hm|apply sok_push_locals, S1]|]. intros [[c1 z1] s2] [C1 S2]. cbn [fst snd] in C1, S2.
    eapply gd_bind; [apply gok_write, sok_ws, S2|]. intros [[c1' z1'] s3] [C1' S3]. cbn [fst snd] in C1', S3.
    eapply gd_bind; [apply gd_pop_ok, S3|]. intros s4 S4. eapply gd_bind; [apply gd_close_ok, S4|]. intros s5 S5.
    eapply (gd_bind true (fun x : list stmt * list stmt * N * gst => cok (fst (fst (fst x))) /\ cok (snd (fst (fst x))) /\ sok (snd x))).
    { destruct h.
      - eapply gd_bind; [apply gd_any|]. intros _ _. eapply gd_bind; [apply H2; apply sok_push_locals, sok_open, S5|]. intros [[c2 z2] s6] [C2 S6]. cbn [fst snd] in C2, S6.
        eapply gd_bind; [apply gok_write, sok_ws, S6|]. intros [[c2' z2'] s7] [C2' S7]. cbn [fst snd] in C2', S7.
        eapply gd_bind; [apply gd_pop_ok, S7|]. intros s8 S8. eapply gd_bind; [apply gd_close_ok, S8|]. intros s9 S9. split; [apply cok_app; assumption|split; [constructor|exact S9]].
      - eapply gd_bind; [apply gok_write, sok_ws, S5|]. intros [[c2' z2'] s7] [C2' S7]. cbn [fst snd] in C2', S7. split; [constructor|split; [exact C2'|exact S7]]. }
    intros [[[ce ct] z2] s6] (CE & CT & S6). cbn [fst snd] in CE, CT, S6. eapply gd_bind; [apply gd_close_ok, S6|]. intros s7 S7. eapply gd_bind; [apply gd_pop_ok, S7|]. intros s8 S8.
    split; [|exact S8]. cbn [fst]. apply cok_app; [exact C0|].
    assert (CB : cok (c1 ++ c1')) by (apply cok_app; assumption).
    apply cok_around; [|rewrite app_assoc; repeat apply cok_app; assumption]. cbn [exprs_in]. constructor.
    - destruct (iter_how it r) eqn:EH.
      + eapply reads_well_of; [exact Hr|lia].
      + assert (exists l, it = Arr l) as [es ->].
        { unfold iter_how in EH. destruct it; try discriminate EH; try (destruct (starts_with _ _); discriminate EH). eauto. }
        apply (reads_well_of 12); [|lia]. apply reads_call; [|constructor]. apply (reads_le _ 12) in Hr; [|cbn; lia].
        destruct (reads_under (fun o => RField o (lit "iter")) r Hr) as (G1 & G2 & G3 & G4); try reflexivity.
        { intros o _ O1 O2. apply g_field; [apply field_of; [reflexivity|discriminate]|exact O1|exact O2]. }
        split; [exact G1|]. split; [exact (proj1 (proj2 Hr))|]. split; [exact G2|]. intros _. split; [exact G4|].
        change (reading (RField r (lit "iter"))) with (under (fun o => RField o (lit "iter")) (reading r)). rewrite G3. reflexivity.
      + eapply reads_well_of; [exact Hr|lia].
      + eapply reads_well_ref; [exact Hr|lia].
    - apply Forall_app. split.
      { destruct flt as [[q e]|]; [|constructor]. constructor; [eapply reads_well_of; [eapply HF; reflexivity|lia]|constructor]. }
      apply Forall_app. split; [exact CB|]. apply Forall_app. split; assumption.
  Qed.
  Lemma gok_filter b w1 f a w2 st : (forall st, sok st -> gok (b st)) -> (forall x, fitting (insert_in_filter x (Filter f a))) -> sok st -> gok (write_filter_block inp b w1 f a w2 st).
  Proof.
    intros H1 HF H. unfold write_filter_block, gok. eapply gd_bind; [apply gd_any|]. intros var _. pose proof (sok_flush (ws_l w1) _ H) as H0.
    eapply gd_bind; [apply H1; apply sok_prepare; split; [apply H0|constructor]|]. intros [[c z] s] [C S1]. cbn [fst snd] in C, S1. pose proof (sok_flush (ws_l w2) _ S1) as S2.
    eapply (gd_bind true (fun x => parts_ok (snd (fst x)))); [apply gd_of; intros [[z' p] n] E; eapply prepare_ok; [apply S2|apply S2|exact E]|].
    intros [[wz ps] nm] HP. cbn [fst snd] in HP.
    assert (T : forall (x : gres unit) stm, Forall reads_well (exprs_in stm) -> gok
        (let* _ := x in let* _ := line (set_named nm (set_buf [] (do_flush_ws inp (ws_l w2) s))) in
         let s' := set_buf (s_buf (do_flush_ws inp (ws_l w1) st)) (set_named nm (set_buf [] (do_flush_ws inp (ws_l w2) s))) in
         let* (r, wrapped) := of_res (visit_expr inp (s_locals s') (insert_in_filter var (Filter f a))) in
         let s'' := do_prepare_ws inp (ws_r w2) (push [WGen r wrapped] s') in
         let* m := of_res (ch_insert (s_locals s'') var m_initialized) in
         GOk (c ++ emit s'' [stm], z + wz, set_locals m s''))).
    { intros x stm HS. unfold gok. eapply gd_bind; [apply gd_any|]. intros _ _. eapply gd_bind; [apply gd_any|]. intros _ _. cbv zeta.
      assert (S3 : sok (set_buf (s_buf (do_flush_ws inp (ws_l w1) st)) (set_named nm (set_buf [] (do_flush_ws inp (ws_l w2) s))))) by (split; [apply S2|apply H0]).
      eapply (gd_bind true (fun x => rok (fst x))); [apply gd_of; intros [r wr] E; eapply reads_rok, visit_reads; [apply S2|apply HF|exact E]|]. intros [r wr] Hr. cbn [fst] in Hr.
      assert (S4 : sok (do_prepare_ws inp (ws_r w2) (push [WGen r wr] (set_buf (s_buf (do_flush_ws inp (ws_l w1) st)) (set_named nm (set_buf [] (do_flush_ws inp (ws_l w2) s))))))).
      { apply sok_prepare, sok_push; [constructor; [exact Hr|constructor]|exact S3]. }
      eapply (gd_bind true (chain_all aliased)); [apply gd_of; intros m E; eapply ch_insert_all; [apply S4| |exact E]; discriminate|]. intros m Hm.
      split; [|apply sok_locals; [exact Hm|exact S4]]. cbn [fst]. apply cok_app; [exact C|]. apply cok_emit, HS. }
    destruct ps as [|x|x y].
    - split; [exact C|]. split; [apply S2|constructor].
    - apply (T (GOk tt) (SLetStr var x)). constructor.
    - apply (T (if 62 <=? o_indent (set_named nm (set_buf [] (do_flush_ws inp (ws_l w2) s))) then GPanic else GOk tt) (SLetFmt var x y)). apply args_reads, HP.
  Qed.
  Section Lists.
    Variable f : node -> gst -> gres gen.
    Lemma gok_list : forall ns, (forall n, In n ns -> forall st, sok st -> gok (f n st)) -> forall st, sok st -> gok (gen_list f ns st).
    Proof.
      induction ns as [|n ns IH]; intros H st E; cbn [gen_list]; [split; [constructor|exact E]|].
      eapply gd_bind; [apply H; [left; reflexivity|exact E]|]. intros [[c z] s] [C1 S1]. cbn [fst snd] in C1, S1. eapply gd_bind; [apply IH; [intros; apply H; [right|]; assumption|exact S1]|].
      intros [[c' z'] s'] [C2 S2]. split; [apply cok_app; assumption|exact S2].
    Qed.
    Lemma gok_branches w : forall cs, (forall w' t ns, In (Cond w' t ns) cs -> test_ok t /\ forall st, sok st -> gok (gen_list f ns st)) ->
      forall first st, sok st -> gd true (fun x => cok (fst (fst (fst (fst (fst x))))) /\ Forall branch_ok (snd (fst (fst (fst (fst x))))) /\ sok (snd x)) (gen_branches inp f w first cs st).
    Proof.
      induction cs as [|[w' t ns] cs IH]; intros H first st E; cbn [gen_branches].
      - eapply gd_bind; [apply gok_write, sok_ws, E|]. intros [[c z] s] [C1 S1]. cbn [fst snd] in C1, S1. eapply gd_bind; [apply gd_close_ok, S1|]. intros s2 S2.
        eapply gd_bind; [apply gd_pop_ok, S2|]. intros s3 S3. split; [exact C1|]. split; [constructor|exact S3].
      - destruct (H w' t ns (or_introl eq_refl)) as [HT HB]. eapply gd_bind; [apply gok_write, sok_ws, E|]. intros [[c z] s] [C1 S1]. cbn [fst snd] in C1, S1.
        eapply (gd_bind true sok); [destruct first; [exact S1|apply gd_pop_ok, S1]|]. intros s2 S2.
        eapply gd_bind; [apply gd_test_ok; [exact HT|apply sok_push_locals, S2]|]. intros [t' s3] [C3 S3]. cbn [fst snd] in C3, S3.
        eapply gd_bind; [apply HB, sok_open, S3|]. intros [[b z'] s4] [C4 S4]. cbn [fst snd] in C4, S4. eapply gd_bind; [apply IH; [intros; eapply H; right; eassumption|exact S4]|].
        intros [[[[[a r] z2] sz] he] s5] (C5 & B5 & S5). cbn [fst snd] in *. split; [exact C1|]. split; [|exact S5]. constructor; [|exact B5]. split; [exact C3|apply cok_app; assumption].
    Qed.
    Lemma gok_arms w : forall cs, (forall w' t ns, In (When w' t ns) cs -> forall st, sok st -> gok (gen_list f ns st)) ->
      forall first st, sok st -> gd true (fun x => cok (fst (fst (fst (fst x)))) /\ Forall (fun a => cok (snd a)) (snd (fst (fst x))) /\ sok (snd x)) (gen_arms inp f w first cs st).
    Proof.
      induction cs as [|[w' t ns] cs IH]; intros H first st E; cbn [gen_arms].
      - eapply gd_bind; [apply gok_write, sok_ws, E|]. intros [[c z] s] [C1 S1]. cbn [fst snd] in C1, S1. eapply gd_bind; [apply gd_close_ok, S1|]. intros s2 S2.
        eapply gd_bind; [apply gd_pop_ok, S2|]. intros s3 S3. split; [exact C1|]. split; [constructor|exact S3].
      - eapply (gd_bind true (fun x : gen => cok (fst (fst x)) /\ sok (snd x))).
        { destruct first; [split; [constructor|apply sok_ws, E]|]. eapply gd_bind; [apply gok_write, sok_ws, E|]. intros [[c z] s] [C1 S1]. cbn [fst snd] in C1, S1.
          eapply gd_bind; [apply gd_close_ok, S1|]. intros s2 S2. eapply gd_bind; [apply gd_pop_ok, S2|]. intros s3 S3. split; assumption. }
        intros [[c z] s] [C1 S1]. cbn [fst snd] in C1, S1. eapply gd_bind; [apply gd_any|]. intros _ _. eapply gd_bind; [apply gd_target, sok_push_locals, S1|]. intros [p m] Hm. cbn [snd] in Hm.
        eapply gd_bind; [eapply H; [left; reflexivity|apply sok_open, sok_locals; [exact Hm|apply sok_push_locals, S1]]|]. intros [[b z'] s4] [C4 S4]. cbn [fst snd] in C4, S4.
        eapply gd_bind; [apply IH; [intros; eapply H; [right; eassumption|assumption]|exact S4]|].
        intros [[[[a z2] r] sz] s5] (C5 & B5 & S5). cbn [fst snd] in *. split; [exact C1|]. split; [|exact S5]. constructor; [apply cok_app; assumption|exact B5].
    Qed.
  End Lists.

  (** Nodes *)
  Hypothesis HG : forall p c, get p contexts = Some c -> cgood c.
  Section Step.
    Variable expand : option heritage -> context -> list node -> level -> gst -> gres gen.
    Hypothesis HX : forall her ctx ns lv st, (forall h, her = Some h -> hgood h) -> cgood ctx -> Forall good ns -> sok st -> gok (expand her ctx ns lv st).
    Variables (her : option heritage) (ctx : context).
    Hypothesis HH : forall h, her = Some h -> hgood h.
    Hypothesis HC : cgood ctx.
    Lemma gok_block name outer st : sok st -> gok (write_block inp expand her ctx name outer st).
    Proof.
      intros H. unfold write_block, gok. eapply gd_bind; [apply gd_any|]. intros cur _. eapply gd_bind; [apply gok_write, sok_flush, H|]. intros [[c z] s] [C1 S1]. cbn [fst snd] in C1, S1.
      cbv zeta. destruct her as [h|]; [|exact I]. destruct (get (fst cur) (h_blocks h)) as [defs|] eqn:G; [|exact I]. destruct (nth_error defs (snd cur)) as [[cc d]|] eqn:NE; [|exact I].
      destruct (HH h eq_refl) as [_ HD]. destruct (HD _ _ _ _ (get_in _ _ _ G) (nth_error_In _ _ NE)) as [K1 K2].
      eapply gd_bind; [apply HX; [exact HH|apply merge_cgood; [exact HC|exact K1]|exact K2|split; [apply ch_empty_all|apply S1]]|]. intros [[c1 z1] s1] [C2 S2]. cbn [fst snd] in C2, S2.
      eapply (gd_bind true (fun x : gen => cok (fst (fst x)) /\ sok (snd x))); [destruct (ch_is_current_empty (s_locals s1)); [split; [constructor|exact S2]|apply gok_write, S2]|].
      intros [[c2 z2] s2] [C3 S3]. cbn [fst snd] in C3, S3. split; [cbn [fst]; repeat apply cok_app; assumption|]. cbn [snd]. apply sok_prepare. pose proof (sok_flush (ws_l (b_ws2 d)) _ S3) as [_ S4].
      split; [apply S1|exact S4].
    Qed.
    Lemma gok_call w scope name args st : Forall fitting_arg args -> sok st -> gok (write_call inp contexts expand her ctx w scope name args st).
    Proof.
      intros HA H. unfold write_call. destruct (str_eqb name (lit "super")); [apply gok_block, H|]. unfold gok.
      eapply (gd_bind true (fun x : macro_def * context => Forall good (k_nodes (fst x)) /\ cgood (snd x))).
      { destruct scope as [s|].
        - destruct (get s (c_imports ctx)) as [path|]; [|exact I]. destruct (get path contexts) as [mc|] eqn:G; [|exact I]. destruct (get name (c_macros mc)) eqn:GM; [|exact I].
          pose proof (HG _ _ G) as K. split; [eapply (gc_macros _ K), get_in, GM|exact K].
        - destruct (get name (c_macros ctx)) eqn:GM; [|exact I]. split; [eapply (gc_macros _ HC), get_in, GM|exact HC]. }
      intros [def own_ctx] [K1 K2]. cbn [fst snd] in K1, K2.
      eapply gd_bind; [apply gok_write, sok_push_locals, sok_flush, H|]. intros [[c z] s] [C1 S1]. cbn [fst snd] in C1, S1. eapply gd_bind; [apply gd_any|]. intros _ _.
      destruct (negb (Nat.eqb (length args) (length (k_args def)))); [exact I|].
      eapply (gd_bind true (fun l => forall k e, In (k, e) l -> fitting_arg e)); [apply gd_of; intros l E; eapply named_args_ok; [apply Forall_rev, HA| |exact E]; intros k e []|]. intros nm Hnm.
      eapply (gd_bind true (fun x : chain * list str * list rexpr => chain_all aliased (fst (fst x)) /\ Forall rok (snd x))).
      { apply gd_of. intros [[m ns] vs] E. eapply bind_args_ok; [exact Hnm|exact HA| |exact E]. apply sok_prepare, sok_open, S1. }
      intros [[m ns] vs] [HM HV]. cbn [fst snd] in HM, HV. eapply gd_bind; [apply gd_any|]. intros _ _.
      eapply gd_bind; [apply HX; [exact HH|exact K2|exact K1|apply sok_locals; [exact HM|apply sok_prepare, sok_open, S1]]|]. intros [[c1 z1] s1] [C2 S2]. cbn [fst snd] in C2, S2.
      eapply gd_bind; [apply gok_write, sok_flush, S2|]. intros [[c2 z2] s2] [C3 S3]. cbn [fst snd] in C3, S3.
      eapply gd_bind; [apply gd_close_ok, S3|]. intros s3 S4. eapply gd_bind; [apply gd_pop_ok, S4|]. intros s4 S5.
      split; [|apply sok_prepare, S5]. cbn [fst]. apply cok_app; [exact C1|]. apply cok_around; [|apply cok_app; assumption]. cbn [exprs_in].
      apply cok_app; [|apply cok_app; assumption]. destruct ns; [constructor|]. apply cok_emit. cbn [exprs_in]. clear - HV. induction HV as [|v l HV _ IH]; cbn [map]; constructor; [|exact IH].
      eapply reads_well_of; [apply rok_reads, HV|lia].
    Qed.
    Lemma gok_include w path st : sok st -> gok (write_include inp contexts find expand ctx w path st).
    Proof.
      intros H. unfold write_include, gok. eapply gd_bind; [apply gok_write, sok_flush, H|]. intros [[c z] s] [C1 S1]. cbn [fst snd] in C1, S1.
      eapply gd_bind; [apply gd_any|]. intros q _. eapply gd_bind; [apply gd_any|]. intros _ _. destruct (get q contexts) as [cc|] eqn:G; [|exact I]. cbv zeta.
      pose proof (merge_cgood _ _ HC (HG _ _ G)) as GM.
      eapply (gd_bind true (fun h => forall h', h = Some h' -> hgood h')).
      { assert (T : gd true (fun h => forall h', h = Some h' -> hgood h') (let* h := heritage_new (S (length contexts)) contexts (merge_context ctx cc) in GOk (Some h))).
        { eapply (gd_bind true hgood); [|intros h Hh h' [= <-]; exact Hh]. destruct (heritage_new (S (length contexts)) contexts (merge_context ctx cc)) eqn:E; cbn; auto. eapply heritage_new_cgood; eassumption. }
        destruct (c_blocks (merge_context ctx cc)), (c_extends (merge_context ctx cc)); try exact T. discriminate. }
      intros h Hh.
      assert (K : cgood match h with Some h0 => h_root h0 | None => merge_context ctx cc end) by (destruct h as [h|]; [apply (Hh h eq_refl)|exact GM]).
      eapply gd_bind; [apply HX; [exact Hh|exact K|apply K|split; [apply ch_parent_all, S1|constructor]]|]. intros [[c1 z1] s1] [C2 S2]. cbn [fst snd] in C2, S2.
      eapply gd_bind; [apply gok_write, S2|]. intros [[c2 z2] s2] [C3 S3]. cbn [fst snd] in C3, S3. split; [|apply sok_prepare, S1]. cbn [fst]. apply cok_app; [exact C1|]. apply cok_app; [|apply cok_app; assumption].
      apply cok_emit. constructor.
    Qed.
    Lemma gok_node : forall n lv st, good n -> sok st -> gok (handle_node inp contexts find expand her ctx lv n st).
    Proof.
      induction n using node_ind_all; intros lv st GN S0; pose proof (good_own _ GN) as ON; cbn [handle_node].
      - destruct n; try contradiction; cbn [handle_node].
        + eapply gd_bind; [apply gd_lit_ok, S0|]. intros s Hs. split; [constructor|exact Hs].
        + split; [constructor|apply sok_ws, S0].
        + split; [constructor|]. apply sok_push; [constructor; [exact ON|constructor]|apply sok_ws, S0].
        + apply gok_call; [exact ON|exact S0].
        + apply gok_let; [|exact S0]. intros e ->. exact ON.
        + destruct (top_level lv); [split; [constructor|exact S0]|exact I].
        + apply gok_include, S0.
        + destruct (top_level lv); [split; [constructor|apply sok_ws, S0]|exact I].
        + eapply gd_bind; [apply gd_lit_ok, sok_ws, S0|]. intros s Hs. split; [constructor|apply sok_ws, Hs].
        + eapply gd_bind; [apply gok_write, sok_ws, S0|]. intros [[c z] s] [C1 S1]. eapply gd_bind; [apply gd_any|]. intros _ _. split; [apply cok_app; [exact C1|apply cok_emit; constructor]|exact S1].
        + eapply gd_bind; [apply gok_write, sok_ws, S0|]. intros [[c z] s] [C1 S1]. eapply gd_bind; [apply gd_any|]. intros _ _. split; [apply cok_app; [exact C1|apply cok_emit; constructor]|exact S1].
      - eapply gd_bind.
        + apply gok_branches; [|exact S0]. intros w' t ns Hc. split; [intros t' ->; eapply ON; exact Hc|]. intros s Hs. rewrite Forall_forall in H. specialize (H _ Hc). cbn in H. rewrite Forall_forall in H.
          apply gok_list; [|exact Hs]. intros n Hn s' Hs'. apply H; [exact Hn| |exact Hs']. eapply good_child; [exact GN|]. exact (ch_if false _ _ _ _ _ _ Hc Hn).
        + intros [[[[[c br] z] sz] he] s] (C1 & B1 & S1). cbn [fst snd] in C1, B1, S1. eapply gd_bind; [apply gd_any|]. intros z' _. split; [|exact S1]. cbn [fst]. apply cok_app; [exact C1|].
          apply cok_around; [apply cok_if, B1|]. apply cok_concat. eapply Forall_impl; [|exact B1]. intros a [_ K]. exact K.
      - eapply gd_bind; [apply gok_write, sok_flush, S0|]. intros [[c z] s] [C1 S1]. cbn [fst snd] in C1, S1.
        eapply (gd_bind true (reads_ok 0)); [apply gd_of; intros r E; eapply reads_le; [|eapply root_reads; [apply S1|exact ON|exact E]]; lia|]. intros r Hr. eapply gd_bind; [apply gd_any|]. intros _ _.
        eapply gd_bind.
        + apply gok_arms; [|apply sok_open, S1]. intros w' t ns Hc s0 Hs0. rewrite Forall_forall in H. specialize (H _ Hc). cbn in H. rewrite Forall_forall in H.
          apply gok_list; [|exact Hs0]. intros n Hn s' Hs'. apply H; [exact Hn| |exact Hs']. eapply good_child; [exact GN|]. exact (ch_match false _ _ _ _ _ _ _ _ Hc Hn).
        + intros [[[[c1 z1] ar] sz] s2] (C2 & B2 & S2). cbn [fst snd] in C2, B2, S2. eapply gd_bind; [apply gd_close_ok, S2|]. intros s3 S3. eapply gd_bind; [apply gd_any|]. intros z' _.
          split; [|exact S3]. cbn [fst]. apply cok_app; [exact C1|]. apply cok_around; [apply cok_match; [eapply reads_well_ref; [exact Hr|lia]|exact B2]|]. apply cok_concat, B2.
      - destruct ON as [O1 O2]. rewrite Forall_forall in *. apply gok_loop; [| |exact O1|exact O2|exact S0]; intros s Hs; (apply gok_list; [|exact Hs]); intros n Hn s' Hs'.
        + apply H; [exact Hn| |exact Hs']. eapply good_child; [exact GN|]. exact (ch_body false _ _ _ _ _ _ _ _ _ Hn).
        + apply H0; [exact Hn| |exact Hs']. eapply good_child; [exact GN|]. exact (ch_else false _ _ _ _ _ _ _ _ _ Hn).
      - apply gok_block, S0.
      - destruct (top_level lv); [split; [constructor|apply sok_prepare, sok_flush, S0]|exact I].
      - rewrite Forall_forall in *. apply gok_filter; [|exact ON|exact S0]. intros s Hs. apply gok_list; [|exact Hs]. intros n Hn s' Hs'. apply H; [exact Hn| |exact Hs'].
        eapply good_child; [exact GN|]. exact (ch_filter false _ _ _ _ _ _ Hn).
    Qed.
    Lemma gok_nodes ns lv st : Forall good ns -> sok st -> gok (handle_nodes inp contexts find expand her ctx ns lv st).
    Proof.
      intros HN H. unfold handle_nodes, gok. rewrite Forall_forall in HN. eapply gd_bind; [apply gok_list; [intros n Hn s Hs; apply gok_node; [apply HN, Hn|exact Hs]|exact H]|].
      intros [[c z] s] [C1 S1]. cbn [fst snd] in C1, S1. destruct (top_level lv); [|split; assumption].
      eapply gd_bind; [apply gok_write; destruct (next_ws (s_ws s)); [apply sok_flush|]; exact S1|]. intros [[c' z'] s'] [C2 S2]. split; [apply cok_app; assumption|exact S2].
    Qed.
  End Step.
  Lemma gok_handle : forall fuel her ctx ns lv st, (forall h, her = Some h -> hgood h) -> cgood ctx -> Forall good ns -> sok st -> gok (handle inp contexts find fuel her ctx ns lv st).
  Proof.
    induction fuel as [|f IH]; intros her ctx ns lv st HH HC HN HS; [reflexivity|]. cbn [handle]. apply gok_nodes; assumption.
  Qed.
End Gen.

Lemma build_reads inp find fuel templates code z : (forall p ns, In (p, ns) templates -> Forall good ns) ->
  build_template inp find fuel templates = GOk (code, z) -> Forall reads_well (all_exprs code).
Proof.
  intros HT E. unfold build_template in E. apply gbind_inv in E as (contexts & E1 & E). pose proof (contexts_cgood _ _ _ HT E1) as HG.
  destruct (get (f_path inp) contexts) as [ctx|] eqn:G; [|discriminate E]. pose proof (HG _ _ G) as HC. apply gbind_inv in E as (her & E2 & E).
  assert (HH : forall h, her = Some h -> hgood h).
  { assert (T : (let* h := heritage_new fuel contexts ctx in match f_block inp with Some b => match get b (h_blocks h) with None => GErr (lit "cannot find block") | Some _ => GOk (Some h) end | None => GOk (Some h) end) = GOk her -> forall h, her = Some h -> hgood h).
    { intros Q h ->. apply gbind_inv in Q as (h' & Q1 & Q). assert (h' = h) by (destruct (f_block inp) as [b|]; [destruct (get b (h_blocks h'))|]; congruence). subst h'. eapply heritage_new_cgood; eassumption. }
    destruct (c_blocks ctx), (c_extends ctx); try exact (T E2). injection E2 as <-. discriminate. }
  unfold impl_template in E. cbv zeta in E. apply gbind_inv in E as ([[c z'] s] & E3 & E). cbv beta iota in E.
  assert (K : cgood match her with Some h => h_root h | None => ctx end) by (destruct her as [h|]; [apply (HH h eq_refl)|exact HC]).
  assert (S0 : sok (initial inp 2)) by (split; [apply ch_empty_all|constructor]).
  pose proof (gok_handle inp contexts find HG fuel her _ _ LTop _ HH K (gc_nodes _ K) S0) as R. rewrite E3 in R. destruct R as [R _]. cbn [fst] in R.
  apply gbind_inv in E as (u & _ & E). apply gbind_inv in E as (s1 & _ & E). apply gbind_inv in E as (u2 & _ & E). apply gbind_inv in E as (s2 & _ & E). injection E as <- <-. exact R.
Qed.

(** ** Parsed templates *)
Lemma digit_plain s t : dec_literal s -> hd_error (s ++ t) <> Some 45.
Proof. intros (c & u & -> & H & _). cbn. intros [= ->]. destruct H as [H|[H _]]; [|lia]. change (N.min 10 10) with 10 in H. lia. Qed.
Lemma number_plain s : rust_number s -> hd_error s <> Some 45.
Proof.
  intros H. destruct H as [s suf H _|p radix s suf H _ _|a b suf H _ _|a fr e sg x suf H _ _ _ _ _]; try (apply digit_plain, H).
  cbn in H. repeat (destruct H as [H|H]; [injection H as <- <-; discriminate|]). contradiction.
Qed.
Lemma ident_plain s : ident s -> field_name s = true /\ first_digit s = false.
Proof.
  intros (c & t & -> & H & _). unfold ident_start in H. assert (D : digit c = false) by (unfold digit; lia). cbn [field_name first_digit]. rewrite D. split; [|reflexivity]. lia.
Qed.
Lemma find_prec_in op l : find_prec op l = 13%nat \/ In (op, find_prec op l) l.
Proof.
  induction l as [|[o p] l IH]; [left; reflexivity|]. cbn [find_prec]. destruct (str_eqb op o) eqn:E; [apply str_eqb_eq in E; subst o; right; left; reflexivity|].
  destruct IH as [IH|IH]; [left; exact IH|right; right; exact IH].
Qed.
Lemma here_wf e : wf_expr e -> plain_grouping e -> here e.
Proof.
  intros W P. split; [exact (proj2 (wf_fine _ W))|]. destruct W; cbn in P |- *; auto.
  - destruct H as [<-|[<-|[]]]; split; reflexivity.
  - apply number_plain, H.
  - apply ident_plain, H.
  - intros HI. pose proof (prec_eq _ _ H). pose proof (prec_eq _ _ HI). assert (p = 3%nat) by congruence. subst p.
    destruct (Nat.eq_dec (binds l) 3) as [Q|Q]; [|lia]. exfalso. destruct l; try discriminate Q. cbn [binds] in Q. apply P. split; [exact HI|]. unfold comparison.
    destruct (find_prec_in op0 precedence) as [R|R]; [rewrite Q in R; discriminate R|rewrite Q in R; exact R].
Qed.
Lemma fits_wf e : wf_expr e -> (forall e', sub e' e -> plain_grouping e') -> fitting e.
Proof. intros W P e' S. apply here_wf; [eapply sub_wf; eassumption|apply P, S]. Qed.
Lemma fits_list l : Forall wf_expr l -> (forall e e', In e l -> sub e' e -> plain_grouping e') -> Forall fitting l.
Proof. intros W P. rewrite Forall_forall in *. intros e He. apply fits_wf; [apply W, He|]. intros e' S. eapply P; eassumption. Qed.
Lemma insert_is_filter x e : (binds e = 10)%nat -> (binds (insert_in_filter x e) = 10)%nat.
Proof.
  intros H. assert (E : forall op, find_prec op precedence <> 10%nat).
  { intros op Q. destruct (find_prec_in op precedence) as [R|R]; [congruence|]. apply prec_range in R. lia. }
  destruct e; try discriminate H; [|destruct (E _ H)]. cbn [insert_in_filter]. destruct args as [|a l]; [reflexivity|]. destruct a; reflexivity.
Qed.
Lemma fits_insert x e : forall n l, e = Filter n l -> (wf_expr e \/ wf_block_filter n l) -> (forall a e', In a l -> sub e' a -> plain_grouping e') -> fitting (insert_in_filter x e).
Proof.
  assert (GX : fitting (Generated x)) by (apply fitting_intro; [split; exact I|constructor]).
  induction e using expr_ind'; intros n0 l0 EQ W P; try discriminate EQ. injection EQ as <- <-. cbn [insert_in_filter]. destruct l as [|a l].
  - apply fitting_intro; [split; [exact I|cbn; lia]|constructor; [exact GX|constructor]].
  - assert (WL : Forall wf_expr l /\ (wf_expr a \/ exists m l', a = Filter m l' /\ wf_block_filter m l')).
    { destruct W as [W|W]; [inversion W; subst; auto|]. inversion W; subst; [match goal with K : Forall wf_expr (a :: l) |- _ => inversion K; subst end; auto|]. split; [assumption|right; eauto]. }
    destruct WL as [WL WA]. assert (FL : Forall fitting l) by (apply fits_list; [exact WL|]; intros; eapply P; [right; eassumption|assumption]).
    assert (OTHER : wf_expr a -> fitting (Filter n (Generated x :: a :: l))).
    { intros Wa. apply fitting_intro; [split; [exact I|cbn; lia]|]. constructor; [exact GX|]. constructor; [|exact FL]. apply fits_wf; [exact Wa|]. intros e' S. eapply P; [left; reflexivity|exact S]. }
    destruct a as [| | | | | | | | |m l2| | | | | | | | | |]; try (apply OTHER; destruct WA as [WA|(m' & l' & Q & _)]; [exact WA|discriminate Q]).
    apply fitting_intro.
    + split; [exact I|]. rewrite insert_is_filter; [lia|reflexivity].
    + constructor; [|exact FL]. inversion H; subst. apply (H2 m l2 eq_refl).
      * destruct WA as [WA|(m' & l' & Q & WB)]; [left; exact WA|right; injection Q as <- <-; exact WB].
      * intros a e' Ha S. eapply P; [left; reflexivity|]. econstructor; [|exact S]. exact Ha.
Qed.
Lemma own_wf b n : wf_node b n -> plain_let n -> (forall e e', expr_of n e -> sub e' e -> plain_grouping e') -> own n.
Proof.
  intros W PL P. assert (D : forall e, expr_of n e -> wf_expr e -> fitting e) by (intros e O We; apply fits_wf; [exact We|]; intros e' S; eapply P; eassumption).
  destruct W; cbn [own]; auto.
  - apply D; [constructor|assumption].
  - destruct H1 as (pos & named & -> & Hp & Hn & _). apply Forall_app. split.
    + rewrite Forall_forall in *. intros a Ha. left. apply D; [|apply Hp, Ha]. constructor; [apply in_app_iff; left; exact Ha|]. intros k v ->. apply Hp in Ha. inversion Ha.
    + rewrite Forall_forall in *. intros a Ha. assert (Ha' := Ha). apply in_map_iff in Ha as ([k v] & <- & Hk). right. exists k, v. split; [reflexivity|].
      apply D; [|apply (Hn _ Hk)]. apply (eo_named _ _ _ _ k). apply in_app_iff. right. exact Ha'.
  - destruct v as [e|]; [|exact I]. apply D; [constructor|apply H0; reflexivity].
  - intros w' t ns Hc. rewrite Forall_forall in H0. pose proof (H0 _ Hc) as WC. inversion WC as [? ? ? ? WT _]; subst. destruct (WT t eq_refl) as [_ We].
    split; [apply D; [econstructor; exact Hc|exact We]|]. intros p Hp. specialize (PL _ _ _ _ Hc Hp). destruct (ct_expr t); cbn [binds]; try lia.
    inversion We as [| | | | | | | | | | |? q ? ? HI| | | | | |]; subst. rewrite (prec_eq _ _ HI). cbn in HI. repeat (destruct HI as [HI|HI]; [injection HI as <- <-; try lia; exfalso; apply PL; reflexivity|]). contradiction.
  - apply D; [constructor|assumption].
  - split; [apply D; [constructor|assumption]|]. intros e ->. apply D; [constructor|auto].
  - intros x. eapply fits_insert; [reflexivity|right; exact H|]. intros a e' Ha S. eapply P; [constructor; exact Ha|exact S].
Qed.
Lemma good_wf ns : Forall (wf_node false) ns -> plain_template ns -> Forall good ns.
Proof.
  intros W P. rewrite Forall_forall. intros n Hn b b' m I. destruct (inside_any _ _ _ _ I false) as [b1 I']. assert (O : occurs ns b1 m) by (exists n; auto).
  destruct (P _ _ O) as [P1 P2]. eapply own_wf; [eapply occurs_wf; [exact W|exact O]|exact P1|exact P2].
Qed.
