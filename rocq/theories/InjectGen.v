(** * Facts behind Prop_Inject.v: what the generated code writes. *)
From Verif Require Import Base Ws Ast Ident IdentFacts GenExpr Heritage Gen HeritageSpec HeritageFacts TreeSpec ParseSpec RexprFacts SimExpr
  PanicTop FlatFacts EndFacts TplFacts Sem RefSem FlushFacts InjectSpec.
From Verif Require GroupGen StmtGen.
From Coq Require Import Lia.
Local Open Scope N_scope.
Notation inside_any := GroupGen.inside_any.

(** ** Shown expressions *)
Lemma shown_expr inp m e r wr : bypasses e = false -> visit_expr inp m e = Ok (r, wr) -> wr = false \/ exists a, r = REscape (f_escaper inp) a.
Proof.
  intros H E. pose proof (visit_wrap _ _ _ _ _ E) as W. destruct wr; [|left; reflexivity]. right.
  destruct e; try discriminate W. cbn [bypasses] in H. apply orb_false_elim in H as [H1 H2]. unfold RefSem.opts_out in W. cbn [existsb] in W. rewrite H1, ?orb_false_r in W. cbn [orb] in W.
  assert (N3 : str_eqb name (lit "escape") || str_eqb name (lit "e") = true) by exact (eq_sym W).
  rewrite visit_filter in E. rewrite N3 in *. cbn [andb] in H2.
  destruct (str_eqb name (lit "as_ref")) eqn:N1. { apply str_eqb_eq in N1. subst name. discriminate N3. }
  destruct (str_eqb name (lit "deref")) eqn:N2. { apply str_eqb_eq in N2. subst name. discriminate N3. }
  destruct args as [|a [|b l]]; [discriminate E| |discriminate H2]. apply rbind_inv in E as (x & _ & E). injection E as <-. exists x. reflexivity.
Qed.
Lemma inserted x n args : block_bypasses n args = false -> bypasses (insert_in_filter x (Filter n args)) = false.
Proof.
  unfold block_bypasses. intros H. apply orb_false_elim in H as [H1 H2].
  destruct args as [|a l]; [cbn [insert_in_filter bypasses]; rewrite H1; cbn; apply andb_false_r|].
  destruct (str_eqb n (lit "escape") || str_eqb n (lit "e")) eqn:N3.
  - destruct a; destruct l; try discriminate H2. cbn [insert_in_filter bypasses]. rewrite H1. cbn. apply andb_false_r.
  - destruct a; cbn [insert_in_filter bypasses]; rewrite H1, N3; reflexivity.
Qed.

Section Any.
Variable T : str -> Prop.
Hypothesis T10 : T [10].
Hypothesis T32 : T [32].
Variable esc : str.
Definition own (n : node) : Prop :=
  match n with
  | NExpr _ e => bypasses e = false
  | NFilterBlock _ f a _ _ => block_bypasses f a = false
  | NLit l | NRaw _ l _ => T (lws l) /\ T (lval l) /\ T (rws l)
  | _ => True
  end.
Definition good (n : node) : Prop := forall b b' m, inside b n b' m -> own m.
Lemma good_own n : good n -> own n.
Proof. intros H. apply (H false false). constructor. Qed.
Lemma good_child b n b' m : good n -> child b n b' m -> good m.
Proof. intros H C b1 b2 k I. destruct (inside_any _ _ _ _ I b') as [b3 I']. apply (H b b3). eapply in_child; eassumption. Qed.
Lemma good_children n ns : good n -> (forall m, In m ns -> exists b b', child b n b' m) -> Forall good ns.
Proof. intros H C. apply Forall_forall. intros m Hm. destruct (C m Hm) as (b & b' & K). eapply good_child; eassumption. Qed.
Lemma good_bodies n ns : good n -> In ns (bodies n) -> Forall good ns.
Proof.
  intros H Hn. apply (good_children n ns H). intros m Hm. destruct n; cbn in Hn; try contradiction.
  - apply in_map_iff in Hn as ([w' t b] & <- & Hc). exists false, false. eapply ch_if; eassumption.
  - apply in_map_iff in Hn as ([w' t b] & <- & Hc). exists false, false. eapply ch_match; eassumption.
  - destruct Hn as [<-|[<-|[]]]; exists false; eexists; [eapply ch_body; eassumption|eapply ch_else; eassumption].
  - destruct Hn as [<-|[]]. exists false, false. eapply ch_block; eassumption.
Qed.

(** ** Contexts and heritage *)
Record cgood (c : context) : Prop := {
  gc_nodes : Forall good (c_nodes c);
  gc_blocks : forall x d, In (x, d) (c_blocks c) -> Forall good (b_nodes d);
  gc_macros : forall x d, In (x, d) (c_macros c) -> Forall good (k_nodes d)
}.
Definition dgood (bs : list (str * list (context * block_def))) : Prop :=
  forall x l c d, In (x, l) bs -> In (c, d) l -> cgood c /\ Forall good (b_nodes d).
Definition hgood (h : heritage) : Prop := cgood (h_root h) /\ dgood (h_blocks h).
Lemma merge_cgood o c : cgood o -> cgood c -> cgood (merge_context o c).
Proof.
  intros [_ _ O3] [C1 C2 C3]. constructor; cbn [merge_context c_nodes c_blocks c_macros]; [exact C1|exact C2|].
  intros x d H. apply merge_macros_in in H as [H|H]; eauto.
Qed.
Lemma context_node_cgood find path top n c c' more : good n -> cgood c -> context_node find path top n c = Ok (c', more) -> cgood c' /\ Forall (Forall good) more.
Proof.
  intros HN [C1 C2 C3] E. destruct n; cbn [context_node] in E; try solve [injection E as <- <-; split; [constructor; assumption|constructor]].
  - injection E as <- <-. split; [constructor; assumption|]. apply Forall_forall. intros ns Hns. apply (good_bodies _ _ HN). exact Hns.
  - injection E as <- <-. split; [constructor; assumption|]. apply Forall_forall. intros ns Hns. apply (good_bodies _ _ HN). exact Hns.
  - injection E as <- <-. split; [constructor; assumption|]. apply Forall_forall. intros ns Hns. apply (good_bodies _ _ HN). exact Hns.
  - destruct top; [|discriminate E]. destruct (c_extends c); [discriminate E|]. destruct (find path0 path); try discriminate E. cbn in E. injection E as <- <-. split; [constructor; assumption|constructor].
  - injection E as <- <-. assert (G : Forall good nodes) by (apply (good_bodies _ _ HN); left; reflexivity).
    split; [|constructor; [exact G|constructor]]. constructor; cbn [c_nodes c_blocks c_macros]; [exact C1| |exact C3].
    intros x d H. apply in_put in H as [H|[-> ->]]; [eapply C2; exact H|exact G].
  - destruct top; [|discriminate E]. destruct (find path0 path); try discriminate E. cbn in E. injection E as <- <-. split; [constructor; assumption|constructor].
  - destruct top; [|discriminate E]. injection E as <- <-. split; [|constructor]. constructor; cbn [c_nodes c_blocks c_macros]; [exact C1|exact C2|].
    intros x d H. apply in_put in H as [H|[-> ->]]; [eapply C3; exact H|]. apply (good_children _ _ HN). intros m Hm. exists false, false. eapply ch_macro; exact Hm.
Qed.
Lemma context_nodes_cgood find path top : forall ns c stack c' stack', Forall good ns -> cgood c -> Forall (Forall good) stack ->
  context_nodes find path top ns c stack = Ok (c', stack') -> cgood c' /\ Forall (Forall good) stack'.
Proof.
  induction ns as [|n ns IH]; intros c stack c' stack' HN HC HS E; cbn [context_nodes] in E; [injection E as <- <-; auto|].
  apply rbind_inv in E as ([c1 more] & E1 & E). inversion HN as [|? ? H1 H2]; subst. destruct (context_node_cgood _ _ _ _ _ _ _ H1 HC E1) as [G1 G2].
  eapply IH; [exact H2|exact G1| |exact E]. apply Forall_app. split; [apply Forall_rev, G2|exact HS].
Qed.
Lemma context_loop_cgood find path : forall fuel top stack c c', Forall (Forall good) stack -> cgood c -> context_loop find fuel path top stack c = GOk c' -> cgood c'.
Proof.
  induction fuel as [|f IH]; intros top stack c c' HS HC E; (destruct stack as [|ns stack]; [injection E as <-; exact HC|]); cbn [context_loop] in E; [discriminate E|].
  inversion HS as [|? ? H1 H2]; subst. apply gbind_inv in E as ([c1 st1] & E1 & E). apply of_res_inv in E1.
  destruct (context_nodes_cgood _ _ _ _ _ _ _ _ H1 HC H2 E1) as [G1 G2]. eapply IH; [exact G2|exact G1|exact E].
Qed.
Lemma contexts_cgood find templates contexts : (forall p ns, In (p, ns) templates -> Forall good ns) -> build_contexts find templates = GOk contexts ->
  forall p c, get p contexts = Some c -> cgood c.
Proof.
  revert contexts. induction templates as [|[p ns] l IH]; intros contexts HT E q c G; cbn [build_contexts] in E.
  - injection E as <-. discriminate G.
  - apply gbind_inv in E as (c1 & E1 & E). apply gbind_inv in E as (cs & E2 & E). injection E as <-. cbn [get] in G.
    destruct (str_eqb q p); [|eapply IH; [intros; eapply HT; right; eassumption|exact E2|exact G]]. injection G as <-.
    assert (HN : Forall good ns) by (eapply HT; left; reflexivity). eapply context_loop_cgood; [|constructor|exact E1]; cbn; [repeat constructor; exact HN|exact HN| |]; contradiction.
Qed.
Section Her.
  Variable contexts : list (str * context).
  Hypothesis HG : forall p c, get p contexts = Some c -> cgood c.
  Lemma push_cgood c bs x : cgood c -> dgood bs -> In x (c_blocks c) -> dgood (push_block c x bs).
  Proof.
    intros HC HB Hx. destruct x as [x d]. unfold push_block. cbn [fst snd]. intros y l c' d' H1 H2. apply in_put in H1 as [H1|[-> ->]]; [eapply HB; eassumption|].
    pose proof (gc_blocks _ HC _ _ Hx) as GD. destruct (get x bs) as [l0|] eqn:E.
    - apply in_app_iff in H2 as [H2|[[= <- <-]|[]]]; [eapply HB; [apply get_in; exact E|exact H2]|split; assumption].
    - destruct H2 as [[= <- <-]|[]]. split; assumption.
  Qed.
  Lemma heritage_loop_cgood : forall fuel c bs h, cgood c -> dgood bs -> heritage_loop fuel contexts c bs = GOk h -> hgood h.
  Proof.
    induction fuel as [|f IH]; intros c bs h HC HB E; cbn [heritage_loop] in E; destruct (c_extends c) as [p|]; try discriminate E; try (injection E as <-; split; assumption).
    destruct (get p contexts) as [c'|] eqn:G; [|discriminate E]. pose proof (HG _ _ G) as HC'. eapply IH; [exact HC'| |exact E].
    assert (K : forall l, incl l (c_blocks c') -> forall bs, dgood bs -> dgood (fold_left (fun bs x => push_block c' x bs) l bs)).
    { clear - HC'. induction l as [|x l IH]; intros HI bs HB; [exact HB|]. cbn [fold_left]. apply IH; [intros y Hy; apply HI; right; exact Hy|].
      apply push_cgood; [exact HC'|exact HB|apply HI; left; reflexivity]. }
    apply K; [intros y Hy; exact Hy|exact HB].
  Qed.
  Lemma heritage_new_cgood fuel c h : cgood c -> heritage_new fuel contexts c = GOk h -> hgood h.
  Proof.
    intros HC E. eapply heritage_loop_cgood; [exact HC| |exact E]. intros x l c' d H1 H2. apply in_map_iff in H1 as ([y e] & [= <- <-] & H1).
    destruct H2 as [[= <- <-]|[]]. split; [exact HC|]. eapply (gc_blocks _ HC). exact H1.
  Qed.
End Her.

(** ** Code *)
Definition fpT (x : fp) : Prop := match x with FL s => T s | FA _ => True end.
Definition okw (s : stmt) : Prop :=
  match s with
  | SWriteStr t => exists l, t = concat l /\ Forall T l
  | SWriteFmt f args => (exists l, f = concat (map fp_fmt l) /\ Forall fpT l) /\ Forall (fun a => shielded esc (snd a)) args
  | _ => True
  end.
Definition cok (code : list stmt) : Prop := Forall okw (all_writes code).
Definition sw (s : stmt) : Prop := Forall okw (writes s).
Lemma all_writes_app x y : all_writes (x ++ y) = all_writes x ++ all_writes y.
Proof. induction x as [|s x IH]; [reflexivity|]. cbn [app all_writes]. rewrite IH. apply app_assoc. Qed.
Lemma cok_app a b : cok a -> cok b -> cok (a ++ b).
Proof. unfold cok. rewrite all_writes_app. intros H1 H2. apply Forall_app. auto. Qed.
Lemma cok_one s : sw s -> cok [s].
Proof. intros H. unfold cok. cbn [all_writes]. rewrite app_nil_r. exact H. Qed.
Lemma cok_emit st s : sw s -> cok (emit st [s]).
Proof. intros H. unfold emit. destruct (o_discard st); [constructor|apply cok_one, H]. Qed.
Lemma cok_around st s c : sw s -> cok c -> cok (emit_around st s c).
Proof. intros H1 H2. unfold emit_around. destruct (o_discard st); [exact H2|apply cok_one, H1]. Qed.
Lemma cok_concat l : Forall cok l -> cok (concat l).
Proof. induction 1; cbn [concat]; [constructor|apply cok_app; assumption]. Qed.
Lemma cok_snd {A} (l : list (A * list stmt)) : Forall (fun y => cok (snd y)) l -> cok (concat (map snd l)).
Proof. intros H. apply cok_concat. apply Forall_map. exact H. Qed.
Lemma cok_inner {A} (l : list (A * list stmt)) : Forall (fun y => cok (snd y)) l -> Forall okw (concat (map (fun b => match b with (_, body) => all_writes body end) l)).
Proof. induction 1 as [|[a c] l H1 H2 IH]; cbn [map concat]; [constructor|]. apply Forall_app. split; [exact H1|exact IH]. Qed.
Lemma inner_cok {A} (l : list (A * list stmt)) : Forall okw (concat (map (fun b => match b with (_, body) => all_writes body end) l)) -> Forall (fun y => cok (snd y)) l.
Proof. induction l as [|[a c] l IH]; cbn [map concat]; intros H; constructor; apply Forall_app in H as [H1 H2]; [exact H1|apply IH, H2]. Qed.

(** ** The state *)
Definition tok (o : option str) : Prop := forall s, o = Some s -> T s.
Section Gen.
  Variable inp : ginput.
  Hypothesis Hesc : f_escaper inp = esc.
  Variables (contexts : list (str * context)) (find : str -> str -> res str).
  Definition wok (w : writable) : Prop :=
    match w with WLit s => T s | WExpr e => bypasses e = false | WGen r wr => wr = false \/ exists a, r = REscape esc a end.
  Definition sok (st : gst) : Prop := Forall wok (s_buf st) /\ tok (next_ws (s_ws st)).
  Definition gok (r : gres gen) : Prop := gd true (fun x : gen => cok (fst (fst x)) /\ sok (snd x)) r.
  Notation gd_any := GroupGen.gd_any.
  Notation gd_of := GroupGen.gd_of.
  Ltac any := eapply gd_bind; [apply gd_any|].
  Lemma sok_locals m st : sok st -> sok (set_locals m st).
  Proof. intros H. exact H. Qed.
  Lemma sok_push ws st : Forall wok ws -> sok st -> sok (push ws st).
  Proof. intros H [B W]. unfold push. destruct (s_discard st); split; auto. cbn. apply Forall_app. auto. Qed.
  Lemma sok_lits ls st : Forall T ls -> sok st -> sok (push_lits ls st).
  Proof. intros HL. apply sok_push. apply Forall_map. exact HL. Qed.
  Lemma T_min s : T (minimized s).
  Proof. unfold minimized. destruct (has_newline s); assumption. Qed.
  Lemma flush_T d l w o w' : tok (next_ws w) -> flush_ws d l w = (o, w') -> Forall T o /\ tok (next_ws w').
  Proof.
    intros H E. unfold flush_ws in E. destruct (next_ws w) as [v|] eqn:EN; [|injection E as <- <-; split; [constructor|rewrite EN; exact H]].
    injection E as <- <-. split; [|intros s [=]]. destruct (should_trim_ws d l); [| |]; destruct v; repeat constructor; try apply T_min. apply H. reflexivity.
  Qed.
  Lemma visit_T l w o w' : T (lws l) -> T (lval l) -> T (rws l) -> visit_lit l w = Some (o, w') -> Forall T o /\ tok (next_ws w').
  Proof.
    intros H1 H2 H3 E. unfold visit_lit in E. destruct (next_ws w) as [v|] eqn:EN; [discriminate E|].
    assert (K : exists o1 st1, (let (o2, st2) := match lval l with [] => ([], st1) | v => ([v], {| next_ws := next_ws st1; skip := Preserve |}) end in
       Some (o1 ++ o2, match rws l with [] => st2 | rw => {| next_ws := Some rw; skip := skip st2 |} end)) = Some (o, w') /\ Forall T o1 /\ tok (next_ws st1)).
    { destruct (lws l) as [|c s] eqn:EL.
      - exists [], w. split; [exact E|]. split; [constructor|rewrite EN; intros ? [=]].
      - destruct (skip w) eqn:ES; destruct (lval l) as [|c' s'] eqn:EV; cbn [obind] in E;
          try (destruct (rws l) eqn:ER; [|discriminate E]); (eexists; eexists; split; [exact E|]); split; cbn [next_ws];
          try (rewrite EN; intros ? [=]); try (intros ? [= <-]; exact H1); repeat constructor; try exact H1; apply T_min. }
    clear E. destruct K as (o1 & st1 & E & HO & HN). assert (K2 : exists o2 st2, Some (o1 ++ o2, match rws l with [] => st2 | rw => {| next_ws := Some rw; skip := skip st2 |} end) = Some (o, w') /\ Forall T o2 /\ tok (next_ws st2)).
    { destruct (lval l) eqn:EV; (eexists; eexists; split; [exact E|]); split; auto. }
    clear E. destruct K2 as (o2 & st2 & E & HO2 & HN2). injection E as <- <-. split; [apply Forall_app; auto|]. destruct (rws l); [exact HN2|]. intros ? [= <-]. exact H3.
  Qed.
  Lemma sok_flush l st : sok st -> sok (do_flush_ws inp l st).
  Proof. intros H. unfold do_flush_ws. destruct (flush_ws _ _ _) as [o w] eqn:E. destruct (flush_T _ _ _ _ _ (proj2 H) E) as [K1 K2]. apply sok_lits; [exact K1|]. split; [apply H|exact K2]. Qed.
  Lemma sok_prepare l st : sok st -> sok (do_prepare_ws inp l st).
  Proof. intros [B W]. split; assumption. Qed.
  Lemma sok_ws w st : sok st -> sok (do_handle_ws inp w st).
  Proof. intros H. apply sok_prepare, sok_flush, H. Qed.
  Lemma sok_open st : sok st -> sok (open_brace st).
  Proof. intros H. unfold open_brace. destruct (o_discard st); exact H. Qed.
  Lemma sok_push_locals st : sok st -> sok (push_locals st).
  Proof. intros H. exact H. Qed.
  Lemma gd_dedent_ok st : sok st -> gd true sok (dedent st).
  Proof. intros H. unfold dedent. destruct (o_indent st =? 0); [exact I|exact H]. Qed.
  Lemma gd_close_ok st : sok st -> gd true sok (close_brace st).
  Proof. intros H. unfold close_brace. destruct (o_discard st); [exact H|]. eapply gd_bind; [apply gd_dedent_ok, H|]. intros s Hs. any. intros _ _. exact Hs. Qed.
  Lemma gd_pop_ok st : sok st -> gd true sok (pop_locals st).
  Proof. intros H. unfold pop_locals. any. intros m _. exact H. Qed.

  (** Writes *)
  Definition pok (p : fparts) : Prop := (exists l, p_format p = concat (map fp_fmt l) /\ Forall fpT l) /\ Forall (fun a => shielded esc (snd a)) (p_args p).
  Lemma fmt_more f l y : f = concat (map fp_fmt l) -> Forall fpT l -> fpT y -> exists l', f ++ fp_fmt y = concat (map fp_fmt l') /\ Forall fpT l'.
  Proof. intros -> H1 H2. exists (l ++ [y]). split; [symmetry; apply concat_map_snoc|]. apply Forall_app. auto. Qed.
  Lemma named_ok r wr ca p : wr = false \/ (exists a, r = REscape esc a) -> pok p -> pok (named_expression inp r wr ca p).
  Proof.
    intros H [(l & EF & FL) A]. assert (K : shielded esc (if wr : bool then r else RMarkup (f_escaper inp) r)).
    { rewrite Hesc. destruct wr; [destruct H as [[=]|[a ->]]; right; exists a; reflexivity|left; exists r; reflexivity]. }
    assert (S : forall i, Forall (fun a => shielded esc (snd a)) (p_args p ++ [(i, if wr : bool then r else RMarkup (f_escaper inp) r)])).
    { intros i. apply Forall_app; split; [exact A|constructor; [exact K|constructor]]. }
    assert (F : forall id, exists l', p_format p ++ lit "{" ++ arg_name id ++ lit "}" = concat (map fp_fmt l') /\ Forall fpT l') by (intros id; exact (fmt_more _ _ (FA id) EF FL I)).
    unfold named_expression. destruct (cache_get _ _) as [id|]; [destruct ca|]; split; cbn [p_args p_format]; auto.
  Qed.
  Lemma format_ok m : forall ws p p', Forall wok ws -> pok p -> format_loop inp m ws p = Ok p' -> pok p'.
  Proof.
    induction ws as [|w ws IH]; intros p p' HW HA E; cbn [format_loop] in E; [injection E as <-; exact HA|]. inversion HW as [|? ? W1 W2]; subst. destruct w.
    - eapply IH; [exact W2| |exact E]. destruct HA as [(l & EF & HL) A]. split; [|exact A]. exact (fmt_more _ _ (FL s) EF HL W1).
    - apply rbind_inv in E as ([r wr] & EV & E). eapply IH; [exact W2| |exact E]. apply named_ok; [|exact HA]. rewrite <- Hesc. eapply shown_expr; [exact W1|exact EV].
    - eapply IH; [exact W2| |exact E]. apply named_ok; [exact W1|exact HA].
  Qed.
  Lemma lits_ok ws : all_lits ws = true -> Forall wok ws -> exists l, lits_text ws = concat l /\ Forall T l.
  Proof.
    intros H1 H2. induction H2 as [|w ws H _ IH]; [exists []; split; [reflexivity|constructor]|]. cbn [all_lits forallb] in H1. apply andb_prop in H1 as [H0 H1].
    destruct (IH H1) as (l & E & HL). destruct w; try discriminate H0. exists (s :: l). split; [|constructor; assumption]. unfold lits_text in *. cbn [map concat]. rewrite E. reflexivity.
  Qed.
  Definition parts_ok (p : wparts) : Prop := match p with FmtParts f args => okw (SWriteFmt f args) | LitParts s => okw (SWriteStr s) | NoParts => True end.
  Lemma prepare_ok m ws n z p n' : Forall wok ws -> prepare_format inp m ws n = Ok (z, p, n') -> parts_ok p.
  Proof.
    intros HW E. unfold prepare_format in E. destruct ws as [|w ws]; [injection E as <- <- <-; exact I|]. destruct (all_lits (w :: ws)) eqn:EL; [injection E as <- <- <-; apply lits_ok; assumption|].
    apply rbind_inv in E as (p' & E1 & E). injection E as <- <- <-. eapply format_ok; [exact HW| |exact E1]. split; [exists []; split; [reflexivity|constructor]|constructor].
  Qed.
  Lemma gok_write st : sok st -> gok (write_buf_writable inp st).
  Proof.
    intros H. unfold write_buf_writable, gok. eapply (gd_bind true (fun x => parts_ok (snd (fst x)))).
    { apply gd_of. intros [[z p] n] E. eapply prepare_ok; [apply H|exact E]. }
    intros [[z ps] nm] HP. cbn [fst snd] in HP. assert (S : sok (set_named nm (set_buf [] st))) by (split; [constructor|apply H]). destruct ps.
    - split; [constructor|exact S].
    - any. intros _ _. split; [apply cok_emit; constructor; [exact HP|constructor]|exact S].
    - destruct (63 <=? o_indent st); [exact I|]. any. intros _ _. split; [apply cok_emit; constructor; [exact HP|constructor]|exact S].
  Qed.
  Lemma gd_lit_ok l st : T (lws l) /\ T (lval l) /\ T (rws l) -> sok st -> gd true sok (do_visit_lit l st).
  Proof.
    intros (T1 & T2 & T3) H. unfold do_visit_lit. destruct (visit_lit l (s_ws st)) as [[o w]|] eqn:E; [|exact I]. destruct (visit_T _ _ _ _ T1 T2 T3 E) as [K1 K2].
    apply sok_lits; [exact K1|]. split; [apply H|exact K2].
  Qed.
  Lemma gok_let w var val st : sok st -> gok (write_let inp w var val st).
  Proof.
    intros H. pose proof (sok_ws w st H) as H1. unfold write_let, gok. destruct val as [e|].
    - any. intros r _. any. intros sh _.
      eapply (gd_bind true (fun x : gen => cok (fst (fst x)) /\ sok (snd x))); [destruct sh; [apply gok_write, H1|split; [constructor|exact H1]]|].
      intros [[c z] s] [C S]. cbn [fst snd] in C, S. any. intros _ _. any. intros [p m] _.
      split; [|exact S]. cbn [fst]. apply cok_app; [exact C|]. apply cok_emit. unfold sw.
      match goal with |- Forall _ (writes (if ?b then _ else _)) => destruct b end; constructor.
    - eapply gd_bind; [apply gok_write, H1|]. intros [[c z] s] [C S]. cbn [fst snd] in C, S. any. intros _ _. any. intros [p m] _.
      split; [|exact S]. cbn [fst]. apply cok_app; [exact C|]. apply cok_emit. constructor.
  Qed.
  Lemma gd_test_ok first t st : sok st -> gd true (fun x : rtest * gst => sok (snd x)) (if_test inp first t st).
  Proof.
    intros H. unfold if_test. destruct t as [t|].
    - eapply (gd_bind true sok); [destruct first; [exact H|apply gd_dedent_ok, H]|]. intros s Hs. any. intros _ _.
      assert (D : forall p e, gd true (fun x : rtest * gst => sok (snd x))
        (let* e' := of_res (visit_expr_root inp (s_locals s) e) in let* (p', m) := of_res (visit_target (s_locals s) true p) in GOk (RIfLet p' e', set_locals m s))).
      { intros p e. any. intros e' _. any. intros [p' m] _. exact Hs. }
      destruct (ct_target t) as [p|].
      + destruct (ct_expr t) eqn:EE; try (apply D). destruct (str_eqb op (lit "||") || str_eqb op (lit "&&")); [|apply D].
        any. intros l' _. any. intros [p' m] _. any. intros r' _. exact Hs.
      + any. intros e' _. exact Hs.
    - eapply gd_bind; [apply gd_dedent_ok, H|]. intros s Hs. any. intros _ _. exact Hs.
  Qed.

  (** Parts of nodes *)
  Lemma gok_loop b l h w1 v it c w2 w3 st : (forall st, sok st -> gok (b st)) -> (forall st, sok st -> gok (l st)) -> sok st -> gok (write_loop inp b l h w1 v it c w2 w3 st).
  Proof.
    intros H1 H2 H. unfold write_loop, gok. assert (H0 : sok (push_locals (do_handle_ws inp w1 st))) by (apply sok_push_locals, sok_ws, H).
    any. intros r _. eapply gd_bind; [apply gok_write, H0|]. intros [[c0 z0] s0] [C0 S0]. cbn [fst snd] in C0, S0. any. intros _ _. any. intros _ _.
    eapply (gd_bind true (fun x : option (target * rexpr) * gst => sok (snd x))).
    { destruct c as [c|]; [|apply sok_open, S0]. any. intros [p m] _. any. intros c' _.
      eapply gd_bind; [apply gd_pop_ok; apply sok_locals, sok_push_locals, sok_open, S0|]. intros s Hs. exact Hs. }
    intros [flt s1] S1. cbn [fst snd] in S1. any. intros _ _. any. intros [p m] _. any. intros _ _.
    eapply gd_bind; [apply H1; apply sok_open, sok_locals, sok_push_locals, S1|]. intros [[c1 z1] s2] [C1 S2]. cbn [fst snd] in C1, S2.
    eapply gd_bind; [apply gok_write, sok_ws, S2|]. intros [[c1' z1'] s3] [C1' S3]. cbn [fst snd] in C1', S3.
    eapply gd_bind; [apply gd_pop_ok, S3|]. intros s4 S4. eapply gd_bind; [apply gd_close_ok, S4|]. intros s5 S5.
    eapply (gd_bind true (fun x : list stmt * list stmt * N * gst => cok (fst (fst (fst x))) /\ cok (snd (fst (fst x))) /\ sok (snd x))).
    { destruct h.
      - any. intros _ _. eapply gd_bind; [apply H2; apply sok_push_locals, sok_open, S5|]. intros [[c2 z2] s6] [C2 S6]. cbn [fst snd] in C2, S6.
        eapply gd_bind; [apply gok_write, sok_ws, S6|]. intros [[c2' z2'] s7] [C2' S7]. cbn [fst snd] in C2', S7.
        eapply gd_bind; [apply gd_pop_ok, S7|]. intros s8 S8. eapply gd_bind; [apply gd_close_ok, S8|]. intros s9 S9. split; [apply cok_app; assumption|split; [constructor|exact S9]].
      - eapply gd_bind; [apply gok_write, sok_ws, S5|]. intros [[c2' z2'] s7] [C2' S7]. cbn [fst snd] in C2', S7. split; [constructor|split; [exact C2'|exact S7]]. }
    intros [[[ce ct] z2] s6] (CE & CT & S6). cbn [fst snd] in CE, CT, S6. eapply gd_bind; [apply gd_close_ok, S6|]. intros s7 S7. eapply gd_bind; [apply gd_pop_ok, S7|]. intros s8 S8.
    split; [|exact S8]. cbn [fst]. apply cok_app; [exact C0|].
    assert (CB : cok (c1 ++ c1')) by (apply cok_app; assumption).
    apply cok_around; [|rewrite app_assoc; repeat apply cok_app; assumption]. unfold sw. cbn [writes].
    apply Forall_app. split; [exact CB|]. apply Forall_app. split; assumption.
  Qed.
  Lemma gok_filter b w1 f a w2 st : (forall st, sok st -> gok (b st)) -> block_bypasses f a = false -> sok st -> gok (write_filter_block inp b w1 f a w2 st).
  Proof.
    intros H1 HF H. unfold write_filter_block, gok. any. intros var _. pose proof (sok_flush (ws_l w1) _ H) as H0.
    eapply gd_bind; [apply H1; apply sok_prepare; split; [constructor|apply H0]|]. intros [[c z] s] [C S1]. cbn [fst snd] in C, S1. pose proof (sok_flush (ws_l w2) _ S1) as S2.
    any. intros [[wz ps] nm] _.
    assert (G : forall (x : gres unit) stm, sw stm -> gok
        (let* _ := x in let* _ := line (set_named nm (set_buf [] (do_flush_ws inp (ws_l w2) s))) in
         let s' := set_buf (s_buf (do_flush_ws inp (ws_l w1) st)) (set_named nm (set_buf [] (do_flush_ws inp (ws_l w2) s))) in
         let* (r, wrapped) := of_res (visit_expr inp (s_locals s') (insert_in_filter var (Filter f a))) in
         let s'' := do_prepare_ws inp (ws_r w2) (push [WGen r wrapped] s') in
         let* m := of_res (ch_insert (s_locals s'') var m_initialized) in
         GOk (c ++ emit s'' [stm], z + wz, set_locals m s''))).
    { intros x stm HS. unfold gok. any. intros _ _. any. intros _ _. cbv zeta.
      assert (S3 : sok (set_buf (s_buf (do_flush_ws inp (ws_l w1) st)) (set_named nm (set_buf [] (do_flush_ws inp (ws_l w2) s))))) by (split; [apply H0|apply S2]).
      eapply (gd_bind true (fun x => wok (WGen (fst x) (snd x)))); [apply gd_of; intros [r wr] E; cbn [fst snd wok]; rewrite <- Hesc; eapply shown_expr; [apply inserted, HF|exact E]|]. intros [r wr] Hr.
      any. intros m _. split; [cbn [fst]; apply cok_app; [exact C|]; apply cok_emit, HS|]. cbn [snd]. apply sok_locals, sok_prepare, sok_push; [constructor; [exact Hr|constructor]|exact S3]. }
    destruct ps as [|x|x y].
    - split; [exact C|]. split; [constructor|apply S2].
    - apply (G (GOk tt) (SLetStr var x)). constructor.
    - apply (G (if 62 <=? o_indent (set_named nm (set_buf [] (do_flush_ws inp (ws_l w2) s))) then GPanic else GOk tt) (SLetFmt var x y)). constructor.
  Qed.
  Section Lists.
    Variable f : node -> gst -> gres gen.
    Lemma gok_list : forall ns, (forall n, In n ns -> forall st, sok st -> gok (f n st)) -> forall st, sok st -> gok (gen_list f ns st).
    Proof.
      induction ns as [|n ns IH]; intros H st E; cbn [gen_list]; [split; [constructor|exact E]|].
      eapply gd_bind; [apply H; [left; reflexivity|exact E]|]. intros [[c z] s] [C1 S1]. cbn [fst snd] in C1, S1. eapply gd_bind; [apply IH; [intros; apply H; [right|]; assumption|exact S1]|].
      intros [[c' z'] s'] [C2 S2]. split; [apply cok_app; assumption|exact S2].
    Qed.
    Lemma gok_branches w : forall cs, (forall w' t ns, In (Cond w' t ns) cs -> forall st, sok st -> gok (gen_list f ns st)) ->
      forall first st, sok st -> gd true (fun x => cok (fst (fst (fst (fst (fst x))))) /\ Forall (fun a => cok (snd a)) (snd (fst (fst (fst (fst x))))) /\ sok (snd x)) (gen_branches inp f w first cs st).
    Proof.
      induction cs as [|[w' t ns] cs IH]; intros H first st E; cbn [gen_branches].
      - eapply gd_bind; [apply gok_write, sok_ws, E|]. intros [[c z] s] [C1 S1]. cbn [fst snd] in C1, S1. eapply gd_bind; [apply gd_close_ok, S1|]. intros s2 S2.
        eapply gd_bind; [apply gd_pop_ok, S2|]. intros s3 S3. split; [exact C1|]. split; [constructor|exact S3].
      - eapply gd_bind; [apply gok_write, sok_ws, E|]. intros [[c z] s] [C1 S1]. cbn [fst snd] in C1, S1.
        eapply (gd_bind true sok); [destruct first; [exact S1|apply gd_pop_ok, S1]|]. intros s2 S2.
        eapply gd_bind; [apply gd_test_ok, sok_push_locals, S2|]. intros [t' s3] S3. cbn [fst snd] in S3.
        eapply gd_bind; [eapply H; [left; reflexivity|apply sok_open, S3]|]. intros [[b z'] s4] [C4 S4]. cbn [fst snd] in C4, S4. eapply gd_bind; [apply IH; [intros; eapply H; [right; eassumption|assumption]|exact S4]|].
        intros [[[[[a r] z2] sz] he] s5] (C5 & B5 & S5). cbn [fst snd] in *. split; [exact C1|]. split; [|exact S5]. constructor; [|exact B5]. apply cok_app; assumption.
    Qed.
    Lemma gok_arms w : forall cs, (forall w' t ns, In (When w' t ns) cs -> forall st, sok st -> gok (gen_list f ns st)) ->
      forall first st, sok st -> gd true (fun x => cok (fst (fst (fst (fst x)))) /\ Forall (fun a => cok (snd a)) (snd (fst (fst x))) /\ sok (snd x)) (gen_arms inp f w first cs st).
    Proof.
      induction cs as [|[w' t ns] cs IH]; intros H first st E; cbn [gen_arms].
      - eapply gd_bind; [apply gok_write, sok_ws, E|]. intros [[c z] s] [C1 S1]. cbn [fst snd] in C1, S1. eapply gd_bind; [apply gd_close_ok, S1|]. intros s2 S2.
        eapply gd_bind; [apply gd_pop_ok, S2|]. intros s3 S3. split; [exact C1|]. split; [constructor|exact S3].
      - eapply (gd_bind true (fun x : gen => cok (fst (fst x)) /\ sok (snd x))).
        { destruct first; [split; [constructor|apply sok_ws, E]|]. eapply gd_bind; [apply gok_write, sok_ws, E|]. intros [[c z] s] [C1 S1]. cbn [fst snd] in C1, S1.
          eapply gd_bind; [apply gd_close_ok, S1|]. intros s2 S2. eapply gd_bind; [apply gd_pop_ok, S2|]. intros s3 S3. split; assumption. }
        intros [[c z] s] [C1 S1]. cbn [fst snd] in C1, S1. any. intros _ _. any. intros [p m] _.
        eapply gd_bind; [eapply H; [left; reflexivity|apply sok_open, sok_locals, sok_push_locals, S1]|]. intros [[b z'] s4] [C4 S4]. cbn [fst snd] in C4, S4.
        eapply gd_bind; [apply IH; [intros; eapply H; [right; eassumption|assumption]|exact S4]|].
        intros [[[[a z2] r] sz] s5] (C5 & B5 & S5). cbn [fst snd] in *. split; [exact C1|]. split; [|exact S5]. constructor; [apply cok_app; assumption|exact B5].
    Qed.
  End Lists.

  (** Nodes *)
  Hypothesis HG : forall p c, get p contexts = Some c -> cgood c.
  Section Step.
    Variable expand : option heritage -> context -> list node -> level -> gst -> gres gen.
    Hypothesis HX : forall her ctx ns lv st, (forall h, her = Some h -> hgood h) -> cgood ctx -> Forall good ns -> sok st -> gok (expand her ctx ns lv st).
    Variables (her : option heritage) (ctx : context).
    Hypothesis HH : forall h, her = Some h -> hgood h.
    Hypothesis HC : cgood ctx.
    Lemma tok_none : tok None.
    Proof. intros s [=]. Qed.
    Lemma gok_block name outer st : sok st -> gok (write_block inp expand her ctx name outer st).
    Proof.
      intros H. unfold write_block, gok. any. intros cur _. eapply gd_bind; [apply gok_write, sok_flush, H|]. intros [[c z] s] [C1 S1]. cbn [fst snd] in C1, S1.
      cbv zeta. destruct her as [h|]; [|exact I]. destruct (get (fst cur) (h_blocks h)) as [defs|] eqn:G; [|exact I]. destruct (nth_error defs (snd cur)) as [[cc d]|] eqn:NE; [|exact I].
      destruct (HH h eq_refl) as [_ HD]. destruct (HD _ _ _ _ (get_in _ _ _ G) (nth_error_In _ _ NE)) as [K1 K2].
      eapply gd_bind; [apply HX; [exact HH|apply merge_cgood; [exact HC|exact K1]|exact K2|split; [apply S1|apply tok_none]]|]. intros [[c1 z1] s1] [C2 S2]. cbn [fst snd] in C2, S2.
      eapply (gd_bind true (fun x : gen => cok (fst (fst x)) /\ sok (snd x))); [destruct (ch_is_current_empty (s_locals s1)); [split; [constructor|exact S2]|apply gok_write, S2]|].
      intros [[c2 z2] s2] [C3 S3]. cbn [fst snd] in C3, S3. split; [cbn [fst]; repeat apply cok_app; assumption|]. cbn [snd]. apply sok_prepare. pose proof (sok_flush (ws_l (b_ws2 d)) _ S3) as [S4 _].
      split; [exact S4|apply S1].
    Qed.
    Lemma gok_call w scope name args st : sok st -> gok (write_call inp contexts expand her ctx w scope name args st).
    Proof.
      intros H. unfold write_call. destruct (str_eqb name (lit "super")); [apply gok_block, H|]. unfold gok.
      eapply (gd_bind true (fun x : macro_def * context => Forall good (k_nodes (fst x)) /\ cgood (snd x))).
      { destruct scope as [s|].
        - destruct (get s (c_imports ctx)) as [path|]; [|exact I]. destruct (get path contexts) as [mc|] eqn:G; [|exact I]. destruct (get name (c_macros mc)) eqn:GM; [|exact I].
          pose proof (HG _ _ G) as K. split; [eapply (gc_macros _ K), get_in, GM|exact K].
        - destruct (get name (c_macros ctx)) eqn:GM; [|exact I]. split; [eapply (gc_macros _ HC), get_in, GM|exact HC]. }
      intros [def own_ctx] [K1 K2]. cbn [fst snd] in K1, K2.
      eapply gd_bind; [apply gok_write, sok_push_locals, sok_flush, H|]. intros [[c z] s] [C1 S1]. cbn [fst snd] in C1, S1. any. intros _ _.
      destruct (negb (Nat.eqb (length args) (length (k_args def)))); [exact I|]. any. intros nm _. any. intros [[m ns] vs] _. any. intros _ _.
      eapply gd_bind; [apply HX; [exact HH|exact K2|exact K1|apply sok_locals, sok_prepare, sok_open, S1]|]. intros [[c1 z1] s1] [C2 S2]. cbn [fst snd] in C2, S2.
      eapply gd_bind; [apply gok_write, sok_flush, S2|]. intros [[c2 z2] s2] [C3 S3]. cbn [fst snd] in C3, S3.
      eapply gd_bind; [apply gd_close_ok, S3|]. intros s3 S4. eapply gd_bind; [apply gd_pop_ok, S4|]. intros s4 S5.
      split; [|apply sok_prepare, S5]. cbn [fst]. apply cok_app; [exact C1|]. apply cok_around; [|apply cok_app; assumption].
      change (cok (match ns with [] => [] | _ => emit (do_prepare_ws inp (ws_r w) s4) [SLetTuple ns vs] end ++ c1 ++ c2)).
      apply cok_app; [|apply cok_app; assumption]. destruct ns; [constructor|]. apply cok_emit. constructor.
    Qed.
    Lemma gok_include w path st : sok st -> gok (write_include inp contexts find expand ctx w path st).
    Proof.
      intros H. unfold write_include, gok. eapply gd_bind; [apply gok_write, sok_flush, H|]. intros [[c z] s] [C1 S1]. cbn [fst snd] in C1, S1.
      any. intros q _. any. intros _ _. destruct (get q contexts) as [cc|] eqn:G; [|exact I]. cbv zeta.
      pose proof (merge_cgood _ _ HC (HG _ _ G)) as GM.
      eapply (gd_bind true (fun h => forall h', h = Some h' -> hgood h')).
      { assert (R : gd true (fun h => forall h', h = Some h' -> hgood h') (let* h := heritage_new (S (length contexts)) contexts (merge_context ctx cc) in GOk (Some h))).
        { eapply (gd_bind true hgood); [|intros h Hh h' [= <-]; exact Hh]. destruct (heritage_new (S (length contexts)) contexts (merge_context ctx cc)) eqn:E; cbn; auto. eapply heritage_new_cgood; eassumption. }
        destruct (c_blocks (merge_context ctx cc)), (c_extends (merge_context ctx cc)); try exact R. discriminate. }
      intros h Hh.
      assert (K : cgood match h with Some h0 => h_root h0 | None => merge_context ctx cc end) by (destruct h as [h|]; [apply (Hh h eq_refl)|exact GM]).
      eapply gd_bind; [apply HX; [exact Hh|exact K|apply K|split; [constructor|apply tok_none]]|]. intros [[c1 z1] s1] [C2 S2]. cbn [fst snd] in C2, S2.
      eapply gd_bind; [apply gok_write, S2|]. intros [[c2 z2] s2] [C3 S3]. cbn [fst snd] in C3, S3. split; [|apply sok_prepare, S1]. cbn [fst]. apply cok_app; [exact C1|]. apply cok_app; [|apply cok_app; assumption].
      apply cok_emit. constructor.
    Qed.
    Lemma gok_node : forall n lv st, good n -> sok st -> gok (handle_node inp contexts find expand her ctx lv n st).
    Proof.
      induction n using node_ind_all; intros lv st GN S0; pose proof (good_own _ GN) as ON; cbn [handle_node].
      - destruct n; try contradiction; cbn [handle_node].
        + eapply gd_bind; [apply gd_lit_ok; [exact ON|exact S0]|]. intros s Hs. split; [constructor|exact Hs].
        + split; [constructor|apply sok_ws, S0].
        + split; [constructor|]. apply sok_push; [constructor; [exact ON|constructor]|apply sok_ws, S0].
        + apply gok_call, S0.
        + apply gok_let, S0.
        + destruct (top_level lv); [split; [constructor|exact S0]|exact I].
        + apply gok_include, S0.
        + destruct (top_level lv); [split; [constructor|apply sok_ws, S0]|exact I].
        + eapply gd_bind; [apply gd_lit_ok; [exact ON|apply sok_ws, S0]|]. intros s Hs. split; [constructor|apply sok_ws, Hs].
        + eapply gd_bind; [apply gok_write, sok_ws, S0|]. intros [[c z] s] [C1 S1]. any. intros _ _. split; [apply cok_app; [exact C1|apply cok_emit; constructor]|exact S1].
        + eapply gd_bind; [apply gok_write, sok_ws, S0|]. intros [[c z] s] [C1 S1]. any. intros _ _. split; [apply cok_app; [exact C1|apply cok_emit; constructor]|exact S1].
      - eapply gd_bind.
        + apply gok_branches; [|exact S0]. intros w' t ns Hc s Hs. rewrite Forall_forall in H. specialize (H _ Hc). cbn in H. rewrite Forall_forall in H.
          apply gok_list; [|exact Hs]. intros n Hn s' Hs'. apply H; [exact Hn| |exact Hs']. eapply good_child; [exact GN|]. exact (ch_if false _ _ _ _ _ _ Hc Hn).
        + intros [[[[[c br] z] sz] he] s] (C1 & B1 & S1). cbn [fst snd] in C1, B1, S1. any. intros z' _. split; [|exact S1]. cbn [fst]. apply cok_app; [exact C1|].
          apply cok_around; [apply cok_inner, B1|apply cok_snd, B1].
      - eapply gd_bind; [apply gok_write, sok_flush, S0|]. intros [[c z] s] [C1 S1]. cbn [fst snd] in C1, S1. any. intros r _. any. intros _ _.
        eapply gd_bind.
        + apply gok_arms; [|apply sok_open, S1]. intros w' t ns Hc s0 Hs0. rewrite Forall_forall in H. specialize (H _ Hc). cbn in H. rewrite Forall_forall in H.
          apply gok_list; [|exact Hs0]. intros n Hn s' Hs'. apply H; [exact Hn| |exact Hs']. eapply good_child; [exact GN|]. exact (ch_match false _ _ _ _ _ _ _ _ Hc Hn).
        + intros [[[[c1 z1] ar] sz] s2] (C2 & B2 & S2). cbn [fst snd] in C2, B2, S2. eapply gd_bind; [apply gd_close_ok, S2|]. intros s3 S3. any. intros z' _.
          split; [|exact S3]. cbn [fst]. apply cok_app; [exact C1|]. apply cok_around; [apply cok_inner, B2|apply cok_snd, B2].
      - rewrite Forall_forall in *. apply gok_loop; [| |exact S0]; intros s Hs; (apply gok_list; [|exact Hs]); intros n Hn s' Hs'.
        + apply H; [exact Hn| |exact Hs']. eapply good_child; [exact GN|]. exact (ch_body false _ _ _ _ _ _ _ _ _ Hn).
        + apply H0; [exact Hn| |exact Hs']. eapply good_child; [exact GN|]. exact (ch_else false _ _ _ _ _ _ _ _ _ Hn).
      - apply gok_block, S0.
      - destruct (top_level lv); [split; [constructor|apply sok_prepare, sok_flush, S0]|exact I].
      - rewrite Forall_forall in *. apply gok_filter; [|exact ON|exact S0]. intros s Hs. apply gok_list; [|exact Hs]. intros n Hn s' Hs'. apply H; [exact Hn| |exact Hs'].
        eapply good_child; [exact GN|]. exact (ch_filter false _ _ _ _ _ _ Hn).
    Qed.
    Lemma gok_nodes ns lv st : Forall good ns -> sok st -> gok (handle_nodes inp contexts find expand her ctx ns lv st).
    Proof.
      intros HN H. unfold handle_nodes, gok. rewrite Forall_forall in HN. eapply gd_bind; [apply gok_list; [intros n Hn s Hs; apply gok_node; [apply HN, Hn|exact Hs]|exact H]|].
      intros [[c z] s] [C1 S1]. cbn [fst snd] in C1, S1. destruct (top_level lv); [|split; assumption].
      assert (S2 : sok (match next_ws (s_ws s) with Some _ => do_flush_ws inp (Some (skip (s_ws s))) s | None => s end)) by (destruct (next_ws (s_ws s)); [apply sok_flush|]; exact S1).
      eapply gd_bind; [apply gok_write, S2|]. intros [[c' z'] s'] [C2 S3]. split; [apply cok_app; assumption|exact S3].
    Qed.
  End Step.
  Lemma gok_handle : forall fuel her ctx ns lv st, (forall h, her = Some h -> hgood h) -> cgood ctx -> Forall good ns -> sok st -> gok (handle inp contexts find fuel her ctx ns lv st).
  Proof.
    induction fuel as [|f IH]; intros her ctx ns lv st HH HC HN HS; [reflexivity|]. cbn [handle]. apply gok_nodes; assumption.
  Qed.
End Gen.

Lemma build_writes inp find fuel templates code z : f_escaper inp = esc -> (forall p ns, In (p, ns) templates -> Forall good ns) ->
  build_template inp find fuel templates = GOk (code, z) -> cok code.
Proof.
  intros HE HT E. unfold build_template in E. apply gbind_inv in E as (contexts & E1 & E). pose proof (contexts_cgood _ _ _ HT E1) as HG.
  destruct (get (f_path inp) contexts) as [ctx|] eqn:G; [|discriminate E]. pose proof (HG _ _ G) as HC. apply gbind_inv in E as (her & E2 & E).
  assert (HH : forall h, her = Some h -> hgood h).
  { assert (R : (let* h := heritage_new fuel contexts ctx in match f_block inp with Some b => match get b (h_blocks h) with None => GErr (lit "cannot find block") | Some _ => GOk (Some h) end | None => GOk (Some h) end) = GOk her -> forall h, her = Some h -> hgood h).
    { intros QE h ->. apply gbind_inv in QE as (h' & Q1 & QE). assert (h' = h) by (destruct (f_block inp) as [b|]; [destruct (get b (h_blocks h'))|]; congruence). subst h'. eapply heritage_new_cgood; eassumption. }
    destruct (c_blocks ctx), (c_extends ctx); try exact (R E2). injection E2 as <-. discriminate. }
  unfold impl_template in E. cbv zeta in E. apply gbind_inv in E as ([[c z'] s] & E3 & E). cbv beta iota in E.
  assert (K : cgood match her with Some h => h_root h | None => ctx end) by (destruct her as [h|]; [apply (HH h eq_refl)|exact HC]).
  assert (S0 : sok (initial inp 2)) by (split; [constructor|intros ? [=]]).
  pose proof (gok_handle inp HE contexts find HG fuel her _ _ LTop _ HH K (gc_nodes _ K) S0) as R. rewrite E3 in R. destruct R as [R _]. cbn [fst] in R.
  apply gbind_inv in E as (u & _ & E). apply gbind_inv in E as (s1 & _ & E). apply gbind_inv in E as (u2 & _ & E). apply gbind_inv in E as (s2 & _ & E). injection E as <- <-. exact R.
Qed.

(** ** Running *)
Section Run.
  Variable w : world.
  Hypothesis Hw : world_ok w.
  Definition esc_value (d : str) : Prop := exists v, d = w_escape w esc v.
  Notation M := (made T esc_value).
  Lemma made_app a b : M a -> M b -> M (a ++ b).
  Proof. induction 1; intros K; [exact K| |]; rewrite <- app_assoc; [apply made_text|apply made_value]; auto. Qed.
  Lemma made_concat l : Forall T l -> M (concat l).
  Proof. induction 1; cbn [concat]; [constructor|apply made_text; assumption]. Qed.
  Lemma shielded_value en st r v d : shielded esc r -> reval w en st r = Done v -> w_display w v = Some d -> esc_value d.
  Proof.
    intros H E D. assert (K : exists u, v = w_unsafe w esc u).
    { destruct H as [[e ->]|[[[p q] e] ->]]; cbn [reval] in E; destruct (reval w en st e) as [u| |]; try discriminate E; injection E as <-; exists u; reflexivity. }
    destruct K as [u ->]. rewrite (ok_unsafe w Hw) in D. destruct (w_display w u) as [x|]; [|discriminate D]. injection D as <-. exists x. reflexivity.
  Qed.
  Definition vals_ok (vals : list (str * V w)) : Prop := forall x v d, In (x, v) vals -> w_display w v = Some d -> esc_value d.
  Lemma text_made vals : vals_ok vals -> forall l s, Forall fpT l -> fmt_text w vals (concat (map fp_pieces l)) = Some s -> M s.
  Proof.
    intros HV. induction l as [|x l IH]; intros s HF E.
    - injection E as <-. constructor.
    - inversion HF as [|? ? F1 F2]; subst. cbn [map concat] in E. destruct x as [t|id].
      + cbn [fp_pieces] in E. assert (K : forall t s, fmt_text w vals (map PChr t ++ concat (map fp_pieces l)) = Some s -> exists s', s = t ++ s' /\ fmt_text w vals (concat (map fp_pieces l)) = Some s').
        { clear. induction t as [|c t IH]; intros s E; cbn [map app fmt_text] in E; [exists s; auto|]. destruct (fmt_text w vals (map PChr t ++ _)) as [s1|] eqn:E1; [|discriminate E].
          injection E as <-. destruct (IH _ eq_refl) as (s' & -> & E2). exists s'. split; [reflexivity|exact E2]. }
        destruct (K _ _ E) as (s' & -> & E'). apply made_text; [exact F1|apply IH; assumption].
      + cbn [fp_pieces app fmt_text] in E. destruct (get (arg_name id) vals) as [v|] eqn:G; [|discriminate E]. cbn [obind] in E. destruct (w_display w v) as [d|] eqn:D; [|discriminate E].
        cbn [obind] in E. destruct (fmt_text w vals _) as [s1|] eqn:E1; [|discriminate E]. injection E as <-. apply made_value; [eapply HV; [apply get_in, G|exact D]|apply IH; [exact F2|reflexivity]].
  Qed.
  Lemma format_made en st f args o : okw (SWriteFmt f args) -> format w en st f args = Done o -> M o.
  Proof.
    intros [(l & -> & HF) HA] E. unfold format in E. destruct (out_map _ args) as [vals| |] eqn:EV; try discriminate E. cbn [obnd] in E. rewrite fmt_parse_pieces in E. cbn [of_opt obnd] in E.
    destruct (fmt_text w vals _) as [s|] eqn:ET; [|discriminate E]. injection E as <-. eapply text_made; [|exact HF|exact ET].
    clear ET HF. revert vals EV. induction HA as [|a args H _ IH]; intros vals EV; cbn [out_map] in EV; [injection EV as <-; intros ? ? ? []|].
    destruct (reval w en st (snd a)) as [v| |] eqn:R; try discriminate EV. cbn [obnd] in EV.
    match type of EV with obnd ?r _ = _ => destruct r as [vs| |] eqn:EM; try discriminate EV end. injection EV as <-.
    intros x u d [[= <- <-]|K] D; [eapply shielded_value; eassumption|eapply IH; [reflexivity|exact K|exact D]].
  Qed.
  Definition P (s : stmt) : Prop := sw s -> forall en st o en' st' fl, exec w s en st = Done (o, en', st', fl) -> M o.
  Lemma list_made l : Forall P l -> cok l -> forall en st o en' st' fl, exec_list w (exec w) l en st = Done (o, en', st', fl) -> M o.
  Proof.
    induction 1 as [|s l H _ IH]; intros C en st o en' st' fl E; cbn [exec_list] in E; [injection E as <- _ _ _; constructor|].
    unfold cok in C. cbn [all_writes] in C. apply Forall_app in C as [C1 C2]. destruct (exec w s en st) as [[[[o1 en1] st1] fl1]| |] eqn:E1; try discriminate E. cbn [obnd] in E.
    pose proof (H C1 _ _ _ _ _ _ E1) as M1. destruct fl1; [|injection E as <- _ _ _; exact M1|injection E as <- _ _ _; exact M1].
    match type of E with obnd ?r _ = _ => destruct r as [[[[o2 en2] st2] fl2]| |] eqn:E2; try discriminate E end. injection E as <- _ _ _. apply made_app; [exact M1|]. eapply IH; eassumption.
  Qed.
  Lemma block_made l : Forall P l -> cok l -> forall eo en st o en' st' fl, exec_block w (exec w) l eo en st = Done (o, en', st', fl) -> M o.
  Proof.
    intros H C eo en st o en' st' fl E. unfold exec_block in E. destruct (exec_list w (exec w) l en st) as [[[[o1 en1] st1] fl1]| |] eqn:E1; try discriminate E. injection E as <- _ _ _.
    eapply list_made; eassumption.
  Qed.
  Lemma exec_made : forall s, P s.
  Proof.
    apply StmtGen.stmt_all.
    - intros []; try exact I; intros HS en st o en' st' fl E; cbn [exec] in E.
      + injection E as <- _ _ _. unfold sw in HS. cbn [writes] in HS. apply Forall_inv in HS as (l & -> & HL). apply made_concat, HL.
      + destruct (format w en st fmt args) as [t| |] eqn:EF; try discriminate E. injection E as <- _ _ _. unfold sw in HS. cbn [writes] in HS. apply Forall_inv in HS. eapply format_made; [exact HS|exact EF].
      + destruct (declare w (pattern_names p) en st) as [en1 st1]. injection E as <- _ _ _. constructor.
      + destruct (reval w en st e) as [v| |]; try discriminate E. cbn [obnd] in E. destruct (pmatch w p v); [|discriminate E]. injection E as <- _ _ _. constructor.
      + destruct (reval w en st e) as [v| |]; try discriminate E. cbn [obnd] in E. destruct p; try discriminate E. destruct (lookup w en _) as [[?|l]|]; try discriminate E.
        destruct (nth_error st l) as [[?|]|]; try discriminate E. injection E as <- _ _ _. constructor.
      + destruct (out_map (reval w en st) values) as [vs| |]; try discriminate E. injection E as <- _ _ _. constructor.
      + injection E as <- _ _ _. constructor.
      + destruct (format w en st fmt args) as [t| |]; try discriminate E. injection E as <- _ _ _. constructor.
      + injection E as <- _ _ _. constructor.
      + injection E as <- _ _ _. constructor.
      + injection E as <- _ _ _. constructor.
    - intros l H HS en st o en' st' fl E. cbn [exec] in E. unfold sw in HS. apply inner_cok in HS. revert E.
      induction H as [|[t b] l H _ IH]; intros E; cbn [exec_branches] in E; [injection E as <- _ _ _; constructor|]. inversion HS as [|? ? C1 C2]; subst.
      destruct (test_true w t en st) as [[en1|]| |]; try discriminate E; cbn [obnd] in E; [eapply block_made; [exact H|exact C1|exact E]|apply IH; assumption].
    - intros e l H HS en st o en' st' fl E. cbn [exec] in E. unfold sw in HS. apply inner_cok in HS. destruct (reval w en st e) as [v| |]; try discriminate E. cbn [obnd] in E. revert E.
      induction H as [|[t b] l H _ IH]; intros E; cbn [exec_arms] in E; [discriminate E|]. inversion HS as [|? ? C1 C2]; subst.
      destruct (pmatch w t v); [eapply block_made; [exact H|exact C1|exact E]|apply IH; assumption].
    - intros h it k f v b e t HB HE HT HS en st o en' st' fl E. unfold sw in HS. cbn [writes] in HS. apply Forall_app in HS as [CB HS]. apply Forall_app in HS as [CE CT].
      cbn [exec] in E. destruct (reval w en st it) as [vi| |]; try discriminate E. cbn [obnd] in E. destruct (w_iter w vi) as [items|]; [|discriminate E]. cbn [of_opt obnd] in E.
      destruct (filter_items w (keep_item w en st f) items) as [its| |]; try discriminate E. cbn [obnd] in E.
      match type of E with obnd (loop_items _ ?body _ _ _) _ = _ => set (bd := body) in E end.
      assert (K : forall its i t0 t1 fl1, loop_items w bd i its t0 = Done (t1, fl1) -> M (fst (fst t0)) -> M (fst (fst t1))).
      { clear E its. induction its as [|x its IH]; intros i t0 t1 fl1 E M0; cbn [loop_items] in E; [injection E as <- _; exact M0|].
        unfold bd at 1 in E. destruct (pmatch w v x) as [bs|]; [|discriminate E]. cbn [of_opt obnd] in E.
        match type of E with context [exec_list w (exec w) b ?en ?st] => destruct (exec_list w (exec w) b en st) as [[[[o2 en2] st2] fl2]| |] eqn:E2; try discriminate E end. cbn [obnd] in E.
        assert (M2 : M (fst (fst t0) ++ o2)) by (apply made_app; [exact M0|eapply list_made; [exact HB|exact CB|exact E2]]).
        destruct fl2; [| injection E as <- _; exact M2 |]; (eapply IH; [exact E|exact M2]). }
      destruct (loop_items w bd 0 its ([], st, false)) as [[[[o1 st1] dl] fl1]| |] eqn:EL; try discriminate E. cbn [obnd] in E.
      pose proof (K _ _ _ _ _ EL (made_nil _ _)) as M1. cbn [fst] in M1. clear K EL.
      match type of E with obnd ?r _ = _ => destruct r as [[[[o2 en2] st2] fl2]| |] eqn:E2; try discriminate E end. cbn [obnd] in E.
      assert (M2 : M o2). { destruct (h && negb dl); [eapply list_made; [exact HE|exact CE|exact E2]|injection E2 as <- _ _ _; constructor]. }
      destruct fl2; [|injection E as <- _ _ _; apply made_app; assumption|injection E as <- _ _ _; apply made_app; assumption].
      match type of E with obnd ?r _ = _ => destruct r as [[[[o3 en3] st3] fl3]| |] eqn:E3; try discriminate E end. injection E as <- _ _ _.
      apply made_app; [exact M1|]. apply made_app; [exact M2|]. eapply list_made; [exact HT|exact CT|exact E3].
    - intros l H HS en st o en' st' fl E. cbn [exec] in E. eapply block_made; [exact H|exact HS|exact E].
  Qed.
  Lemma run_made code o : cok code -> run w code = Done o -> M o.
  Proof.
    intros C E. unfold run in E. destruct (exec_list w (exec w) code [] []) as [[[[o1 en1] st1] fl1]| |] eqn:E1; try discriminate E. cbn [obnd] in E.
    destruct fl1; try discriminate E. injection E as <-. eapply list_made; [|exact C|exact E1]. apply Forall_forall. intros s _. apply exec_made.
  Qed.
End Run.
End Any.
